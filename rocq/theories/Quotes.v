(** * Quoting and parameters, from source text to words (C20-C23) *)
From Coq Require Import String.
From Verif Require Import Base Token Pos Lexer LexSpec LexProofs LexTheorems Relex Seams Ast Builder Prog Iter Located IterProofs ParserBase Balanced
  BalancedSpec Arith Word Redirect Command DefaultBuilder RunLemmas Entry Api Total Runs Raises Pure ArithSpec ArithRuns
  Forms WordRuns CommandRuns FormsRuns FormsTheorems.
Local Open Scope N_scope.

Section Split.
Context {U : Uni}.
(** Among the tokens the lexer yields, only [t0] contains the character [c]. *)
Definition only_token (c : char) (t0 : token) : Prop :=
  as_str t0 = [c] /\ forall t, lexable t -> In c (as_str t) -> t = t0.
Lemma only_token_special c t0 : as_str t0 = [c] -> operator t0 ->
  (forall t, operator t -> In c (as_str t) -> t = t0) -> is_whitespace c = false -> c <> backslash -> only_token c t0.
Proof.
  intros E Ho H Hw Hb. split; [exact E|]. intros t Hl Hin.
  assert (No : ~ ordinary c). { intros (_ & _ & X). exact (X t0 [] Ho E). }
  destruct (operator_dec t) as [Ht|Ht]; [now apply H|].
  destruct t; try (now elim Ht); exfalso.
  - cbn in Hin. destruct Hin as [<-|[]]. now apply Hb.
  - destruct Hl as [_ Hl]. rewrite Forall_forall in Hl. destruct (Hl c Hin) as [X _]. congruence.
  - destruct s as [|d s]; [contradiction|]. destruct Hl as (H1 & _ & H2). rewrite Forall_forall in H2.
    destruct Hin as [<-|Hin]; [contradiction|]. exact (No (H2 c Hin)).
  - destruct s as [|d s]; [contradiction|]. destruct Hl as ([H1 _] & H2). rewrite Forall_forall in H2.
    destruct Hin as [<-|Hin]; [contradiction|]. destruct (H2 c Hin) as [X _]. contradiction.
Qed.
Lemma split_text c t0 : only_token c t0 -> forall ts s r, Forall lexable ts -> text ts = s ++ c :: r ->
  exists ts1 ts2, ts = ts1 ++ t0 :: ts2 /\ text ts1 = s /\ text ts2 = r.
Proof.
  intros [Ec Hc]. induction ts as [|t ts IH]; intros s r HF E.
  - destruct s; discriminate.
  - inversion HF as [|? ? Ht HF']; subst. rewrite text_cons in E.
    assert (X : (exists s', s = as_str t ++ s' /\ text ts = s' ++ c :: r) \/ In c (as_str t)).
    { clear -E. revert s E. induction (as_str t) as [|d u IHu]; intros s E.
      - left. exists s. auto.
      - destruct s as [|x s]; injection E as <- E; [right; now left|].
        destruct (IHu s E) as [(s' & -> & E')|Hin]; [left; exists s'; auto|right; now right]. }
    destruct X as [(s' & -> & E')|Hin].
    + destruct (IH s' r HF' E') as (ts1 & ts2 & -> & E1 & E2). exists (t :: ts1), ts2.
      split; [reflexivity|]. split; [|exact E2]. now rewrite text_cons, E1.
    + apply Hc in Hin; [|exact Ht]. subst t. rewrite Ec in E. destruct s as [|x s].
      * injection E as E. exists [], ts. auto.
      * injection E as <- E. destruct (IH s r HF' E) as (ts1 & ts2 & -> & E1 & E2).
        exists (t0 :: ts1), ts2. split; [reflexivity|]. split; [|exact E2]. now rewrite text_cons, Ec, E1.
Qed.
End Split.

Section Quotes.
Context {U : Uni}.
Lemma lex_all_lexable s : Forall lexable (lex s).
Proof. apply Forall_forall. intros t. apply lex_lexable. Qed.
Lemma lexable_text t : lexable t -> as_str t <> [].
Proof.
  intros H E. pose proof (lex_display t H) as D. rewrite E in D. discriminate.
Qed.
Lemma text_nil ts : Forall lexable ts -> text ts = [] -> ts = [].
Proof.
  destruct 1 as [|t ts Ht _]; [reflexivity|]. rewrite text_cons. intros E. apply app_eq_nil in E as [E _].
  now elim (lexable_text t Ht).
Qed.
Lemma lex_text s : text (lex s) = s.
Proof. rewrite <- (lex_lossless s) at 2. unfold text, concat_tokens. now rewrite flat_map_concat_map. Qed.
Ltac onlyt := apply only_token_special; [reflexivity|exact I|intros t Ho Hin; destruct t; try (now elim Ho);
    try reflexivity; exfalso; cbn in Hin;
    repeat match goal with p : positional |- _ => destruct p; cbn in Hin end;
    repeat (destruct Hin as [Hin|Hin]; [discriminate Hin|]); exact Hin|reflexivity|discriminate].
Lemma only_single_quote : only_token 39 TSingleQuote. Proof. onlyt. Qed.
Lemma only_double_quote : only_token 34 TDoubleQuote. Proof. onlyt. Qed.
Lemma only_backtick : only_token 96 TBacktick. Proof. onlyt. Qed.

Definition between (c : char) (s : str) : str := c :: s ++ [c].
(** Text between two quote characters that does not contain the character. *)
Lemma lex_between c t0 s : only_token c t0 -> ~ In c s ->
  exists ts, lex (between c s) = t0 :: ts ++ [t0] /\ text ts = s /\ ~ In t0 ts /\ Forall lexable ts.
Proof.
  intros Hc Hs. pose proof (lex_all_lexable (between c s)) as HF. pose proof (lex_text (between c s)) as E.
  revert HF E. generalize (lex (between c s)) as L. intros L HF E.
  destruct (split_text c t0 Hc L [] (s ++ [c]) HF E) as (ts0 & L1 & -> & E0 & E1).
  apply Forall_app in HF as [H0 HF]. apply text_nil in E0; [|exact H0]. subst ts0. cbn [app].
  inversion HF as [|? ? _ HF1]; subst. clear HF.
  destruct (split_text c t0 Hc L1 s [] HF1 E1) as (ts & L2 & -> & E2 & E3).
  apply Forall_app in HF1 as [HF1 HF2]. inversion HF2 as [|? ? _ HF3]; subst.
  apply text_nil in E3; [|exact HF3]. subst L2. exists ts. split; [reflexivity|]. split; [reflexivity|].
  split; [|exact HF1]. intros Hin. apply Hs. destruct Hc as [Ec _].
  clear -Hin Ec. induction ts as [|t ts IH]; [contradiction|]. rewrite text_cons. apply in_app_iff.
  destruct Hin as [->|Hin]; [left; rewrite Ec; now left|right; auto].
Qed.

(** C20 *)
Theorem single_quotes_verbatim s fuel : ~ In 39 s ->
  source_word fuel (between 39 s) (TLWord (WSingle (WSingleQuoted s))).
Proof.
  intros Hs. destruct (lex_between 39 TSingleQuote s only_single_quote Hs) as (ts & E & Et & Hn & _).
  apply (source_word_read fuel _ (KSingle (KSingleQuoted s))).
  rewrite E.
  eapply (wf_word _ _ _ []); [|discriminate|reflexivity].
  apply (fs_frag _ _ _ _ _ []); [|congruence|apply fs_end; left; exact I].
  rewrite <- Et. now apply fr_single.
Qed.

(** C21 *)
Definition plain_in_double (c : char) : Prop := c <> 36 /\ c <> 96 /\ c <> 92 /\ c <> 34.
Lemma plain_run close ts : close = Some TDoubleQuote -> Forall plain_in_double (text ts) -> forall rest, quoted_run close ts rest.
Proof.
  intros ->. induction ts as [|t ts IH]; intros H rest; [constructor|]. rewrite text_cons in H. apply Forall_app in H as [H1 H2].
  apply qr_plain; [|now apply IH]. 
  unfold plain_in_double in H1. destruct t as [| | | | | | | | | | | | | | | | | | | | | | | | | | | | | | | | | | | | | | | | |[]|w|w|w]; try reflexivity; exfalso; inversion H1 as [|? ? (X1 & X2 & X3 & X4) _]; subst; congruence.
Qed.
Theorem double_quotes_literal s fuel : Forall plain_in_double s ->
  source_word fuel (between 34 s)
    (TLWord (WSingle (WDoubleQuoted (match s with [] => [] | _ => [WLiteral s] end)))).
Proof.
  intros Hs.
  destruct (lex_between 34 TDoubleQuote s only_double_quote) as (ts & E & Et & Hn & _).
  { intros Hin. rewrite Forall_forall in Hs. destruct (Hs 34 Hin) as (_ & _ & _ & X). now apply X. }
  pose proof (source_word_read fuel (between 34 s) (KSingle (KDoubleQuoted (match s with [] => [] | _ => [KLiteral s] end)))) as R.
  replace (default_word _) with (TLWord (WSingle (WDoubleQuoted (match s with [] => [] | _ => [WLiteral s] end)))) in R
    by (destruct s; reflexivity).
  apply R. clear R. rewrite E.
  eapply (wf_word _ _ _ []); [|discriminate|reflexivity].
  apply (fs_frag _ _ _ _ _ []); [|congruence|apply fs_end; left; exact I].
  apply fr_double. destruct s as [|c s].
  - assert (ts = []) as ->. { destruct ts as [|t ts]; [reflexivity|]. exfalso. rewrite text_cons in Et.
      apply app_eq_nil in Et as [Et _]. assert (Hl : lexable t) by (apply (lex_lexable (between 34 [])); rewrite E; right; now left).
      now apply (lexable_text t). }
    now apply qu_nil.
  - rewrite <- Et. apply qu_text; [apply plain_run; [reflexivity|now rewrite Et]|congruence|reflexivity|now apply qu_nil].
Qed.
(** C22 *)
Lemma lex_single (c : char) : exists t, lex [c] = [t] /\ as_str t = [c].
Proof.
  pose proof (lex_text [c]) as E. pose proof (lex_all_lexable [c]) as HF.
  destruct (lex [c]) as [|t ts]; [discriminate|]. inversion HF as [|? ? Ht HF']; subst. rewrite text_cons in E.
  pose proof (lexable_text t Ht). destruct (as_str t) as [|d s] eqn:Ea; [congruence|]. injection E as -> E.
  apply app_eq_nil in E as [-> E]. apply text_nil in E; [|exact HF']. subst ts. exists t. auto.
Qed.
Lemma lex_backslash (c : char) (s : str) : exists t, lex (backslash :: c :: s) = TBackslash :: t :: lex s /\ as_str t = [c] /\ lexable t.
Proof.
  destruct (lex_single c) as (t & E & Et). exists t. split; [|split; [exact Et|]].
  - apply lex_maximal_munch. constructor; apply lex_maximal_munch; [exact E|reflexivity].
  - apply (lex_lexable [c]). rewrite E. now left.
Qed.
Theorem backslash_quotes (c : char) fuel : c <> 10 ->
  source_word fuel (backslash :: [c]) (TLWord (WSingle (WSimple (WEscaped [c])))).
Proof.
  intros Hc. destruct (lex_backslash c []) as (t & E & Et & _).
  apply (source_word_read fuel _ (KSingle (KSimple (KEscaped [c])))). rewrite E.
  eapply (wf_word _ _ _ []); [|discriminate|reflexivity].
  apply (fs_frag _ _ _ _ _ []); [|congruence|apply fs_end; left; exact I].
  rewrite <- Et. apply fr_escape. intros ->. injection Et as <-. now apply Hc.
Qed.

(** A backslash and a newline are removed in front of a word, and they end it. *)
Definition continuation : str := [backslash; 10].
Lemma lex_continuation r : lex (continuation ++ r) = TBackslash :: TNewline :: lex r.
Proof.
  destruct (lex_backslash 10 r) as (t & E & Et & Hl). unfold continuation. cbn [app]. rewrite E.
  pose proof (lex_display t Hl) as D. rewrite Et in D. change (lex [10]) with [TNewline] in D. congruence.
Qed.
Lemma lex_name_continuation n r : lexable (TName n) ->
  lex (n ++ continuation ++ r) = TName n :: TBackslash :: TNewline :: lex r.
Proof.
  intros Hn. apply lex_maximal_munch. destruct n as [|c n]; [destruct Hn|]. destruct Hn as [H1 H2].
  cbn [app]. apply Lex_name; auto.
  - intros d s' E [(_ & Hd & _) _]. injection E as <- E. now apply Hd.
  - rewrite <- lex_continuation. now apply lex_maximal_munch.
Qed.
Theorem continuation_delimits n r fuel (lead : bool) : lexable (TName n) ->
  let src := (if lead then continuation else []) ++ n ++ continuation ++ r in
  (List.length (lex src) + 2 < fuel)%nat ->
  exists s', run concrete (call default_builder AWordPreserve fuel) (ti_new (lex src)) tt
    = (OOk (Some (TLWord (WSingle (WSimple (WLiteral n))))), s', tt) /\ tokens_left s' = lex r.
Proof.
  intros Hn src Hf.
  assert (E : skipw (tokens_left (ti_new (lex src))) = skipw (TName n :: TBackslash :: TNewline :: lex r)).
  { change (tokens_left (ti_new (lex src))) with (lex src). unfold src.
    destruct lead; [rewrite lex_continuation|cbn [app]]; rewrite lex_name_continuation by exact Hn; reflexivity. }
  apply (word_read default_builder default_pure fuel (ti_new (lex src)) tt (pr_new _ _ _) Hf
    (KSingle (KSimple (KLiteral n))) _ _) with (2 := E).
  eapply (wf_word _ _ _ []); [|discriminate|reflexivity].
  eapply fs_frag; [apply (fr_literal _ _ (TName n)); reflexivity|congruence|]. apply fs_escaped_newline.
Qed.

(** C23 *)
Lemma show_N_dec n : show_N n = dec n.
Proof.
  unfold show_N, dec. assert (G : forall f n acc, DefaultBuilder.dec_digits f n acc = dec_loop f n ++ acc).
  { induction f as [|f IH]; intros m acc; cbn [DefaultBuilder.dec_digits dec_loop]; [reflexivity|].
    destruct (N.ltb_spec m 10).
    - rewrite N.mod_small by lia. reflexivity.
    - rewrite IH, <- app_assoc. reflexivity. }
  rewrite G. apply app_nil_r.
Qed.
(** The parameters that exist: names are identifiers, indices are 32 bit numbers. *)
Definition valid_param (p : param) : Prop :=
  match p with
  | PmVar v => lexable (TName v)
  | PmPositional n => n < 2 ^ 32
  | _ => True
  end.
Lemma braces_lex t : lexable t -> (match t with TName _ | TLiteral _ => True | _ => False end) ->
  lex (s_of "${" ++ as_str t ++ s_of "}") = [TDollar; TCurlyOpen; t; TCurlyClose].
Proof.
  intros Hl Ht. replace (s_of "${" ++ as_str t ++ s_of "}") with (text [TDollar; TCurlyOpen; t; TCurlyClose])
    by (rewrite !text_cons; reflexivity).
  apply lex_relexable. apply relexable_loose; [exact I|exact I|cbn; tauto|].
  apply relexable_closed; [reflexivity|]. apply relexable_loose; [exact Hl|destruct t; try contradiction; exact I|cbn; tauto|].
  apply relexable_closed; [reflexivity|constructor].
Qed.
Theorem parameter_round_trip p fuel : valid_param p ->
  source_word fuel (param_display p) (TLWord (WSingle (WSimple (WParam p)))).
Proof.
  intros Hp. apply (source_word_read fuel _ (KSingle (KSimple (KParam p)))).
  assert (X : forall ts, lex (param_display p) = ts -> dollar default_builder default_pure (KParam p) ts [] -> hd_error ts <> Some TPound ->
    word_form default_builder default_pure (KSingle (KSimple (KParam p))) (lex (param_display p)) []).
  { intros ts -> H Hn. eapply (wf_word _ _ _ []); [|exact Hn|reflexivity].
    apply (fs_frag _ _ _ _ _ []); [|congruence|apply fs_end; left; exact I]. now apply fr_expansion, ex_dollar. }
  destruct p as [| | | | | | |n|v]; cbn [valid_param] in Hp.
  1-7: eapply X; [reflexivity|apply do_param; constructor|discriminate].
  - cbn [param_display] in *. rewrite show_N_dec in *. destruct (N.leb_spec n 9) as [H|H].
    + assert (In n [0;1;2;3;4;5;6;7;8;9]) as Hin by (cbn; lia).
      repeat (destruct Hin as [<-|Hin]; [eapply X; [vm_compute; reflexivity| |discriminate];
        match goal with |- dollar _ _ _ [TParamPositional ?p] _ => exact (do_positional _ _ p []) end|]). contradiction.
    + eapply X; [apply (braces_lex (TLiteral (dec n))); [apply dec_lexable|exact I]| |discriminate].
      apply do_braces, bp_positional; [apply nu_digits, dec_value|exact Hp].
  - eapply X; [apply (braces_lex (TName v)); [exact Hp|exact I]| |discriminate].
    apply do_braces, bp_token. constructor.
Qed.
End Quotes.

(** ** Cases that meet the hypotheses *)
Section Witness.
Context {U : Uni}.
Example single_quoted_everything fuel :
  source_word fuel (s_of "'a\$(b `c "" # ;'") (TLWord (WSingle (WSingleQuoted (s_of "a\$(b `c "" # ;")))).
Proof.
  apply (single_quotes_verbatim (s_of "a\$(b `c "" # ;")). 
  intros H. cbn in H. repeat (destruct H as [H|H]; [discriminate H|]). exact H.
Qed.
Example double_quoted_spaces fuel :
  source_word fuel (s_of """a  ; 'b' # (c)""") (TLWord (WSingle (WDoubleQuoted [WLiteral (s_of "a  ; 'b' # (c)")]))).
Proof.
  apply (double_quotes_literal (s_of "a  ; 'b' # (c)")). repeat (constructor; [repeat split; discriminate|]). constructor.
Qed.
Example escaped_space fuel : source_word fuel (s_of "\ ") (TLWord (WSingle (WSimple (WEscaped (s_of " "))))).
Proof. now apply backslash_quotes. Qed.
Example positional_12 fuel : source_word fuel (s_of "${12}") (TLWord (WSingle (WSimple (WParam (PmPositional 12))))).
Proof. now apply (parameter_round_trip (PmPositional 12)). Qed.
End Witness.
