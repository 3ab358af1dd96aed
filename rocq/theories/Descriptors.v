(** * Source descriptors of redirections (C28) *)
From Coq Require Import String.
From Verif Require Import Base Token Pos Lexer Ast Builder Prog Iter Located IterProofs ParserBase Balanced BalancedSpec Arith Word
  Redirect Command DefaultBuilder RunLemmas BaseRun Entry Api Total Runs Raises Gives Relex Pure ArithSpec ArithRuns Forms BaseForms WordRuns.

Lemma gives_any {BS BE A C} (p : prog BS BE A) (f : A -> prog BS BE C) ts Q :
  (forall a r, gives (f a) r Q) -> gives (bind p f) ts Q.
Proof.
  intros H. apply gives_bind. intros L e b HL.
  destruct (lrun p (mkL L e) b) as [[[x|x|x|] l'] b']; auto.
Qed.
Ltac gany := apply gives_any; intros ? ?; cbv beta match.
Ltac gsplit := match goal with |- gives (match ?o with _ => _ end) _ _ => destruct o | |- gives (if ?o then _ else _) _ _ => destruct o end.

Definition not_literal {C} (w : swk C) : Prop := forall s, w = KLiteral s -> s = [36%N].
Section Param.
Context {BS BE C : Type}.
Variable fuel : nat.
Variable K : knots BS BE C.
Ltac fin := solve [gstep; intros ?; discriminate | gstep].
Lemma gives_body p q ts : gives (parameter_substitution_body_raw fuel K p q) ts (fun w _ => not_literal w).
Proof.
  unfold parameter_substitution_body_raw. gany. gany. gany. repeat (gsplit; try fin); gany; gsplit; fin.
Qed.
Lemma gives_curly q ts : gives (curly_substitution fuel K q) ts (fun w _ => not_literal w).
Proof.
  unfold curly_substitution. gany. gany. gany. repeat (gsplit; try apply gives_body).
  all: gany; gany; try fin; gany; fin.
Qed.
Lemma gives_paren ts : gives (paren_substitution fuel K) ts (fun w _ => not_literal w).
Proof. unfold paren_substitution. gany. gsplit; [do 9 gany|gany]; fin. Qed.
Lemma gives_param_literal ts : gives (parameter_raw fuel K) ts (fun w _ => not_literal w).
Proof.
  unfold parameter_raw. gany. gany.
  assert (D : gives (q <- peek;;
      match q with
      | Some TStar | Some TPound | Some TQuestion | Some TDollar | Some TBang | Some TDash
      | Some TAt | Some (TName _) => p <- parameter_inner ;; ret (KParam p)
      | Some TParenOpen | Some TCurlyOpen => parameter_substitution_raw fuel K
      | _ => ret (KLiteral (as_str TDollar))
      end) r0 (fun w _ => not_literal w)).
  { gany. repeat gsplit. all: try (gstep; intros ? [= <-]; reflexivity). all: try (gany; fin).
    all: unfold parameter_substitution_raw; gany; gany; repeat (gsplit; try fin); first [apply gives_paren|apply gives_curly]. }
  destruct a0 as [t|]; [|fin]. destruct t; try fin. exact D.
Qed.
Lemma gives_backticked ts : gives (backticked_raw fuel K) ts (fun w _ => not_literal w).
Proof. unfold backticked_raw. do 4 gany. fin. Qed.

Hypothesis KP : forall ts, gives (k_param K) ts (fun w _ => not_literal w).

(** Tokens a word made of literals can consist of. *)
Definition spelling (t : token) : bool :=
  match t with TName _ | TLiteral _ => true | _ => literal_token t end.
(** A word that ends at an escaped newline, or at a backslash at the end of input, swallows it. *)
Definition line_join (j rest : list token) : Prop :=
  j = [] \/ j = [TBackslash; TNewline] \/ (j = [TBackslash] /\ rest = []).

Definition literal_read (words : list (wk C)) (ts : list token) (ws : list (wk C)) (rest : list token) : Prop :=
  exists ws', ws = words ++ ws' /\
    forall s, literal_fragments ws' = Some s -> In 36%N s \/
      exists pre j, ts = pre ++ j ++ rest /\ Forall (fun t => spelling t = true) pre /\ text pre = s /\ line_join j rest
        /\ List.length pre = List.length ws'.
Lemma literal_read_more words w ts0 ts ws rest :
  (forall s, w <> KSimple (KLiteral s)) \/ w = KSimple (KLiteral [36%N]) \/
  (exists t, w = KSimple (KLiteral (as_str t)) /\ ts0 = t :: ts /\ spelling t = true) ->
  literal_read (words ++ [w]) ts ws rest -> literal_read words ts0 ws rest.
Proof.
  intros Hw (ws' & -> & H). exists (w :: ws'). split; [now rewrite <- app_assoc|].
  intros s Hs. destruct w as [[l| | | | | | | | | |]| |]; try discriminate. cbn in Hs.
  destruct (literal_fragments ws') as [s'|] eqn:E; [|discriminate]. injection Hs as <-.
  destruct Hw as [Hw|[Hw|(t & Hw & -> & Ht)]].
  - now elim (Hw l).
  - injection Hw as ->. left. now left.
  - injection Hw as ->. destruct (H _ eq_refl) as [Hi|(pre & j & -> & HF & <- & Hj & HL)].
    + left. apply in_or_app. now right.
    + right. exists (t :: pre), j. split; [reflexivity|]. split; [now constructor|]. split; [reflexivity|]. split; [exact Hj|]. cbn. now rewrite HL.
Qed.
Lemma gives_word_loop : forall n words ts,
  gives (word_loop fuel K None n words) ts (literal_read words ts).
Proof.
  induction n as [|n IH]; intros words ts; [apply gives_fuel|]. cbn [word_loop].
  assert (STOP : gives (ret words : prog BS BE _) ts (literal_read words ts)).
  { gstep. exists []. split; [now rewrite app_nil_r|]. intros s [= <-]. right. exists [], [].
    split; [reflexivity|]. split; [constructor|]. split; [reflexivity|]. split; [now left|reflexivity]. }
  gstep. gstep.
  assert (OTHER : forall (p : prog BS BE (swk C)), (forall ts, gives p ts (fun w _ => not_literal w)) ->
    gives (bind p (fun w => word_loop fuel K None n (words ++ [KSimple w]))) ts (literal_read words ts)).
  { intros p Hp. apply gives_bind. eapply gives_mono; [apply Hp|]. intros w r Hw. cbv beta.
    eapply gives_mono; [apply IH|]. intros ws rest. apply literal_read_more.
    destruct w as [l| | | | | | | | | |]; try (left; intros ?; discriminate). rewrite (Hw l eq_refl). right. now left. }
  destruct ts as [|t ts]; [exact STOP|]. cbn [hd_error].
  destruct (word_class_of (Some t)) eqn:Ec; cbv beta match.
  - gstep. gstep. gstep. gstep.
    assert (LIT : spelling t = true -> gives (word_loop fuel K None n (words ++ [KSimple (KLiteral (as_str t))])) ts (literal_read words (t :: ts))).
    { intros Hs. eapply gives_mono; [apply IH|]. intros ws rest. apply literal_read_more. right. right. eauto. }
    assert (NOT : forall w us, (forall s, w <> KSimple (KLiteral s)) ->
       gives (word_loop fuel K None n (words ++ [w])) us (literal_read words (t :: ts))).
    { intros w us Hw. eapply gives_mono; [apply IH|]. intros ws rest. apply literal_read_more. now left. }
    destruct t; try discriminate Ec; try (now apply LIT); try (apply NOT; intros ?; discriminate).
    + gstep. gstep. destruct ts as [|e ts]; cbn [hd_error tl].
      * gstep. exists []. split; [now rewrite app_nil_r|]. intros s [= <-]. right. exists [], [TBackslash].
        split; [reflexivity|]. split; [constructor|]. split; [reflexivity|]. split; [right; now right|reflexivity].
      * destruct e; try (apply NOT; intros ?; discriminate).
        gstep. exists []. split; [now rewrite app_nil_r|]. intros s [= <-]. right. exists [], [TBackslash; TNewline].
        split; [reflexivity|]. split; [constructor|]. split; [reflexivity|]. split; [right; now left|reflexivity].
    + gany. apply NOT. intros ?; discriminate.
    + gany. apply NOT. intros ?; discriminate.
  - apply OTHER. apply gives_backticked.
  - apply OTHER. exact KP.
  - exact STOP.
Qed.
End Param.

(** The descriptor a redirection carries. *)
Definition redirect_fd {W} (r : redirect_ W) : option N :=
  match r with
  | RRead fd _ | RWrite fd _ | RReadWrite fd _ | RAppend fd _ | RClobber fd _ | RHeredoc fd _ | RDupRead fd _
  | RDupWrite fd _ => fd
  end.
(** The text [s] denotes [n]: a sign [+] or nothing, and decimal digits. *)
Definition decimal (s : str) (n : N) : Prop :=
  exists ds, (s = ds \/ s = 43%N :: ds) /\ numeral_value 10 ds n.
Lemma u16_decimal s n : from_str_radix_u u16_max 10 s = Some n -> decimal s n /\ (n < 2 ^ 16)%N.
Proof.
  unfold from_str_radix_u. destruct s as [|c s]; [discriminate|]. unfold c_plus.
  assert (X : forall ds, ds <> [] -> match digits_value 10 0 ds with Some v => if (v <=? u16_max)%N then Some v else None | None => None end = Some n ->
     numeral_value 10 ds n /\ (n < 2 ^ 16)%N).
  { intros ds Hn H. destruct (digits_value 10 0 ds) as [v|] eqn:E; [|discriminate].
    destruct (N.leb_spec v u16_max); [|discriminate]. injection H as ->. split; [|unfold u16_max in *; lia].
    apply digits_value_inv; auto. lia. }
  destruct (N.eqb_spec c 43) as [->|Hc]; intros H.
  - destruct s as [|c s]; [discriminate|]. apply X in H as [H1 H2]; [|discriminate]. split; [|exact H2].
    exists (c :: s). auto.
  - apply X in H as [H1 H2]; [|discriminate]. split; [|exact H2]. exists (c :: s). auto.
Qed.
Lemma decimal_no_dollar s n : decimal s n -> ~ In 36%N s.
Proof.
  assert (X : forall ds n, numeral_value 10 ds n -> ~ In 36%N ds).
  { induction 1 as [c d H|s' c v d Hs IH H]; intros Hi.
    - destruct Hi as [->|[]]. destruct H as [H1 [H|[H|H]]]; lia.
    - apply in_app_or in Hi as [Hi|[->|[]]]; [auto|]. destruct H as [H1 [H|[H|H]]]; lia. }
  intros (ds & [-> | ->] & H) Hi; [eapply X; eauto|]. destruct Hi as [Hi|Hi]; [discriminate|]. eapply X; eauto.
Qed.

Section Redirects.
Variable B : builder.
Variable fuel : nat.
Variable K : knots (bst B) (b_err B) (b_cmd B).
Hypothesis KP : forall ts, gives (k_param K) ts (fun w _ => not_literal w).
Notation prog := (prog (bst B) (b_err B)).

(** The builder made the redirection [r] from one with the descriptor [fd]. *)
Definition built_with (fd : option N) (r : b_redirect B) : Prop :=
  exists q st st', o_redirect B q st = (inl r, st') /\ redirect_fd q = fd.
Lemma gives_build {A} (op : bst B -> (A + b_err B) * bst B) ts (Q : A -> list token -> Prop) :
  (forall st st' a, op st = (inl a, st') -> Q a ts) -> gives (build op : prog A) ts Q.
Proof.
  intros H L e b HL. unfold lrun. cbn. destruct (op b) as [[a|x] b'] eqn:E; [|exact I]. cbn.
  rewrite HL. eapply H; eauto.
Qed.
Lemma gives_redirect_build q ts : gives (build (o_redirect B q)) ts (fun r _ => built_with (redirect_fd q) r).
Proof. apply gives_build. intros st st' a E. now exists q, st, st'. Qed.
Lemma gives_redirect_op op fd ts : gives (redirect_op B fuel K op fd) ts (fun r _ => built_with fd r).
Proof.
  unfold redirect_op. gany. apply gives_bind.
  apply gives_mono with (Q := fun q _ => redirect_fd q = fd).
  - destruct op; first [gany; gstep; reflexivity | gstep].
  - intros q r0 <-. apply gives_redirect_build.
Qed.
Lemma gives_redirect_heredoc fd ts : gives (redirect_heredoc B fuel K fd) ts (fun r _ => built_with fd r).
Proof.
  unfold redirect_heredoc. gany. gany. gany. gany. gany. destruct a3 as [delim quoted]. destruct delim; [gstep|].
  do 7 gany. apply (gives_redirect_build (RHeredoc fd _)).
Qed.

(** What [redirect] took for the descriptor. *)
Definition descriptor (fd : option N) (us : list token) (rest : list token) : Prop :=
  match fd with
  | None => us = rest
  | Some n => exists pre j, us = pre ++ j ++ rest /\ Forall (fun t => spelling t = true) pre
      /\ decimal (text pre) n /\ (n < 2 ^ 16)%N /\ line_join j rest
  end.
Definition operator_next (rest : list token) : Prop := exists op after, rest = op :: after /\ redirect_token op = true.
Lemma gives_redirect_after fd w ts : gives (redirect_after B fuel K fd w) ts (fun r rest =>
   match r with
   | Some (inl r) => operator_next ts /\ built_with fd r
   | Some (inr _) => rest = ts /\ ~ operator_next ts /\ w <> None
   | None => rest = ts /\ ~ operator_next ts /\ w = None
   end).
Proof.
  unfold redirect_after. gstep. gstep.
  assert (NO : (forall op after, ts = op :: after -> redirect_token op = false) ->
    gives (match w with
      | Some w => w <- build (o_word B w) ;; ret (Some (inr w))
      | None => ret None
      end) ts (fun (r : option (b_redirect B + b_word B)) rest =>
   match r with
   | Some (inl r) => operator_next ts /\ built_with fd r
   | Some (inr _) => rest = ts /\ ~ operator_next ts /\ w <> None
   | None => rest = ts /\ ~ operator_next ts /\ w = None
   end)).
  { intros Hn. assert (Hn' : ~ operator_next ts) by (intros (op & after & E & H); specialize (Hn _ _ E); congruence).
    destruct w as [w|].
    - gstep. apply gives_build. intros st st' a _. gstep. split; [reflexivity|]. split; [exact Hn'|discriminate].
    - gstep. auto. }
  destruct ts as [|t ts]; [apply NO; intros op after E; discriminate E|]. cbn [hd_error].
  assert (YES : forall p : prog (b_redirect B), redirect_token t = true -> (forall us, gives p us (fun r _ => built_with fd r)) ->
    forall us, gives (bind p (fun r => ret (Some (inl r)))) us (fun (r : option (b_redirect B + b_word B)) rest =>
   match r with
   | Some (inl r) => operator_next (t :: ts) /\ built_with fd r
   | Some (inr _) => rest = t :: ts /\ ~ operator_next (t :: ts) /\ w <> None
   | None => rest = t :: ts /\ ~ operator_next (t :: ts) /\ w = None
   end)).
  { intros p Ht Hp us. apply gives_bind. eapply gives_mono; [apply Hp|]. intros r r0 Hr. cbv beta. gstep.
    split; [|exact Hr]. now exists t, ts. }
  destruct t; try (apply NO; intros op after [= <- _]; reflexivity).
  all: try (apply YES; [reflexivity|intros; apply gives_redirect_heredoc]).
  all: gstep; gstep; apply YES; [reflexivity|intros; apply gives_redirect_op].
Qed.
Lemma word_num_fragments (ws : list (wk (b_cmd B))) w n : pack_words ws = Some w -> word_as_num w = Some n ->
  exists s, literal_fragments ws = Some s /\ from_str_radix_u u16_max 10 s = Some n.
Proof.
  destruct ws as [|w1 [|w2 ws]]; cbn [pack_words]; intros [= <-] H.
  - cbn [word_as_num] in H. destruct w1 as [[l| | | | | | | | | |]| |]; try discriminate. exists l. cbn. rewrite app_nil_r. auto.
  - cbn [word_as_num] in H. destruct (literal_fragments (w1 :: w2 :: ws)) as [s|]; [|discriminate]. eauto.
Qed.
Lemma gives_redirect ts : gives (redirect B fuel K) ts (fun r _ =>
   match r with
   | Some (inl r) => exists fd rest, descriptor fd (skipw ts) rest /\ operator_next rest /\ built_with fd r
   | _ => True
   end).
Proof.
  unfold redirect. apply gives_bind. unfold word_raw, word_raw_with_delim.
  apply gives_bind. eapply gives_runs; [apply runs_skip_end|]. cbv beta.
  assert (NONE : gives (redirect_after B fuel K None None) (skipw ts) (fun r _ =>
   match r with
   | Some (inl r) => exists fd rest, descriptor fd (skipw ts) rest /\ operator_next rest /\ built_with fd r
   | _ => True
   end)).
  { eapply gives_mono; [apply gives_redirect_after|]. intros [[r|w]|] rest; auto. intros [H1 H2].
    exists None, (skipw ts). split; [reflexivity|]. auto. }
  gstep. gstep. destruct (otoken_eqb _ _); [gstep; exact NONE|].
  gstep. eapply gives_mono; [apply gives_word_loop; exact KP|]. intros ws rest (ws' & -> & H). cbn [app] in *. gstep.
  destruct (pack_words ws') as [w|] eqn:Ep.
  - destruct (word_as_num w) as [n|] eqn:En; [|gany; gstep; exact I].
    destruct (word_num_fragments _ _ _ Ep En) as (s & E1 & E2). apply u16_decimal in E2 as [E2 E3].
    destruct (H _ E1) as [Hd|(pre & j & E4 & HF & <- & Hj & _)]; [now elim (decimal_no_dollar _ _ E2)|].
    eapply gives_mono; [apply gives_redirect_after|]. intros [[r|w']|] rest'; auto. intros [H1 H2].
    exists (Some n), rest. split; [|auto]. exists pre, j. auto.
  - destruct ws' as [|w1 [|]]; try discriminate. destruct (H _ eq_refl) as [[]|(pre & j & E4 & _ & _ & Hj & HL)].
    destruct pre as [|]; [|discriminate]. cbn [app] in E4.
    assert (Ej : rest = skipw ts \/ rest = []).
    { destruct Hj as [->|[->|[-> ->]]]; [now left| |now right]. exfalso.
      pose proof (skipw_hd ts) as Hh. rewrite E4 in Hh. exact Hh. }
    destruct Ej as [-> | ->]; [exact NONE|].
    eapply gives_mono; [apply gives_redirect_after|]. intros [[r|w']|] rest'; auto. intros [(op & after & E & _) _]. discriminate.
Qed.
End Redirects.

Lemma knot_param_literal B fuel n ts : gives (k_param (knot B fuel n)) ts (fun w _ => not_literal w).
Proof. destruct n as [|n]; cbn [knot k_param]; [apply gives_fuel|apply gives_param_literal]. Qed.

Section Builder.
Variables (B : builder) (fuel : nat) (s : token_iter) (b : bst B).
Hypothesis HR : parser_reach B s b.

(** C28: whenever [redirect] returns a redirection, whatever the builder, what stands between the blanks
    and the operator is nothing, and the redirection carries no descriptor, or plain tokens that spell
    a decimal number below 2^16, and the redirection carries that number.  The sign [+] is allowed in
    front of the digits, which the property does not say. *)
Theorem redirect_descriptor_partial r s' b' :
  run concrete (call B ARedirect fuel) s b = (OOk (Some (inl r)), s', b') ->
  exists fd rest, descriptor fd (skipw (tokens_left s)) rest /\ operator_next rest /\ built_with B fd r.
Proof.
  intros E. exact (gives_concrete B ARedirect fuel s b _ HR (gives_redirect B fuel _ (knot_param_literal B fuel fuel) _) _ _ _ E).
Qed.
(** Conversely digits in front of an operator that denote a number below 2^16 are never taken for a word. *)
Theorem descriptor_recognised ds n op after r s' b' :
  skipw (tokens_left s) = TLiteral ds :: op :: after -> redirect_token op = true ->
  numeral_value 10 ds n -> (n < 2 ^ 16)%N ->
  run concrete (call B ARedirect fuel) s b = (OOk r, s', b') ->
  exists x, r = Some (inl x) /\ built_with B (Some n) x.
Proof.
  intros Hs Ho Hd Hn E.
  refine (gives_concrete B ARedirect fuel s b (fun r _ => exists x, r = Some (inl x) /\ built_with B (Some n) x) HR _ _ _ _ E).
  cbn [call]. unfold p_redirect, redirect. apply gives_bind.
  assert (Hw : runs (word_raw fuel (knot B fuel fuel)) (tokens_left s) (Some (KSingle (KSimple (KLiteral ds)))) (op :: after)).
  { unfold word_raw, word_raw_with_delim. rstep. rewrite Hs. rstep. cbn [hd_error].
    replace (otoken_eqb (Some (TLiteral ds)) (Some TPound)) with false by reflexivity.
    assert (E1 : word_class_of (Some op) = WCBreak) by (destruct op; try discriminate Ho; reflexivity).
    apply (runs_call _ _ _ [KSimple (KLiteral ds)] (op :: after)).
    - destruct fuel as [|[|f]]; [apply runs_fuel| |]; cbn [word_loop].
      + rstep. cbn [hd_error word_class_of]. rstep. rstep. apply runs_fuel.
      + rstep. cbn [hd_error word_class_of]. rstep. rstep. cbn [hd_error tl app]. rstep. cbn [hd_error]. rewrite E1. apply runs_ret.
    - cbv beta. apply runs_ret. }
  eapply gives_runs; [exact Hw|]. cbv beta match. cbn [word_as_num].
  rewrite (digits_u_max ds n u16_max Hd) by (unfold u16_max; lia). cbv beta match.
  eapply gives_mono; [apply gives_redirect_after|].
  assert (Op : operator_next (op :: after)) by now exists op, after.
  intros [[x|w]|] rest H; [|now destruct H as (_ & H & _)|now destruct H as (_ & H & _)].
  exists x. split; [reflexivity|]. apply H.
Qed.
End Builder.

(** A sign is accepted: what stands before the operator does not consist of decimal digits. *)
Theorem redirect_descriptor_refuted (U : Uni) :
  exists s', run concrete (call default_builder ARedirect 60) (ti_new (@lex U (s_of "+5>f"))) tt
    = (OOk (Some (inl (RWrite (Some 5%N) (TLWord (WSingle (WSimple (WLiteral (s_of "f")))))))), s', tt).
Proof. eexists. vm_compute. reflexivity. Qed.
(** Cases: a descriptor; a number out of range is an ordinary word. *)
Example descriptor_witness (U : Uni) :
  (exists s', run concrete (call default_builder ARedirect 60) (ti_new (@lex U (s_of " 65535<f"))) tt
    = (OOk (Some (inl (RRead (Some 65535%N) (TLWord (WSingle (WSimple (WLiteral (s_of "f")))))))), s', tt)) /\
  (exists s', run concrete (call default_builder ARedirect 60) (ti_new (@lex U (s_of "65536<f"))) tt
    = (OOk (Some (inr (TLWord (WSingle (WSimple (WLiteral (s_of "65536"))))))), s', tt)).
Proof. split; eexists; vm_compute; reflexivity. Qed.
