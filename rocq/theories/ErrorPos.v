(** * C17: the positions in errors *)
From Coq Require Import String.
From Verif Require Import Base Token Lexer Pos Ast Builder Prog Iter Located IterProofs LexTheorems RunLemmas
  ParserBase BaseRun Balanced BalancedSpec BalancedProofs BalancedTotal Wp Arith Word Redirect Command
  Entry EntryWp Total DefaultBuilder.

(** ** Specification *)

(** In the text [src], the token [t] is written at position [p]. *)
Definition written_at (src : str) (t : token) (p : spos) : Prop :=
  exists before after, src = before ++ as_str t ++ after /\ p = text_pos before.

(** [p] is the position of some offset of the text. *)
Definition position_in (src : str) (p : spos) : Prop :=
  exists before after, src = before ++ after /\ p = text_pos before.

(** What an error says about the source. *)
Definition error_denotes {E} (src : str) (e : perr E) : Prop :=
  match e with
  | Unexpected t p | BadSubst t p => written_at src t p
  | Unmatched t p => written_at src t p /\
      (t = TSingleQuote \/ t = TDoubleQuote \/ t = TBacktick \/ t = TParenOpen \/ t = TCurlyOpen)
  | BadIdent s p => exists before after, src = before ++ s ++ after /\ p = text_pos before
  | BadFd a b => position_in src a /\ position_in src b
  | IncompleteCmd _ p _ q => position_in src p /\ position_in src q
  | UnexpectedEOF | Custom _ => True
  end.

(** The sources excluded: here-documents, and backquoted commands that both hold an escape the
    backquotes remove and hold another backquote. *)
Definition plain_backticks (ts : list token) : Prop :=
  forall a body b, ts = a ++ TBacktick :: body ++ TBacktick :: b -> content TBacktick body ->
    unescape body = body \/ ~ In TBacktick body.

(** ** Streams of a fixed source *)
Lemma unescape_located_same n : forall xs, (length xs <= n)%nat ->
  unescape (map fst xs) = map fst xs -> unescape_located xs = xs.
Proof.
  induction n as [|n IH]; intros xs Hn E.
  - destruct xs; [reflexivity|simpl in Hn; lia].
  - destruct xs as [|[a p] [|[b q] xs]]; [reflexivity|destruct a; reflexivity|].
    cbn [map fst] in E. rewrite unescape_eq in E. rewrite unescape_located_eq. simpl in Hn.
    revert E. destruct (token_eqb_spec a TBackslash) as [->|]; [destruct (removable b) eqn:R|].
    + intros [= E1 E2]. apply (f_equal (@length token)) in E2. simpl in E2.
      pose proof (unescape_length (map fst xs)). lia.
    + intros [= E2]. rewrite IH; auto. lia.
    + intros [= E2]. rewrite IH; auto. simpl; lia.
Qed.
Lemma unescape_located_incl n : forall xs, (length xs <= n)%nat -> incl (unescape_located xs) xs.
Proof.
  induction n as [|n IH]; intros xs Hn x Hi.
  - destruct xs; [contradiction|simpl in Hn; lia].
  - destruct xs as [|[a p] [|[b q] xs]]; [contradiction|destruct a; exact Hi|].
    rewrite unescape_located_eq in Hi. simpl in Hn. revert Hi.
    destruct (token_eqb_spec a TBackslash) as [->|]; [destruct (removable b) eqn:R|].
    + intros [<-|Hi]; [simpl; auto|]. apply IH in Hi; [simpl; auto|lia].
    + intros [<-|[<-|Hi]]; [simpl; auto|simpl; auto|]. apply IH in Hi; [simpl; auto|lia].
    + intros [<-|Hi]; [simpl; auto|]. apply IH in Hi; [simpl; tauto|simpl; lia].
Qed.

Lemma locate_segment ts p pre body post : locate ts p = pre ++ body ++ post ->
  exists q, contiguous q body.
Proof.
  revert ts p; induction pre as [|x pre IH]; intros ts p H.
  - exists p. revert ts p H. induction body as [|[t q] body IHb]; intros ts p H; [reflexivity|].
    destruct ts as [|t' ts]; [discriminate|]. cbn [locate app] in H. injection H as -> -> H.
    unfold contiguous. cbn [map fst locate]. f_equal. eapply IHb; eauto.
  - destruct ts as [|t' ts]; [discriminate|]. injection H as _ H. eauto.
Qed.
Lemma contiguous_pos q body rest e : contiguous q body -> contiguous (l_pos (mkL (body ++ rest) e)) body.
Proof. destruct body as [|[t p] body]; [reflexivity|]. intros H. pose proof (contiguous_cons _ _ _ _ H) as [-> _]. exact H. Qed.

Section Am.
Variable B : builder.
Variable ts0 : list token.
Variable p0 : spos.
Hypothesis Hhd : forall t, In t ts0 -> ~ heredoc_op t.
Hypothesis Htick : plain_backticks ts0.

Definition L0 := locate ts0 p0.
Definition pos_ok (p : spos) : Prop := p = advance_all p0 ts0 \/ exists t, In (t, p) L0.
Definition inv_src (l : located) : Prop :=
  pos_ok (end_pos l) /\
  ((exists pre post, L0 = pre ++ toks l ++ post) \/
   (incl (toks l) L0 /\ ~ In TBacktick (map fst (toks l)))).

Lemma inv_src_incl l : inv_src l -> incl (toks l) L0.
Proof.
  intros [_ [(pre & post & E)|[H _]]]; auto. rewrite E. intros x Hx. apply in_or_app. right.
  apply in_or_app. auto.
Qed.
Lemma L0_fst : map fst L0 = ts0.
Proof. apply locate_fst. Qed.

Lemma inv_src_pos l : inv_src l -> pos_ok (l_pos l).
Proof.
  intros H. pose proof (inv_src_incl _ H) as Hi. destruct H as [He _].
  destruct l as [[|[t p] ts] e]; [exact He|]. right. exists t. apply Hi. simpl; auto.
Qed.

Definition am_src (D : Prop) : ambient B.
Proof.
  refine (mkAmbient B inv_src (fun t p => In (t, p) L0) pos_ok (fun _ => True) False True (fun _ => True) D (fun _ => True) (fun _ _ => True)
            _ _ _ _ _ _ _ _ _ _ _ (builder_ok_any B)).
  - intros pre ts e [He H]. split; [exact He|]. cbn [toks] in *. destruct H as [(pre' & post & E)|[H1 H2]].
    + left. exists (pre' ++ pre), post. rewrite E. now rewrite !app_assoc.
    + right. split.
      * intros x Hx. apply H1. apply in_or_app. auto.
      * intros Hx. apply H2. rewrite map_app. apply in_or_app. auto.
  - intros l t p H Hi. apply (inv_src_incl _ H). exact Hi.
  - exact inv_src_pos.
  - intros l t p H Hi Ht. apply (inv_src_incl _ H) in Hi. apply (Hhd t); [|exact Ht].
    rewrite <- L0_fst. apply in_map_iff. exists (t, p). auto.
  - intros [].
  - intros [].
  - auto.
  - auto.
  - intros q0 body q rest e sub HI Hc Hs He Hloc.
    assert (Hp : pos_ok (end_pos sub)).
    { rewrite He. destruct rest as [|[t p] rest]; [apply HI|].
      right. exists t. apply (inv_src_incl _ HI). cbn [toks]. right. apply in_or_app. right. right. simpl; auto. }
    split; [exact Hp|].
    destruct HI as [_ [(pre & post & E)|[_ Hn]]]; [|exfalso; apply Hn; simpl; auto]. cbn [toks] in E.
    assert (E' : L0 = (pre ++ [(TBacktick, q0)]) ++ body ++ ((TBacktick, q) :: rest ++ post)).
    { rewrite E. rewrite <- !app_assoc. simpl. f_equal. f_equal. now rewrite <- app_assoc. }
    destruct (locate_segment _ _ _ _ _ E') as [q1 Hq]. rewrite (Hloc (contiguous_pos _ _ _ _ Hq)).
    destruct (Htick (map fst pre) (map fst body) (map fst (rest ++ post))) as [H|H].
    + rewrite <- L0_fst, E'. rewrite !map_app, <- app_assoc. cbn [map fst app]. now rewrite map_app.
    + exact Hc.
    + left. rewrite (unescape_located_same _ _ (le_n _) H). eauto.
    + right. split.
      * intros x Hx. apply (unescape_located_incl _ _ (le_n _)) in Hx. rewrite E'.
        apply in_or_app. right. apply in_or_app. auto.
      * rewrite unescape_located_tokens. intros Hx. apply H.
        eapply unescape_incl; [apply le_n|exact Hx].
  - auto.
  - auto.
Defined.

Lemma inv_src_new : inv_src (mkL (locate ts0 p0) (advance_all p0 ts0)).
Proof.
  split; [left; reflexivity|]. left. exists [], []. now rewrite app_nil_r.
Qed.

Lemma entry_src A P fuel s b : entry_point_nb B A P -> good s -> inv_src (abs s) ->
  (length (tokens_left s) + 2 < fuel)%nat ->
  match run concrete (P fuel) s b with
  | (o, s', _) => good s' /\ match o with
      | OOk _ => inv_src (abs s')
      | OErr e => match e with Custom _ => True | _ => err_ok (am_src (keyword_entry B A P /\ skip_ws (toks (abs s)) <> toks (abs s))) (abs s') e end
      | _ => True
      end
  end.
Proof.
  intros HE G HI Hf.
  set (D := keyword_entry B A P /\ skip_ws (toks (abs s)) <> toks (abs s)).
  assert (HD : keyword_entry B A P -> Direct (am_src D) \/ ws_free (toks (abs s))).
  { intros Hk. destruct (skip_ws_suffix (toks (abs s))) as [[|x pre] E]; [right; symmetry; exact E|].
    left. split; [exact Hk|]. intros E'. rewrite E' in E. apply (f_equal (@length _)) in E.
    rewrite app_length in E. simpl in E. lia. }
  pose proof (entry_nb_wp (am_src D) A P HE fuel (abs s) HD HI ltac:(rewrite size_left; lia) b I) as W.
  pose proof (run_transfer (P fuel) s b G) as T. destruct (run concrete (P fuel) s b) as [[o s'] b'].
  destruct T as [T G']. split; [exact G'|]. unfold lrun in W. rewrite T in W. destruct o; try exact I.
  - apply W.
  - destruct e; try exact I; destruct W as [_ [[]|W]]; exact W.
Qed.
End Am.

(** ** The theorem *)

(** States of a parser of [ts] reached from a fresh one by calls that succeeded. *)
Inductive parser_succeeds (B : builder) (ts : list token) : token_iter -> bst B -> Prop :=
  | ps_new b : parser_succeeds B ts (ti_new ts) b
  | ps_call A P fuel s b r s' b' :
      entry_point_nb B A P -> parser_succeeds B ts s b -> (length (tokens_left s) + 2 < fuel)%nat ->
      run concrete (P fuel) s b = (OOk r, s', b') -> parser_succeeds B ts s' b'.

Lemma succeeds_inv B ts s b (Hhd : forall t, In t ts -> ~ heredoc_op t) (Htick : plain_backticks ts) :
  parser_succeeds B ts s b -> good s /\ inv_src ts pos_new (abs s).
Proof.
  induction 1 as [b|A P fuel s b r s' b' HE HS [G HI] Hf E].
  - split; [exact I|]. apply inv_src_new.
  - pose proof (entry_src B ts pos_new Hhd Htick A P fuel s b HE G HI Hf) as W. rewrite E in W. exact W.
Qed.

Lemma located_written U src t p : In (t, p) (locate (@lex U src) pos_new) -> written_at src t p.
Proof.
  intros H. apply In_nth_error in H. destruct H as [i H].
  change pos_new with (text_pos []) in H.
  apply locate_text in H; [|apply lex_newline_free]. destruct H as [H1 ->]. cbn [app].
  apply nth_error_split in H1. destruct H1 as (a & b & E & L).
  exists (concat_tokens a), (concat_tokens b). split.
  - rewrite <- (@lex_lossless U src), E. unfold concat_tokens. rewrite flat_map_app. reflexivity.
  - rewrite E, <- L. rewrite firstn_app, Nat.sub_diag, firstn_all. simpl. now rewrite app_nil_r.
Qed.

(** C17: in any state reached by successful calls on a source without here-documents (and with
    only simple escapes in backquotes), any method that fails reports positions of the source:
    the token or identifier named by the error is written there. *)
Theorem error_positions_denote U B src (Hhd : forall t, In t (@lex U src) -> ~ heredoc_op t)
    (Htick : plain_backticks (@lex U src)) A P fuel s b e s' b' :
  parser_succeeds B (@lex U src) s b -> entry_point_nb B A P ->
  (length (tokens_left s) + 2 < fuel)%nat ->
  run concrete (P fuel) s b = (OErr e, s', b') -> error_denotes src e.
Proof.
  intros HS HE Hf E. destruct (succeeds_inv _ _ _ _ Hhd Htick HS) as [G HI].
  pose proof (entry_src B _ pos_new Hhd Htick A P fuel s b HE G HI Hf) as W. rewrite E in W.
  destruct W as [_ W].
  assert (HP : forall p, pos_ok (@lex U src) pos_new p -> position_in src p).
  { intros p [->|[t Hi]].
    - exists src, []. rewrite app_nil_r. split; [reflexivity|].
      change pos_new with (text_pos []). rewrite advance_all_text by apply lex_newline_free.
      simpl. now rewrite lex_lossless.
    - apply located_written in Hi. destruct Hi as (a & c & -> & ->). exists a, (as_str t ++ c). auto. }
  destruct e; cbn in W |- *; auto.
  - destruct W. auto.
  - apply located_written in W. exact W.
  - apply located_written in W. exact W.
  - destruct W as [W [Wo _]]. apply located_written in W. exact (conj W Wo).
  - destruct W as [[H1 _] [H2 _]]. auto.
  - apply located_written in W. exact W.
Qed.

(** A source with at most one backquoted command meets the condition whatever its escapes. *)
Lemma few_backticks_plain ts :
  (length (filter (token_eqb TBacktick) ts) <= 2)%nat -> plain_backticks ts.
Proof.
  intros H a body b -> _. right. intros Hi. apply in_split in Hi. destruct Hi as (x & y & ->).
  assert (K : forall u v, length (filter (token_eqb TBacktick) (u ++ TBacktick :: v)) =
    (length (filter (token_eqb TBacktick) u) + S (length (filter (token_eqb TBacktick) v)))%nat).
  { intros u v. rewrite filter_app, app_length. reflexivity. }
  rewrite <- app_assoc in H. cbn [app] in H. rewrite !K in H. lia.
Qed.

(** ** A concrete case: an unexpected parenthesis on the second line, after an escape in
    backquotes. *)
Definition wit_src : str := s_of "echo `a \$b`" ++ [c_newline] ++ s_of "foo && )".
Example error_positions_witness (U : Uni) :
  (forall t, In t (@lex U wit_src) -> ~ heredoc_op t) /\ plain_backticks (@lex U wit_src) /\
  exists c s s', run concrete (p_complete_command default_builder 60) (ti_new (@lex U wit_src)) tt = (OOk (Some c), s, tt) /\
    run concrete (p_complete_command default_builder 60) s tt = (OErr (Unexpected TParenClose (mkPos 20 2 8)), s', tt).
Proof.
  split; [|split].
  - unfold heredoc_op. intros t H. vm_compute in H. repeat (destruct H as [<-|H]; [intros [|]; discriminate|]). contradiction.
  - apply few_backticks_plain. vm_compute. lia.
  - eexists _, _, _. split; [vm_compute; reflexivity|]. vm_compute. reflexivity.
Qed.

(** C17, refuted without the condition: in a [<<-] here-document the stripped tabs that are not
    at the start of the line displace every position of that line.  Here [9a] is written at byte
    15 but reported at byte 16. *)
Definition shifted_src : str :=
  s_of "cat <<-E" ++ [c_newline; c_tab] ++ s_of "aa ${9a}" ++ [c_tab] ++ s_of "b" ++ [c_newline] ++
  s_of "E" ++ [c_newline].
Theorem error_positions_heredoc_refuted (U : Uni) :
  exists s' p, run concrete (p_complete_command default_builder 60) (ti_new (@lex U shifted_src)) tt
      = (OErr (BadSubst (TLiteral (s_of "9a")) p), s', tt) /\
    ~ written_at shifted_src (TLiteral (s_of "9a")) p.
Proof.
  eexists _, _. split; [vm_compute; reflexivity|].
  intros (a & b & E & Hp). apply (f_equal byte) in Hp. cbn in Hp.
  assert (L : length a = 16%nat).
  { assert (K : forall x y : str, shifted_src = x ++ y -> str_len x = length x).
    { assert (G : Forall (fun c => len_utf8 c = 1%nat) shifted_src) by (repeat constructor).
      intros x y Ex. rewrite Ex in G. apply Forall_app in G. destruct G as [G _].
      clear -G. induction G as [|c x Hc G IH]; [reflexivity|]. cbn [str_len length]. now rewrite Hc, IH. }
    rewrite <- (K _ _ E). symmetry. exact Hp. }

  apply (f_equal (skipn 16)) in E. rewrite skipn_app, L, Nat.sub_diag, (skipn_all2 a) in E by lia.
  discriminate E.
Qed.
