(** * Comments are captured verbatim and end at the newline (C26) *)
From Coq Require Import String.
From Verif Require Import Base Token Pos Lexer LexSpec LexProofs LexTheorems Relex Seams Ast Builder Prog Iter Located IterProofs ParserBase Balanced
  BalancedSpec Arith Word Redirect Command DefaultBuilder RunLemmas Entry Api Total Runs Raises Pure ArithSpec ArithRuns
  Forms BaseForms WordRuns CommandRuns FormsRuns FormsTheorems Quotes.
Local Open Scope N_scope.

Section Comments.
Context {U : Uni}.
(** What follows a token that cannot be a backslash is lexed on its own. *)
Lemma Lexes_suffix s ts : Lexes s ts -> forall a t b, ts = a ++ t :: b -> t <> TBackslash -> Lexes (text b) b.
Proof.
  assert (Tx : forall s ts, Lexes s ts -> text ts = s).
  { intros x xs H. apply lex_maximal_munch in H. rewrite <- H. apply lex_text. }
  induction 1 as [|t' s ts Ho Hl H IH|w s ts H1 H2 H3 H IH|c w s ts H1 H2 H3 H IH|c w s ts H1 H2 H3 H4 H IH| |c t' s ts H1 IH1 H IH];
    intros a t b E Ht.
  - now destruct a.
  - destruct a as [|x a]; injection E as -> E; [subst; now rewrite (Tx _ _ H)|now apply (IH a t b)].
  - destruct a as [|x a]; injection E as <- E; [subst; now rewrite (Tx _ _ H)|now apply (IH a t b)].
  - destruct a as [|x a]; injection E as <- E; [subst; now rewrite (Tx _ _ H)|now apply (IH a t b)].
  - destruct a as [|x a]; injection E as <- E; [subst; now rewrite (Tx _ _ H)|now apply (IH a t b)].
  - destruct a as [|x [|y a]]; injection E as <- E; [now elim Ht|discriminate|discriminate].
  - destruct a as [|x [|y a]]; [injection E as <- E; now elim Ht|..].
    + injection E as <- -> E. subst. now rewrite (Tx _ _ H).
    + injection E as <- <- E. now apply (IH a t b).
Qed.
Ltac onlyt := apply only_token_special; [reflexivity|exact I|intros t Ho Hin; destruct t; try (now elim Ho);
    try reflexivity; exfalso; cbn in Hin;
    repeat match goal with p : positional |- _ => destruct p; cbn in Hin end;
    repeat (destruct Hin as [Hin|Hin]; [discriminate Hin|]); exact Hin|reflexivity|discriminate].
Lemma only_pound : only_token 35 TPound. Proof. onlyt. Qed.
Lemma only_newline : only_token 10 TNewline.
Proof.
  split; [reflexivity|]. intros t Hl Hin. destruct (operator_dec t) as [Ht|Ht].
  - destruct t; try (now elim Ht); try reflexivity; exfalso; cbn in Hin;
    repeat match goal with p : positional |- _ => destruct p; cbn in Hin end;
    repeat (destruct Hin as [Hin|Hin]; [discriminate Hin|]); exact Hin.
  - destruct t; try (now elim Ht); exfalso.
    + cbn in Hin. destruct Hin as [Hin|[]]. discriminate.
    + destruct Hl as [_ Hl]. rewrite Forall_forall in Hl. destruct (Hl 10 Hin) as [_ X]. now apply X.
    + destruct s as [|d s]; [contradiction|]. destruct Hl as (H1 & _ & H2). rewrite Forall_forall in H2.
      destruct Hin as [->|Hin]; [destruct H1 as [X _]; discriminate|]. destruct (H2 10 Hin) as [X _]. discriminate.
    + destruct s as [|d s]; [contradiction|]. destruct Hl as ([H1 _] & H2). rewrite Forall_forall in H2.
      destruct Hin as [->|Hin]; [destruct H1 as [X _]; discriminate|]. destruct (H2 10 Hin) as [[X _] _]. discriminate.
Qed.
Lemma not_in_text c t0 ts : as_str t0 = [c] -> ~ In c (text ts) -> ~ In t0 ts.
Proof.
  intros E H Hin. apply H. clear H. induction ts as [|t ts IH]; [contradiction|]. rewrite text_cons. apply in_app_iff.
  destruct Hin as [->|Hin]; [left; rewrite E; now left|right; auto].
Qed.
(** Splitting a source at a character that is always a token by itself. *)
Lemma lex_split c t0 s r : only_token c t0 -> t0 <> TBackslash -> ~ In c s ->
  exists ts, lex (s ++ c :: r) = ts ++ t0 :: lex r /\ text ts = s /\ ~ In t0 ts /\ Forall lexable ts.
Proof.
  intros Hc Hb Hs.
  destruct (split_text c t0 Hc (lex (s ++ c :: r)) s r (lex_all_lexable _) (lex_text _)) as (ts & L & E & E1 & E2).
  exists ts. rewrite E. repeat split.
  - f_equal. f_equal. rewrite <- E2. symmetry. apply lex_maximal_munch.
    apply (Lexes_suffix (s ++ c :: r) (lex (s ++ c :: r)) ltac:(now apply lex_maximal_munch) ts t0 L E Hb).
  - exact E1.
  - apply (not_in_text c); [apply Hc|now rewrite E1].
  - pose proof (lex_all_lexable (s ++ c :: r)) as HF. rewrite E in HF. now apply Forall_app in HF.
Qed.

(** A comment, up to the end of the line or the end of the source. *)
Definition comment (s : str) : str := 35 :: s.
Lemma lex_comment s r : ~ In 10 s ->
  exists c, lex (comment s ++ 10 :: r) = TPound :: c ++ TNewline :: lex r /\ text (TPound :: c) = comment s /\ ~ In TNewline c.
Proof.
  intros Hs. destruct (lex_split 10 TNewline (comment s) r only_newline) as (ts & E & Et & Hn & HF).
  { discriminate. } { intros [H|H]; [discriminate|contradiction]. }
  destruct (split_text 35 TPound only_pound ts [] s HF Et) as (ts0 & c & -> & E0 & E1).
  apply Forall_app in HF as [HF _]. apply text_nil in E0; [|exact HF]. subst ts0. cbn [app] in *.
  exists c. split; [exact E|]. split; [exact Et|]. intros H. apply Hn. now right.
Qed.
Lemma lex_comment_end s : ~ In 10 s ->
  exists c, lex (comment s) = TPound :: c /\ text (TPound :: c) = comment s /\ ~ In TNewline c.
Proof.
  intros Hs. pose proof (lex_all_lexable (comment s)) as HF. pose proof (lex_text (comment s)) as Et.
  destruct (split_text 35 TPound only_pound (lex (comment s)) [] s HF Et) as (ts0 & c & E & E0 & E1).
  rewrite E in HF. apply Forall_app in HF as [HF _]. apply text_nil in E0; [|exact HF]. subst ts0. cbn [app] in *.
  exists c. split; [exact E|]. split; [congruence|]. apply (not_in_text 10); [reflexivity|now rewrite E1].
Qed.

Section Builder.
Variables (B : builder) (P : pure B) (b : bst B) (fuel : nat).
Notation parse m src := (run concrete (call B m fuel) (ti_new (lex src)) b).
Definition enough (src : str) : Prop := (List.length (lex src) + 2 < fuel)%nat.

(** [Parser::newline] returns the comment and stops after the newline. *)
Theorem comment_captured s r : ~ In 10 s -> enough (comment s ++ 10 :: r) ->
  exists st, parse ANewline (comment s ++ 10 :: r) = (OOk (Some (Newline (Some (comment s)))), st, b) /\ tokens_left st = lex r.
Proof.
  intros Hs Hf. destruct (lex_comment s r Hs) as (c & E & Et & Hn).
  apply (runs_concrete B ANewline fuel (ti_new (lex _)) b); [apply pr_new|exact Hf|].
  change (tokens_left (ti_new ?x)) with x. rewrite E. cbn [call]. apply runs_newline, mn_some. rewrite <- Et.
  apply (nf_comment _ c); [reflexivity|exact Hn].
Qed.
Theorem comment_captured_end s : ~ In 10 s -> enough (comment s) ->
  exists st, parse ANewline (comment s) = (OOk (Some (Newline (Some (comment s)))), st, b) /\ tokens_left st = [].
Proof.
  intros Hs Hf. destruct (lex_comment_end s Hs) as (c & E & Et & Hn).
  apply (runs_concrete B ANewline fuel (ti_new (lex _)) b); [apply pr_new|exact Hf|].
  change (tokens_left (ti_new ?x)) with x. rewrite E. cbn [call]. apply runs_newline, mn_some. rewrite <- Et.
  apply nf_comment_end; [reflexivity|exact Hn].
Qed.
(** Where a command may start, the comment is handed to the builder in front of the comments of the
    rest, and the command that follows is read as it would be without it. *)
Theorem comment_before_command s r ns c mid rest : ~ In 10 s -> enough (comment s ++ 10 :: r) ->
  newlines ns (lex r) mid -> mid <> [] ->
  complete_form B P (Newline (Some (comment s)) :: ns) c mid rest ->
  exists st, parse ACompleteCommand (comment s ++ 10 :: r) = (OOk (Some c), st, b) /\ tokens_left st = rest.
Proof.
  intros Hs Hf Hn Hm Hc. destruct (lex_comment s r Hs) as (ct & E & Et & Hnl).
  apply (complete_command_read B P fuel (ti_new (lex _)) b (pr_new _ _ _) Hf (Newline (Some (comment s)) :: ns) c mid rest); auto.
  change (tokens_left (ti_new ?x)) with x. rewrite E. eapply ns_cons; [|exact Hn]. rewrite <- Et.
  apply (nf_comment _ ct); [reflexivity|exact Hnl].
Qed.
End Builder.
End Comments.

(** A case that meets the hypotheses: the comment holds quotes, a dollar sign and a final backslash. *)
Example comment_witness (U : Uni := fun _ => false) :
  exists st, run concrete (call default_builder ACompleteCommand 100)
      (ti_new (lex (comment (s_of " it's $(a ""b \") ++ 10 :: s_of "x")%N)) tt
    = (OOk (Some (TLCmd (CList (mkAOL (LSingle (PSimple (mkSC [] [DCmdWord (TLWord (WSingle (WSimple (WLiteral (s_of "x")))))]))) [])))), st, tt).
Proof. eexists. vm_compute. reflexivity. Qed.
