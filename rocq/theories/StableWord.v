(** * Errors that more input cannot repair: arithmetic and words *)
From Verif Require Import Base Token Pos Ast Builder Prog Located RunLemmas ParserBase BaseRun Balanced
  Arith Word Stable.

Ltac second H := match type of H with whole_lines (?t :: ?ts) =>
  let u := fresh "u" in let us := fresh "us" in let Hw := fresh "Hw" in
  destruct (whole_second t ts H ltac:(discriminate)) as (u & us & -> & Hw) end.
Lemma insens_post_incr : insensitive (fun _ => True) post_incr_try.
Proof. insens. destruct t; try reflexivity; second H; reflexivity. Qed.
Lemma insens_double_star : insensitive (fun _ => True) double_star_try.
Proof. insens. destruct t; try reflexivity; second H; reflexivity. Qed.
Lemma insens_assig_op : forall n, insensitive (fun _ => True) (assig_try_op n).
Proof.
  intros n. induction n as [|n IH]; [intros ? ? ? _ _; reflexivity|]. insens.
  destruct t; try reflexivity; second H; try reflexivity. exact (IH _ _ more I Hw).
Qed.
Lemma insens_assig n0 : forall n, insensitive (fun _ => True) (assig_try n0 n).
Proof.
  intros n. induction n as [|n IH]; [intros ? ? ? _ _; reflexivity|]. insens.
  destruct t; try reflexivity; second H; [exact (IH _ _ more I Hw)|exact (insens_assig_op n0 _ _ more I Hw)].
Qed.
Ltac st_look L := eapply stable_bind; [apply stable_multipeek; apply L|];
  let x := fresh "x" in let c := fresh "c" in intros x c _.

Section Arithmetic.
Context {BS BE : Type}.
Notation prog := (prog BS BE).
Notation steady p := (forall c, @stable BS BE _ c p always).
Notation stab := (@stable BS BE _).
Variable fuel : nat.
Record ak_steady (K : arith_knots BS BE) : Prop := mkAkS {
  as1 : steady (k_subst K); as2 : steady (k_assig K); as3 : steady (k_ternary K);
  as4 : steady (k_pow K); as5 : steady (k_unary K) }.
Lemma steady_arith_var : steady (arith_var fuel).
Proof. unfold arith_var. repeat st_step. Qed.
Hint Resolve steady_arith_var : stable.
Section K.
Variable K : arith_knots BS BE.
Hypothesis HK : ak_steady K.
Let a1 := as1 K HK. Let a2 := as2 K HK. Let a3 := as3 K HK. Let a4 := as4 K HK. Let a5 := as5 K HK.
Hint Resolve a1 a2 a3 a4 a5 : stable.
Lemma steady_post_incr : steady (arith_post_incr fuel K).
Proof. unfold arith_post_incr. repeat st_step; st_look insens_post_incr; repeat st_step. Qed.
Hint Resolve steady_post_incr : stable.
Lemma steady_unary : steady (arith_unary_misc fuel K).
Proof. unfold arith_unary_misc. repeat st_step. Qed.
Hint Resolve steady_unary : stable.
Lemma steady_pow : steady (arith_pow fuel K).
Proof. unfold arith_pow. repeat st_step. st_look insens_double_star. repeat st_step. Qed.
Hint Resolve steady_pow : stable.
Lemma steady_binop ne op : steady ne -> steady (arith_binop fuel ne op).
Proof.
  intros Hn c. unfold arith_binop. st_step.
  assert (L : forall n e, steady (arith_binop_loop fuel ne op n e)); [|apply L].
  intros n. induction n as [|n IH]; intros e c1; [apply stable_fuel|]. cbn [arith_binop_loop]. repeat st_step.
Qed.
Lemma steady_shift : steady (arith_shift fuel K).
Proof. unfold arith_shift, arith_add, arith_mult. auto using steady_binop with stable. Qed.
Hint Resolve steady_shift : stable.
Lemma steady_ineq : steady (arith_ineq fuel K).
Proof.
  intros c. unfold arith_ineq. st_step.
  assert (L : forall n e, steady (arith_ineq_loop fuel K n e)); [|apply L].
  intros n. induction n as [|n IH]; intros e c1; [apply stable_fuel|]. cbn [arith_ineq_loop]. repeat st_step.
Qed.
Hint Resolve steady_ineq : stable.
Lemma steady_eq : steady (arith_eq fuel K).
Proof.
  intros c. unfold arith_eq. st_step.
  assert (L : forall n e, steady (arith_eq_loop fuel K n e)); [|apply L].
  intros n. induction n as [|n IH]; intros e c1; [apply stable_fuel|]. cbn [arith_eq_loop]. repeat st_step.
Qed.
Hint Resolve steady_eq : stable.
Lemma steady_logical_or : steady (arith_logical_or fuel K).
Proof.
  unfold arith_logical_or, arith_logical_and, arith_bitwise_or, arith_bitwise_xor, arith_bitwise_and.
  repeat apply steady_binop. apply steady_eq.
Qed.
Hint Resolve steady_logical_or : stable.
Lemma steady_ternary : steady (arith_ternary fuel K).
Proof. unfold arith_ternary. repeat st_step. Qed.
Hint Resolve steady_ternary : stable.
Lemma steady_assig : steady (arith_assig fuel K).
Proof.
  intros c. unfold arith_assig. st_step. st_look (insens_assig fuel). destruct x as [[|]|]; [|st_step|st_step].
  do 2 st_step. eapply (stable_bind _ _ _ always).
  - eapply steady_of. eapply stable_mono; [apply stable_next|]. intros ? ? HH. exact HH.
  - intros o cc3 _. eapply (stable_bind _ _ _ always); [repeat st_step|]. intros op cc4 _. repeat st_step.
Qed.
Hint Resolve steady_assig : stable.
Lemma steady_arith_subst : steady (arithmetic_substitution_ fuel K).
Proof.
  intros c. unfold arithmetic_substitution_.
  assert (L : forall n acc, steady (arith_seq_loop fuel K n acc)).
  { intros n. induction n as [|n IH]; intros acc c1; [apply stable_fuel|]. cbn [arith_seq_loop]. repeat st_step. }
  eapply stable_bind; [apply L|]. intros es c1 _. repeat st_step.
Qed.
End K.
Lemma steady_arith_knot : forall n, ak_steady (arith_knot fuel n).
Proof.
  intros n. induction n as [|n IH]; cbn [arith_knot]; constructor; cbn; try (intros c; apply stable_fuel);
    auto using steady_arith_subst, steady_assig, steady_ternary, steady_pow, steady_unary.
Qed.
Lemma steady_arithmetic : steady (arithmetic_substitution fuel).
Proof. unfold arithmetic_substitution. apply as1, steady_arith_knot. Qed.
End Arithmetic.
#[global] Hint Resolve steady_arithmetic : stable.

Section Words.
Context {BS BE C : Type}.
Notation prog := (prog BS BE).
Notation steady p := (forall c, @stable BS BE _ c p always).
Notation stab := (@stable BS BE _).
Variable fuel : nat.
Variable K : knots BS BE C.
Record k_steady : Prop := mkKS {
  ks_group : forall cfg, ~ In TNewline (reserved_tokens cfg) -> steady (k_group K cfg);
  ks_param : steady (k_param K) }.
Hypothesis HK : k_steady.
Let h1 := ks_group HK. Let h2 := ks_param HK.
Hint Resolve h1 h2 : stable.

Lemma stable_backticked_raw c : c <> Ended -> stab c (backticked_raw fuel K) always.
Proof.
  intros Hc. unfold backticked_raw. st_step.
  eapply (stable_bind _ _ _ (fun _ c' => c' <> Ended)).
  { unfold eat. destruct c as [|t|]; [| |congruence].
    - st_step; [|cbn; apply stable_unexpected]. destruct (otoken_eqb _ _); [|apply stable_unexpected].
      st_step. apply stable_ret. discriminate.
    - st_step. destruct (otoken_eqb _ _); [|apply stable_unexpected]. st_step. apply stable_ret. discriminate. }
  intros _ c1 H1. eapply stable_bind; [apply stable_token_iter; exact H1|]. intros i c2 H2.
  eapply stable_bind; [apply stable_sub; exact H2|]. intros g c3 _. repeat st_step.
Qed.
Hint Extern 1 (_ <> Ended) => discriminate : stable.
Hint Resolve stable_backticked_raw : stable.

Lemma steady_interp_loop d p : forall n words buf, steady (word_interp_loop fuel K d p n words buf).
Proof.
  intros n. induction n as [|n IH]; intros words buf c; [apply stable_fuel|]. cbn [word_interp_loop]. repeat st_step.
Qed.
Lemma steady_interp d p : steady (word_interpolated_raw fuel K d p).
Proof. apply steady_interp_loop. Qed.
Hint Resolve steady_interp : stable.
Lemma steady_word_loop d : forall n words, steady (word_loop fuel K d n words).
Proof.
  intros n. induction n as [|n IH]; intros words c; [apply stable_fuel|]. cbn [word_loop]. st_step.
  - destruct t; cbn [word_class_of]; repeat st_step.
  - cbn [word_class_of]. repeat st_step.
Qed.
Hint Resolve steady_word_loop : stable.
Lemma steady_word_raw_with_delim d : steady (word_raw_with_delim fuel K d).
Proof. unfold word_raw_with_delim. repeat st_step. Qed.
Hint Resolve steady_word_raw_with_delim : stable.
Lemma steady_word_raw : steady (word_raw fuel K).
Proof. apply steady_word_raw_with_delim. Qed.
Lemma steady_parameter_inner : steady (@parameter_inner BS BE).
Proof. unfold parameter_inner. repeat st_step. Qed.
Hint Resolve steady_parameter_inner : stable.
Lemma insens_escaped_newline : insensitive (eq TBackslash) escaped_newline_try.
Proof. intros t ts more <- H. second H. reflexivity. Qed.
Lemma insens_arith : insensitive (eq TParenOpen) arith_try.
Proof. intros t ts more <- H. second H. reflexivity. Qed.
Lemma steady_capture_literals : forall n words, steady (@capture_literals BS BE C n words).
Proof.
  intros n. induction n as [|n IH]; intros words c; [apply stable_fuel|]. cbn [capture_literals]. st_step.
  - destruct t; cbn [subst_class_of]; try solve [repeat st_step].
    eapply stable_bind; [apply stable_multipeek_at, insens_escaped_newline|]. intros x ? ->. repeat st_step.
  - cbn [subst_class_of]. repeat st_step.
Qed.
Hint Resolve steady_capture_literals : stable.
Lemma steady_capture_words : forall n words, steady (capture_words fuel K n words).
Proof.
  intros n. induction n as [|n IH]; intros words c; [apply stable_fuel|]. cbn [capture_words]. repeat st_step.
Qed.
Hint Resolve steady_capture_words : stable.
Lemma steady_subst_word p : steady (parameter_substitution_word_raw fuel K p).
Proof. unfold parameter_substitution_word_raw. repeat st_step. Qed.
Hint Resolve steady_subst_word : stable.
Lemma steady_subst_body p q : steady (parameter_substitution_body_raw fuel K p q).
Proof. unfold parameter_substitution_body_raw. repeat st_step. Qed.
Hint Resolve steady_subst_body : stable.
Lemma steady_subshell_internal b : steady (subshell_internal K b).
Proof. unfold subshell_internal. repeat st_step. Qed.
Hint Resolve steady_subshell_internal : stable.
Lemma stable_paren_substitution : stab (Head TParenOpen) (paren_substitution fuel K) always.
Proof.
  unfold paren_substitution. eapply stable_bind; [apply stable_multipeek_at, insens_arith|]. intros x ? ->.
  destruct x; [|repeat st_step]. do 4 st_step.
  - eapply (stable_bind _ _ _ always); [repeat st_step|]. intros sb cc _. repeat st_step.
  - eapply (stable_bind _ _ _ always); [repeat st_step|]. intros sb cc _. repeat st_step.
Qed.
Hint Resolve stable_paren_substitution : stable.
Lemma steady_curly p : steady (curly_substitution fuel K p).
Proof. unfold curly_substitution. repeat st_step. Qed.
Hint Resolve steady_curly : stable.
Lemma steady_subst_raw : steady (parameter_substitution_raw fuel K).
Proof. unfold parameter_substitution_raw. repeat st_step. Qed.
Hint Resolve steady_subst_raw : stable.
Lemma steady_parameter_raw : steady (parameter_raw fuel K).
Proof. unfold parameter_raw. repeat st_step. Qed.
End Words.
