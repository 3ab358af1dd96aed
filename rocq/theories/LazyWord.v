(** * Reading ahead: arithmetic and words (C47) *)
From Verif Require Import Base Token Pos Ast Builder Prog Iter Located IterProofs RunLemmas ParserBase Balanced Arith Word Lazy.

Lemma calm_post_incr : calm post_incr_try.
Proof. unfold post_incr_try. calm_tac. Qed.
Lemma calm_double_star : calm double_star_try.
Proof. unfold double_star_try. calm_tac. Qed.
Lemma calm_assig_op : forall n, calm (assig_try_op n).
Proof.
  intros n. induction n as [|n IH]; [constructor|]. cbn [assig_try_op]. constructor; [|eexists; reflexivity].
  intros [t|] N; [destruct t|]; cbn; try solve [exfalso; apply N; reflexivity]; try constructor; try (eexists; reflexivity); try exact IH;
    intros; constructor.
Qed.
Lemma calm_assig n0 : forall n, calm (assig_try n0 n).
Proof.
  intros n. induction n as [|n IH]; [constructor|]. cbn [assig_try]. constructor; [|eexists; reflexivity].
  intros [t|] N; [destruct t|]; cbn; try solve [exfalso; apply N; reflexivity]; try constructor; try exact IH; apply calm_assig_op.
Qed.
Ltac lz_look L := eapply lz_bind; [apply lz_multipeek_neat; apply L|];
  let x := fresh "x" in let c := fresh "c" in intros x c ->.

Section Arithmetic.
Context {BS BE : Type}.
Notation prog := (prog BS BE).
Notation lz := (@lz BS BE _).
Notation neat p := (lz Neat p QN).
Variable fuel : nat.
Record ak_neat (K : arith_knots BS BE) : Prop := mkAkN {
  an1 : neat (k_subst K); an2 : neat (k_assig K); an3 : neat (k_ternary K);
  an4 : neat (k_pow K); an5 : neat (k_unary K) }.
Lemma neat_arith_var : neat (arith_var fuel).
Proof. unfold arith_var. repeat lz_step. Qed.
Hint Resolve neat_arith_var : lazy.
Section K.
Variable K : arith_knots BS BE.
Hypothesis HK : ak_neat K.
Let a1 := an1 K HK. Let a2 := an2 K HK. Let a3 := an3 K HK. Let a4 := an4 K HK. Let a5 := an5 K HK.
Hint Resolve a1 a2 a3 a4 a5 : lazy.
Lemma neat_post_incr : neat (arith_post_incr fuel K).
Proof. unfold arith_post_incr. repeat lz_step; lz_look calm_post_incr; repeat lz_step. Qed.
Hint Resolve neat_post_incr : lazy.
Lemma neat_unary : neat (arith_unary_misc fuel K).
Proof. unfold arith_unary_misc. repeat lz_step. Qed.
Hint Resolve neat_unary : lazy.
Lemma neat_pow : neat (arith_pow fuel K).
Proof. unfold arith_pow. repeat lz_step. lz_look calm_double_star. repeat lz_step. Qed.
Hint Resolve neat_pow : lazy.
Lemma neat_binop ne op : neat ne -> neat (arith_binop fuel ne op).
Proof.
  intros Hn. unfold arith_binop. lz_step.
  assert (L : forall n e, neat (arith_binop_loop fuel ne op n e)); [|apply L].
  intros n. induction n as [|n IH]; intros e; [apply lz_fuel|]. cbn [arith_binop_loop]. repeat lz_step.
Qed.
Lemma neat_shift : neat (arith_shift fuel K).
Proof. unfold arith_shift, arith_add, arith_mult. auto using neat_binop with lazy. Qed.
Hint Resolve neat_shift : lazy.
Lemma neat_ineq : neat (arith_ineq fuel K).
Proof.
  unfold arith_ineq. lz_step.
  assert (L : forall n e, neat (arith_ineq_loop fuel K n e)); [|apply L].
  intros n. induction n as [|n IH]; intros e; [apply lz_fuel|]. cbn [arith_ineq_loop]. repeat lz_step.
Qed.
Hint Resolve neat_ineq : lazy.
Lemma neat_eq : neat (arith_eq fuel K).
Proof.
  unfold arith_eq. lz_step.
  assert (L : forall n e, neat (arith_eq_loop fuel K n e)); [|apply L].
  intros n. induction n as [|n IH]; intros e; [apply lz_fuel|]. cbn [arith_eq_loop]. repeat lz_step.
Qed.
Hint Resolve neat_eq : lazy.
Lemma neat_logical_or : neat (arith_logical_or fuel K).
Proof.
  unfold arith_logical_or, arith_logical_and, arith_bitwise_or, arith_bitwise_xor, arith_bitwise_and.
  repeat apply neat_binop. apply neat_eq.
Qed.
Hint Resolve neat_logical_or : lazy.
Lemma neat_ternary : neat (arith_ternary fuel K).
Proof. unfold arith_ternary. repeat lz_step. Qed.
Hint Resolve neat_ternary : lazy.
Lemma neat_assig : neat (arith_assig fuel K).
Proof.
  unfold arith_assig. lz_step. lz_look (calm_assig fuel). destruct x as [[|]|]; [|lz_step|lz_step].
  do 2 lz_step. eapply (lz_bind _ _ _ QN).
  - eapply lz_mono; [apply lz_next_neat|]. intros ? ? [_ ->]. exists Neat. auto with lazy.
  - intros o cc3 ->. eapply (lz_bind _ _ _ QN); [repeat lz_step|]. intros op cc4 ->. repeat lz_step.
Qed.
Hint Resolve neat_assig : lazy.
Lemma neat_arith_subst : neat (arithmetic_substitution_ fuel K).
Proof.
  unfold arithmetic_substitution_.
  assert (L : forall n acc, neat (arith_seq_loop fuel K n acc)).
  { intros n. induction n as [|n IH]; intros acc; [apply lz_fuel|]. cbn [arith_seq_loop]. repeat lz_step. }
  eapply lz_bind; [apply L|]. intros es c1 ->. repeat lz_step.
Qed.
End K.
Lemma neat_arith_knot : forall n, ak_neat (arith_knot fuel n).
Proof.
  intros n. induction n as [|n IH]; cbn [arith_knot]; constructor; cbn; try apply lz_fuel;
    auto using neat_arith_subst, neat_assig, neat_ternary, neat_pow, neat_unary.
Qed.
Lemma neat_arithmetic : neat (arithmetic_substitution fuel).
Proof. unfold arithmetic_substitution. apply an1, neat_arith_knot. Qed.
End Arithmetic.
#[global] Hint Resolve neat_arithmetic : lazy.

Section Words.
Context {BS BE C : Type}.
Notation prog := (prog BS BE).
Notation lz := (@lz BS BE _).
Notation neat p := (lz Neat p QN).
Variable fuel : nat.
Variable K : knots BS BE C.
Definition newline_free (cfg : delimiters) : Prop := ~ In TNewline (reserved_tokens cfg) /\ ~ In TNewline (exact_tokens cfg).
Record k_neat : Prop := mkKN {
  kn_group : forall cfg, newline_free cfg -> lz Loose (k_group K cfg) QN;
  kn_param : neat (k_param K) }.
Hypothesis HK : k_neat.
Lemma kn_group_neat cfg : newline_free cfg -> neat (k_group K cfg).
Proof. intros H. eapply lz_le; [apply kn_group; assumption|constructor]. Qed.
Let h1 := kn_group_neat. Let h2 := kn_param HK.
Hint Extern 1 (newline_free _) => split; cbn; intuition discriminate : lazy.
Hint Resolve h1 h2 : lazy.

Lemma neat_backticked_raw : neat (backticked_raw fuel K).
Proof. unfold backticked_raw. repeat lz_step. Qed.
Hint Resolve neat_backticked_raw : lazy.
Lemma neat_interp_loop d p : forall n words buf, neat (word_interp_loop fuel K d p n words buf).
Proof.
  intros n. induction n as [|n IH]; intros words buf; [apply lz_fuel|]. cbn [word_interp_loop]. repeat lz_step.
Qed.
Lemma neat_interp d p : neat (word_interpolated_raw fuel K d p).
Proof. apply neat_interp_loop. Qed.
Hint Resolve neat_interp : lazy.
Lemma neat_word_loop d : forall n words, neat (word_loop fuel K d n words).
Proof.
  intros n. induction n as [|n IH]; intros words; [apply lz_fuel|]. cbn [word_loop]. lz_step.
  - destruct t; cbn [word_class_of]; repeat lz_step.
  - cbn [word_class_of]. repeat lz_step.
Qed.
Hint Resolve neat_word_loop : lazy.
Lemma neat_word_raw_with_delim d : neat (word_raw_with_delim fuel K d).
Proof. unfold word_raw_with_delim. repeat lz_step. Qed.
Hint Resolve neat_word_raw_with_delim : lazy.
Lemma neat_word_raw : neat (word_raw fuel K).
Proof. apply neat_word_raw_with_delim. Qed.
(** There is no word at a newline. *)
Lemma nl_word_raw : lz AtNL (word_raw fuel K) (fun r c => r = None /\ c = AtNL).
Proof.
  unfold word_raw, word_raw_with_delim. do 2 lz_step. cbn [otoken_eqb token_eqb].
  destruct fuel as [|n]; [eapply lz_bind; [apply lz_fuel with (Q := fun _ _ => False)|intros ? ? []]|].
  cbn [word_loop].
  eapply (lz_bind _ _ _ (fun r c => r = [] /\ c = AtNL)).
  - lz_step. cbn [word_class_of]. eapply lz_ret; [apply le_refl|auto].
  - intros ws c [-> ->]. eapply lz_ret; [apply le_refl|auto].
Qed.
Lemma neat_parameter_inner : neat (@parameter_inner BS BE).
Proof. unfold parameter_inner. repeat lz_step. Qed.
Hint Resolve neat_parameter_inner : lazy.
Lemma calm_escaped_newline : calm (MPeekNext (fun b => MRet (otoken_eqb b (Some TNewline)))).
Proof. constructor; [intros; constructor|eexists; reflexivity]. Qed.
Lemma calm_paren : calm (MPeekNext (fun b => MRet (otoken_eqb b (Some TParenOpen)))).
Proof. constructor; [intros; constructor|eexists; reflexivity]. Qed.
Lemma neat_capture_literals : forall n words, neat (@capture_literals BS BE C n words).
Proof.
  intros n. induction n as [|n IH]; intros words; [apply lz_fuel|]. cbn [capture_literals]. lz_step.
  - destruct t; cbn [subst_class_of]; try solve [repeat lz_step].
    eapply lz_bind; [apply lz_multipeek_head; [discriminate|exact calm_escaped_newline]|]. intros x ? ->. repeat lz_step.
  - cbn [subst_class_of]. repeat lz_step.
Qed.
Hint Resolve neat_capture_literals : lazy.
Lemma neat_capture_words : forall n words, neat (capture_words fuel K n words).
Proof.
  intros n. induction n as [|n IH]; intros words; [apply lz_fuel|]. cbn [capture_words]. repeat lz_step.
Qed.
Hint Resolve neat_capture_words : lazy.
Lemma neat_subst_word p : neat (parameter_substitution_word_raw fuel K p).
Proof. unfold parameter_substitution_word_raw. repeat lz_step. Qed.
Hint Resolve neat_subst_word : lazy.
Lemma neat_subst_body p q : neat (parameter_substitution_body_raw fuel K p q).
Proof. unfold parameter_substitution_body_raw. repeat lz_step. Qed.
Hint Resolve neat_subst_body : lazy.
Lemma neat_subshell_internal b : neat (subshell_internal K b).
Proof. unfold subshell_internal. repeat lz_step. Qed.
Hint Resolve neat_subshell_internal : lazy.
Lemma neat_paren_substitution : lz (Head TParenOpen) (paren_substitution fuel K) QN.
Proof.
  unfold paren_substitution. eapply lz_bind; [apply lz_multipeek_head; [discriminate|exact calm_paren]|]. intros x ? ->.
  destruct x; [|repeat lz_step]. do 5 lz_step.
  - eapply (lz_bind _ _ _ QN); [repeat lz_step|]. intros sb cc ->. repeat lz_step.
  - eapply (lz_bind _ _ _ QN); [repeat lz_step|]. intros sb cc ->. repeat lz_step.
Qed.
Hint Resolve neat_paren_substitution : lazy.
Lemma neat_curly p : neat (curly_substitution fuel K p).
Proof. unfold curly_substitution. repeat lz_step. Qed.
Hint Resolve neat_curly : lazy.
Lemma neat_subst_raw : neat (parameter_substitution_raw fuel K).
Proof. unfold parameter_substitution_raw. repeat lz_step. Qed.
Hint Resolve neat_subst_raw : lazy.
Lemma neat_parameter_raw : neat (parameter_raw fuel K).
Proof. unfold parameter_raw. repeat lz_step. Qed.
End Words.
#[export] Hint Extern 1 (newline_free _) => split; cbn; intuition discriminate : lazy.
