(** * Comparing runs: arithmetic *)
From Verif Require Import Base Token Pos Ast Builder Prog Located RunLemmas ParserBase Balanced Arith Sim.

Section SimArith.
Context {BS1 BE1 BS2 BE2 : Type}.
Variable RB : BS1 -> BS2 -> Prop.
Variable RE : BE1 -> BE2 -> Prop.
Notation sim := (sim RB RE).
Variables f1 f2 : nat.
Hypothesis Hf : (f1 <= f2)%nat.

(** The look-ahead for an assignment: the same answer, unless the first has too little fuel. *)
Definition fuel_le {A} (r1 r2 : option A) : Prop := r1 = None \/ r2 = r1.
Lemma look_assig_op : forall n m, (n <= m)%nat -> forall ts,
  fuel_le (look (assig_try_op n) ts) (look (assig_try_op m) ts).
Proof.
  intros n; induction n as [|n IH]; intros m Hle ts; [left; reflexivity|].
  destruct m as [|m]; [lia|]. cbn [assig_try_op look]. 
  destruct (hd_error ts) as [[]|]; try (right; reflexivity). apply IH. lia.
Qed.
Lemma look_assig : forall n m, (n <= m)%nat -> forall ts,
  fuel_le (look (assig_try f1 n) ts) (look (assig_try f2 m) ts).
Proof.
  intros n; induction n as [|n IH]; intros m Hle ts; [left; reflexivity|].
  destruct m as [|m]; [lia|]. cbn [assig_try look].
  destruct (hd_error ts) as [[]|]; try (right; reflexivity); [apply IH; lia|apply look_assig_op; auto].
Qed.

Lemma sim_arith_var : sim same (arith_var f1) (arith_var f2).
Proof. unfold arith_var. repeat sim_step. Qed.
Hint Resolve sim_arith_var : sim.

Section K.
Variable K1 : arith_knots BS1 BE1.
Variable K2 : arith_knots BS2 BE2.
Record ak_rel : Prop := mkAkRel {
  ar_subst : sim same (k_subst K1) (k_subst K2);
  ar_assig : sim same (k_assig K1) (k_assig K2);
  ar_ternary : sim same (k_ternary K1) (k_ternary K2);
  ar_pow : sim same (k_pow K1) (k_pow K2);
  ar_unary : sim same (k_unary K1) (k_unary K2) }.
Hypothesis HK : ak_rel.
Let h1 := ar_subst HK. Let h2 := ar_assig HK. Let h3 := ar_ternary HK.
Let h4 := ar_pow HK. Let h5 := ar_unary HK.
Hint Resolve h1 h2 h3 h4 h5 : sim.

Lemma sim_post_incr : sim same (arith_post_incr f1 K1) (arith_post_incr f2 K2).
Proof. unfold arith_post_incr. repeat sim_step. Qed.
Hint Resolve sim_post_incr : sim.
Lemma sim_unary_misc : sim same (arith_unary_misc f1 K1) (arith_unary_misc f2 K2).
Proof. unfold arith_unary_misc. repeat sim_step. Qed.
Hint Resolve sim_unary_misc : sim.
Lemma sim_pow : sim same (arith_pow f1 K1) (arith_pow f2 K2).
Proof. unfold arith_pow. repeat sim_step. Qed.
Hint Resolve sim_pow : sim.

Lemma sim_binop n1 n2 op : sim same n1 n2 -> sim same (arith_binop f1 n1 op) (arith_binop f2 n2 op).
Proof.
  intros Hn. unfold arith_binop.
  assert (L : forall n m, (n <= m)%nat -> forall e,
    sim same (arith_binop_loop f1 n1 op n e) (arith_binop_loop f2 n2 op m e)).
  { sim_loop IH. cbn [arith_binop_loop]. repeat sim_step. }
  repeat sim_step.
Qed.
Lemma sim_shift : sim same (arith_shift f1 K1) (arith_shift f2 K2).
Proof. unfold arith_shift, arith_add, arith_mult. repeat apply sim_binop. apply sim_pow. Qed.
Hint Resolve sim_shift : sim.
Lemma sim_ineq : sim same (arith_ineq f1 K1) (arith_ineq f2 K2).
Proof.
  unfold arith_ineq.
  assert (L : forall n m, (n <= m)%nat -> forall e,
    sim same (arith_ineq_loop f1 K1 n e) (arith_ineq_loop f2 K2 m e)).
  { sim_loop IH. cbn [arith_ineq_loop]. repeat sim_step. }
  repeat sim_step.
Qed.
Hint Resolve sim_ineq : sim.
Lemma sim_eq : sim same (arith_eq f1 K1) (arith_eq f2 K2).
Proof.
  unfold arith_eq.
  assert (L : forall n m, (n <= m)%nat -> forall e,
    sim same (arith_eq_loop f1 K1 n e) (arith_eq_loop f2 K2 m e)).
  { sim_loop IH. cbn [arith_eq_loop]. repeat sim_step. }
  repeat sim_step.
Qed.
Lemma sim_logical_or : sim same (arith_logical_or f1 K1) (arith_logical_or f2 K2).
Proof.
  unfold arith_logical_or, arith_logical_and, arith_bitwise_or, arith_bitwise_xor, arith_bitwise_and.
  repeat apply sim_binop. apply sim_eq.
Qed.
Hint Resolve sim_logical_or : sim.
Lemma sim_ternary : sim same (arith_ternary f1 K1) (arith_ternary f2 K2).
Proof. unfold arith_ternary. repeat sim_step. Qed.
Hint Resolve sim_ternary : sim.
Lemma sim_assig : sim same (arith_assig f1 K1) (arith_assig f2 K2).
Proof.
  unfold arith_assig. sim_step.
  eapply sim_bind; [apply (sim_multipeek_gen _ _ fuel_le); apply look_assig; exact Hf|].
  intros r1 r2 [->|H]; [apply sim_fuel|subst r2]. repeat sim_step.
  eapply (sim_bind _ _ same); [repeat sim_step|]. intros op ? ->. repeat sim_step.
Qed.
Hint Resolve sim_assig : sim.
Lemma sim_subst_ : sim same (arithmetic_substitution_ f1 K1) (arithmetic_substitution_ f2 K2).
Proof.
  unfold arithmetic_substitution_.
  assert (L : forall n m, (n <= m)%nat -> forall e,
    sim same (arith_seq_loop f1 K1 n e) (arith_seq_loop f2 K2 m e)).
  { sim_loop IH. cbn [arith_seq_loop]. repeat sim_step. }
  repeat sim_step.
Qed.
End K.

Lemma sim_arith_knot : forall n m, (n <= m)%nat -> ak_rel (arith_knot f1 n) (arith_knot f2 m).
Proof.
  intros n; induction n as [|n IH]; intros m H.
  - split; apply sim_fuel.
  - destruct m as [|m]; [lia|]. cbn [arith_knot]. specialize (IH m ltac:(lia)).
    split; cbn [k_subst k_assig k_ternary k_pow k_unary].
    + now apply sim_subst_.
    + now apply sim_assig.
    + now apply sim_ternary.
    + now apply sim_pow.
    + now apply sim_unary_misc.
Qed.
Lemma sim_arithmetic_substitution : sim same (arithmetic_substitution f1) (arithmetic_substitution f2).
Proof. unfold arithmetic_substitution. apply (ar_subst _ _ (sim_arith_knot f1 f2 Hf)). Qed.
End SimArith.
#[global] Hint Resolve sim_arithmetic_substitution : sim.
