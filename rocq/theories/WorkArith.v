(** * How much a call does: arithmetic *)
From Verif Require Import Base Token Pos Ast Builder Prog Iter Located IterProofs RunLemmas ParserBase Balanced BalancedTotal Wp
  Total Arith Work WorkBase.
Local Open Scope Z_scope.

(** The look-ahead for an assignment. *)
Lemma assig_op_depth : forall n j l, (snd (look (counted j (assig_try_op n)) l) <= j + length l + 2)%nat.
Proof.
  induction n as [|n IH]; intros j l; cbn [assig_try_op counted look snd]; [lia|].
  destruct l as [|t l]; cbn [hd_error tl length]; [cbn; lia|].
  destruct t; cbn [counted look snd]; try lia. specialize (IH (S j) l). lia.
Qed.
Lemma assig_depth n0 : forall n j l, (snd (look (counted j (assig_try n0 n)) l) <= j + length l + 2)%nat.
Proof.
  induction n as [|n IH]; intros j l; cbn [assig_try counted look snd]; [lia|].
  destruct l as [|t l]; cbn [hd_error tl length]; [cbn; lia|].
  destruct t; cbn [counted look snd]; try lia.
  - specialize (IH (S j) l). lia.
  - pose proof (assig_op_depth n0 (S j) l). lia.
Qed.
Section Look.
Context {BS BE : Type}.
Notation prog := (prog BS BE).
Variables N P : Z.
Hypothesis HP : 20 <= P.
Lemma c_assig {A} n0 n k (r : A -> Z) (f : option bool -> prog A) l :
  (forall x, cost N P (k - 3 - N) r (f x) l) -> cost N P k r (bind (multipeek (assig_try n0 n)) f) l.
Proof.
  intros H HS b. specialize (H (look (assig_try n0 n) (map fst (toks l))) HS b). rewrite lrun_bind, lwork_bind, lrun_multipeek.
  pose proof (assig_depth n0 n 0 (map fst (toks l))) as W.
  assert (E : lwork (multipeek (assig_try n0 n) : prog _) l b <= 3 + N).
  { unfold lwork, multipeek. cbn [work located_ops it_multipeek]. unfold l_multipeek. cbn [fst snd].
    rewrite map_length in W. change (length (toks l)) with (size l) in W. unfold sz in HS. lia. }
  destruct (lrun _ l b) as [[[c|e|s|] l2] b2]; auto; lia.
Qed.
End Look.
#[local] Opaque cost Work.spec.

Section Ar.
Context {BS BE : Type}.
Notation prog := (prog BS BE).
Variables N P : Z.
Hypothesis HN : 0 <= N.
Hypothesis HP : 1000 + 10 * N <= P.
Notation spec := (spec N P).
Variable fuel : nat.

Ltac wleaf ::=
  lazymatch goal with
  | |- Work.spec _ _ _ _ (eat _) => apply s_eat
  | |- Work.spec _ _ _ _ (eat_maybe _) => apply s_eat_maybe
  | |- Work.spec _ _ _ _ (skip_whitespace _) => apply s_skip_whitespace
  | |- _ => whyp
  end; try lia.
Ltac wred ::= cbv beta iota.
Lemma s_weak {A} c c' g g' (p : prog A) : spec c (fun _ => g) p -> c <= c' -> g' <= g -> spec c' (fun _ => g') p.
Proof. intros H H1 H2. wspec. eapply c_end; [exact H|lia|intros; cbv beta; lia]. Qed.
Lemma s_arith_var : spec 20 (fun _ => P - 20) (arith_var fuel : prog _).
Proof. wspec. unfold arith_var. wk. Qed.

(** The recursive calls. *)
Definition ak_ok (K : arith_knots BS BE) : Prop :=
  spec (300 + N) (fun _ => 0) (k_subst K) /\ spec (300 + N) (fun _ => 0) (k_assig K) /\
  spec 200 (fun _ => 0) (k_ternary K) /\ spec 65 (fun _ => P - 70) (k_pow K) /\ spec 45 (fun _ => P - 50) (k_unary K).
Variable K : arith_knots BS BE.
Hypothesis HK : ak_ok K.
Lemma ks : spec (300 + N) (fun _ => 0) (k_subst K). Proof. apply HK. Qed.
Lemma ka : spec (300 + N) (fun _ => 0) (k_assig K). Proof. apply HK. Qed.
Lemma kt : spec 200 (fun _ => 0) (k_ternary K). Proof. apply HK. Qed.
Lemma kp : spec 65 (fun _ => P - 70) (k_pow K). Proof. apply HK. Qed.
Lemma ku : spec 45 (fun _ => P - 50) (k_unary K). Proof. apply HK. Qed.
Lemma s_post_incr : spec 35 (fun _ => P - 40) (arith_post_incr fuel K).
Proof.
  wspec. unfold arith_post_incr. pose proof ks. pose proof s_arith_var. wk1. wk1; [wk|]. wk1.
  destruct (literal_num (l_hd l'0)) as [z|] eqn:E.
  - destruct (l_hd l'0) as [t|] eqn:E'; [|discriminate]. wk.
  - wk.
Qed.
Lemma s_unary : spec 45 (fun _ => P - 50) (arith_unary_misc fuel K).
Proof.
  wspec. unfold arith_unary_misc. pose proof ku. pose proof s_arith_var. pose proof s_post_incr. wk.
Qed.
Lemma s_pow : spec 65 (fun _ => P - 70) (arith_pow fuel K).
Proof. wspec. unfold arith_pow. pose proof s_unary. pose proof kp. wk. Qed.
Lemma s_binop_loop c nx op : 0 <= c <= 200 -> spec c (fun _ => 0) nx ->
  forall n e, spec 10 (fun _ => -6) (arith_binop_loop (BS:=BS) (BE:=BE) fuel nx op n e).
Proof.
  intros Hc H. induction n as [|n IH]; intros e; wspec; cbn [arith_binop_loop]; wk.
Qed.
Lemma s_binop c g nx op : 30 <= c <= 200 -> 10 - c <= g -> 0 <= g -> spec c (fun _ => g) nx -> spec c (fun _ => g - 6) (arith_binop (BS:=BS) (BE:=BE) fuel nx op).
Proof.
  intros Hc Hg Hg0 H. wspec. unfold arith_binop.
  assert (H2 : spec c (fun _ => 0) nx).
  { eapply s_weak; [exact H|lia|lia]. }
  pose proof (s_binop_loop c nx op ltac:(lia) H2). clear H2. wk.
Qed.

Ltac bin H := unfold arith_mult, arith_add, arith_shift, arith_bitwise_and, arith_bitwise_xor, arith_bitwise_or,
    arith_logical_and, arith_logical_or;
  eapply s_weak; [eapply s_binop; [| | |apply H]; lia|lia|lia].
Lemma s_mult : spec 65 (fun _ => P - 76) (arith_mult fuel K).
Proof. bin s_pow. Qed.
Lemma s_add : spec 65 (fun _ => P - 82) (arith_add fuel K).
Proof. bin s_mult. Qed.
Lemma s_shift : spec 65 (fun _ => P - 88) (arith_shift fuel K).
Proof. bin s_add. Qed.
Lemma s_ineq_loop : forall n e, spec 10 (fun _ => -8) (arith_ineq_loop fuel K n e).
Proof. pose proof s_shift. induction n as [|n IH]; intros e; wspec; cbn [arith_ineq_loop]; wk. Qed.
Lemma s_ineq : spec 65 (fun _ => P - 98) (arith_ineq fuel K).
Proof. wspec. unfold arith_ineq. pose proof s_shift. pose proof s_ineq_loop. wk. Qed.
Lemma s_eq_loop : forall n e, spec 10 (fun _ => -8) (arith_eq_loop fuel K n e).
Proof. pose proof s_ineq. induction n as [|n IH]; intros e; wspec; cbn [arith_eq_loop]; wk. Qed.
Lemma s_eq : spec 65 (fun _ => P - 108) (arith_eq fuel K).
Proof. wspec. unfold arith_eq. pose proof s_ineq. pose proof s_eq_loop. wk. Qed.
Lemma s_bitwise_and : spec 65 (fun _ => P - 114) (arith_bitwise_and fuel K).
Proof. bin s_eq. Qed.
Lemma s_bitwise_xor : spec 65 (fun _ => P - 120) (arith_bitwise_xor fuel K).
Proof. bin s_bitwise_and. Qed.
Lemma s_bitwise_or : spec 65 (fun _ => P - 126) (arith_bitwise_or fuel K).
Proof. bin s_bitwise_xor. Qed.
Lemma s_logical_and : spec 65 (fun _ => P - 132) (arith_logical_and fuel K).
Proof. bin s_bitwise_or. Qed.
Lemma s_logical_or : spec 65 (fun _ => P - 138) (arith_logical_or fuel K).
Proof. bin s_logical_and. Qed.
Lemma s_ternary : spec 200 (fun _ => P - 200) (arith_ternary fuel K).
Proof. wspec. unfold arith_ternary. pose proof s_logical_or. pose proof kt. wk. Qed.
Ltac wk2 := lazymatch goal with |- cost _ _ _ _ (bind (multipeek (assig_try _ _)) _) _ => apply c_assig; intros ?; wred | _ => wk1 end.
Lemma s_assig : spec (250 + N) (fun _ => P - 250 - N) (arith_assig fuel K).
Proof. wspec. unfold arith_assig. pose proof s_arith_var. pose proof s_ternary. pose proof ka. repeat wk2. Qed.
Lemma s_seq_loop : forall n acc, spec (270 + N) (fun _ => P - 270 - N) (arith_seq_loop fuel K n acc).
Proof. pose proof s_assig. induction n as [|n IH]; intros acc; wspec; cbn [arith_seq_loop]; wk. Qed.
Lemma s_subst : spec (270 + N) (fun _ => P - 270 - N) (arithmetic_substitution_ fuel K).
Proof. wspec. unfold arithmetic_substitution_. pose proof s_seq_loop. wk. Qed.
End Ar.

Section Knot.
Context {BS BE : Type}.
Notation prog := (prog BS BE).
Variables N P : Z.
Hypothesis HN : 0 <= N.
Hypothesis HP : 1000 + 10 * N <= P.
Variable fuel : nat.
Lemma ak_knot : forall n, ak_ok N P (arith_knot fuel n : arith_knots BS BE).
Proof.
  induction n as [|n IH]; unfold ak_ok; cbn [arith_knot k_subst k_assig k_ternary k_pow k_unary].
  - repeat split; wspec; wk.
  - repeat split; (eapply s_weak; [first [apply (s_subst N P HN HP fuel _ IH)|apply (s_assig N P HN HP fuel _ IH)
      |apply (s_ternary N P HN HP fuel _ IH)|apply (s_pow N P HN HP fuel _ IH)|apply (s_unary N P HN HP fuel _ IH)]|lia|lia]).
Qed.
(** [$((...))]: the text of an expression. *)
Lemma s_arith : Work.spec N P (300 + N) (fun _ => 0) (arithmetic_substitution fuel : prog _).
Proof. apply ak_knot. Qed.
End Knot.
