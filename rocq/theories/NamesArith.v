(** * Sources that differ in names and blanks: arithmetic *)
From Verif Require Import Base Token Pos Ast Builder Prog Located RunLemmas ParserBase Balanced Arith Names.

(** An expression with the variables' names replaced. *)
Fixpoint narith (a : arith) : arith :=
  match a with
  | AVar v => AVar (norm v)
  | ALiteral z => ALiteral z
  | APow a b => APow (narith a) (narith b)
  | APostIncr v => APostIncr (norm v) | APostDecr v => APostDecr (norm v)
  | APreIncr v => APreIncr (norm v) | APreDecr v => APreDecr (norm v)
  | AUnaryPlus a => AUnaryPlus (narith a) | AUnaryMinus a => AUnaryMinus (narith a)
  | ALogicalNot a => ALogicalNot (narith a) | ABitwiseNot a => ABitwiseNot (narith a)
  | AMult a b => AMult (narith a) (narith b) | ADiv a b => ADiv (narith a) (narith b)
  | AModulo a b => AModulo (narith a) (narith b)
  | AAdd a b => AAdd (narith a) (narith b) | ASub a b => ASub (narith a) (narith b)
  | AShiftLeft a b => AShiftLeft (narith a) (narith b) | AShiftRight a b => AShiftRight (narith a) (narith b)
  | ALess a b => ALess (narith a) (narith b) | ALessEq a b => ALessEq (narith a) (narith b)
  | AGreat a b => AGreat (narith a) (narith b) | AGreatEq a b => AGreatEq (narith a) (narith b)
  | AEq a b => AEq (narith a) (narith b) | ANotEq a b => ANotEq (narith a) (narith b)
  | ABitwiseAnd a b => ABitwiseAnd (narith a) (narith b) | ABitwiseXor a b => ABitwiseXor (narith a) (narith b)
  | ABitwiseOr a b => ABitwiseOr (narith a) (narith b)
  | ALogicalAnd a b => ALogicalAnd (narith a) (narith b) | ALogicalOr a b => ALogicalOr (narith a) (narith b)
  | ATernary a b c => ATernary (narith a) (narith b) (narith c)
  | AAssign v a => AAssign (norm v) (narith a)
  | ASequence l => ASequence (map narith l)
  end.
Notation RA := (by_ narith).
Notation RS := (by_ norm).

Ltac nfin := unfold by_ in *; cbn [narith map]; congruence.
(** A bind whose first half is not a single known program. *)
Ltac abind R := eapply (rel_bind R); [repeat rel_step|let a := fresh "e" in let b := fresh "e" in let H := fresh "H" in intros a b H; rel_clean; rel_red].

Section NA.
Context {BS BE : Type}.
Notation rel := (@rel BS BE _).
Variable f : nat.

Lemma ml_assig_op : forall n, mlike eq (assig_try_op n) (assig_try_op n).
Proof.
  induction n as [|n IH]; [apply ml_ret; reflexivity|]. cbn [assig_try_op]. ml_step.
  match goal with H : OTR _ _ |- _ => destruct H as [|t Ht|? ? ? ?|? ? ? ?] end; try (apply ml_ret; reflexivity); try exact IH.
  destruct t; try (apply ml_ret; reflexivity); try exact IH; repeat ml_step.
Qed.
Lemma ml_assig : forall n, mlike eq (assig_try f n) (assig_try f n).
Proof.
  induction n as [|n IH]; [apply ml_ret; reflexivity|]. cbn [assig_try]. ml_step.
  match goal with H : OTR _ _ |- _ => destruct H as [|t Ht|? ? ? ?|? ? ? ?] end; try (apply ml_ret; reflexivity); try apply ml_assig_op.
  destruct t; try (apply ml_ret; reflexivity); try exact IH; apply ml_assig_op.
Qed.
Lemma ml_post_incr : mlike eq post_incr_try post_incr_try.
Proof.
  unfold post_incr_try. ml_step.
  match goal with H : OTR _ _ |- _ => destruct H as [|t Ht|? ? ? ?|? ? ? ?] end; try (apply ml_ret; reflexivity).
  destruct t; try (apply ml_ret; reflexivity); repeat ml_step.
Qed.
Lemma ml_double_star : mlike eq double_star_try double_star_try.
Proof. unfold double_star_try. repeat ml_step. Qed.
Lemma literal_num_like a b : OTR a b -> literal_num a = literal_num b.
Proof. destruct 1; reflexivity. Qed.

Lemma rel_arith_var : rel RS (arith_var f) (arith_var f).
Proof. unfold arith_var. repeat rel_step. all: unfold by_; auto with rel. Qed.
Hint Resolve rel_arith_var : rel.

Section K.
Variable K : @arith_knots BS BE.
Record ak_like : Prop := mkAkLike {
  al_subst : rel RA (k_subst K) (k_subst K);
  al_assig : rel RA (k_assig K) (k_assig K);
  al_ternary : rel RA (k_ternary K) (k_ternary K);
  al_pow : rel RA (k_pow K) (k_pow K);
  al_unary : rel RA (k_unary K) (k_unary K) }.
Hypothesis HK : ak_like.
Let h1 := al_subst HK. Let h2 := al_assig HK. Let h3 := al_ternary HK.
Let h4 := al_pow HK. Let h5 := al_unary HK.
Hint Resolve h1 h2 h3 h4 h5 : rel.
Lemma rel_post_incr : rel RA (arith_post_incr f K) (arith_post_incr f K).
Proof.
  unfold arith_post_incr. rel_step. rel_step. rel_step; [repeat rel_step; nfin|].
  rel_step. match goal with H : OTR ?x ?y |- _ => rewrite (literal_num_like _ _ H); destruct (literal_num y); [repeat rel_step|] end.
  rel_step. rel_step. eapply rel_bind; [apply rel_multipeek, ml_post_incr|]. intros pi ? <-.
  destruct pi; [|apply rel_ret; nfin]. repeat rel_step. all: try apply rel_ret; nfin.
Qed.
Hint Resolve rel_post_incr : rel.
Lemma rel_unary_misc : rel RA (arith_unary_misc f K) (arith_unary_misc f K).
Proof. unfold arith_unary_misc. repeat rel_step. all: try apply rel_ret; nfin. Qed.
Hint Resolve rel_unary_misc : rel.
Lemma rel_pow : rel RA (arith_pow f K) (arith_pow f K).
Proof.
  unfold arith_pow. rel_step. rel_step. eapply rel_bind; [apply rel_multipeek, ml_double_star|]. intros pi ? <-.
  repeat rel_step. all: try apply rel_ret; nfin.
Qed.
Hint Resolve rel_pow : rel.
Definition op_ok (op : token -> option (arith -> arith -> arith)) : Prop :=
  (forall s, op (TName s) = None) /\ (forall s, op (TWhitespace s) = None) /\
  forall t c, op t = Some c -> forall e1 e2 r1 r2, RA e1 e2 -> RA r1 r2 -> RA (c e1 r1) (c e2 r2).
Lemma rel_binop n op : op_ok op -> rel RA n n -> rel RA (arith_binop f n op) (arith_binop f n op).
Proof.
  intros (H1 & H2 & H3) Hn. unfold arith_binop.
  assert (L : forall m e1 e2, RA e1 e2 -> rel RA (arith_binop_loop f n op m e1) (arith_binop_loop f n op m e2)).
  { induction m as [|m IH]; intros e1 e2 He; [apply rel_fuel|]. cbn [arith_binop_loop]. rel_step. rel_step. rel_step.
    - apply rel_ret, He.
    - destruct (op t) as [c|] eqn:E; [|apply rel_ret, He]. rel_step. rel_step. apply IH. now apply (H3 t).
    - rewrite !H1. apply rel_ret, He.
    - rewrite !H2. apply rel_ret, He. }
  rel_step. now apply L.
Qed.
Ltac okop := split; [reflexivity|]; split; [reflexivity|];
  let t := fresh in let c := fresh in let E := fresh in intros t c E; destruct t; try discriminate E; injection E as <-; intros; nfin.
Lemma rel_shift : rel RA (arith_shift f K) (arith_shift f K).
Proof. unfold arith_shift, arith_add, arith_mult. repeat (apply rel_binop; [okop|]). apply rel_pow. Qed.
Hint Resolve rel_shift : rel.
Lemma rel_ineq : rel RA (arith_ineq f K) (arith_ineq f K).
Proof.
  unfold arith_ineq.
  assert (L : forall m e1 e2, RA e1 e2 -> rel RA (arith_ineq_loop f K m e1) (arith_ineq_loop f K m e2)).
  { induction m as [|m IH]; intros e1 e2 He; [apply rel_fuel|]. cbn [arith_ineq_loop]. repeat rel_step.
    all: try exact He.
    all: apply IH; match goal with b : bool |- _ => destruct b end; nfin. }
  rel_step. now apply L.
Qed.
Hint Resolve rel_ineq : rel.
Lemma rel_eq : rel RA (arith_eq f K) (arith_eq f K).
Proof.
  unfold arith_eq.
  assert (L : forall m e1 e2, RA e1 e2 -> rel RA (arith_eq_loop f K m e1) (arith_eq_loop f K m e2)).
  { induction m as [|m IH]; intros e1 e2 He; [apply rel_fuel|]. cbn [arith_eq_loop]. repeat rel_step.
    all: try exact He.
    all: apply IH; nfin. }
  rel_step. now apply L.
Qed.
Lemma rel_logical_or : rel RA (arith_logical_or f K) (arith_logical_or f K).
Proof.
  unfold arith_logical_or, arith_logical_and, arith_bitwise_or, arith_bitwise_xor, arith_bitwise_and.
  repeat (apply rel_binop; [okop|]). apply rel_eq.
Qed.
Hint Resolve rel_logical_or : rel.
Lemma rel_ternary : rel RA (arith_ternary f K) (arith_ternary f K).
Proof. unfold arith_ternary. repeat rel_step. all: try apply rel_ret; nfin. Qed.
Hint Resolve rel_ternary : rel.
Lemma assig_expr_like op v1 v2 e1 e2 : RS v1 v2 -> RA e1 e2 ->
  opt RA (assig_expr op v1 e1) (assig_expr op v2 e2).
Proof. intros. destruct op; cbn [assig_expr opt]; try exact I; nfin. Qed.
Lemma rel_assig : rel RA (arith_assig f K) (arith_assig f K).
Proof.
  unfold arith_assig. rel_step. eapply rel_bind; [apply rel_multipeek, ml_assig|]. intros r ? <-.
  destruct r as [[]|]; [|rel_leaf|apply rel_fuel]. rel_step. rel_step. rel_step.
  abind (@eq token). rel_step.
  match goal with |- Names.rel _ (match assig_expr ?o ?v ?x with _ => _ end) (match assig_expr _ ?w ?y with _ => _ end) =>
    pose proof (assig_expr_like o v w x y ltac:(assumption) ltac:(assumption)) as E;
    destruct (assig_expr o v x), (assig_expr o w y); try contradiction end;
  [apply rel_ret; cbn in E; nfin|apply rel_panic].
Qed.
Hint Resolve rel_assig : rel.
Lemma rel_subst_ : rel RA (arithmetic_substitution_ f K) (arithmetic_substitution_ f K).
Proof.
  unfold arithmetic_substitution_.
  assert (L : forall m e1 e2, by_ (map narith) e1 e2 -> rel (by_ (map narith)) (arith_seq_loop f K m e1) (arith_seq_loop f K m e2)).
  { induction m as [|m IH]; intros e1 e2 He; [apply rel_fuel|]. cbn [arith_seq_loop]. repeat rel_step.
    - apply IH. unfold by_ in *. rewrite !map_app. cbn. congruence.
    - unfold by_ in *. rewrite !map_app. cbn. congruence. }
  eapply rel_bind; [now apply L|]. intros l1 l2 H. apply rel_ret || idtac.
  unfold by_ in H. destruct l1 as [|a [|a' l1]], l2 as [|b [|b' l2]]; try discriminate H; apply rel_ret; unfold by_; cbn [narith].
  - reflexivity.
  - now injection H.
  - now rewrite H.
Qed.
End K.
Lemma like_arith_knot : forall n, ak_like (arith_knot f n).
Proof.
  induction n as [|n IH].
  - split; apply rel_fuel.
  - cbn [arith_knot]. split; cbn [k_subst k_assig k_ternary k_pow k_unary].
    + now apply rel_subst_.
    + now apply rel_assig.
    + now apply rel_ternary.
    + now apply rel_pow.
    + now apply rel_unary_misc.
Qed.
Lemma rel_arithmetic_substitution : rel RA (arithmetic_substitution f) (arithmetic_substitution f).
Proof. unfold arithmetic_substitution. apply (al_subst _ (like_arith_knot f)). Qed.
End NA.
#[global] Hint Resolve rel_arithmetic_substitution : rel.
