(** * Arithmetic expressions are parsed by precedence and associativity (C18, C19)

    [awrite e k] writes the expression [e] where level [k] or tighter is expected, with the
    parentheses that the levels of [ArithSpec.v] require and no others. *)
From Coq Require Import String.
From Verif Require Import Base Token Pos Lexer LexSpec LexTheorems Relex Seams Ast Builder Prog Iter Located IterProofs ParserBase Balanced
  BalancedSpec Arith Word Redirect Command DefaultBuilder RunLemmas Entry Api Total Runs Pure ArithSpec ArithRuns
  Forms WordRuns CommandRuns FormsRuns FormsTheorems.

(** The level of an expression: its outermost operator's. *)
Definition level (e : arith) : nat :=
  match e with
  | ASequence _ => 0
  | AAssign _ _ => 1
  | ATernary _ _ _ => 2
  | ALogicalOr _ _ => 3
  | ALogicalAnd _ _ => 4
  | ABitwiseOr _ _ => 5
  | ABitwiseXor _ _ => 6
  | ABitwiseAnd _ _ => 7
  | AEq _ _ | ANotEq _ _ => 8
  | ALess _ _ | ALessEq _ _ | AGreat _ _ | AGreatEq _ _ => 9
  | AShiftLeft _ _ | AShiftRight _ _ => 10
  | AAdd _ _ | ASub _ _ => 11
  | AMult _ _ | ADiv _ _ | AModulo _ _ => 12
  | APow _ _ => 13
  | AUnaryPlus _ | AUnaryMinus _ | ALogicalNot _ | ABitwiseNot _ | APreIncr _ | APreDecr _ => 14
  | _ => 15
  end.

(** [a op b]: a level-[k] operator that associates to the left. *)
Definition binary (l : list token) (op : list token) (r : list token) : list token := l ++ sp :: op ++ r.
Fixpoint awrite (e : arith) (k : nat) : list token :=
  let ts :=
    match e with
    | AVar v => [sp; TName v]
    | ALiteral z => [sp; TLiteral (dec (Z.to_N z))]
    | APow a b => binary (awrite a 14) [TStar; TStar] (awrite b 13)
    | APostIncr v => [sp; TName v; sp; TPlus; TPlus]
    | APostDecr v => [sp; TName v; sp; TDash; TDash]
    | APreIncr v => [sp; TPlus; TPlus; sp; TName v]
    | APreDecr v => [sp; TDash; TDash; sp; TName v]
    | AUnaryPlus a => sp :: TPlus :: awrite a 14
    | AUnaryMinus a => sp :: TDash :: awrite a 14
    | ALogicalNot a => sp :: TBang :: awrite a 14
    | ABitwiseNot a => sp :: TTilde :: awrite a 14
    | AMult a b => binary (awrite a 12) [TStar] (awrite b 13)
    | ADiv a b => binary (awrite a 12) [TSlash] (awrite b 13)
    | AModulo a b => binary (awrite a 12) [TPercent] (awrite b 13)
    | AAdd a b => binary (awrite a 11) [TPlus] (awrite b 12)
    | ASub a b => binary (awrite a 11) [TDash] (awrite b 12)
    | AShiftLeft a b => binary (awrite a 10) [TDLess] (awrite b 11)
    | AShiftRight a b => binary (awrite a 10) [TDGreat] (awrite b 11)
    | ALess a b => binary (awrite a 9) [TLess] (awrite b 10)
    | ALessEq a b => binary (awrite a 9) [TLess; TEquals] (awrite b 10)
    | AGreat a b => binary (awrite a 9) [TGreat] (awrite b 10)
    | AGreatEq a b => binary (awrite a 9) [TGreat; TEquals] (awrite b 10)
    | AEq a b => binary (awrite a 8) [TEquals; TEquals] (awrite b 9)
    | ANotEq a b => binary (awrite a 8) [TBang; TEquals] (awrite b 9)
    | ABitwiseAnd a b => binary (awrite a 7) [TAmp] (awrite b 8)
    | ABitwiseXor a b => binary (awrite a 6) [TCaret] (awrite b 7)
    | ABitwiseOr a b => binary (awrite a 5) [TPipe] (awrite b 6)
    | ALogicalAnd a b => binary (awrite a 4) [TAndIf] (awrite b 5)
    | ALogicalOr a b => binary (awrite a 3) [TOrIf] (awrite b 4)
    | ATernary g b e => awrite g 3 ++ sp :: TQuestion :: awrite b 2 ++ sp :: TColon :: awrite e 2
    | AAssign v e => sp :: TName v :: sp :: TEquals :: awrite e 1
    | ASequence [] => []
    | ASequence (e :: es) => awrite e 1 ++ concat (map (fun e => sp :: TComma :: awrite e 1) es)
    end in
  if (level e <? k)%nat then sp :: TParenOpen :: ts ++ [TParenClose] else ts.

(** The source text of [e]. *)
Definition arith_source (e : arith) : str := s_of "$((" ++ text (awrite e 0) ++ s_of "))".

Section Wf.
Context {U : Uni}.
(** Trees that have a source: identifiers for variables, non-negative 64 bit literals (a negative
    number is written with the unary operator), and at least two expressions in a sequence. *)
Fixpoint awf (e : arith) : Prop :=
  match e with
  | AVar v | APostIncr v | APostDecr v | APreIncr v | APreDecr v => lexable (TName v)
  | ALiteral z => (0 <= z < 2 ^ 63)%Z
  | AUnaryPlus a | AUnaryMinus a | ALogicalNot a | ABitwiseNot a => awf a
  | APow a b | AMult a b | ADiv a b | AModulo a b | AAdd a b | ASub a b | AShiftLeft a b | AShiftRight a b
  | ALess a b | ALessEq a b | AGreat a b | AGreatEq a b | AEq a b | ANotEq a b | ABitwiseAnd a b
  | ABitwiseXor a b | ABitwiseOr a b | ALogicalAnd a b | ALogicalOr a b => awf a /\ awf b
  | ATernary a b c => awf a /\ awf b /\ awf c
  | AAssign v a => lexable (TName v) /\ awf a
  | ASequence l => (2 <= List.length l)%nat /\ fold_right (fun a P => awf a /\ P) True l
  end.
End Wf.

Section Ind.
Variable P : arith -> Prop.
Hypotheses (H1 : forall v, P (AVar v)) (H2 : forall z, P (ALiteral z))
  (H3 : forall a b, P a -> P b -> P (APow a b))
  (H4 : forall v, P (APostIncr v)) (H5 : forall v, P (APostDecr v)) (H6 : forall v, P (APreIncr v)) (H7 : forall v, P (APreDecr v))
  (H8 : forall a, P a -> P (AUnaryPlus a)) (H9 : forall a, P a -> P (AUnaryMinus a))
  (H10 : forall a, P a -> P (ALogicalNot a)) (H11 : forall a, P a -> P (ABitwiseNot a))
  (Hb : forall k op c, binop k op c -> forall a b, P a -> P b -> P (c a b))
  (H12 : forall a b c, P a -> P b -> P c -> P (ATernary a b c))
  (H13 : forall v a, P a -> P (AAssign v a))
  (H14 : forall l, Forall P l -> P (ASequence l)).
Fixpoint arith_ind2 (e : arith) : P e :=
  match e with
  | AVar v => H1 v
  | ALiteral z => H2 z
  | APow a b => H3 _ _ (arith_ind2 a) (arith_ind2 b)
  | APostIncr v => H4 v | APostDecr v => H5 v | APreIncr v => H6 v | APreDecr v => H7 v
  | AUnaryPlus a => H8 _ (arith_ind2 a) | AUnaryMinus a => H9 _ (arith_ind2 a)
  | ALogicalNot a => H10 _ (arith_ind2 a) | ABitwiseNot a => H11 _ (arith_ind2 a)
  | AMult a b => Hb _ _ _ bo_mul _ _ (arith_ind2 a) (arith_ind2 b)
  | ADiv a b => Hb _ _ _ bo_div _ _ (arith_ind2 a) (arith_ind2 b)
  | AModulo a b => Hb _ _ _ bo_mod _ _ (arith_ind2 a) (arith_ind2 b)
  | AAdd a b => Hb _ _ _ bo_add _ _ (arith_ind2 a) (arith_ind2 b)
  | ASub a b => Hb _ _ _ bo_sub _ _ (arith_ind2 a) (arith_ind2 b)
  | AShiftLeft a b => Hb _ _ _ bo_shl _ _ (arith_ind2 a) (arith_ind2 b)
  | AShiftRight a b => Hb _ _ _ bo_shr _ _ (arith_ind2 a) (arith_ind2 b)
  | ALess a b => Hb _ _ _ bo_lt _ _ (arith_ind2 a) (arith_ind2 b)
  | ALessEq a b => Hb _ _ _ bo_le _ _ (arith_ind2 a) (arith_ind2 b)
  | AGreat a b => Hb _ _ _ bo_gt _ _ (arith_ind2 a) (arith_ind2 b)
  | AGreatEq a b => Hb _ _ _ bo_ge _ _ (arith_ind2 a) (arith_ind2 b)
  | AEq a b => Hb _ _ _ bo_eq _ _ (arith_ind2 a) (arith_ind2 b)
  | ANotEq a b => Hb _ _ _ bo_ne _ _ (arith_ind2 a) (arith_ind2 b)
  | ABitwiseAnd a b => Hb _ _ _ bo_band _ _ (arith_ind2 a) (arith_ind2 b)
  | ABitwiseXor a b => Hb _ _ _ bo_xor _ _ (arith_ind2 a) (arith_ind2 b)
  | ABitwiseOr a b => Hb _ _ _ bo_bor _ _ (arith_ind2 a) (arith_ind2 b)
  | ALogicalAnd a b => Hb _ _ _ bo_and _ _ (arith_ind2 a) (arith_ind2 b)
  | ALogicalOr a b => Hb _ _ _ bo_or _ _ (arith_ind2 a) (arith_ind2 b)
  | ATernary a b c => H12 _ _ _ (arith_ind2 a) (arith_ind2 b) (arith_ind2 c)
  | AAssign v a => H13 v _ (arith_ind2 a)
  | ASequence l => H14 l ((fix all l : Forall P l := match l with [] => Forall_nil _ | e :: l => Forall_cons _ (arith_ind2 e) (all l) end) l)
  end.
End Ind.

Lemma awrite_par e k : awrite e k = if (level e <? k)%nat then sp :: TParenOpen :: awrite e 0 ++ [TParenClose] else awrite e 0.
Proof. destruct e; reflexivity. Qed.
Lemma awrite_binary k op c a b : binop k op c ->
  level (c a b) = k /\ awrite (c a b) 0 = binary (awrite a k) op (awrite b (S k)).
Proof. intros H. destruct H; split; reflexivity. Qed.
Lemma blank_sp : blank [sp].
Proof. unfold sp; repeat constructor. Qed.
Lemma spaces_sp : spaces [sp].
Proof. constructor; [eexists; reflexivity|constructor]. Qed.

Section Written.
Context {U : Uni}.
Lemma awf_binary k op c a b : binop k op c -> awf (c a b) -> awf a /\ awf b.
Proof. intros H. destruct H; exact (fun x => x). Qed.
Lemma awrite_starts e : awf e -> forall k, exists ts, awrite e k = sp :: ts.
Proof.
  assert (Sb : forall k op c a b, binop k op c -> (awf a -> forall k, exists ts, awrite a k = sp :: ts) ->
     awf (c a b) -> forall k, exists ts, awrite (c a b) k = sp :: ts).
  { intros k op c a b Hb IH Hw j. rewrite awrite_par. destruct (level _ <? j)%nat; [eauto|].
    destruct (awrite_binary k op c a b Hb) as [_ ->]. destruct (IH (proj1 (awf_binary _ _ _ _ _ Hb Hw)) k) as (ts & ->).
    unfold binary. cbn [app]. eauto. }
  induction e as [v|z|e1 e2 IHe1 IHe2|v|v|v|v|e IHe|e IHe|e IHe|e IHe|k op c H e1 e2 IHe1 IHe2|e1 e2 e3 IHe1 IHe2 IHe3|v e IHe|l H] using arith_ind2; intros Hw j; try (rewrite awrite_par; destruct (level _ <? j)%nat; eexists; reflexivity).
  - rewrite awrite_par. destruct (level _ <? j)%nat; [eauto|].
    cbn [awrite level Nat.ltb Nat.leb]. destruct (IHe1 (proj1 Hw) 14%nat) as (ts & ->). unfold binary. cbn [app]. eauto.
  - eapply Sb; eauto.
  - rewrite awrite_par. destruct (level _ <? j)%nat; [eauto|].
    cbn [awrite level Nat.ltb Nat.leb]. destruct (IHe1 (proj1 Hw) 3%nat) as (ts & ->). cbn [app]. eauto.
  - rewrite awrite_par. destruct (level _ <? j)%nat; [eauto|].
    cbn [awrite level Nat.ltb Nat.leb]. destruct Hw as [Hl Hw]. destruct l as [|e l]; [cbn in Hl; lia|].
    inversion H as [|? ? He _]; subst. cbn [fold_right] in Hw. destruct (He (proj1 Hw) 1%nat) as (ts & ->). cbn [app]. eauto.
Qed.
Definition awritten (k : nat) (e : arith) (ts : list token) : Prop := exists o, aexpr k o e ts.
Lemma aexpr_looser e ts k : awritten k e ts -> forall j, (j <= k)%nat -> (k <= 15)%nat -> awritten j e ts.
Proof.
  intros [o H] j Hj Hk. exists o. induction Hj as [|k Hj IH]; [exact H|]. apply IH; [|lia]. apply ae_tighter; [lia|exact H].
Qed.
Lemma awrite_level e : awritten (level e) e (awrite e 0) -> forall k, (k <= 15)%nat -> awritten k e (awrite e k).
Proof.
  intros H k Hk. rewrite awrite_par. destruct (Nat.ltb_spec (level e) k) as [Hl|Hl].
  - apply (aexpr_looser _ _ 15); [|exact Hk|lia].
    assert (L : (level e <= 15)%nat) by (destruct e; cbn; lia).
    destruct (aexpr_looser _ _ (level e) H 0%nat ltac:(lia) L) as [o Ho].
    exists false. apply (ae_paren [sp] o e (awrite e 0) []); [apply blank_sp|exact Ho|constructor].
  - apply (aexpr_looser _ _ (level e)); [exact H|exact Hl|]. destruct e; cbn; lia.
Qed.
Lemma awrite_apart t e k : awf e -> unary_apart t (awrite e k).
Proof. intros Hw. destruct (awrite_starts e Hw k) as (ts & ->). intros _. split; discriminate. Qed.
Lemma awrite_not_doubled op e k : awf e -> not_doubled op (awrite e k).
Proof. intros Hw t _ Ht. destruct (awrite_starts e Hw k) as (ts & ->). destruct Ht as [-> | ->]; discriminate. Qed.

(** What is written is a written form of the expression. *)
Theorem awrite_form e : awf e -> forall k, (k <= 15)%nat -> awritten k e (awrite e k).
Proof.
  induction e as [v|z|e1 e2 IHe1 IHe2|v|v|v|v|e IHe|e IHe|e IHe|e IHe|k op c H e1 e2 IHe1 IHe2|e1 e2 e3 IHe1 IHe2 IHe3|v e IHe|l H] using arith_ind2; intros Hw; apply awrite_level; cbn [level].
  - exists true. apply (ae_var [sp] v [TName v]); [apply blank_sp|constructor].
  - cbn [awf] in Hw. cbn [awrite level Nat.ltb Nat.leb].
    replace (ALiteral z) with (ALiteral (Z.of_N (Z.to_N z))) by (rewrite Z2N.id; [reflexivity|lia]).
    exists false. apply (ae_literal [sp]); [apply blank_sp|]. apply int_literal_denotes.
    + apply dec_int_literal.
    + unfold fits. apply N2Z.inj_lt. rewrite Z2N.id by lia. exact (proj2 Hw).
  - destruct Hw as [W1 W2]. destruct (IHe1 W1 14%nat ltac:(lia)) as [o1 H1]. destruct (IHe2 W2 13%nat ltac:(lia)) as [o2 H2].
    exists o2. apply (ae_pow o1 _ _ [sp]); [exact H1|apply blank_sp|exact H2].
  - exists false. apply (ae_post_incr [sp] v [TName v] [sp]); [apply blank_sp|constructor|apply blank_sp].
  - exists false. apply (ae_post_decr [sp] v [TName v] [sp]); [apply blank_sp|constructor|apply blank_sp].
  - exists false. apply (ae_pre_incr [sp] [sp] v [TName v]); [apply blank_sp|apply blank_sp|constructor].
  - exists false. apply (ae_pre_decr [sp] [sp] v [TName v]); [apply blank_sp|apply blank_sp|constructor].
  - destruct (IHe Hw 14%nat ltac:(lia)) as [o H]. exists o. apply (ae_unary [sp] TPlus AUnaryPlus); [apply blank_sp|constructor|exact H|now apply awrite_apart].
  - destruct (IHe Hw 14%nat ltac:(lia)) as [o H]. exists o. apply (ae_unary [sp] TDash AUnaryMinus); [apply blank_sp|constructor|exact H|now apply awrite_apart].
  - destruct (IHe Hw 14%nat ltac:(lia)) as [o H]. exists o. apply (ae_unary [sp] TBang ALogicalNot); [apply blank_sp|constructor|exact H|now apply awrite_apart].
  - destruct (IHe Hw 14%nat ltac:(lia)) as [o H]. exists o. apply (ae_unary [sp] TTilde ABitwiseNot); [apply blank_sp|constructor|exact H|now apply awrite_apart].
  - destruct (awrite_binary k op c e1 e2 H) as [-> ->]. destruct (awf_binary _ _ _ _ _ H Hw) as [W1 W2].
    assert (Hk : (k <= 14)%nat) by (destruct H; lia).
    destruct (IHe1 W1 k ltac:(lia)) as [o1 H1]. destruct (IHe2 W2 (S k) ltac:(lia)) as [o2 H2]. exists o2.
    apply (ae_binary k op c o1 e1 _ [sp]); [exact H|exact H1|apply blank_sp|exact H2|intros _; now apply awrite_not_doubled].
  - destruct Hw as (W1 & W2 & W3). destruct (IHe1 W1 3%nat ltac:(lia)) as [o1 H1]. destruct (IHe2 W2 2%nat ltac:(lia)) as [o2 H2].
    destruct (IHe3 W3 2%nat ltac:(lia)) as [o3 H3]. exists o3.
    apply (ae_ternary o1 _ _ [sp] o2 _ _ [sp]); [exact H1|apply blank_sp|exact H2|apply blank_sp|exact H3].
  - destruct (IHe (proj2 Hw) 1%nat ltac:(lia)) as [o H]. exists o.
    apply (ae_assign [sp] v [TName v] [sp]); [apply blank_sp|constructor|apply spaces_sp|exact H].
  - destruct Hw as [Hl Hw]. destruct l as [|e l]; [cbn in Hl; lia|].
    inversion H as [|? ? He Hes]; subst. cbn [fold_right] in Hw. destruct Hw as [We Wes].
    destruct (He We 1%nat ltac:(lia)) as [o Ho].
    assert (X : exists o', aseq o' l (concat (map (fun e => sp :: TComma :: awrite e 1) l))).
    { cbn [List.length] in Hl. clear H He We Ho. destruct l as [|e1 l]; [cbn in Hl; lia|]. clear Hl.
      revert e1 Wes Hes. induction l as [|e2 l IH]; intros e1 Wes Hes.
      + cbn [map concat]. rewrite app_nil_r. inversion Hes; subst. destruct (H1 (proj1 Wes) 1%nat ltac:(lia)) as [o' H'].
        exists o'. apply (as_one [sp]); [apply blank_sp|exact H'].
      + inversion Hes as [|? ? He1 Hes']; subst.
        change (concat (map (fun e => sp :: TComma :: awrite e 1) (e1 :: e2 :: l)))
          with ([sp] ++ TComma :: awrite e1 1 ++ concat (map (fun e => sp :: TComma :: awrite e 1) (e2 :: l))).
        destruct (He1 (proj1 Wes) 1%nat ltac:(lia)) as [o1 H1]. destruct (IH e2 (proj2 Wes) Hes') as [o2 H2].
        exists o2. apply (as_more [sp] o1); [apply blank_sp|exact H1|exact H2]. }
    destruct X as [o' X]. exists o'. cbn [awrite level Nat.ltb Nat.leb]. now apply (ae_sequence o).
Qed.

(** Its text lexes back to the tokens written. *)
Lemma awrite_loose e k rest : awf e -> loose (text (awrite e k ++ rest)).
Proof. intros Hw. destruct (awrite_starts e Hw k) as (ts & ->). cbn. now left. Qed.
Lemma name_tight v rest : lexable (TName v) -> tight (text (TName v :: rest)).
Proof.
  destruct v as [|c v]; [intros []|]. intros [[H _] _]. cbn. left. apply ordinary_b_spec in H.
  unfold ordinary_b in H. apply andb_true_iff in H as [H _]. now apply negb_true_iff in H.
Qed.
Lemma dec_tight n rest : tight (text (TLiteral (dec n) :: rest)).
Proof.
  pose proof (dec_lexable n) as H. destruct (dec n) as [|c v]; [destruct H|]. destruct H as [H _]. cbn. left. apply ordinary_b_spec in H.
  unfold ordinary_b in H. apply andb_true_iff in H as [H _]. now apply negb_true_iff in H.
Qed.
Ltac tightl := first [apply name_tight; assumption|apply dec_tight|left; reflexivity].
Ltac loosel := first [apply awrite_loose; assumption|assumption|cbn; tauto].
Ltac rl := cbn [app];
  repeat first
   [ assumption
   | apply relexable_sp; [|tightl]
   | apply relexable_closed; [reflexivity|]
   | apply relexable_loose; [first [assumption|apply dec_lexable|exact I]|exact I|loosel|] ].
Lemma awrite_relexable e : awf e -> forall k rest, relexable rest -> loose (text rest) -> relexable (awrite e k ++ rest).
Proof.
  assert (Par : forall e, (forall rest, relexable rest -> loose (text rest) -> relexable (awrite e 0 ++ rest)) -> 
    forall k rest, relexable rest -> loose (text rest) -> relexable (awrite e k ++ rest)).
  { clear e. intros e H k rest Hr Hl. rewrite awrite_par. destruct (level e <? k)%nat; [|now apply H].
    rewrite <- !app_comm_cons, <- app_assoc. apply relexable_sp; [|left; reflexivity].
    apply relexable_closed; [reflexivity|]. apply H; [now apply relexable_closed|]. cbn; tauto. }
  induction e as [v|z|e1 e2 IHe1 IHe2|v|v|v|v|e IHe|e IHe|e IHe|e IHe|k op c H e1 e2 IHe1 IHe2|e1 e2 e3 IHe1 IHe2 IHe3|v e IHe|l H] using arith_ind2; intros Hw; apply Par; intros rest Hr Hl; cbn [awrite level Nat.ltb Nat.leb awf] in *.
  - rl.
  - rl.
  - unfold binary. destruct Hw as [W1 W2]. rewrite <- app_assoc. apply IHe1; [exact W1| |cbn; tauto]. rl. now apply IHe2.
  - rl.
  - rl.
  - rl.
  - rl.
  - rl. now apply IHe.
  - rl. now apply IHe.
  - rl. now apply IHe.
  - rl. now apply IHe.
  - destruct (awf_binary _ _ _ _ _ H Hw) as [W1 W2]. destruct (awrite_binary k op c e1 e2 H) as [_ ->].
    unfold binary. rewrite <- app_assoc. apply IHe1; [exact W1| |cbn; tauto].
    specialize (IHe2 W2 (S k) rest Hr Hl). pose proof (awrite_loose e2 (S k) rest W2) as Hlo.
    destruct H; cbn [app]; apply relexable_sp; try (left; reflexivity); rl.
  - destruct Hw as (W1 & W2 & W3). rewrite <- app_assoc. apply IHe1; [exact W1| |cbn; tauto]. 
    rl. rewrite <- app_assoc. apply IHe2; [exact W2| |cbn; tauto]. rl. now apply IHe3.
  - destruct Hw as [Wv W]. rl. now apply IHe.
  - destruct Hw as [_ Hw]. destruct l as [|e l]; [exact Hr|]. inversion H as [|? ? He Hes]; subst.
    cbn [fold_right] in Hw. destruct Hw as [We Wes]. rewrite <- app_assoc.
    assert (X : relexable (concat (map (fun e => sp :: TComma :: awrite e 1) l) ++ rest) /\
                loose (text (concat (map (fun e => sp :: TComma :: awrite e 1) l) ++ rest))).
    { clear He We H. induction l as [|e1 l IH]; [split; assumption|]. inversion Hes; subst. cbn [fold_right] in Wes.
      destruct (IH (proj2 Wes) ltac:(assumption)) as [I1 I2]. cbn [map concat]. rewrite <- app_assoc. split; [|cbn; tauto].
      rl. apply H1; [apply Wes|exact I1|exact I2]. }
    apply He; [exact We|apply X|apply X].
Qed.
Lemma arith_source_tokens e : awf e ->
  lex (arith_source e) = TDollar :: TParenOpen :: TParenOpen :: awrite e 0 ++ [TParenClose; TParenClose].
Proof.
  intros Hw. replace (arith_source e) with (text (TDollar :: TParenOpen :: TParenOpen :: awrite e 0 ++ [TParenClose; TParenClose])).
  - apply lex_relexable. rl. apply awrite_relexable; [exact Hw| |cbn; tauto]. rl. constructor.
  - unfold arith_source. rewrite !text_cons, text_app. reflexivity.
Qed.

(** C18: parsing the source of an expression, as a word, gives the expression back and reads all
    of it. *)
Theorem arithmetic_round_trip e fuel : awf e ->
  source_word fuel (arith_source e) (TLWord (WSingle (WSimple (WSubst (SArith (Some e)))))).
Proof.
  intros Hw. apply (source_word_read fuel _ (KSingle (KSimple (KSubst (KSArith (Some e)))))).
  rewrite (arith_source_tokens e Hw).
  eapply (wf_word _ _ _ []); [|discriminate|reflexivity].
  apply (fs_frag _ _ _ _ _ []); [|congruence|apply fs_end; left; exact I].
  apply fr_expansion, ex_dollar. eapply do_arith; [exact (awrite_form e Hw 0%nat ltac:(lia))|reflexivity|reflexivity].
Qed.
End Written.

(** A case: a tree whose source needs both pairs of parentheses. *)
Section Witness.
#[local] Instance some_uni : Uni := fun _ => false.
Example arithmetic_round_trip_witness :
  awf (AMult (AAdd (AVar (s_of "x")) (ALiteral 1)) (AUnaryMinus (ASub (ALiteral 7) (APostIncr (s_of "y"))))) /\
  arith_source (AMult (AAdd (AVar (s_of "x")) (ALiteral 1)) (AUnaryMinus (ASub (ALiteral 7) (APostIncr (s_of "y")))))
    = s_of "$(( ( x + 1) * - ( 7 - y ++)))".
Proof.
  split; [|vm_compute; reflexivity].
  pose proof (lex_lexable (s_of "x")) as Hx. pose proof (lex_lexable (s_of "y")) as Hy.
  assert (Lx : lexable (TName (s_of "x"))) by (apply Hx; vm_compute; now left).
  assert (Ly : lexable (TName (s_of "y"))) by (apply Hy; vm_compute; now left).
  cbn [awf]. split; [split; [exact Lx|lia]|split; [lia|exact Ly]].
Qed.
End Witness.
