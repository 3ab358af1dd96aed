(** * What the arithmetic parser accepts (soundness of [arithmetic_substitution])

    [aread k e ts]: the tokens [ts] are an expression [e] of level [k] or tighter.  The grammar of
    [ArithSpec.v], except that blanks may stand anywhere between the parts and that nothing forbids
    ambiguous sequences of signs; a literal's value is a parameter. *)
From Coq Require Import String.
From Verif Require Import Base Token Pos Lexer LexSpec LexTheorems Ast Builder Prog Iter Located IterProofs ParserBase Balanced
  BalancedSpec Arith Word Redirect Command RunLemmas Entry Api Total Runs Gives ArithSpec ArithRuns ArithLiterals.

Section Read.
Variable lit : str -> Z -> Prop.
Inductive aread : nat -> arith -> list token -> Prop :=
  | ar_tighter k e ts : aread (S k) e ts -> aread k e ts
  | ar_before k e w ts : blank w -> aread k e ts -> aread k e (w ++ ts)
  | ar_after k e ts w : aread k e ts -> blank w -> aread k e (ts ++ w)
  | ar_literal s z : lit s z -> aread 15 (ALiteral z) [TLiteral s]
  | ar_var v ts : variable v ts -> aread 15 (AVar v) ts
  | ar_post_incr v ts w : variable v ts -> blank w -> aread 15 (APostIncr v) (ts ++ w ++ [TPlus; TPlus])
  | ar_post_decr v ts w : variable v ts -> blank w -> aread 15 (APostDecr v) (ts ++ w ++ [TDash; TDash])
  | ar_paren e ts : aread 0 e ts -> aread 15 e (TParenOpen :: ts ++ [TParenClose])
  | ar_pre_incr w v ts : blank w -> variable v ts -> aread 14 (APreIncr v) (TPlus :: TPlus :: w ++ ts)
  | ar_pre_decr w v ts : blank w -> variable v ts -> aread 14 (APreDecr v) (TDash :: TDash :: w ++ ts)
  | ar_unary t c e ts : unop t c -> aread 14 e ts -> aread 14 (c e) (t :: ts)
  | ar_pow e1 ts1 e2 ts2 : aread 14 e1 ts1 -> aread 13 e2 ts2 ->
      aread 13 (APow e1 e2) (ts1 ++ TStar :: TStar :: ts2)
  | ar_binary k op c e1 ts1 e2 ts2 : binop k op c -> aread k e1 ts1 -> aread (S k) e2 ts2 ->
      aread k (c e1 e2) (ts1 ++ op ++ ts2)
  | ar_ternary g ts1 b ts2 e ts3 : aread 3 g ts1 -> aread 2 b ts2 -> aread 2 e ts3 ->
      aread 2 (ATernary g b e) (ts1 ++ TQuestion :: ts2 ++ TColon :: ts3)
  | ar_assign v ts1 w e ts2 : variable v ts1 -> blank w -> aread 1 e ts2 ->
      aread 1 (AAssign v e) (ts1 ++ w ++ TEquals :: ts2)
  | ar_assign_op v ts1 w t c e ts2 : variable v ts1 -> blank w -> assignop t c -> aread 1 e ts2 ->
      aread 1 (AAssign v (c (AVar v) e)) (ts1 ++ w ++ t :: TEquals :: ts2)
  | ar_sequence es ts : aseq_read es ts -> (2 <= List.length es)%nat -> aread 0 (ASequence es) ts
with aseq_read : list arith -> list token -> Prop :=
  | sr_one e ts : aread 1 e ts -> aseq_read [e] ts
  | sr_more e ts es us : aread 1 e ts -> aseq_read es us -> aseq_read (e :: es) (ts ++ TComma :: us).
End Read.

Definition token_num (s : str) (z : Z) : Prop := literal_num (Some (TLiteral s)) = Some z.

Section Sound.
Context {BS BE : Type}.
Notation prog := (prog BS BE).
Notation aread := (aread token_num).
Variable fuel : nat.
Definition sound (k : nat) (p : prog arith) : Prop :=
  forall ts, gives p ts (fun e rest => exists us, ts = us ++ rest /\ aread k e us).
Tactic Notation "gcall" constr(H) ident(us) := eapply gives_mono; [apply H|];
  let a := fresh "a" in let r := fresh "r" in let H := fresh "Ha" in intros a r (us & -> & H).
Ltac gd := lazymatch goal with |- gives _ ?ts _ =>
  let t := fresh "t" in let us := fresh "us" in
  destruct ts as [|t us]; cbn [hd_error tl]; cbv beta match; [|destruct t; cbv beta match] end.
Ltac appeq := repeat (progress (rewrite <- ?app_assoc; cbn [app])); reflexivity.
Ltac used x := exists x; split; [appeq|].
Lemma sound_var ts : gives (arith_var fuel : prog _) ts (fun v rest => exists w us, ts = w ++ us ++ rest /\ blank w /\ variable v us).
Proof.
  unfold arith_var. gstep. gstep. gstep. gstep.
  - gstep. gstep. gd; try gstep. gstep. gstep.
    exists w, [TDollar; TName s]. split; [reflexivity|]. split; [exact Hw|constructor].
  - gstep. gstep. gd; try gstep. gstep. gstep.
    exists w, [TName s]. split; [reflexivity|]. split; [exact Hw|constructor].
Qed.
Tactic Notation "gvar" ident(w) ident(us) := eapply gives_mono; [apply sound_var|];
  let v := fresh "v" in let r := fresh "r" in let Hw := fresh "Hw" in let Hv := fresh "Hv" in
  intros v r (w & us & -> & Hw & Hv).

Variable K : arith_knots BS BE.
Hypothesis K1 : sound 0 (k_subst K).
Hypothesis K2 : sound 1 (k_assig K).
Hypothesis K3 : sound 2 (k_ternary K).
Hypothesis K4 : sound 13 (k_pow K).
Hypothesis K5 : sound 14 (k_unary K).


Lemma sound_post_incr : sound 15 (arith_post_incr fuel K).
Proof.
  intros ts. unfold arith_post_incr. gstep. gstep. gstep. gstep.
  - gstep. gcall K1 c. gstep. gstep. gstep. gstep. gstep.
    used (w ++ (TParenOpen :: (c ++ w0) ++ [TParenClose])).
    apply ar_before; [exact Hw|]. apply ar_paren, ar_after; assumption.
  - gstep. gstep. destruct (literal_num (hd_error us)) as [z|] eqn:Ez.
    + gstep. gstep. gstep. destruct us as [|t us]; [discriminate|]. destruct t; try discriminate.
      used (w ++ [TLiteral s]). apply ar_before; [exact Hw|]. now apply ar_literal.
    + gstep. gvar b c. gstep. gstep. gstep. gstep.
      destruct (look _ _) eqn:El.
      * gstep. gstep. gd; try gstep.
        -- gstep. gstep. gstep. gstep.
           used (w ++ b ++ c ++ w0 ++ [TDash; TDash]). do 2 (apply ar_before; [assumption|]). now apply ar_post_decr.
        -- gstep. gstep. gstep. gstep. 
           used (w ++ b ++ c ++ w0 ++ [TPlus; TPlus]). do 2 (apply ar_before; [assumption|]). now apply ar_post_incr.
      * gstep. used (w ++ b ++ c ++ w0). do 2 (apply ar_before; [assumption|]). apply ar_after; [|assumption]. now apply ar_var.
Qed.
Lemma sound_unary : sound 14 (arith_unary_misc fuel K).
Proof.
  intros ts. unfold arith_unary_misc. gstep. gstep. gstep. gstep.
  assert (D : gives (arith_post_incr fuel K) us (fun e rest => exists us1, w ++ us = us1 ++ rest /\ aread 14 e us1)).
  { gcall sound_post_incr c. used (w ++ c). apply ar_before; [assumption|]. now apply ar_tighter. }
  assert (V : forall v w x, blank w -> variable v x -> aread 14 (APreIncr v) (TPlus :: TPlus :: w ++ x)) by now constructor.
  gd; try exact D; clear D; gstep; gstep.
  - gstep. gcall K5 c. gstep. used (w ++ TBang :: c). apply ar_before; [assumption|]. apply ar_unary; [constructor|assumption].
  - gstep. gcall K5 c. gstep. used (w ++ TTilde :: c). apply ar_before; [assumption|]. apply ar_unary; [constructor|assumption].
  - match goal with |- context [w ++ _ :: ?x] => assert (D : gives (e <- k_unary K ;; ret (AUnaryMinus e)) x (fun e rest => exists us1, w ++ TDash :: x = us1 ++ rest /\ aread 14 e us1)) end.
    { gstep. gcall K5 c. gstep. used (w ++ TDash :: c). apply ar_before; [assumption|]. apply ar_unary; [constructor|assumption]. }
    gstep. gstep. gd; try exact D; clear D; gstep; gstep; gstep.
    + gvar b c. gstep. used (w ++ TDash :: TDash :: b ++ c). apply ar_before; [assumption|]. now constructor.
    + gcall K5 c. gstep. used (w ++ TDash :: TPlus :: c). apply ar_before; [assumption|]. 
      apply ar_unary; [constructor|]. apply ar_unary; [constructor|assumption].
  - match goal with |- context [w ++ _ :: ?x] => assert (D : gives (e <- k_unary K ;; ret (AUnaryPlus e)) x (fun e rest => exists us1, w ++ TPlus :: x = us1 ++ rest /\ aread 14 e us1)) end.
    { gstep. gcall K5 c. gstep. used (w ++ TPlus :: c). apply ar_before; [assumption|]. apply ar_unary; [constructor|assumption]. }
    gstep. gstep. gd; try exact D; clear D; gstep; gstep; gstep.
    + gcall K5 c. gstep. used (w ++ TPlus :: TDash :: c). apply ar_before; [assumption|]. 
      apply ar_unary; [constructor|]. apply ar_unary; [constructor|assumption].
    + gvar b c. gstep. used (w ++ TPlus :: TPlus :: b ++ c). apply ar_before; [assumption|]. now constructor.
Qed.
Lemma sound_pow : sound 13 (arith_pow fuel K).
Proof.
  intros ts. unfold arith_pow. gstep. gcall sound_unary c. gstep. gstep. gstep. gstep. destruct (look _ _).
  - gstep. gstep. gstep. gstep. gstep. gcall K4 d. gstep.
    used ((c ++ w) ++ TStar :: TStar :: d). apply ar_pow; [|assumption]. now apply ar_after.
  - gstep. used (c ++ w). apply ar_after; [|assumption]. now apply ar_tighter.
Qed.
Lemma sound_binop k next_expr op : sound (S k) next_expr ->
  (forall t c, op t = Some c -> binop k [t] c) -> sound k (arith_binop fuel next_expr op).
Proof.
  intros Hn Ho.
  assert (L : forall n e us ts, aread k e us -> gives (arith_binop_loop fuel next_expr op n e) ts
    (fun e rest => exists us1, us ++ ts = us1 ++ rest /\ aread k e us1)).
  { induction n as [|n IH]; intros e us ts He; [apply gives_fuel|]. cbn [arith_binop_loop]. gstep. gstep. gstep. gstep.
    assert (D : gives (ret e : prog _) us0 (fun e rest => exists us1, us ++ w ++ us0 = us1 ++ rest /\ aread k e us1)).
    { gstep. used (us ++ w). now apply ar_after. }
    destruct us0 as [|t us0]; [exact D|]. cbn [hd_error]. destruct (op t) eqn:Eo; [|exact D]. clear D.
    gstep. gstep. gstep. gcall Hn c.
    eapply gives_mono; [apply (IH _ ((us ++ w) ++ [t] ++ c))|].
    - apply ar_binary; [now apply Ho|now apply ar_after|assumption].
    - intros x rest (us2 & E2 & H2). exists us2. split; [|exact H2]. rewrite <- E2. appeq. }
  intros ts. unfold arith_binop. gstep. gcall Hn c. eapply gives_mono; [apply L, ar_tighter; eassumption|].
  intros x rest H. exact H.
Qed.
Lemma sound_shift : sound 10 (arith_shift fuel K).
Proof.
  apply sound_binop; [|intros t c E; destruct t; try discriminate; injection E as <-; constructor].
  apply sound_binop; [|intros t c E; destruct t; try discriminate; injection E as <-; constructor].
  apply sound_binop; [|intros t c E; destruct t; try discriminate; injection E as <-; constructor].
  apply sound_pow.
Qed.
Lemma sound_ineq : sound 9 (arith_ineq fuel K).
Proof.
  assert (L : forall n e us ts, aread 9 e us -> gives (arith_ineq_loop fuel K n e) ts
    (fun e rest => exists us1, us ++ ts = us1 ++ rest /\ aread 9 e us1)).
  { induction n as [|n IH]; intros e us ts He; [apply gives_fuel|]. cbn [arith_ineq_loop]. gstep. gstep. gstep. gstep.
    assert (D : gives (ret e : prog _) us0 (fun e rest => exists us1, us ++ w ++ us0 = us1 ++ rest /\ aread 9 e us1)).
    { gstep. used (us ++ w). now apply ar_after. }
    gd; try exact D; clear D; gstep; gstep; gstep; gstep; gstep; gcall sound_shift c.
    - eapply gives_mono; [apply (IH _ ((us ++ w) ++ [TLess; TEquals] ++ c))|].
      + apply ar_binary; [constructor|now apply ar_after|assumption].
      + intros x rest (us2 & E2 & H2). exists us2. split; [|exact H2]. rewrite <- E2. appeq.
    - eapply gives_mono; [apply (IH _ ((us ++ w) ++ [TLess] ++ c))|].
      + apply ar_binary; [constructor|now apply ar_after|assumption].
      + intros x rest (us2 & E2 & H2). exists us2. split; [|exact H2]. rewrite <- E2. appeq.
    - eapply gives_mono; [apply (IH _ ((us ++ w) ++ [TGreat; TEquals] ++ c))|].
      + apply ar_binary; [constructor|now apply ar_after|assumption].
      + intros x rest (us2 & E2 & H2). exists us2. split; [|exact H2]. rewrite <- E2. appeq.
    - eapply gives_mono; [apply (IH _ ((us ++ w) ++ [TGreat] ++ c))|].
      + apply ar_binary; [constructor|now apply ar_after|assumption].
      + intros x rest (us2 & E2 & H2). exists us2. split; [|exact H2]. rewrite <- E2. appeq. }
  intros ts. unfold arith_ineq. gstep. gcall sound_shift c. eapply gives_mono; [apply L, ar_tighter; eassumption|].
  intros x rest H. exact H.
Qed.
Lemma sound_eq : sound 8 (arith_eq fuel K).
Proof.
  assert (L : forall n e us ts, aread 8 e us -> gives (arith_eq_loop fuel K n e) ts
    (fun e rest => exists us1, us ++ ts = us1 ++ rest /\ aread 8 e us1)).
  { induction n as [|n IH]; intros e us ts He; [apply gives_fuel|]. cbn [arith_eq_loop]. gstep. gstep. gstep. gstep.
    assert (D : gives (ret e : prog _) us0 (fun e rest => exists us1, us ++ w ++ us0 = us1 ++ rest /\ aread 8 e us1)).
    { gstep. used (us ++ w). now apply ar_after. }
    gd; try exact D; clear D; gstep; gstep; gstep; gstep; gstep; gcall sound_ineq c.
    - eapply gives_mono; [apply (IH _ ((us ++ w) ++ [TBang; TEquals] ++ c))|].
      + apply ar_binary; [constructor|now apply ar_after|assumption].
      + intros x rest (us2 & E2 & H2). exists us2. split; [|exact H2]. rewrite <- E2. appeq.
    - eapply gives_mono; [apply (IH _ ((us ++ w) ++ [TEquals; TEquals] ++ c))|].
      + apply ar_binary; [constructor|now apply ar_after|assumption].
      + intros x rest (us2 & E2 & H2). exists us2. split; [|exact H2]. rewrite <- E2. appeq. }
  intros ts. unfold arith_eq. gstep. gcall sound_ineq c. eapply gives_mono; [apply L, ar_tighter; eassumption|].
  intros x rest H. exact H.
Qed.
Lemma sound_logical_or : sound 3 (arith_logical_or fuel K).
Proof.
  do 5 (apply sound_binop; [|intros t c E; destruct t; try discriminate; injection E as <-; constructor]).
  apply sound_eq.
Qed.
Lemma sound_ternary : sound 2 (arith_ternary fuel K).
Proof.
  intros ts. unfold arith_ternary. gstep. gcall sound_logical_or c. gstep. gstep. gstep. gstep.
  - gstep. gcall K3 d. gstep. gstep. gstep. gstep. gstep. gcall K3 e. gstep.
    used ((c ++ w) ++ TQuestion :: (d ++ w0) ++ TColon :: e).
    apply ar_ternary; [now apply ar_after|now apply ar_after|assumption].
  - gstep. used (c ++ w). apply ar_after; [|assumption]. now apply ar_tighter.
Qed.
Lemma sound_assig : sound 1 (arith_assig fuel K).
Proof.
  intros ts. unfold arith_assig. gstep. gstep. gstep. gstep. destruct (look _ _) as [[|]|]; [| |gstep].
  - gstep. gvar b c. gstep. gstep. gstep. destruct us as [|t us]; [gstep; repeat gstep|]. gstep. destruct t; try solve [repeat gstep].
    all: repeat (lazymatch goal with |- gives (k_assig K) _ _ => fail | _ => gstep end); gcall K2 d; cbn [assig_expr]; gstep.
    all: lazymatch goal with
         | |- context [?W ++ ?b' ++ ?c' ++ ?x ++ ?t :: TEquals :: ?d' ++ _] =>
             used (W ++ b' ++ c' ++ x ++ t :: TEquals :: d'); do 2 (apply ar_before; [assumption|]);
             eapply ar_assign_op; [assumption|assumption|constructor|assumption]
         | |- context [?W ++ ?b' ++ ?c' ++ ?x ++ TEquals :: ?d' ++ _] =>
             used (W ++ b' ++ c' ++ x ++ TEquals :: d'); do 2 (apply ar_before; [assumption|]); now apply ar_assign
         end.
  - gcall sound_ternary c. used (w ++ c). apply ar_before; [assumption|]. now apply ar_tighter.
Qed.
Lemma aseq_snoc es us e ts : aseq_read token_num es us -> aread 1 e ts -> aseq_read token_num (es ++ [e]) (us ++ TComma :: ts).
Proof.
  intros H He. induction H as [e1 us H1|e1 us es us' H1 H2 IH].
  - apply sr_more; [exact H1|]. now apply sr_one.
  - cbn [app]. rewrite <- app_assoc. cbn [app]. now apply sr_more.
Qed.
Lemma sound_subst : sound 0 (arithmetic_substitution_ fuel K).
Proof.
  assert (L : forall n acc us ts, (acc = [] /\ us = [] \/ exists us', us = us' ++ [TComma] /\ aseq_read token_num acc us') ->
    gives (arith_seq_loop fuel K n acc) ts
    (fun es rest => exists us1, us ++ ts = us1 ++ rest /\ aseq_read token_num es us1)).
  { induction n as [|n IH]; intros acc us ts He; [apply gives_fuel|]. cbn [arith_seq_loop]. gstep. gstep. gstep. gcall sound_assig c.
    assert (A : aseq_read token_num (acc ++ [a]) (us ++ w ++ c)).
    { destruct He as [[-> ->]|(us' & -> & He)].
      - cbn [app]. apply sr_one. now apply ar_before.
      - rewrite <- app_assoc. cbn [app]. apply aseq_snoc; [exact He|]. now apply ar_before. }
    gstep. gstep.
    - eapply gives_mono; [apply (IH _ ((us ++ w ++ c) ++ [TComma]))|].
      + right. eexists. split; [reflexivity|exact A].
      + intros x rest (us2 & E2 & H2). exists us2. split; [|exact H2]. rewrite <- E2. appeq.
    - gstep. used (us ++ w ++ c). exact A. }
  intros ts. unfold arithmetic_substitution_. gstep. eapply gives_mono; [apply (L _ [] []); now left|].
  intros es rest (us & E & H). cbn [app] in E. subst ts.
  destruct es as [|e [|e2 es]]; gstep; exists us; (split; [reflexivity|]).
  - inversion H.
  - apply ar_tighter. inversion H; subst; [assumption|]. match goal with X : aseq_read _ [] _ |- _ => inversion X end.
  - apply ar_sequence; [exact H|cbn; lia].
Qed.
End Sound.

Section Knot.
Context {BS BE : Type}.
Variable fuel : nat.
Lemma sound_fuel k : @sound BS BE k outoffuel. Proof. intros ts. apply gives_fuel. Qed.
Lemma sound_knot n : @sound BS BE 0 (k_subst (arith_knot fuel n)).
Proof.
  assert (H : @sound BS BE 0 (k_subst (arith_knot fuel n)) /\ @sound BS BE 1 (k_assig (arith_knot fuel n)) /\
    @sound BS BE 2 (k_ternary (arith_knot fuel n)) /\ @sound BS BE 13 (k_pow (arith_knot fuel n)) /\
    @sound BS BE 14 (k_unary (arith_knot fuel n))); [|apply H].
  induction n as [|n (H1 & H2 & H3 & H4 & H5)].
  - repeat (split; [apply sound_fuel|]). apply sound_fuel.
  - cbn [arith_knot k_subst k_assig k_ternary k_pow k_unary].
    split; [now apply sound_subst|]. split; [now apply sound_assig|]. split; [now apply sound_ternary|].
    split; [now apply sound_pow|now apply sound_unary].
Qed.
End Knot.

(** ** The theorems *)
(** The value of a literal: that of the numeral, if it fits, or 0 for a prefix without digits. *)
Definition literal_value (s : str) (z : Z) : Prop :=
  (exists v, int_literal s v /\ fits v /\ z = Z.of_N v) \/ bare_prefix s /\ z = 0%Z.

Scheme aread_mind := Induction for aread Sort Prop
  with aseq_read_mind := Induction for aseq_read Sort Prop.
Combined Scheme aread_both from aread_mind, aseq_read_mind.
Lemma aread_mono (lit lit' : str -> Z -> Prop) :
  (forall k e ts, aread lit k e ts -> (forall s z, In (TLiteral s) ts -> lit s z -> lit' s z) -> aread lit' k e ts) /\
  (forall es ts, aseq_read lit es ts -> (forall s z, In (TLiteral s) ts -> lit s z -> lit' s z) -> aseq_read lit' es ts).
Proof.
  apply aread_both; intros;
    repeat match goal with
    | IH : (forall s z, In (TLiteral s) ?ts -> lit s z -> lit' s z) -> _, H : forall s z, In (TLiteral s) _ -> lit s z -> lit' s z |- _ =>
        specialize (IH ltac:(intros s0 z0 Hin Hz; apply H; [rewrite ?in_app_iff; cbn [In]; rewrite ?in_app_iff; cbn [In]; tauto|exact Hz]))
    end; try (econstructor; eassumption).
  apply ar_literal. apply H; [now left|assumption].
Qed.

(** The literals of an expression, left to right. *)
Fixpoint literals (e : arith) : list Z :=
  match e with
  | AVar _ | APostIncr _ | APostDecr _ | APreIncr _ | APreDecr _ => []
  | ALiteral z => [z]
  | AUnaryPlus a | AUnaryMinus a | ALogicalNot a | ABitwiseNot a | AAssign _ a => literals a
  | APow a b | AMult a b | ADiv a b | AModulo a b | AAdd a b | ASub a b | AShiftLeft a b | AShiftRight a b
  | ALess a b | ALessEq a b | AGreat a b | AGreatEq a b | AEq a b | ANotEq a b | ABitwiseAnd a b
  | ABitwiseXor a b | ABitwiseOr a b | ALogicalAnd a b | ALogicalOr a b => literals a ++ literals b
  | ATernary a b c => literals a ++ literals b ++ literals c
  | ASequence es => concat (map literals es)
  end.
(** The literal tokens of a token list. *)
Definition literal_texts (ts : list token) : list str :=
  concat (map (fun t => match t with TLiteral s => [s] | _ => [] end) ts).
Lemma literal_texts_app a b : literal_texts (a ++ b) = literal_texts a ++ literal_texts b.
Proof. unfold literal_texts. now rewrite map_app, concat_app. Qed.
Lemma literal_texts_cons t b : literal_texts (t :: b) = literal_texts [t] ++ literal_texts b.
Proof. apply (literal_texts_app [t]). Qed.
Lemma literal_texts_blank w : blank w -> literal_texts w = [].
Proof. induction 1 as [|s w H IH|w H IH]; [reflexivity| |]; unfold literal_texts in *; cbn; exact IH. Qed.
Lemma literal_texts_variable v ts : variable v ts -> literal_texts ts = [].
Proof. now intros []. Qed.
Lemma aread_literals lit :
  (forall k e ts, aread lit k e ts -> Forall2 lit (literal_texts ts) (literals e)) /\
  (forall es ts, aseq_read lit es ts -> Forall2 lit (literal_texts ts) (concat (map literals es))).
Proof.
  assert (T : forall t, match t with TLiteral _ => False | _ => True end -> forall b, literal_texts (t :: b) = literal_texts b).
  { intros t Ht b. rewrite literal_texts_cons. destruct t; try reflexivity. contradiction. }
  apply aread_both; intros; repeat first [rewrite literal_texts_app | rewrite T by exact I]; 
    rewrite ?(literal_texts_blank w) by assumption; rewrite ?app_nil_r; cbn [app]; cbn [literals]; try assumption.
  - constructor; [assumption|constructor].
  - erewrite literal_texts_variable by eassumption. constructor.
  - erewrite literal_texts_variable by eassumption. constructor.
  - erewrite literal_texts_variable by eassumption. constructor.
  - erewrite literal_texts_variable by eassumption. constructor.
  - erewrite literal_texts_variable by eassumption. constructor.
  - destruct u; cbn; rewrite ?T by exact I; assumption.
  - now apply Forall2_app.
  - destruct b; cbn [literals literal_texts map concat app]; now apply Forall2_app.
  - apply Forall2_app; [assumption|]. now apply Forall2_app.
  - erewrite literal_texts_variable by eassumption. assumption.
  - erewrite literal_texts_variable by eassumption. destruct a; cbn [literals app]; rewrite ?T by exact I; assumption.
  - cbn [map concat]. now rewrite app_nil_r.
  - cbn [map concat]. now apply Forall2_app.
Qed.
Section Api.
Context (B : builder) (fuel : nat) (s : token_iter) (b : bst B).
Hypothesis HR : parser_reach B s b.
Lemma arithmetic_reads e s' b' : run concrete (call B AArithmetic fuel) s b = (OOk e, s', b') ->
  exists us, tokens_left s = us ++ tokens_left s' /\ aread token_num 0 e us.
Proof.
  refine (gives_concrete B AArithmetic fuel s b (fun e r => exists us, tokens_left s = us ++ r /\ aread token_num 0 e us) HR _ e s' b').
  apply sound_knot.
Qed.
Context {U : Uni}.
Hypothesis HL : Forall lexable (tokens_left s).
(** Whatever [Parser::arithmetic_substitution] accepts is an expression of the grammar, and the
    tree it returns is one the grammar assigns to exactly the tokens it read. *)
Theorem arithmetic_sound e s' b' : run concrete (call B AArithmetic fuel) s b = (OOk e, s', b') ->
  exists us, tokens_left s = us ++ tokens_left s' /\ aread literal_value 0 e us.
Proof.
  intros H. destruct (arithmetic_reads e s' b' H) as (us & E & Ha). exists us. split; [exact E|].
  eapply (proj1 (aread_mono token_num literal_value)); [exact Ha|]. intros x z Hin Hz.
  apply literal_num_inv; [|exact Hz]. apply literal_no_sign.
  rewrite E in HL. apply Forall_app in HL as [HL' _]. rewrite Forall_forall in HL'. now apply HL'.
Qed.
(** C19, in any expression: the literals of the tree are, left to right, the values of the literals
    read; none is wrapped. *)
Theorem arithmetic_literals_exact e s' b' : run concrete (call B AArithmetic fuel) s b = (OOk e, s', b') ->
  exists us, tokens_left s = us ++ tokens_left s' /\ Forall2 literal_value (literal_texts us) (literals e).
Proof.
  intros H. destruct (arithmetic_sound e s' b' H) as (us & E & Ha). exists us. split; [exact E|].
  now apply (proj1 (aread_literals literal_value)) in Ha.
Qed.
Corollary arithmetic_literals_fit e s' b' : run concrete (call B AArithmetic fuel) s b = (OOk e, s', b') ->
  Forall (fun z => (0 <= z < 2 ^ 63)%Z) (literals e).
Proof.
  intros H. destruct (arithmetic_literals_exact e s' b' H) as (us & _ & Ha).
  induction Ha as [|x z xs zs [(v & _ & Hf & ->)|[_ ->]] _ IH]; constructor; auto; unfold fits in *; lia.
Qed.
End Api.

(** A run the theorems speak about. *)
Example arithmetic_sound_witness (U : Uni := fun _ => false) :
  let src := s_of "x = 0x10 + 2 * (07 - y), -3" in
  parser_reach EmptyBuilder.empty_builder (ti_new (lex src)) tt /\ Forall lexable (tokens_left (ti_new (lex src))) /\
  exists s', run concrete (call EmptyBuilder.empty_builder AArithmetic 100) (ti_new (lex src)) tt
    = (OOk (ASequence [AAssign (s_of "x") (AAdd (ALiteral 16) (AMult (ALiteral 2) (ASub (ALiteral 7) (AVar (s_of "y")))));
                       AUnaryMinus (ALiteral 3)]), s', tt).
Proof.
  cbv zeta. split; [apply pr_new|]. split.
  - change (tokens_left (ti_new (lex ?x))) with (lex x). apply Forall_forall. intros t. apply lex_lexable.
  - eexists. vm_compute. reflexivity.
Qed.
