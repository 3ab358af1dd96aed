(** * The arithmetic language, exactly

    [ArithRuns.v] shows that every expression written in the grammar of [ArithSpec.v] is read as
    that expression; here the converse: whatever the parser reads is written in that grammar.
    Together: the parser accepts exactly the grammar's sentences. *)
From Coq Require Import String.
From Verif Require Import Base Token Pos Lexer LexSpec LexTheorems Ast Builder Prog Iter Located IterProofs ParserBase Balanced
  BalancedSpec Arith Word Redirect Command RunLemmas Entry Api Total Runs Gives ArithSpec ArithRuns.

(** No [++] or [--] stands first in what follows. *)
Definition no_double (rest : list token) : Prop :=
  forall t r, skipw rest = t :: r -> t = TPlus \/ t = TDash -> hd_error r <> Some t.
Lemma no_double_blank w rest : blank w -> no_double (w ++ rest) <-> no_double rest.
Proof. intros Hw. unfold no_double. now rewrite skipw_blank. Qed.

Scheme aexpr_mind := Induction for aexpr Sort Prop
  with aseq_mind := Induction for aseq Sort Prop.
Lemma aexpr_before k o e ts : aexpr k o e ts -> forall w, blank w -> aexpr k o e (w ++ ts).
Proof.
  induction 1 as [k o e ts Hk H IH|w s z Hw Hl|w v ts Hw Hv|w v ts w' Hw Hv Hw'|w v ts w' Hw Hv Hw'
    |w o e ts w' Hw He IH Hw'|w w' v ts Hw Hw' Hv|w w' v ts Hw Hw' Hv|w t c o e ts Hw Hu He IH Hd
    |w o e ts Hw He IH|w o e ts Hw He IH
    |o1 e1 ts1 w o2 e2 ts2 H1 IH1 Hw H2 IH2|k op c o1 e1 ts1 w o2 e2 ts2 Ho H1 IH1 Hw H2 IH2 Hd
    |o1 g ts1 w1 o2 b ts2 w2 o3 e ts3 H1 IH1 Hw1 H2 IH2 Hw2 H3 IH3|w v ts1 w' o e ts2 Hw Hv Hw' H IH
    |w v ts1 w' t c o e ts2 Hw Hv Hw' Ho H IH|o e ts o' es tss H IH Hs]; intros x Hx; [now apply ae_tighter; [|apply IH]|..]; rewrite app_assoc.
  all: try (econstructor; eauto using blank_app; fail).
Qed.
Lemma aexpr_nonempty k o e ts : aexpr k o e ts -> ts <> [].
Proof. intros H. destruct (aexpr_first _ _ _ _ H) as (w & t & r & -> & _). now destruct w. Qed.
Lemma hd_app_ne {A} (a b : list A) : a <> [] -> hd_error (a ++ b) = hd_error a.
Proof. now destruct a. Qed.
Lemma ahead_spaces w t r : blank w -> assign_op_ahead (w ++ t :: r) = true -> spaces w.
Proof.
  induction 1 as [|s w Hw IH|w Hw IH]; intros H; [constructor| |discriminate].
  constructor; [now exists s|]. now apply IH.
Qed.
Lemma ahead_assign w v us w' t r : blank w -> variable v us -> blank w' ->
  assig_ahead (w ++ us ++ w' ++ t :: r) = true -> w = [] /\ spaces w'.
Proof.
  intros Hw Hv Hw' H. destruct Hw; try discriminate. split; [reflexivity|].
  destruct Hv; cbn [app assig_ahead] in H; now apply ahead_spaces in H.
Qed.

Section Sound.
Context {BS BE : Type}.
Notation prog := (prog BS BE).
Variable fuel : nat.
Definition exact (k : nat) (p : prog arith) : Prop :=
  forall ts, gives p ts (fun e rest => exists o us w, ts = us ++ w ++ rest /\ blank w /\ aexpr k o e us /\ (o = true -> no_double rest)).
Tactic Notation "gcall" constr(H) ident(us) ident(w) := eapply gives_mono; [apply H|];
  let a := fresh "a" in let r := fresh "r" in let o := fresh "o" in let H := fresh "Ha" in let Hw := fresh "Hw" in let Hd := fresh "Hd" in
  intros a r (o & us & w & -> & Hw & H & Hd).
Ltac gd := lazymatch goal with |- gives _ ?ts _ =>
  let t := fresh "t" in let us := fresh "us" in
  destruct ts as [|t us]; cbn [hd_error tl]; cbv beta match; [|destruct t; cbv beta match] end.
Ltac appeq := repeat (progress (rewrite <- ?app_assoc; cbn [app])); reflexivity.
(* the result: flag, tokens, trailing blanks *)
Tactic Notation "used" constr(o) constr(x) constr(w) := exists o, x, w; split; [appeq|]; split; [try assumption; try constructor|].
Lemma exact_var ts : gives (arith_var fuel : prog _) ts (fun v rest => exists w us, ts = w ++ us ++ rest /\ blank w /\ variable v us).
Proof.
  unfold arith_var. gstep. gstep. gstep. gstep.
  - gstep. gstep. gd; try gstep. gstep. gstep.
    exists w, [TDollar; TName s]. split; [reflexivity|]. split; [exact Hw|constructor].
  - gstep. gstep. gd; try gstep. gstep. gstep.
    exists w, [TName s]. split; [reflexivity|]. split; [exact Hw|constructor].
Qed.
Tactic Notation "gvar" ident(w) ident(us) := eapply gives_mono; [apply exact_var|];
  let v := fresh "v" in let r := fresh "r" in let Hw := fresh "Hw" in let Hv := fresh "Hv" in
  intros v r (w & us & -> & Hw & Hv).

Variable K : arith_knots BS BE.
Hypothesis K1 : exact 0 (k_subst K).
Hypothesis K2 : exact 1 (k_assig K).
Hypothesis K3 : exact 2 (k_ternary K).
Hypothesis K4 : exact 13 (k_pow K).
Hypothesis K5 : exact 14 (k_unary K).
Hint Resolve blank_app : core.

Lemma exact_post_incr : exact 15 (arith_post_incr fuel K).
Proof.
  intros ts. unfold arith_post_incr. gstep. gstep. gstep. gstep.
  - gstep. gcall K1 c x. gstep. gstep. gstep. gstep. gstep.
    used false (w ++ (TParenOpen :: c ++ (x ++ w0) ++ [TParenClose])) (@nil token).
    split; [|discriminate]. eapply ae_paren; eauto.
  - gstep. gstep. destruct (literal_num (hd_error us)) as [z|] eqn:Ez.
    + gstep. gstep. gstep. destruct us as [|t us]; [discriminate|]. destruct t; try discriminate.
      used false (w ++ [TLiteral s]) (@nil token). split; [|discriminate]. apply ae_literal; [exact Hw|]. now apply literal_num_denotes.
    + gstep. gvar b c. gstep. gstep. gstep. gstep.
      destruct (look _ _) eqn:El.
      * gstep. gstep. gd; try gstep.
        -- gstep. gstep. gstep. gstep.
           used false ((w ++ b) ++ c ++ w0 ++ [TDash; TDash]) (@nil token). split; [|discriminate]. apply ae_post_decr; auto.
        -- gstep. gstep. gstep. gstep.
           used false ((w ++ b) ++ c ++ w0 ++ [TPlus; TPlus]) (@nil token). split; [|discriminate]. apply ae_post_incr; auto.
      * gstep. used true ((w ++ b) ++ c) w0. split; [apply ae_var; auto|]. intros _ t r Et Ht.
        rewrite Hk0 in Et. subst. cbn [look post_incr_try hd_error tl] in El.
        destruct Ht as [-> | ->]; cbn [look] in El; intros Eh; cbn [tl] in El; rewrite Eh in El; discriminate.
Qed.
Lemma apart_of t x ts r : unop t x -> t <> TPlus /\ t <> TDash \/ hd_error (ts ++ r) <> Some TPlus /\ hd_error (ts ++ r) <> Some TDash ->
  ts <> [] -> unary_apart t ts.
Proof.
  intros _ [H|H] Hn Ht; [tauto|]. now rewrite hd_app_ne in H.
Qed.
Lemma exact_unary : exact 14 (arith_unary_misc fuel K).
Proof.
  intros ts. unfold arith_unary_misc. gstep. gstep. gstep. gstep.
  assert (D : gives (arith_post_incr fuel K) us (fun e rest => exists o us1 x, w ++ us = us1 ++ x ++ rest /\ blank x /\ aexpr 14 o e us1 /\ (o = true -> no_double rest))).
  { gcall exact_post_incr c x. used o (w ++ c) x. split; [|assumption]. apply aexpr_before; [|assumption]. apply ae_tighter; [lia|assumption]. }
  gd; try exact D; clear D; gstep; gstep.
  - gstep. gcall K5 c x. gstep. used o (w ++ TBang :: c) x. split; [|assumption].
    apply ae_unary; [assumption|constructor|assumption|]. intros []; discriminate.
  - gstep. gcall K5 c x. gstep. used o (w ++ TTilde :: c) x. split; [|assumption].
    apply ae_unary; [assumption|constructor|assumption|]. intros []; discriminate.
  - assert (D : hd_error us0 <> Some TPlus -> hd_error us0 <> Some TDash -> gives (e <- k_unary K ;; ret (AUnaryMinus e)) us0
      (fun e rest => exists o us1 x, w ++ TDash :: us0 = us1 ++ x ++ rest /\ blank x /\ aexpr 14 o e us1 /\ (o = true -> no_double rest))).
    { intros N1 N2. gstep. gcall K5 c x. gstep. used o (w ++ TDash :: c) x. split; [|assumption].
      rewrite hd_app_ne in N1, N2 by now apply aexpr_nonempty in Ha.
      apply ae_unary; [assumption|constructor|assumption|]. now split. }
    gstep. gstep. gd; try (apply D; discriminate); clear D; gstep; gstep; gstep.
    + gvar b c. gstep. used false (w ++ TDash :: TDash :: b ++ c) (@nil token). split; [|discriminate]. now constructor.
    + gcall K5 c x. gstep. used o (w ++ TDash :: TPlus :: c) x. split; [|assumption]. now apply ae_minus_plus.
  - assert (D : hd_error us0 <> Some TPlus -> hd_error us0 <> Some TDash -> gives (e <- k_unary K ;; ret (AUnaryPlus e)) us0
      (fun e rest => exists o us1 x, w ++ TPlus :: us0 = us1 ++ x ++ rest /\ blank x /\ aexpr 14 o e us1 /\ (o = true -> no_double rest))).
    { intros N1 N2. gstep. gcall K5 c x. gstep. used o (w ++ TPlus :: c) x. split; [|assumption].
      rewrite hd_app_ne in N1, N2 by now apply aexpr_nonempty in Ha.
      apply ae_unary; [assumption|constructor|assumption|]. now split. }
    gstep. gstep. gd; try (apply D; discriminate); clear D; gstep; gstep; gstep.
    + gcall K5 c x. gstep. used o (w ++ TPlus :: TDash :: c) x. split; [|assumption]. now apply ae_plus_minus.
    + gvar b c. gstep. used false (w ++ TPlus :: TPlus :: b ++ c) (@nil token). split; [|discriminate]. now constructor.
Qed.
Lemma exact_pow : exact 13 (arith_pow fuel K).
Proof.
  intros ts. unfold arith_pow. gstep. gcall exact_unary c x. gstep. gstep. gstep. gstep. destruct (look _ _).
  - gstep. gstep. gstep. gstep. gstep. gcall K4 d y. gstep.
    used o0 (c ++ (x ++ w) ++ TStar :: TStar :: d) y. split; [|assumption]. eapply ae_pow; eauto.
  - gstep. used o c (x ++ w); [auto|]. split; [apply ae_tighter; [lia|assumption]|].
    intros Ho. specialize (Hd Ho). now rewrite no_double_blank in Hd.
Qed.
(* the loops: what has been read so far, and what follows *)
Definition so_far k e ts0 ts := exists o us w, ts0 = us ++ w ++ ts /\ blank w /\ aexpr k o e us /\ (o = true -> no_double ts).
Lemma so_far_skip k e ts0 w ts : blank w -> so_far k e ts0 (w ++ ts) -> so_far k e ts0 ts.
Proof.
  intros Hw (o & us & x & -> & Hx & He & Hd). exists o, us, (x ++ w). repeat split; auto.
  - now rewrite <- app_assoc.
  - intros Ho. specialize (Hd Ho). now rewrite no_double_blank in Hd.
Qed.
Lemma so_far_op k op c e ts0 r o d y ts : binop k op c -> so_far k e ts0 (op ++ d ++ y ++ ts) ->
  aexpr (S k) o r d -> blank y -> (o = true -> no_double ts) -> so_far k (c e r) ts0 ts.
Proof.
  intros Hop (o1 & us & x & -> & Hx & He & Hd) Hr Hy Hd2.
  exists o, (us ++ x ++ op ++ d), y. repeat split; auto.
  - now rewrite <- !app_assoc.
  - eapply ae_binary; eauto. intros Ho t -> Ht. cbn [app] in Hd.
    specialize (Hd Ho t (d ++ y ++ ts)). rewrite hd_app_ne in Hd by now apply aexpr_nonempty in Hr. apply Hd; [|exact Ht].
    apply skipw_solid. destruct Ht as [-> | ->]; reflexivity.
Qed.
Lemma exact_binop k next_expr op : (k < 15)%nat -> exact (S k) next_expr ->
  (forall t c, op t = Some c -> binop k [t] c) -> exact k (arith_binop fuel next_expr op).
Proof.
  intros Hk15 Hn Ho ts.
  assert (L : forall n e us, so_far k e ts us -> gives (arith_binop_loop fuel next_expr op n e) us (fun e rest => so_far k e ts rest)).
  { induction n as [|n IH]; intros e us He; [apply gives_fuel|]. cbn [arith_binop_loop]. gstep. gstep. gstep. gstep.
    apply so_far_skip in He; [|exact Hw].
    assert (D : gives (ret e : prog _) us0 (fun e rest => so_far k e ts rest)) by (gstep; exact He).
    destruct us0 as [|t us0]; [exact D|]. cbn [hd_error]. destruct (op t) eqn:Eo; [|exact D]. clear D.
    gstep. gstep. gstep. gcall Hn c x. apply IH. eapply (so_far_op k [t] a); [now apply Ho|exact He|eassumption..]. }
  unfold arith_binop. gstep. gcall Hn c x. apply L. exists o, c, x. repeat split; auto. now apply ae_tighter.
Qed.
Lemma exact_shift : exact 10 (arith_shift fuel K).
Proof.
  apply exact_binop; [lia| |intros t c E; destruct t; try discriminate; injection E as <-; constructor].
  apply exact_binop; [lia| |intros t c E; destruct t; try discriminate; injection E as <-; constructor].
  apply exact_binop; [lia| |intros t c E; destruct t; try discriminate; injection E as <-; constructor].
  apply exact_pow.
Qed.
Lemma exact_ineq : exact 9 (arith_ineq fuel K).
Proof.
  intros ts.
  assert (L : forall n e us, so_far 9 e ts us -> gives (arith_ineq_loop fuel K n e) us (fun e rest => so_far 9 e ts rest)).
  { induction n as [|n IH]; intros e us He; [apply gives_fuel|]. cbn [arith_ineq_loop]. gstep. gstep. gstep. gstep.
    apply so_far_skip in He; [|exact Hw].
    assert (D : gives (ret e : prog _) us0 (fun e rest => so_far 9 e ts rest)) by (gstep; exact He).
    gd; try exact D; clear D; gstep; gstep; gstep; gstep; gstep; gcall exact_shift c x; apply IH.
    - eapply (so_far_op 9 [TLess; TEquals] ALessEq); [constructor|exact He|eassumption..].
    - eapply (so_far_op 9 [TLess] ALess); [constructor|exact He|eassumption..].
    - eapply (so_far_op 9 [TGreat; TEquals] AGreatEq); [constructor|exact He|eassumption..].
    - eapply (so_far_op 9 [TGreat] AGreat); [constructor|exact He|eassumption..]. }
  unfold arith_ineq. gstep. gcall exact_shift c x. apply L. exists o, c, x. repeat split; auto. apply ae_tighter; [lia|assumption].
Qed.
Lemma exact_eq : exact 8 (arith_eq fuel K).
Proof.
  intros ts.
  assert (L : forall n e us, so_far 8 e ts us -> gives (arith_eq_loop fuel K n e) us (fun e rest => so_far 8 e ts rest)).
  { induction n as [|n IH]; intros e us He; [apply gives_fuel|]. cbn [arith_eq_loop]. gstep. gstep. gstep. gstep.
    apply so_far_skip in He; [|exact Hw].
    assert (D : gives (ret e : prog _) us0 (fun e rest => so_far 8 e ts rest)) by (gstep; exact He).
    gd; try exact D; clear D; gstep; gstep; gstep; gstep; gstep; gcall exact_ineq c x; apply IH.
    - eapply (so_far_op 8 [TBang; TEquals] ANotEq); [constructor|exact He|eassumption..].
    - eapply (so_far_op 8 [TEquals; TEquals] AEq); [constructor|exact He|eassumption..]. }
  unfold arith_eq. gstep. gcall exact_ineq c x. apply L. exists o, c, x. repeat split; auto. apply ae_tighter; [lia|assumption].
Qed.
Lemma exact_logical_or : exact 3 (arith_logical_or fuel K).
Proof.
  do 5 (apply exact_binop; [lia| |intros t c E; destruct t; try discriminate; injection E as <-; constructor]).
  apply exact_eq.
Qed.
Lemma exact_ternary : exact 2 (arith_ternary fuel K).
Proof.
  intros ts. unfold arith_ternary. gstep. gcall exact_logical_or c x. gstep. gstep. gstep. gstep.
  - gstep. gcall K3 d y. gstep. gstep. gstep. gstep. gstep. gcall K3 e z. gstep.
    used o1 (c ++ (x ++ w) ++ TQuestion :: d ++ (y ++ w0) ++ TColon :: e) z. split; [|assumption].
    eapply ae_ternary; eauto.
  - gstep. used o c (x ++ w); [auto|]. split; [apply ae_tighter; [lia|assumption]|].
    intros Ho. specialize (Hd Ho). now rewrite no_double_blank in Hd.
Qed.
Lemma exact_assig : exact 1 (arith_assig fuel K).
Proof.
  intros ts. unfold arith_assig. gstep. gstep. gstep. gstep.
  destruct (look_assig fuel fuel us) as [El|El]; rewrite El; [gstep|]. destruct (assig_ahead us) eqn:Ea.
  - gstep. gvar b c. gstep. gstep. gstep. destruct us as [|t us]; [gstep; repeat gstep|].
    eapply ahead_assign in Ea as [-> Hs]; [|eassumption..]. gstep. destruct t; try solve [repeat gstep].
    all: repeat (lazymatch goal with |- gives (k_assig K) _ _ => fail | _ => gstep end); gcall K2 d y; cbn [assig_expr]; gstep.
    all: lazymatch goal with
         | |- context [?W ++ [] ++ ?c' ++ ?x ++ ?t :: TEquals :: ?d' ++ _] =>
             used o (W ++ c' ++ x ++ t :: TEquals :: d') y; split; [|assumption];
             eapply ae_assign_op; [assumption|assumption|assumption|constructor|assumption]
         | |- context [?W ++ [] ++ ?c' ++ ?x ++ TEquals :: ?d' ++ _] =>
             used o (W ++ c' ++ x ++ TEquals :: d') y; split; [|assumption]; now apply ae_assign
         end.
  - gcall exact_ternary c x. used o (w ++ c) x. split; [|assumption]. apply aexpr_before; [|assumption]. apply ae_tighter; [lia|assumption].
Qed.
Lemma aseq_snoc o es us w o' e ts : aseq o es us -> blank w -> aexpr 1 o' e ts -> aseq o' (es ++ [e]) (us ++ w ++ TComma :: ts).
Proof.
  intros H Hw He. induction H as [w1 o1 e1 us H1 H2|w1 o1 e1 us o2 es us' H1 H2 H3 IH]; cbn [app].
  - rewrite <- app_assoc. cbn [app]. eapply as_more; eauto. now apply as_one.
  - rewrite <- app_assoc. cbn [app]. rewrite <- app_assoc. eapply as_more; eauto.
Qed.
(* one expression, or several *)
Definition seq_far es ts0 ts := exists o us w, ts0 = us ++ w ++ ts /\ blank w /\ (o = true -> no_double ts) /\
  ((exists e, es = [e] /\ aexpr 1 o e us) \/
   (exists e es' o1 us1 us2, es = e :: es' /\ us = us1 ++ us2 /\ aexpr 1 o1 e us1 /\ aseq o es' us2)).
Lemma exact_subst : exact 0 (arithmetic_substitution_ fuel K).
Proof.
  intros ts.
  assert (L : forall n acc us, (acc = [] /\ us = ts \/ seq_far acc ts (TComma :: us)) ->
    gives (arith_seq_loop fuel K n acc) us (fun es rest => seq_far es ts rest)).
  { induction n as [|n IH]; intros acc us He; [apply gives_fuel|]. cbn [arith_seq_loop]. gstep. gstep. gstep. gcall exact_assig c x.
    assert (A : seq_far (acc ++ [a]) ts r).
    { apply (aexpr_before _ _ _ _ Ha w) in Hw. destruct He as [[-> <-]|(o1 & us & w1 & -> & Hw1 & Hd1 & He)].
      - exists o, (w ++ c), x. split; [now rewrite <- app_assoc|]. split; [assumption|]. split; [assumption|]. left. exists a. split; [reflexivity|]. exact Hw.
      - exists o, (us ++ w1 ++ TComma :: w ++ c), x. split; [repeat (rewrite <- ?app_assoc; cbn [app]); reflexivity|]. repeat split; auto. right.
        destruct He as [(e & -> & He)|(e & es' & o2 & us1 & us2 & -> & -> & He & Hes)].
        + exists e, [a], o1, us, (w1 ++ TComma :: w ++ c). repeat split; auto. now apply as_one.
        + exists e, (es' ++ [a]), o2, us1, (us2 ++ w1 ++ TComma :: w ++ c). repeat split; auto; [now rewrite <- app_assoc|].
          eapply aseq_snoc; eauto. }
    gstep. gstep.
    - apply IH. now right.
    - gstep. exact A. }
  unfold arithmetic_substitution_. gstep. eapply gives_mono; [apply (L _ []); now left|].
  intros es rest (o & us & w & E & Hw & Hd & [(e & -> & He)|(e & es' & o1 & us1 & us2 & -> & -> & He & Hes)]).
  - gstep. exists o, us, w. repeat split; auto. apply ae_tighter; [lia|assumption].
  - assert (es' <> []) by now destruct Hes. destruct es' as [|e2 es']; [congruence|]. gstep.
    exists o, (us1 ++ us2), w. repeat split; auto. eapply ae_sequence; eauto.
Qed.
End Sound.

Section Knot.
Context {BS BE : Type}.
Variable fuel : nat.
Lemma exact_fuel k : @exact BS BE k outoffuel. Proof. intros ts. apply gives_fuel. Qed.
Lemma exact_knot n : @exact BS BE 0 (k_subst (arith_knot fuel n)).
Proof.
  assert (H : @exact BS BE 0 (k_subst (arith_knot fuel n)) /\ @exact BS BE 1 (k_assig (arith_knot fuel n)) /\
    @exact BS BE 2 (k_ternary (arith_knot fuel n)) /\ @exact BS BE 13 (k_pow (arith_knot fuel n)) /\
    @exact BS BE 14 (k_unary (arith_knot fuel n))); [|apply H].
  induction n as [|n (H1 & H2 & H3 & H4 & H5)].
  - repeat (split; [apply exact_fuel|]). apply exact_fuel.
  - cbn [arith_knot k_subst k_assig k_ternary k_pow k_unary].
    split; [now apply exact_subst|]. split; [now apply exact_assig|]. split; [now apply exact_ternary|].
    split; [now apply exact_pow|now apply exact_unary].
Qed.
(** What [arithmetic_substitution] reads is written in the grammar (then come blanks). *)
Lemma arith_gives ts : gives (arithmetic_substitution fuel : prog BS BE arith) ts
  (fun e rest => exists us w, ts = us ++ w ++ rest /\ blank w /\ written e us).
Proof.
  eapply gives_mono; [apply exact_knot|]. intros e r (o & us & w & E & Hw & He & _).
  exists us, w. repeat split; auto. now exists o.
Qed.
End Knot.
