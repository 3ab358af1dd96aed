(** * The walk over the arithmetic parser *)
From Coq Require Import String.
From Verif Require Import Base Token Pos Ast Prog Located RunLemmas ParserBase BaseRun
  Balanced BalancedSpec BalancedProofs BalancedTotal Builder Wp Arith.

(** Destructuring the head of a stream, and closing the side conditions of the walk. *)
Ltac sz := unfold size in *; cbn [toks l_tl tl end_pos length] in *; lia.
Ltac okk := eauto 6 using inv_tl, inv_cons, tok_cons, inv_pos.
Ltac dnn := split; [solve [okk]|sz].

Ltac inj_l l E := tryif is_var l then subst l else (first [discriminate E|injection E; clear E; intros; subst]).

Ltac wstep :=
  lazymatch goal with
  | |- wp _ (bind _ _) _ _ => apply wp_bind
  | |- wp _ (ret _) _ _ => apply wp_ret
  | |- wp _ next _ _ => apply wp_next
  | |- wp _ peek _ _ => apply wp_peek
  | |- wp _ getpos _ _ => apply wp_getpos
  | |- wp _ (multipeek _) _ _ => apply wp_multipeek
  | |- wp _ unexpected _ _ => apply wp_unexpected; okk
  | |- wp _ (eat ?t) ?l _ =>
      let p := fresh "p" in let ts := fresh "ts" in let e := fresh "e" in let E := fresh "E" in
      let H := fresh "Hok" in let Ht := fresh "Ht" in
      apply wp_eat; [solve [okk]|intros p ts e E H Ht; inj_l l E]
  | |- wp _ (eat_maybe ?t) ?l _ =>
      let p := fresh "p" in let ts := fresh "ts" in let e := fresh "e" in let E := fresh "E" in
      let H := fresh "Hok" in let Ht := fresh "Ht" in
      apply wp_eat_maybe; [solve [okk]|intros p ts e E H Ht; inj_l l E|intros _]
  | |- wp _ (skip_whitespace _) ?l _ =>
      let l' := fresh "l" in let H := fresh "Hok" in let Hs := fresh "Hs" in
      let Hf := fresh "Hfree" in let He := fresh "Heq" in
      apply wp_skip_ws; [sz|solve [okk]|intros l' H Hs Hf He _]
  end.

(** Case analysis on the first token of [l]. *)
Ltac dl l :=
  let t := fresh "t" in let p := fresh "p" in let ts := fresh "ts" in let e := fresh "e" in
  destruct l as [[|[t p] ts] e]; unfold l_hd, l_tl; cbn [toks map fst hd_error tl end_pos].
Ltac dt ts :=
  let t := fresh "t" in let p := fresh "p" in let ts' := fresh "ts" in
  destruct ts as [|[t p] ts']; unfold l_hd, l_tl; cbn [toks map fst hd_error tl end_pos].
Ltac red_l := unfold l_hd, l_tl; cbn [toks map fst hd_error tl end_pos].

Section WpArith.
Context {B : builder} (am : ambient B).
Notation prog := (prog (bst B) (b_err B)).
Notation ok l := (Inv am l).
Notation wp := (wp am).
Notation dn := (dn am).
Variable fuel : nat.

(** Calls with a size-decreasing post-condition. *)
Lemma wp_dn {A} (p : prog A) l (Q : A -> located -> Prop) :
  wp p l (fun _ l' => dn l l') ->
  (forall a l', ok l' -> (size l' <= size l)%nat -> Q a l') -> wp p l Q.
Proof. intros H HQ. eapply wp_mono; [exact H|]. intros a l' [H1 H2]. auto. Qed.

(** Expressions never get longer streams. *)
Definition good_on (M : nat) {A} (p : prog A) : Prop :=
  forall l, ok l -> (size l <= M)%nat -> wp p l (fun _ l' => dn l l').

Lemma wp_arith_var l : ok l -> (size l < fuel)%nat ->
  wp (arith_var fuel) l (fun _ l' => sdn am l l').
Proof.
  intros Hl Hf. unfold arith_var. wstep. wstep. wstep. wstep.
  - wstep. wstep. dt ts.
    + wstep.
    + destruct t; try (solve [wstep]). wstep. wstep. cbn. wstep. split; [okk|sz].
  - wstep. wstep. dl l0; [wstep|]. destruct t; try (solve [wstep]).
    wstep. wstep. cbn. wstep. split; [okk|sz].
Qed.

Section K.
Variable M : nat.
Hypothesis HM : (M < fuel)%nat.
Variable K : arith_knots (bst B) (b_err B).
Hypothesis K1 : forall m, (m < M)%nat -> good_on m (k_subst K).
Hypothesis K2 : forall m, (m < M)%nat -> good_on m (k_assig K).
Hypothesis K3 : forall m, (m < M)%nat -> good_on m (k_ternary K).
Hypothesis K4 : forall m, (m < M)%nat -> good_on m (k_pow K).
Hypothesis K5 : forall m, (m < M)%nat -> good_on m (k_unary K).

Ltac callk H :=
  apply wp_dn; [eapply H; [|solve [okk]|apply le_n]; sz|
    let l := fresh "l" in let Hl := fresh "Hok" in let Hs := fresh "Hs" in intros ? l Hl Hs].
Ltac call H :=
  apply wp_dn; [apply H; [solve [okk]|sz]|
    let l := fresh "l" in let Hl := fresh "Hok" in let Hs := fresh "Hs" in intros ? l Hl Hs].

Lemma wp_post_incr : good_on M (arith_post_incr fuel K).
Proof.
  intros l Hl Hs. unfold arith_post_incr. wstep. wstep. wstep. wstep.
  - wstep. callk K1. wstep. wstep. wstep. wstep. wstep. dnn.
  - wstep. wstep.
    destruct (literal_num (l_hd l0)).
    + wstep. wstep. wstep. split; [okk|]. rewrite size_tl. lia.
    + wstep. eapply wp_mono; [apply wp_arith_var; [okk|sz]|]. intros v l1 [H1 H2].
      wstep. wstep. wstep. wstep. destruct (look _ _).
      * wstep. wstep. dl l2; [wstep|].
        destruct t; try (solve [wstep]); wstep; wstep; red_l; wstep; wstep; wstep; dnn.
      * wstep. dnn.
Qed.

Lemma wp_unary : good_on M (arith_unary_misc fuel K).
Proof.
  intros l Hl Hs. unfold arith_unary_misc. wstep. wstep. wstep. wstep.
  dl l0.
  - eapply wp_mono; [apply wp_post_incr; [okk|sz]|]. intros a l1 [H1 H2]. dnn.
  - destruct t; try (solve [eapply wp_mono; [apply wp_post_incr; [okk|sz]|];
      intros a l1 [H1 H2]; dnn]).
    + wstep. wstep. wstep. red_l. callk K5. wstep. dnn.
    + wstep. wstep. wstep. red_l. callk K5. wstep. dnn.
    + wstep. wstep. red_l. wstep. wstep. dt ts.
      * wstep. callk K5. wstep. dnn.
      * destruct t; try (solve [wstep; callk K5; wstep; dnn]).
        -- wstep. wstep. red_l. wstep.
           eapply wp_mono; [apply wp_arith_var; [okk|sz]|]. intros v l1 [H1 H2]. wstep. dnn.
        -- wstep. wstep. wstep. red_l. callk K5. wstep. dnn.
    + wstep. wstep. red_l. wstep. wstep. dt ts.
      * wstep. callk K5. wstep. dnn.
      * destruct t; try (solve [wstep; callk K5; wstep; dnn]).
        -- wstep. wstep. wstep. red_l. callk K5. wstep. dnn.
        -- wstep. wstep. red_l. wstep.
           eapply wp_mono; [apply wp_arith_var; [okk|sz]|]. intros v l1 [H1 H2]. wstep. dnn.
Qed.

Lemma wp_pow : good_on M (arith_pow fuel K).
Proof.
  intros l Hl Hs. unfold arith_pow. wstep. call wp_unary. wstep. wstep. wstep. wstep.
  destruct (look _ _).
  - wstep. wstep. wstep. wstep. wstep. callk K4. wstep. dnn.
  - wstep. dnn.
Qed.

Lemma wp_binop_loop next_expr op n : good_on M next_expr ->
  forall e l, ok l -> (size l <= M)%nat -> (size l < n)%nat ->
  wp (arith_binop_loop fuel next_expr op n e) l (fun _ l' => dn l l').
Proof.
  intros Hn. induction n as [|n IH]; intros e l Hl Hs Hf; [lia|].
  cbn [arith_binop_loop]. wstep. wstep. wstep. wstep. dl l0.
  - wstep. dnn.
  - destruct (op t); [|wstep; dnn]. wstep. wstep. wstep. red_l. call Hn.
    apply wp_dn; [apply IH; [okk|sz|sz]|]. intros a2 l2 H1 H2. dnn.
Qed.

Lemma wp_binop next_expr op : good_on M next_expr -> good_on M (arith_binop fuel next_expr op).
Proof.
  intros Hn l Hl Hs. unfold arith_binop. wstep. call Hn.
  apply wp_dn; [apply wp_binop_loop; [exact Hn|okk|sz|sz]|]. intros a2 l2 H1 H2. dnn.
Qed.

Lemma wp_shift : good_on M (arith_shift fuel K).
Proof. repeat apply wp_binop. apply wp_pow. Qed.

Lemma wp_ineq : good_on M (arith_ineq fuel K).
Proof.
  assert (L : forall n e l, ok l -> (size l <= M)%nat -> (size l < n)%nat ->
    wp (arith_ineq_loop fuel K n e) l (fun _ l' => dn l l')).
  { induction n as [|n IH]; intros e l Hl Hs Hf; [lia|].
    cbn [arith_ineq_loop]. wstep. wstep. wstep. wstep. dl l0.
    - wstep. dnn.
    - destruct t; try (solve [wstep; dnn]).
      all: wstep; wstep; red_l; wstep; wstep.
      all: wstep; call wp_shift;
        (apply wp_dn; [apply IH; [okk|sz|sz]|]; intros a2 l2 H1 H2; dnn). }
  intros l Hl Hs. unfold arith_ineq. wstep. call wp_shift.
  apply wp_dn; [apply L; [okk|sz|sz]|]. intros a2 l2 H1 H2. dnn.
Qed.

Lemma wp_eq : good_on M (arith_eq fuel K).
Proof.
  assert (L : forall n e l, ok l -> (size l <= M)%nat -> (size l < n)%nat ->
    wp (arith_eq_loop fuel K n e) l (fun _ l' => dn l l')).
  { induction n as [|n IH]; intros e l Hl Hs Hf; [lia|].
    cbn [arith_eq_loop]. wstep. wstep. wstep. wstep. dl l0.
    - wstep. dnn.
    - destruct t; try (solve [wstep; dnn]).
      all: wstep; wstep; red_l; wstep;
        wstep; wstep; call wp_ineq;
        (apply wp_dn; [apply IH; [okk|sz|sz]|]; intros a2 l2 H1 H2; dnn). }
  intros l Hl Hs. unfold arith_eq. wstep. call wp_ineq.
  apply wp_dn; [apply L; [okk|sz|sz]|]. intros a2 l2 H1 H2. dnn.
Qed.

Lemma wp_logical_or : good_on M (arith_logical_or fuel K).
Proof. repeat apply wp_binop. apply wp_eq. Qed.

Lemma wp_ternary : good_on M (arith_ternary fuel K).
Proof.
  intros l Hl Hs. unfold arith_ternary. wstep. call wp_logical_or. wstep. wstep. wstep. wstep.
  - wstep. callk K3. wstep. wstep. wstep. wstep. wstep. callk K3. wstep. dnn.
  - wstep. dnn.
Qed.

(** The look-ahead of [arith_assig] never runs out of fuel, and announces an assignment only if
    one follows. *)
Definition assig_op (t : token) : bool :=
  match t with
  | TStar | TSlash | TPercent | TPlus | TDash | TDLess | TDGreat | TAmp | TPipe | TCaret | TEquals => true
  | _ => false
  end.

Lemma look_assig_op n ts : (length ts < n)%nat ->
  exists r, look (assig_try_op n) (map fst ts) = Some r /\
    (r = true -> exists t p rest, skip_ws ts = (t, p) :: rest /\ assig_op t = true).
Proof.
  revert ts. induction n as [|n IH]; intros ts Hn; [lia|].
  destruct ts as [|[t p] ts]; [eexists; split; [reflexivity|discriminate]|].
  simpl in Hn. cbn [assig_try_op look map fst hd_error tl].
  assert (W : forall s, t = TWhitespace s -> exists r, look (assig_try_op n) (map fst ts) = Some r /\
    (r = true -> exists t' p' rest, skip_ws ((t, p) :: ts) = (t', p') :: rest /\ assig_op t' = true)).
  { intros s ->. rewrite skip_ws_eq. apply IH. lia. }
  destruct t; try (eexists; split; [reflexivity|]; first [discriminate|
    intros _; eexists _, _, _; split; [reflexivity|reflexivity]]).
  eapply W; eauto.
Qed.

Lemma look_assig n0 n ts : (length ts < n)%nat -> (length ts < n0)%nat ->
  exists r, look (assig_try n0 n) (map fst ts) = Some r /\
    (r = true -> exists pre nm p rest, ts = pre ++ (TName nm, p) :: rest /\
       Forall (fun x => fst x = TDollar) pre /\
       exists t q rest', skip_ws rest = (t, q) :: rest' /\ assig_op t = true).
Proof.
  revert ts. induction n as [|n IH]; intros ts Hn H0; [lia|].
  destruct ts as [|[t p] ts]; [eexists; split; [reflexivity|discriminate]|].
  simpl in Hn, H0. cbn [assig_try look map fst hd_error tl].
  destruct t; try (eexists; split; [reflexivity|discriminate]).
  - destruct (IH ts ltac:(lia) ltac:(lia)) as (r & E & H). exists r. split; auto.
    intros Hr. destruct (H Hr) as (pre & nm & q & rest & -> & Hp & Ho).
    exists ((TDollar, p) :: pre), nm, q, rest. split; [reflexivity|split; auto].
  - destruct (look_assig_op n0 ts ltac:(lia)) as (r & E & H). exists r. split; auto.
    intros Hr. exists [], s, p, ts. split; [reflexivity|split; auto].
Qed.

Lemma wp_assig : good_on M (arith_assig fuel K).
Proof.
  intros l Hl Hs. unfold arith_assig. wstep. wstep. wstep. wstep.
  destruct (look_assig fuel fuel (toks l0) ltac:(sz) ltac:(sz)) as (r & -> & Hr).
  destruct r.
  2: { apply wp_dn; [apply wp_ternary; [okk|sz]|]. intros a l1 H1 H2. dnn. }
  destruct (Hr eq_refl) as (pre & nm & p & rest & E & Hpre & t & q & rest' & E2 & Hop).
  assert (V : forall v l1 (Q : arith -> located -> Prop), ok l1 -> toks l1 = rest ->
    (size l1 <= size l0)%nat ->
    (forall a l', ok l' -> (size l' <= size l1)%nat -> Q a l') ->
    wp (skip_whitespace fuel ;;
      o <- next ;;
      op <- (match o with
             | Some op =>
                 match op with
                 | TStar | TSlash | TPercent | TPlus | TDash | TDLess | TDGreat | TAmp | TPipe
                 | TCaret => eat TEquals ;; ret op
                 | TEquals => ret op
                 | _ => panic PS_assig_op
                 end
             | None => panic PS_assig_op
             end) ;;
      value <- k_assig K ;;
      match assig_expr op v value with
      | Some e => ret (AAssign v e)
      | None => panic PS_assig_kind
      end) l1 Q).
  { intros v l1 Q Hl1 El1 Hs1 HQ. wstep. wstep. rewrite El1, E2 in Heq0.
    destruct l2 as [ts2 e2]. cbn [toks] in Heq0. subst ts2. wstep. wstep. red_l. wstep.
    assert (Hlt : (size l0 <= M)%nat) by sz.
    destruct t; try discriminate Hop.
    all: try (lazymatch goal with |- Wp.wp _ (bind _ _) _ _ => wstep; wstep end).
    all: wstep; wstep;
      (apply wp_dn; [eapply K2; [|okk|apply le_n]; sz|]; intros val l3 H3 H4; cbn; wstep; apply HQ; [okk|sz]). }
  (* arith_var: the name, or an error when more than one dollar precedes it *)
  wstep. unfold arith_var. wstep. wstep. clear Hs1.
  assert (Esk : toks l1 = toks l0).
  { rewrite Heq0. exact Hfree. }
  destruct l1 as [ts1 e1]. cbn [toks] in Esk. subst ts1. clear Heq0 Hfree0. rewrite E in *.
  destruct l0 as [ts0 e0]. cbn [toks] in E. subst ts0.
  destruct pre as [|[t0 p0] pre].
  - cbn [app] in *. wstep. wstep. wstep. wstep. red_l. wstep. wstep. cbn. wstep.
    apply V; [okk|reflexivity|sz|]. intros a l' H1 H2. dnn.
  - inversion Hpre as [|? ? Ht0 Hpre']; subst. simpl in Ht0. subst t0. cbn [app] in *.
    wstep. apply wp_eat_maybe; [okk| |intros Hn; elim Hn; reflexivity].
    intros p1 ts1 e2 [= <- <- <-] Hok1 Ht1. wstep. wstep.
    destruct pre as [|[t0 p2] pre].
    + cbn [app] in *. red_l. wstep. wstep. cbn. wstep. apply V; [okk|reflexivity|sz|].
      intros a l' H1 H2. dnn.
    + inversion Hpre' as [|? ? Ht0 Hpre'']; subst. simpl in Ht0. subst t0. cbn [app] in *. red_l. wstep.
Qed.

Lemma wp_seq_loop : forall n acc l, ok l -> (size l <= M)%nat -> (size l < n)%nat ->
  wp (arith_seq_loop fuel K n acc) l (fun _ l' => dn l l').
Proof.
  induction n as [|n IH]; intros acc l Hl Hs Hf; [lia|].
  cbn [arith_seq_loop]. wstep. wstep. wstep. call wp_assig. wstep. wstep.
  - apply wp_dn; [apply IH; [okk|sz|sz]|]. intros a2 l2 H1 H2. dnn.
  - wstep. dnn.
Qed.

Lemma wp_arith_subst : good_on M (arithmetic_substitution_ fuel K).
Proof.
  intros l Hl Hs. unfold arithmetic_substitution_. wstep.
  apply wp_dn; [apply wp_seq_loop; [okk|sz|sz]|]. intros es l1 H1 H2.
  destruct es as [|e [|e2 es]]; wstep; dnn.
Qed.
End K.

Lemma wp_arith_knot : forall n m, (m < n)%nat -> (m < fuel)%nat ->
  good_on m (k_subst (arith_knot fuel n)) /\ good_on m (k_assig (arith_knot fuel n)) /\
  good_on m (k_ternary (arith_knot fuel n)) /\ good_on m (k_pow (arith_knot fuel n)) /\
  good_on m (k_unary (arith_knot fuel n)).
Proof.
  induction n as [|n IH]; intros m Hm Hf; [lia|]. cbn [arith_knot k_subst k_assig k_ternary k_pow k_unary].
  assert (IH' : forall m', (m' < m)%nat ->
    good_on m' (k_subst (arith_knot fuel n)) /\ good_on m' (k_assig (arith_knot fuel n)) /\
    good_on m' (k_ternary (arith_knot fuel n)) /\ good_on m' (k_pow (arith_knot fuel n)) /\
    good_on m' (k_unary (arith_knot fuel n))) by (intros; apply IH; lia).
  split; [apply wp_arith_subst|split; [apply wp_assig|split; [apply wp_ternary|split; [apply wp_pow|apply wp_unary]]]];
    auto; intros m' Hm'; destruct (IH' m' Hm') as (?&?&?&?&?); auto.
Qed.

Lemma wp_arithmetic_substitution l : ok l -> (size l < fuel)%nat ->
  wp (arithmetic_substitution fuel) l (fun _ l' => dn l l').
Proof.
  intros Hl Hf. unfold arithmetic_substitution.
  destruct (wp_arith_knot fuel (size l) Hf Hf) as (H&_). apply H; auto.
Qed.

End WpArith.
