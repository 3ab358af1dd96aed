(** * How much a call does: definitions and rules *)
From Verif Require Import Base Token Pos Ast Builder Prog Iter Located IterProofs RunLemmas ParserBase Balanced BalancedTotal Wp
  Total.

(** ** Specification: operations on the token iterator and the builder

    [work I p s b]: how many times the program [p], started in [s] and [b], calls [next], [peek], [pos] or
    [peek_next] on its token iterator or a method of the builder; putting tokens back and making a new iterator
    count as one operation for each token.  What a call of the builder costs, and string concatenation, is not counted. *)
Fixpoint counted {B} (n : nat) (m : mp B) : mp (B * nat) :=
  match m with
  | MRet b => MRet (b, n)
  | MPeekNext k => MPeekNext (fun t => counted (S n) (k t))
  end.
Definition iter_tokens (i : new_iter) : nat :=
  match i with FromTokens ts => length ts | FromChunks _ cs => length (flat_map fst cs) end.
Section Spec.
Context {BS BE : Type} (I : iterops).
Fixpoint work {A} (p : prog BS BE A) (s : it I) (b : BS) : nat :=
  match p with
  | Ret _ | Throw _ | Panic _ | OutOfFuel => 0
  | NextT k => match it_next I s with Some (t, s') => 1 + work (k t) s' b | None => 1 end
  | PeekT k => match it_peek I s with Some (t, s') => 1 + work (k t) s' b | None => 1 end
  | PosT k => 1 + work (k (it_pos I s)) s b
  | MultiPeek m k =>
      1 + snd (fst (it_multipeek I _ (counted 0 m) s)) + let (r, s') := it_multipeek I _ m s in work (k r) s' b
  | BufferT ts p k => 1 + length ts + work k (it_buffer I ts p s) b
  | SubIter i _ q k =>
      1 + iter_tokens i + work q (it_make I i) b +
      match run I q (it_make I i) b with
      | (OOk r, _, b') => work (k r) s b'
      | _ => 0
      end
  | BuildT f k => 1 + match f b with (inl r, b') => work (k r) s b' | (inr _, _) => 0 end
  end.
End Spec.

Section Transfer.
Context {BS BE : Type}.
Lemma work_transfer {A} (p : prog BS BE A) : forall s b, good s -> work concrete p s b = work located_ops p (abs s) b.
Proof.
  induction p as [A a|A e|A x|A|A k IH|A k IH|A k IH|A B m k IH|A ts q k IH|A B i r q IHq k IH|A B f k IH];
    intros s b G; cbn [work]; auto.
  - destruct (next_abs s G) as (t & s' & E1 & E2 & G'). cbn [concrete it_next located_ops].
    rewrite E1, E2. f_equal. apply IH; auto.
  - destruct (peek_abs s G) as (t & s' & E1 & E2 & G'). cbn [concrete it_peek located_ops].
    rewrite E1, E2. f_equal. apply IH; auto.
  - cbn [concrete it_pos located_ops]. rewrite l_pos_abs by auto. f_equal. apply IH; auto.
  - cbn [concrete it_multipeek located_ops].
    pose proof (multipeek_abs m s) as H. destruct (ti_multipeek B m s) as [x s'].
    pose proof (multipeek_abs (counted 0 m) s) as H'. destruct (ti_multipeek _ (counted 0 m) s) as [[x2 n] s2].
    destruct H' as [H3 _]. rewrite <- H3. cbn [fst snd].
    destruct H as [H1 H2]. rewrite <- H1. f_equal. apply IH; auto.
  - cbn [concrete it_buffer located_ops]. destruct (buffer_abs ts q s G) as [E G'].
    rewrite <- E. f_equal. apply IH; auto.
  - cbn [concrete it_make located_ops].
    destruct (make_abs i) as [E G']. rewrite <- E, <- IHq by auto.
    pose proof (run_transfer q (ti_make i) b G') as T.
    destruct (run concrete q (ti_make i) b) as [[o s'] b'].
    destruct T as [E2 G2]. rewrite E2. f_equal. destruct o as [x|e|x|]; auto.
  - destruct (f b) as [[x|e] b']; auto.
Qed.
End Transfer.

Local Open Scope Z_scope.
Definition sz (l : located) : Z := Z.of_nat (size l).
Lemma sz_pos l : 0 <= sz l.
Proof. unfold sz. lia. Qed.

(** ** Accounts

    Every token of the stream is worth [P]; [N] bounds the length of all streams.  [cost k r p l]: with a budget
    of [k], the program can pay for what it does with the budget and the tokens it takes; if it returns [a],
    at least [r a] is left.  When it fails it has spent no more than it had. *)
Section Rules.
Context {BS BE : Type}.
Notation prog := (prog BS BE).
Definition lwork {A} (p : prog A) (l : located) (b : BS) : Z := Z.of_nat (work located_ops p l b).
Section P.
Variables N P : Z.
Hypothesis HN : 0 <= N.
Hypothesis HP : 20 <= P.
Definition cost {A} (k : Z) (r : A -> Z) (p : prog A) (l : located) : Prop :=
  sz l <= N -> forall b, match lrun p l b with
  | (OOk a, l', _) => sz l' <= sz l /\ lwork p l b + r a <= P * (sz l - sz l') + k
  | (OErr _, _, _) | (OPanic _, _, _) => lwork p l b <= P * sz l + k
  | (OFuel, _, _) => True
  end.

Lemma lwork_bind {A C} (p : prog A) (f : A -> prog C) l b :
  lwork (bind p f) l b = lwork p l b + match lrun p l b with (OOk a, l', b') => lwork (f a) l' b' | _ => 0 end.
Proof.
  revert l b. induction p as [A a|A e|A x|A|A k IH|A k IH|A k IH|A B m k IH|A ts q k IH|A B i r q IHq k IH|A B g k IH];
    intros l b; cbn [bind]; unfold lwork, lrun in *; cbn [work run]; try lia.
  - cbn [located_ops it_next]. unfold l_next. destruct (toks l) as [|[t p] ts]; rewrite !Nat2Z.inj_add, IH; lia.
  - cbn [located_ops it_peek]. unfold l_peek. rewrite !Nat2Z.inj_add, IH; lia.
  - rewrite !Nat2Z.inj_add, IH; lia.
  - cbn [located_ops it_multipeek]. unfold l_multipeek. rewrite !Nat2Z.inj_add, IH; lia.
  - rewrite !Nat2Z.inj_add, IH; lia.
  - destruct (run located_ops q _ b) as [[[a|e|s|] l'] b'] eqn:E; rewrite !Nat2Z.inj_add, ?IH; lia.
  - destruct (g b) as [[x|e] b']; rewrite !Nat2Z.inj_add, ?IH; lia.
Qed.

Lemma c_bind {A C} k r1 r (p : prog A) (f : A -> prog C) l :
  cost k r1 p l -> (forall a l', sz l' <= sz l -> cost (r1 a) r (f a) l') -> cost k r (bind p f) l.
Proof.
  intros Hp Hf HS b. rewrite lrun_bind. specialize (Hp HS b). rewrite lwork_bind.
  destruct (lrun p l b) as [[[a|e|s|] l'] b'] eqn:E; auto; try lia.
  destruct Hp as [H1 H2]. specialize (Hf a l' H1 ltac:(lia) b').
  destruct (lrun (f a) l' b') as [[[c|e|s|] l2] b2]; auto; lia.
Qed.
Lemma c_mono {A} k k' r r' (p : prog A) l : k' <= k -> (forall a, r a <= r' a) -> cost k' r' p l -> cost k r p l.
Proof.
  intros Hk Hr H HS b. specialize (H HS b). destruct (lrun p l b) as [[[a|e|s|] l'] b']; auto; try lia.
  specialize (Hr a). lia.
Qed.
Lemma c_ret {A} k r (a : A) l : r a <= k -> cost k r (ret a) l.
Proof. intros H HS b. rewrite lrun_ret. cbn. unfold lwork. cbn. lia. Qed.
Lemma c_throw {A} k (r : A -> Z) e l : 0 <= k -> cost k r (throw e) l.
Proof. intros H HS b. rewrite lrun_throw. unfold lwork. cbn. pose proof (sz_pos l). nia. Qed.
Lemma c_panic {A} k (r : A -> Z) e l : 0 <= k -> cost k r (panic e) l.
Proof. intros H HS b. rewrite lrun_panic. unfold lwork. cbn. pose proof (sz_pos l). nia. Qed.
Lemma c_fuel {A} k (r : A -> Z) l : cost k r outoffuel l.
Proof. intros HS b. exact I. Qed.
Lemma c_peek {A} k (r : A -> Z) f l : cost (k - 1) r (f (l_hd l)) l -> cost k r (bind peek f) l.
Proof.
  intros H HS b. specialize (H HS b). rewrite lrun_bind, lwork_bind, lrun_peek. change (lwork peek l b) with 1.
  destruct (lrun _ l b) as [[[c|e|s|] l2] b2]; auto; lia.
Qed.
Lemma c_getpos {A} k (r : A -> Z) f l : (forall p, cost (k - 1) r (f p) l) -> cost k r (bind getpos f) l.
Proof.
  intros H HS b. specialize (H (l_pos l) HS b). rewrite lrun_bind, lwork_bind, lrun_getpos. change (lwork getpos l b) with 1.
  destruct (lrun _ l b) as [[[c|e|s|] l2] b2]; auto; lia.
Qed.
Lemma c_next {A} k (r : A -> Z) f l :
  (forall t l', l_hd l = Some t -> sz l' = sz l - 1 -> cost (k - 1 + P) r (f (Some t)) l') ->
  (l_hd l = None -> cost (k - 1) r (f None) l) -> cost k r (bind next f) l.
Proof.
  intros H1 H2 HS b. rewrite lrun_bind, lwork_bind, lrun_next.
  assert (W : lwork next l b = 1) by (unfold lwork; cbn; unfold l_next; destruct (toks l) as [|[? ?] ?]; reflexivity).
  rewrite W. destruct l as [[|[t p] ts] e]; unfold l_hd, l_tl in *; cbn [toks end_pos tl hd_error fst map option_map] in *.
  - specialize (H2 eq_refl HS b). destruct (lrun _ _ b) as [[[c|e'|s|] l2] b2]; auto; lia.
  - set (l' := mkL ts e) in *.
    assert (E : sz l' = sz (mkL ((t, p) :: ts) e) - 1) by (unfold sz, size, l'; cbn [toks length]; lia).
    specialize (H1 t l' eq_refl E ltac:(lia) b). destruct (lrun _ _ b) as [[[c|e'|s|] l2] b2]; auto; lia.
Qed.
(** How many tokens a look-ahead session looks at. *)
Fixpoint mdepth {B} (j : nat) (m : mp B) : Prop :=
  match m with
  | MRet _ => True
  | MPeekNext k => match j with O => False | S j' => forall t, mdepth j' (k t) end
  end.
Lemma counted_depth {B} (m : mp B) : forall j n l, mdepth j m -> (snd (look (counted n m) l) <= n + j)%nat.
Proof.
  induction m as [b|k IH]; intros j n l H; cbn [counted look snd]; [lia|].
  destruct j as [|j]; [contradiction|]. specialize (IH (hd_error l) j (S n) (tl l) (H _)). lia.
Qed.
Lemma c_multipeek {A D} (j : nat) (m : mp D) k (r : A -> Z) f l : mdepth j m ->
  cost (k - 1 - Z.of_nat j) r (f (look m (map fst (toks l)))) l -> cost k r (bind (multipeek m) f) l.
Proof.
  intros HD H HS b. specialize (H HS b). rewrite lrun_bind, lwork_bind, lrun_multipeek.
  pose proof (counted_depth m j 0 (map fst (toks l)) HD) as W.
  assert (E : lwork (multipeek m) l b <= 1 + Z.of_nat j).
  { unfold lwork, multipeek. cbn [work located_ops it_multipeek]. unfold l_multipeek. cbn [fst snd]. lia. }
  destruct (lrun _ l b) as [[[c|e|s|] l2] b2]; auto; lia.
Qed.
Lemma c_build {A D} (g : BS -> (D + BE) * BS) k (r : A -> Z) f l : 1 <= k ->
  (forall x, cost (k - 1) r (f x) l) -> cost k r (bind (build g) f) l.
Proof.
  intros Hk H HS b. rewrite lrun_bind, lwork_bind, lrun_build.
  assert (W : lwork (build g) l b = 1) by (unfold lwork; cbn; destruct (g b) as [[?|?] ?]; reflexivity).
  rewrite W. destruct (g b) as [[x|e] b'].
  - specialize (H x HS b'). destruct (lrun _ l b') as [[[c|e|s|] l2] b2]; auto; lia.
  - pose proof (sz_pos l). nia.
Qed.
(** A program on an iterator of its own. *)
Lemma c_sub {D A} i rb (q : prog D) kin (rin : D -> Z) k r (f : D -> prog A) l :
  sz (l_make i) <= N -> cost kin rin q (l_make i) ->
  0 <= k - kin - 1 - Z.of_nat (iter_tokens i) - P * sz (l_make i) ->
  (forall a, cost (k - 1 - Z.of_nat (iter_tokens i) - P * sz (l_make i) - kin + rin a) r (f a) l) ->
  cost k r (bind (sub_iter i rb q) f) l.
Proof.
  intros HM Hq HE H HS b. rewrite lrun_bind, lwork_bind, lrun_sub. specialize (Hq HM b).
  assert (W : lwork (sub_iter i rb q) l b = 1 + Z.of_nat (iter_tokens i) + lwork q (l_make i) b).
  { unfold lwork, sub_iter. cbn [work]. cbn [located_ops it_make].
    destruct (run located_ops q (l_make i) b) as [[[a|e|s|] l'] b']; cbn [work]; lia. }
  rewrite W. pose proof (sz_pos l).
  destruct (lrun q (l_make i) b) as [[[a|e|s|] l'] b']; auto; try nia.
  destruct Hq as [H1 H2]. pose proof (sz_pos l').
  specialize (H a HS b'). destruct (lrun _ l b') as [[[c|e|s|] l2] b2]; auto; try nia.
Qed.
Lemma lrun_assoc {A C D} (p : prog A) (f : A -> prog C) (g : C -> prog D) l b :
  lrun (bind (bind p f) g) l b = lrun (bind p (fun a => bind (f a) g)) l b.
Proof.
  rewrite !lrun_bind. destruct (lrun p l b) as [[[c|e|s|] l2] b2]; auto. now rewrite lrun_bind.
Qed.
Lemma c_assoc {A C D} k r (p : prog A) (f : A -> prog C) (g : C -> prog D) l :
  cost k r (bind p (fun a => bind (f a) g)) l -> cost k r (bind (bind p f) g) l.
Proof.
  intros H HS b. specialize (H HS b). rewrite lrun_assoc.
  assert (W : lwork (bind (bind p f) g) l b = lwork (bind p (fun a => bind (f a) g)) l b).
  { rewrite !lwork_bind. rewrite lrun_bind. destruct (lrun p l b) as [[[c|e|s|] l2] b2]; try lia.
    rewrite lwork_bind. lia. }
  now rewrite W.
Qed.
Lemma c_eta {A} k r (p : prog A) l : cost k r (bind p ret) l -> cost k r p l.
Proof.
  intros H HS b. specialize (H HS b). rewrite lrun_bind, lwork_bind in H.
  destruct (lrun p l b) as [[[c|e|s|] l2] b2]; auto; try lia.
  rewrite lrun_ret in H. change (lwork (ret c) l2 b2) with 0 in H. lia.
Qed.

(** [spec c r p]: given [c] to start with, the budget changes by [r a]. *)
Definition spec {A} (c : Z) (r : A -> Z) (p : prog A) : Prop :=
  forall k l, c <= k -> cost k (fun a => k + r a) p l.
Lemma c_spec {A C} c r1 (p : prog A) (f : A -> prog C) k r l : spec c r1 p -> c <= k ->
  (forall a l', sz l' <= sz l -> cost (k + r1 a) r (f a) l') -> cost k r (bind p f) l.
Proof. intros H Hk Hf. eapply c_bind; [apply H, Hk|]. exact Hf. Qed.
End P.
End Rules.
