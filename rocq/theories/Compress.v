(** * The default builder's merging of word fragments (C27)

    Specification: a list of fragments is cut into consecutive groups and every group becomes one
    fragment; a group is a single fragment (kept as it is), or several fragments of the same kind
    (unquoted literals, single-quoted strings, double-quoted strings) whose contents are joined in
    order. *)
From Coq Require Import String.
From Verif Require Import Base Token Ast Builder DefaultBuilder.

Section Spec.
Context {C : Type}.

(** What one group of simple fragments becomes. *)
Inductive joins_simple : list (swk C) -> swk C -> Prop :=
  | js_one x : joins_simple [x] x
  | js_literals ls : (2 <= List.length ls)%nat -> joins_simple (map KLiteral ls) (KLiteral (concat ls)).
Definition merged_simple (l l' : list (swk C)) : Prop :=
  exists groups, l = concat groups /\ Forall2 joins_simple groups l'.

(** Fragments that would have to be merged when adjacent. *)
Definition mergeable_simple (a b : swk C) : Prop := exists x y, a = KLiteral x /\ b = KLiteral y.
Definition mergeable (a b : wk C) : Prop :=
  (exists x y, a = KSimple (KLiteral x) /\ b = KSimple (KLiteral y)) \/
  (exists x y, a = KSingleQuoted x /\ b = KSingleQuoted y) \/
  (exists x y, a = KDoubleQuoted x /\ b = KDoubleQuoted y).
(** No two adjacent elements are related. *)
Definition no_adjacent {A} (R : A -> A -> Prop) (l : list A) : Prop :=
  forall pre a b post, l = pre ++ a :: b :: post -> ~ R a b.

(** What one group of fragments of a word becomes. *)
Inductive joins : list (wk C) -> wk C -> Prop :=
  | j_one x : joins [x] x
  | j_literals ls : (2 <= List.length ls)%nat ->
      joins (map (fun s => KSimple (KLiteral s)) ls) (KSimple (KLiteral (concat ls)))
  | j_single ls : (2 <= List.length ls)%nat -> joins (map KSingleQuoted ls) (KSingleQuoted (concat ls))
  | j_double vs v : (2 <= List.length vs)%nat -> merged_simple (concat vs) v -> no_adjacent mergeable_simple v ->
      joins (map KDoubleQuoted vs) (KDoubleQuoted v).
Definition merged (l l' : list (wk C)) : Prop :=
  exists groups, l = concat groups /\ Forall2 joins groups l'.

(** The text of a word: its characters, each with its way of quoting, and its other fragments. *)
Inductive atom := AChar (q : option bool) (c : N) | AFrag (quoted : bool) (f : swk C).
Definition simple_atoms (quoted : bool) (f : swk C) : list atom :=
  match f with
  | KLiteral s => map (AChar (if quoted then Some true else None)) s
  | f => [AFrag quoted f]
  end.
Definition atoms1 (w : wk C) : list atom :=
  match w with
  | KSimple f => simple_atoms false f
  | KSingleQuoted s => map (AChar (Some false)) s
  | KDoubleQuoted v => flat_map (simple_atoms true) v
  end.
Definition atoms (w : cwk C) : list atom :=
  match w with KConcat l => flat_map atoms1 l | KSingle w => atoms1 w end.
End Spec.

Section Proofs.
Context {C : Type}.

(** ** [Coalesce] as a left-to-right pass *)
Section Coalesce.
Context {A : Type} (func : A -> A -> A + A * A).
(** [func] returns its arguments when it does not combine them. *)
Hypothesis Hfunc : forall a b l r, func a b = inr (l, r) -> l = a /\ r = b.

(** Merging [x] and the fragments after it. *)
Fixpoint pass (x : A) (l : list A) : list A :=
  match l with
  | [] => [x]
  | y :: l' => match func x y with inl c => pass c l' | inr _ => x :: pass y l' end
  end.
Definition passes (l : list A) : list A := match l with [] => [] | x :: l' => pass x l' end.

Lemma coalesce_loop_pass : forall iter left right,
  pass left (right :: iter) =
  match coalesce_loop func left right iter with
  | (x, Some r, iter') => x :: pass r iter'
  | (x, None, _) => [x]
  end /\
  match coalesce_loop func left right iter with
  | (_, Some _, iter') => (List.length iter' <= List.length iter)%nat
  | (_, None, iter') => iter' = []
  end.
Proof.
  induction iter as [|n iter IH]; intros left right.
  - cbn [pass coalesce_loop]. destruct (func left right) as [c|[l r]] eqn:E.
    + auto.
    + destruct (Hfunc _ _ _ _ E) as [-> ->]. auto.
  - cbn [coalesce_loop]. destruct (func left right) as [c|[l r]] eqn:E.
    + destruct (IH c n) as [H1 H2]. change (pass left (right :: n :: iter)) with
        (match func left right with inl c => pass c (n :: iter) | inr _ => left :: pass right (n :: iter) end).
      rewrite E, H1. split; [reflexivity|].
      destruct (coalesce_loop func c n iter) as [[x [r|]] iter']; [cbn; lia|exact H2].
    + destruct (Hfunc _ _ _ _ E) as [-> ->]. split; [|auto].
      change (pass left (right :: n :: iter)) with
        (match func left right with inl c => pass c (n :: iter) | inr _ => left :: pass right (n :: iter) end).
      now rewrite E.
Qed.
Lemma collect_none n : coalesce_collect func n (None, []) = [].
Proof. destruct n; reflexivity. Qed.
Lemma collect_some : forall n x iter, (List.length iter < n)%nat ->
  coalesce_collect func n (Some x, iter) = pass x iter.
Proof.
  induction n as [|n IH]; intros x iter H; [lia|].
  cbn [coalesce_collect coalesce_next]. destruct iter as [|r iter].
  - rewrite collect_none. reflexivity.
  - destruct (coalesce_loop_pass iter x r) as [H1 H2]. rewrite H1.
    destruct (coalesce_loop func x r iter) as [[y [z|]] iter'].
    + f_equal. apply IH. cbn in H. lia.
    + subst iter'. now rewrite collect_none.
Qed.
Lemma coalesce_passes l : coalesce func l = passes l.
Proof.
  destruct l as [|x l]; [reflexivity|]. unfold coalesce.
  transitivity (coalesce_collect func (S (S (List.length l))) (Some x, l)).
  - cbn [List.length coalesce_collect coalesce_next]. reflexivity.
  - apply collect_some. lia.
Qed.

End Coalesce.

Lemma no_adjacent_nil {A} (R : A -> A -> Prop) : no_adjacent R [].
Proof. intros [|p pre] a b post H; discriminate. Qed.
Lemma no_adjacent_one {A} (R : A -> A -> Prop) x : no_adjacent R [x].
Proof. intros [|p [|p2 pre]] a b post H; discriminate. Qed.
Lemma no_adjacent_cons {A} (R : A -> A -> Prop) x y l : ~ R x y -> no_adjacent R (y :: l) -> no_adjacent R (x :: y :: l).
Proof.
  intros H1 H2 [|z pre] a b post H.
  - inversion H; subst. exact H1.
  - inversion H; subst. eapply H2. eassumption.
Qed.

(** ** Simple fragments *)
Local Notation swk := (swk C).
Local Notation wk := (wk C).
Notation spass := (pass (@coalesce_simple C)).
Notation spasses := (passes (@coalesce_simple C)).
Lemma coalesce_simple_inr (a b l r : swk) : coalesce_simple a b = inr (l, r) -> l = a /\ r = b.
Proof. destruct a, b; cbn; intros H; inversion H; auto. Qed.
Definition coalesce_s l : coalesce (@coalesce_simple C) l = spasses l := coalesce_passes _ coalesce_simple_inr l.

Definition is_lit (x : swk) : bool := match x with KLiteral _ => true | _ => false end.
Lemma spass_nonlit_l (x y : swk) l : is_lit x = false -> spass x (y :: l) = x :: spass y l.
Proof. destruct x; cbn; intros H; try reflexivity; discriminate. Qed.
Lemma spass_nonlit_r (x y : swk) l : is_lit y = false -> spass x (y :: l) = x :: spass y l.
Proof. destruct x, y; cbn; intros H; try reflexivity; discriminate. Qed.

Lemma joins_lits ls : ls <> [] -> @joins_simple C (map KLiteral ls) (KLiteral (concat ls)).
Proof.
  intros H. destruct ls as [|a [|b ls]]; [congruence| |].
  - cbn. rewrite app_nil_r. constructor.
  - constructor. cbn. lia.
Qed.
Lemma merged_simple_cons g x l l' : joins_simple g x -> merged_simple l l' -> @merged_simple C (g ++ l) (x :: l').
Proof. intros H (gs & -> & H2). exists (g :: gs). split; [reflexivity|]. constructor; auto. Qed.
Lemma merged_simple_nil : @merged_simple C [] [].
Proof. exists []. split; constructor. Qed.

Lemma spass_merged : forall l,
  (forall ls, ls <> [] -> merged_simple (map KLiteral ls ++ l) (spass (KLiteral (concat ls)) l)) /\
  (forall x, is_lit x = false -> merged_simple (x :: l) (spass x l)).
Proof.
  induction l as [|y l [IH1 IH2]].
  - split; intros.
    + apply merged_simple_cons; [now apply joins_lits|apply merged_simple_nil].
    + apply (merged_simple_cons [x] x [] []); [constructor|apply merged_simple_nil].
  - assert (Hy : merged_simple (y :: l) (spass y l)).
    { destruct (is_lit y) eqn:E; [|now apply IH2]. destruct y; try discriminate.
      specialize (IH1 [s] ltac:(discriminate)). cbn in IH1. now rewrite app_nil_r in IH1. }
    split; intros.
    + destruct (is_lit y) eqn:E.
      * destruct y; try discriminate. specialize (IH1 (ls ++ [s]) ltac:(now destruct ls)).
        rewrite map_app, <- app_assoc in IH1. cbn [pass coalesce_simple].
        rewrite concat_app in IH1. cbn [concat] in IH1. rewrite app_nil_r in IH1. exact IH1.
      * rewrite spass_nonlit_r by auto. apply merged_simple_cons; [now apply joins_lits|exact Hy].
    + rewrite spass_nonlit_l by auto. apply (merged_simple_cons [x] x); [constructor|exact Hy].
Qed.
Lemma spasses_merged l : merged_simple l (spasses l).
Proof.
  destruct l as [|x l]; [apply merged_simple_nil|]. cbn [passes]. destruct (is_lit x) eqn:E.
  - destruct x; try discriminate. pose proof (proj1 (spass_merged l) [s] ltac:(discriminate)) as H.
    cbn in H. now rewrite app_nil_r in H.
  - now apply spass_merged.
Qed.
Lemma spass_normal : forall l x, no_adjacent mergeable_simple (spass x l) /\
  exists y l', spass x l = y :: l' /\ is_lit y = is_lit x.
Proof.
  induction l as [|y l IH]; intros x.
  - split; [apply no_adjacent_one|]. exists x, []. auto.
  - destruct (is_lit x && is_lit y)%bool eqn:E.
    + destruct x, y; try discriminate. cbn [pass coalesce_simple].
      destruct (IH (KLiteral (s ++ s0))) as [H1 H2]. auto.
    + assert (Hp : spass x (y :: l) = x :: spass y l).
      { apply andb_false_iff in E as [E|E]; [now apply spass_nonlit_l|now apply spass_nonlit_r]. }
      rewrite Hp. destruct (IH y) as [H1 (z & l' & H2 & H3)]. split; [|eauto].
      rewrite H2 in *. apply no_adjacent_cons; auto.
      intros (a & b & -> & ->). cbn in H3. rewrite <- H3 in E. discriminate.
Qed.
Lemma spasses_normal l : no_adjacent mergeable_simple (spasses l).
Proof. destruct l; [apply no_adjacent_nil|apply spass_normal]. Qed.

(** Merging can be done in stages. *)
Lemma merged_simple_refl l : @merged_simple C l l.
Proof.
  induction l as [|x l IH]; [apply merged_simple_nil|]. now apply (merged_simple_cons [x] x l l); [constructor|].
Qed.
Lemma merged_simple_app l1 l1' l2 l2' : merged_simple l1 l1' -> merged_simple l2 l2' ->
  @merged_simple C (l1 ++ l2) (l1' ++ l2').
Proof.
  intros (g1 & -> & H1) (g2 & -> & H2). exists (g1 ++ g2). split; [now rewrite concat_app|].
  now apply Forall2_app.
Qed.
Lemma joins_simple_lits g s : @joins_simple C g (KLiteral s) ->
  exists ls, ls <> [] /\ g = map KLiteral ls /\ s = concat ls.
Proof.
  inversion 1; subst.
  - exists [s]. cbn. rewrite app_nil_r. repeat split. discriminate.
  - exists ls. repeat split. destruct ls; [cbn in *; lia|discriminate].
Qed.
Lemma joins_simple_trans gs g x : Forall2 joins_simple gs g -> joins_simple g x -> @joins_simple C (concat gs) x.
Proof.
  intros H1 H2. destruct H2 as [x|ls Hls].
  - inversion H1 as [|g1 ? gs1 ? J H3]; subst. inversion H3; subst. cbn. now rewrite app_nil_r.
  - assert (H : exists ls', concat gs = map KLiteral ls' /\ concat ls = concat ls' /\ (List.length ls <= List.length ls')%nat).
    { clear Hls. revert gs H1. induction ls as [|s ls IH]; intros gs H1; cbn in H1.
      - inversion H1. exists []. auto.
      - inversion H1 as [|g1 ? gs1 ? J H3]; subst. apply joins_simple_lits in J as (l1 & Hn & -> & ->).
        destruct (IH _ H3) as (l2 & E1 & E2 & E3). exists (l1 ++ l2). cbn.
        rewrite E1, E2, map_app, concat_app, app_length. repeat split. destruct l1; [congruence|cbn; lia]. }
    destruct H as (ls' & -> & -> & H). constructor. lia.
Qed.
Lemma Forall2_concat_split {A B} (R : A -> B -> Prop) (gs2 : list (list B)) : forall l, Forall2 R l (concat gs2) ->
  exists gs, l = concat gs /\ Forall2 (Forall2 R) gs gs2.
Proof.
  induction gs2 as [|g gs2 IH]; intros l H.
  - inversion H. exists []. split; constructor.
  - cbn in H. apply Forall2_app_inv_r in H as (l1 & l2 & H1 & H2 & ->).
    destruct (IH _ H2) as (gs & -> & H3). exists (l1 :: gs). split; [reflexivity|]. constructor; auto.
Qed.
Lemma merged_simple_trans l1 l2 l3 : merged_simple l1 l2 -> merged_simple l2 l3 -> @merged_simple C l1 l3.
Proof.
  intros (g1 & -> & H1) (g2 & E & H2). subst l2.
  apply Forall2_concat_split in H1 as (gg & -> & H1).
  exists (map (@concat swk) gg). split.
  - clear. induction gg as [|g gg IH]; [reflexivity|]. cbn. now rewrite concat_app, IH.
  - revert l3 H2. induction H1 as [|x y gg g2 J H1 IH]; intros l3 H2; inversion H2; subst; cbn; constructor; auto.
    eapply joins_simple_trans; eauto.
Qed.

(** ** Fragments of a word *)
Notation wpass := (pass (@coalesce_word C)).
Lemma coalesce_word_inr (a b l r : wk) : coalesce_word a b = inr (l, r) -> l = a /\ r = b.
Proof.
  destruct a as [x|x|x], b as [y|y|y]; cbn; intros H; try (inversion H; auto; fail).
  destruct (coalesce_simple x y) as [c|[l' r']] eqn:E; inversion H; subst.
  apply coalesce_simple_inr in E as [-> ->]. auto.
Qed.
Definition coalesce_w l : coalesce (@coalesce_word C) l = passes coalesce_word l := coalesce_passes _ coalesce_word_inr l.

(** The kind of a fragment; only fragments of one of the first three kinds are merged. *)
Definition kind_of (x : wk) : option nat :=
  match x with
  | KSimple (KLiteral _) => Some 0 | KSingleQuoted _ => Some 1 | KDoubleQuoted _ => Some 2
  | _ => None
  end%nat.
Definition may_merge (x y : wk) : bool :=
  match kind_of x, kind_of y with Some a, Some b => Nat.eqb a b | _, _ => false end.
Lemma may_merge_iff x y : may_merge x y = true <-> mergeable x y.
Proof.
  unfold may_merge, mergeable. split.
  - destruct x as [[]| |], y as [[]| |]; cbn; intros H; try discriminate; eauto 10.
  - intros [(a & b & -> & ->)|[(a & b & -> & ->)|(a & b & -> & ->)]]; reflexivity.
Qed.
Lemma wpass_no x y l : may_merge x y = false -> wpass x (y :: l) = x :: wpass y l.
Proof.
  intros H. cbn [pass]. destruct (coalesce_word x y) as [c|] eqn:E; [|reflexivity].
  exfalso. destruct x as [[]| |], y as [[]| |]; cbn in *; discriminate.
Qed.
Lemma wpass_yes x y l : may_merge x y = true -> exists c, coalesce_word x y = inl c /\ kind_of c = kind_of x /\ wpass x (y :: l) = wpass c l.
Proof.
  intros H. cbn [pass]. destruct x as [[]| |], y as [[]| |]; cbn in *; try discriminate; eexists; repeat split; reflexivity.
Qed.
(** A pending fragment is the join of the fragments seen. *)
Lemma joins_step (g : list wk) x y c : joins g x -> coalesce_word x y = inl c -> joins (g ++ [y]) c.
Proof.
  intros H E.
  destruct x as [[sx| | | | | | | | | |]|vx|sx], y as [[sy| | | | | | | | | |]|vy|sy]; cbn [coalesce_word coalesce_simple] in E; try discriminate; injection E as <-.
  - assert (H' : exists ls, ls <> [] /\ g = map (fun s => KSimple (KLiteral s)) ls /\ sx = concat ls).
    { inversion H; subst; [exists [sx]; cbn; rewrite app_nil_r; repeat split; discriminate|].
      exists ls. repeat split. destruct ls; [cbn in *; lia|discriminate]. }
    destruct H' as (ls & Hn & -> & ->).
    replace (concat ls ++ sy) with (concat (ls ++ [sy])) by (rewrite concat_app; cbn; now rewrite app_nil_r).
    change [KSimple (KLiteral sy)] with (map (fun s => KSimple (C := C) (KLiteral s)) [sy]). rewrite <- map_app.
    constructor. rewrite app_length. destruct ls; [congruence|cbn; lia].
  - assert (H' : exists vs, vs <> [] /\ g = map KDoubleQuoted vs /\ merged_simple (concat vs) vx).
    { inversion H; subst.
      - exists [vx]. cbn; rewrite app_nil_r. repeat split; [discriminate|apply merged_simple_refl].
      - exists vs. repeat split; auto. destruct vs; [cbn in *; lia|discriminate]. }
    destruct H' as (vs & Hn & -> & HM). rewrite coalesce_s.
    change [KDoubleQuoted vy] with (map (KDoubleQuoted (C := C)) [vy]). rewrite <- map_app.
    constructor.
    + rewrite app_length. destruct vs; [congruence|cbn; lia].
    + eapply merged_simple_trans; [|apply spasses_merged]. rewrite concat_app. cbn. rewrite app_nil_r.
      apply merged_simple_app; auto. apply merged_simple_refl.
    + apply spasses_normal.
  - assert (H' : exists ls, ls <> [] /\ g = map KSingleQuoted ls /\ sx = concat ls).
    { inversion H; subst; [exists [sx]; cbn; rewrite app_nil_r; repeat split; discriminate|].
      exists ls. repeat split. destruct ls; [cbn in *; lia|discriminate]. }
    destruct H' as (ls & Hn & -> & ->).
    replace (concat ls ++ sy) with (concat (ls ++ [sy])) by (rewrite concat_app; cbn; now rewrite app_nil_r).
    change [KSingleQuoted sy] with (map (KSingleQuoted (C := C)) [sy]). rewrite <- map_app.
    constructor. rewrite app_length. destruct ls; [congruence|cbn; lia].
Qed.
Lemma merged_cons g x l l' : joins g x -> merged l l' -> @merged C (g ++ l) (x :: l').
Proof. intros H (gs & -> & H2). exists (g :: gs). split; [reflexivity|]. constructor; auto. Qed.
Lemma wpass_merged : forall l g x, joins g x -> @merged C (g ++ l) (wpass x l).
Proof.
  induction l as [|y l IH]; intros g x J.
  - apply merged_cons; auto. exists []. split; constructor.
  - destruct (may_merge x y) eqn:E.
    + destruct (wpass_yes x y l E) as (c & H1 & _ & ->).
      replace (g ++ y :: l) with ((g ++ [y]) ++ l) by now rewrite <- app_assoc.
      apply IH. eapply joins_step; eauto.
    + rewrite wpass_no by auto. apply merged_cons; auto. apply (IH [y]). constructor.
Qed.
Lemma wpass_normal : forall l x, no_adjacent mergeable (wpass x l) /\
  exists y l', wpass x l = y :: l' /\ kind_of y = kind_of x.
Proof.
  induction l as [|y l IH]; intros x.
  - split; [apply no_adjacent_one|]. exists x, []. auto.
  - destruct (may_merge x y) eqn:E.
    + destruct (wpass_yes x y l E) as (c & _ & H2 & ->). destruct (IH c) as [H3 H4]. split; [exact H3|].
      rewrite <- H2. exact H4.
    + rewrite wpass_no by auto. destruct (IH y) as [H1 (z & l' & H2 & H3)]. split; [|eauto].
      rewrite H2 in *. apply no_adjacent_cons; auto. rewrite <- may_merge_iff.
      unfold may_merge in *. rewrite H3. congruence.
Qed.
Lemma wpasses_merged l : @merged C l (passes coalesce_word l).
Proof.
  destruct l as [|x l]; [exists []; split; constructor|]. apply (wpass_merged l [x] x). constructor.
Qed.
Lemma wpasses_normal l : no_adjacent mergeable (passes (@coalesce_word C) l).
Proof. destruct l; [apply no_adjacent_nil|apply wpass_normal]. Qed.

(** ** The theorems *)

(** A concatenation: the result is the merged list, as a single fragment when only one is left;
    no two adjacent fragments of the result could be merged further. *)
Theorem compress_concat (l : list wk) : exists l',
  merged l l' /\ no_adjacent mergeable l' /\
  compress (KConcat l) = match l' with [x] => KSingle x | _ => KConcat l' end.
Proof.
  exists (passes coalesce_word l). split; [apply wpasses_merged|]. split; [apply wpasses_normal|].
  unfold compress. rewrite coalesce_w. now destruct (passes coalesce_word l) as [|a [|b l']].
Qed.
(** A single fragment stays, except that the literals inside double quotes are merged. *)
Theorem compress_single (w : wk) :
  match w with
  | KDoubleQuoted v => exists v', merged_simple v v' /\ no_adjacent mergeable_simple v' /\
                         compress (KSingle w) = KSingle (KDoubleQuoted v')
  | _ => compress (KSingle w) = KSingle w
  end.
Proof.
  destruct w as [x|v|x]; try reflexivity. exists (spasses v).
  split; [apply spasses_merged|]. split; [apply spasses_normal|]. cbn [compress]. now rewrite coalesce_s.
Qed.
(** Never a one-element concatenation. *)
Theorem compress_no_singleton (w : cwk C) x : compress w <> KConcat [x].
Proof.
  destruct w as [l|w].
  - destruct (compress_concat l) as (l' & _ & _ & ->). destruct l' as [|a [|b l']]; discriminate.
  - pose proof (compress_single w) as H. destruct w; [rewrite H; discriminate| |rewrite H; discriminate].
    destruct H as (v & _ & _ & ->). discriminate.
Qed.

Lemma flat_map_lits q ls : flat_map (@simple_atoms C q) (map KLiteral ls) = simple_atoms q (KLiteral (concat ls)).
Proof.
  cbn [simple_atoms]. induction ls as [|s ls IH]; [reflexivity|]. cbn. rewrite map_app. f_equal. exact IH.
Qed.
Lemma joins_simple_atoms q g x : joins_simple g x -> flat_map (@simple_atoms C q) g = simple_atoms q x.
Proof. intros [y|ls _]; [cbn; now rewrite app_nil_r|apply flat_map_lits]. Qed.
Lemma merged_simple_atoms q l l' : merged_simple l l' -> flat_map (@simple_atoms C q) l = flat_map (simple_atoms q) l'.
Proof.
  intros (gs & -> & H). induction H as [|g x gs l' J H IH]; [reflexivity|].
  cbn. rewrite flat_map_app, IH. f_equal. now apply joins_simple_atoms.
Qed.
Lemma joins_atoms g x : joins g x -> flat_map (@atoms1 C) g = atoms1 x.
Proof.
  intros [y|ls _|ls _|vs v _ HM _].
  - cbn. now rewrite app_nil_r.
  - cbn. induction ls as [|s ls IH]; [reflexivity|]. cbn. rewrite map_app. f_equal. exact IH.
  - cbn. induction ls as [|s ls IH]; [reflexivity|]. cbn. rewrite map_app. f_equal. exact IH.
  - cbn [atoms1]. rewrite <- (merged_simple_atoms true _ _ HM). clear HM.
    induction vs as [|w vs IH]; [reflexivity|]. cbn. rewrite flat_map_app. f_equal. exact IH.
Qed.
Lemma merged_atoms l l' : merged l l' -> flat_map (@atoms1 C) l = flat_map atoms1 l'.
Proof.
  intros (gs & -> & H). induction H as [|g x gs l' J H IH]; [reflexivity|].
  cbn. rewrite flat_map_app, IH. f_equal. now apply joins_atoms.
Qed.
(** The text, the quoting of every character and all other fragments are preserved, in order. *)
Theorem compress_content (w : cwk C) : atoms (compress w) = atoms w.
Proof.
  destruct w as [l|w].
  - destruct (compress_concat l) as (l' & HM & _ & ->). apply merged_atoms in HM.
    cbn [atoms]. rewrite HM. destruct l' as [|a [|b l']]; try reflexivity. cbn. now rewrite app_nil_r.
  - pose proof (compress_single w) as H. destruct w; [now rewrite H| |now rewrite H].
    destruct H as (v & HM & _ & ->). cbn. symmetry. now apply merged_simple_atoms.
Qed.
End Proofs.

(** A concatenation with something to merge of each kind, and something to keep apart. *)
Example compress_witness :
  compress (C := unit) (KConcat [KSimple (KLiteral (s_of "a")); KSimple (KLiteral (s_of "b"));
      KSimple KStar; KSingleQuoted (s_of "c"); KSingleQuoted (s_of "d");
      KDoubleQuoted [KLiteral (s_of "e")]; KDoubleQuoted [KLiteral (s_of "f"); KStar]; KSimple KStar])
  = KConcat [KSimple (KLiteral (s_of "ab")); KSimple KStar; KSingleQuoted (s_of "cd");
      KDoubleQuoted [KLiteral (s_of "ef"); KStar]; KSimple KStar].
Proof. reflexivity. Qed.
(** Inside one double-quoted fragment of a concatenation adjacent literals stay as they are (so
    merging is not idempotent): the claim of normal form is about the fragments of the word. *)
Example compress_inner_literals :
  compress (C := unit) (KConcat [KDoubleQuoted [KLiteral (s_of "a"); KLiteral (s_of "b")]; KSimple KStar])
  = KConcat [KDoubleQuoted [KLiteral (s_of "a"); KLiteral (s_of "b")]; KSimple KStar].
Proof. reflexivity. Qed.
Theorem compress_idempotent_refuted : exists w : cwk unit, compress (compress w) <> compress w.
Proof.
  exists (KConcat [KDoubleQuoted [KLiteral (s_of "a"); KLiteral (s_of "b")]]). discriminate.
Qed.

(** ** [default_word] unfolds to one application of [compress] at every level of nesting *)
Lemma list_max_in l x : In x l -> (x <= list_max l)%nat.
Proof.
  induction l as [|y l IH]; [contradiction|]. cbn. intros [->|H]; [lia|]. specialize (IH H). unfold list_max in IH. lia.
Qed.

(** The depth bounds what [compress] leaves. *)
Lemma joins_simple_depth {C} g x : @joins_simple C g x -> (swk_depth x <= list_max (map swk_depth g))%nat.
Proof. intros [y|ls _]; cbn; lia. Qed.
Lemma list_max_app' l l' : list_max (l ++ l') = Nat.max (list_max l) (list_max l').
Proof. apply list_max_app. Qed.
Lemma merged_simple_depth {C} l l' : @merged_simple C l l' -> (list_max (map swk_depth l') <= list_max (map swk_depth l))%nat.
Proof.
  intros (gs & -> & H). induction H as [|g x gs l' J H IH]; [cbn; lia|].
  cbn [concat map]. rewrite map_app, list_max_app'. apply joins_simple_depth in J.
  change (list_max (swk_depth x :: map swk_depth l')) with (Nat.max (swk_depth x) (list_max (map swk_depth l'))). lia.
Qed.
Lemma joins_depth {C} g x : @joins C g x -> (wk_depth x <= list_max (map wk_depth g))%nat.
Proof.
  intros [y|ls _|ls _|vs v _ HM _]; try (cbn; lia).
  apply merged_simple_depth in HM. cbn [wk_depth].
  change (list_max (map swk_depth v) <= list_max (map wk_depth (map KDoubleQuoted vs)))%nat.
  etransitivity; [exact HM|]. clear. induction vs as [|w vs IH]; [cbn; lia|].
  cbn [concat map]. rewrite map_app, list_max_app'.
  change (list_max (wk_depth (KDoubleQuoted w) :: map wk_depth (map KDoubleQuoted vs)))
    with (Nat.max (list_max (map swk_depth w)) (list_max (map wk_depth (map KDoubleQuoted vs)))). lia.
Qed.
Lemma merged_depth {C} l l' : @merged C l l' -> (list_max (map wk_depth l') <= list_max (map wk_depth l))%nat.
Proof.
  intros (gs & -> & H). induction H as [|g x gs l' J H IH]; [cbn; lia|].
  cbn [concat map]. rewrite map_app, list_max_app'. apply joins_depth in J.
  change (list_max (wk_depth x :: map wk_depth l')) with (Nat.max (wk_depth x) (list_max (map wk_depth l'))). lia.
Qed.
Lemma compress_depth {C} (k : cwk C) : (cwk_depth (compress k) <= cwk_depth k)%nat.
Proof.
  destruct k as [l|w].
  - destruct (compress_concat l) as (l' & HM & _ & ->). apply merged_depth in HM.
    change (cwk_depth (KConcat l)) with (list_max (map wk_depth l)). etransitivity; [|exact HM].
    destruct l' as [|a [|b l']]; [cbn; lia| |apply le_n]. change (wk_depth a <= Nat.max (wk_depth a) 0)%nat. lia.
  - pose proof (compress_single w) as H. destruct w; [rewrite H; lia| |rewrite H; lia].
    destruct H as (v & HM & _ & ->). exact (merged_simple_depth _ _ HM).
Qed.
(** [self.word] is applied to the words inside substitutions only, and those are less deep. *)
Definition agree n (r1 r2 : cwk tlcmd -> tlword) : Prop := forall k, (cwk_depth k < n)%nat -> r1 k = r2 k.
Lemma map_simple_ext r1 r2 n x : agree n r1 r2 -> (swk_depth x <= n)%nat -> d_map_simple r1 x = d_map_simple r2 x.
Proof.
  intros H Hd. destruct x as [?|?|p|?|?| | | | | |]; try reflexivity. cbn [d_map_simple]. f_equal.
  change (psk_depth p <= n)%nat in Hd.
  destruct p as [?|?|?|c p w|c p w|c p w|c p w|p w|p w|p w|p w]; try reflexivity;
    (destruct w as [w|]; [|reflexivity]; cbn [d_map_subst option_map]; rewrite (H w); [reflexivity|];
     change (S (cwk_depth w) <= n)%nat in Hd; lia).
Qed.
Lemma map_word_ext r1 r2 n x : agree n r1 r2 -> (wk_depth x <= n)%nat -> d_map_word r1 x = d_map_word r2 x.
Proof.
  intros H Hd. destruct x as [x|v|x]; cbn [d_map_word]; [|f_equal|reflexivity].
  - now rewrite (map_simple_ext r1 r2 n).
  - change (list_max (map swk_depth v) <= n)%nat in Hd. apply map_ext_in. intros x Hx.
    apply (map_simple_ext _ _ n); auto. pose proof (list_max_in _ _ (in_map swk_depth _ _ Hx)). lia.
Qed.
Lemma map_complex_ext r1 r2 n k : agree n r1 r2 -> (cwk_depth k <= n)%nat -> d_map_complex r1 k = d_map_complex r2 k.
Proof.
  intros H Hd. unfold d_map_complex. pose proof (compress_depth k) as Hc. f_equal.
  destruct (compress k) as [l|w].
  - f_equal. change (list_max (map wk_depth l) <= cwk_depth k)%nat in Hc. apply map_ext_in. intros x Hx.
    apply (map_word_ext _ _ n); auto. pose proof (list_max_in _ _ (in_map wk_depth _ _ Hx)). lia.
  - f_equal. apply (map_word_ext _ _ n); auto. change (wk_depth w <= cwk_depth k)%nat in Hc. lia.
Qed.
Lemma d_word_n_enough : forall n m k, (cwk_depth k <= n)%nat -> (cwk_depth k <= m)%nat -> d_word_n n k = d_word_n m k.
Proof.
  induction n as [|n IH]; intros m k Hn Hm.
  - destruct m as [|m]; [reflexivity|]. cbn [d_word_n]. apply (map_complex_ext _ _ 0); auto.
    intros k' Hk'. lia.
  - destruct m as [|m]; cbn [d_word_n].
    + apply (map_complex_ext _ _ 0); [|lia]. intros k' Hk'. lia.
    + apply (map_complex_ext _ _ (Nat.min (S n) (S m))); [|lia]. intros k' Hk'. apply IH; lia.
Qed.
(** The bound on the recursion is no restriction: the model satisfies the recursive equation of
    [CoreBuilder::word]. *)
Theorem default_word_eq k : default_word k = d_map_complex default_word k.
Proof.
  unfold default_word at 1.
  transitivity (d_word_n (S (cwk_depth k)) k); [apply d_word_n_enough; lia|]. cbn [d_word_n].
  apply (map_complex_ext _ _ (cwk_depth k)); [|lia]. intros k' Hk'. apply d_word_n_enough; lia.
Qed.
