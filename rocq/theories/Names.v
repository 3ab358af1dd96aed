(** * Two runs on sources that differ only in names and blanks (C55): the relation, and the parser's primitives

    [rel R p1 p2]: on streams whose tokens are the same except that ordinary names may differ and
    blanks may differ, wherever the tokens are, [p1] runs out of fuel or both end the same way
    (related results, the same kind of error, the same panic), leaving related streams and the same
    builder state. *)
From Coq Require Import String.
From Verif Require Import Base Token Pos Ast Builder Prog Located RunLemmas ParserBase Balanced.
Local Open Scope N_scope.

(** ** Names, blanks and related streams *)
(** A text with a character that is neither a digit nor [+]: it is never read as a number. *)
Definition wordlike (s : str) : Prop := exists c, In c s /\ is_digit10 c = false /\ c <> 43.
Definition keywords : list str := [CASE; DO; DONE; ELIF; ELSE; ESAC; FI; FOR; FUNCTION; IF; IN; THEN; UNTIL; WHILE].
(** An ordinary name: not a reserved word, and not a number. *)
Definition ordinary (s : str) : Prop := ~ In s keywords /\ wordlike s.
Definition heredoc_op (t : token) : Prop := match t with TDLess | TDLessDash => True | _ => False end.
(** Tokens are the same, or both are ordinary names, or both are blanks. *)
Inductive TR : token -> token -> Prop :=
  | tr_same t : ~ heredoc_op t -> TR t t
  | tr_name a b : ordinary a -> ordinary b -> TR (TName a) (TName b)
  | tr_blank v w : wordlike v -> wordlike w -> TR (TWhitespace v) (TWhitespace w).
Inductive OTR : option token -> option token -> Prop :=
  | otr_none : OTR None None
  | otr_same t : ~ heredoc_op t -> OTR (Some t) (Some t)
  | otr_name a b : ordinary a -> ordinary b -> OTR (Some (TName a)) (Some (TName b))
  | otr_blank v w : wordlike v -> wordlike w -> OTR (Some (TWhitespace v)) (Some (TWhitespace w)).
Lemma TR_OTR t u : TR t u -> OTR (Some t) (Some u).
Proof. destruct 1; constructor; assumption. Qed.
Lemma OTR_TR t u : OTR (Some t) (Some u) -> TR t u.
Proof. intros H. inversion H; subst; constructor; assumption. Qed.

(** Texts are the same, or neither is a number. *)
Definition S_ (a b : str) : Prop := a = b \/ (wordlike a /\ wordlike b).
Lemma S_refl a : S_ a a. Proof. now left. Qed.
Lemma wordlike_l a b : wordlike a -> wordlike (a ++ b).
Proof. intros (c & H & D). exists c. split; [apply in_or_app; now left|exact D]. Qed.
Lemma wordlike_r a b : wordlike b -> wordlike (a ++ b).
Proof. intros (c & H & D). exists c. split; [apply in_or_app; now right|exact D]. Qed.
Lemma S_app a b c d : S_ a b -> S_ c d -> S_ (a ++ c) (b ++ d).
Proof.
  intros [->|[A B]] [->|[C D]]; [now left| | |]; right; split; auto using wordlike_l, wordlike_r.
Qed.
Lemma S_as_str t u : TR t u -> S_ (as_str t) (as_str u).
Proof. destruct 1 as [t H|a b [_ A] [_ B]|v w A B]; [now left| |]; right; split; assumption. Qed.
Lemma S_concat l1 l2 : Forall2 TR l1 l2 -> S_ (concat_tokens l1) (concat_tokens l2).
Proof. induction 1; [now left|]. cbn. apply S_app; [now apply S_as_str|assumption]. Qed.
Lemma wordlike_nonempty s : wordlike s -> s <> [].
Proof. intros (c & H & _) ->. exact H. Qed.
Lemma wordlike_not_digits s : wordlike s -> forallb is_digit10 s = false.
Proof.
  intros (c & H & D & _). destruct (forallb is_digit10 s) eqn:E; [|reflexivity].
  rewrite forallb_forall in E. rewrite (E c H) in D. discriminate.
Qed.
Lemma S_digits a b : S_ a b -> forallb is_digit10 a = forallb is_digit10 b.
Proof. intros [->|[A B]]; [reflexivity|]. now rewrite !wordlike_not_digits. Qed.

Lemma to_digit_none c : is_digit10 c = false -> to_digit 10 c = None.
Proof.
  unfold is_digit10, to_digit. cbv zeta. intros ->.
  destruct ((97 <=? c) && (c <=? 122)) eqn:E1.
  { destruct (c - 87 <? 10) eqn:E2; [|reflexivity]. apply andb_prop in E1. destruct E1 as [E1 _].
    apply N.leb_le in E1. apply N.ltb_lt in E2. lia. }
  destruct ((65 <=? c) && (c <=? 90)) eqn:E3; [|reflexivity].
  destruct (c - 55 <? 10) eqn:E2; [|reflexivity]. apply andb_prop in E3. destruct E3 as [E3 _].
  apply N.leb_le in E3. apply N.ltb_lt in E2. lia.
Qed.
Lemma digits_value_none : forall s acc c, In c s -> is_digit10 c = false -> digits_value 10 acc s = None.
Proof.
  induction s as [|x s IH]; intros acc c H D; [destruct H|]. cbn [digits_value].
  destruct H as [->|H]; [now rewrite to_digit_none|].
  destruct (to_digit 10 x); [|reflexivity]. eapply IH; eauto.
Qed.
Lemma wordlike_not_number max s : wordlike s -> from_str_radix_u max 10 s = None.
Proof.
  intros (c & H & D & Hp). unfold from_str_radix_u. destruct s as [|x s]; [reflexivity|].
  destruct (x =? c_plus) eqn:E.
  - destruct H as [->|H]; [apply N.eqb_eq in E; contradiction|]. destruct s as [|y s]; [reflexivity|].
    now rewrite (digits_value_none _ _ _ H D).
  - now rewrite (digits_value_none _ _ _ H D).
Qed.
Lemma S_number max a b : S_ a b -> from_str_radix_u max 10 a = from_str_radix_u max 10 b.
Proof. intros [->|[A B]]; [reflexivity|]. now rewrite !wordlike_not_number. Qed.

(** Every text that is not a number, replaced by the same one. *)
Definition wordlikeb (s : str) : bool := existsb (fun c => negb (is_digit10 c) && negb (c =? 43)) s.
Lemma wordlikeb_spec s : wordlikeb s = true <-> wordlike s.
Proof.
  unfold wordlikeb. rewrite existsb_exists. split; intros (c & H & D); exists c; (split; [exact H|]).
  - apply andb_prop in D. destruct D as [D1 D2]. apply negb_true_iff in D1, D2. split; [exact D1|]. now apply N.eqb_neq.
  - destruct D as [-> D]. apply N.eqb_neq in D. now rewrite D.
Qed.
Definition norm (s : str) : str := if wordlikeb s then [120] else s.
Lemma norm_S a b : norm a = norm b <-> S_ a b.
Proof.
  unfold norm. split.
  - destruct (wordlikeb a) eqn:A, (wordlikeb b) eqn:B; intros E.
    + right. split; now apply wordlikeb_spec.
    + subst b. discriminate B.
    + subst a. discriminate A.
    + now left.
  - intros [->|[A B]]; [reflexivity|]. apply wordlikeb_spec in A, B. now rewrite A, B.
Qed.
Lemma norm_app a b c d : norm a = norm b -> norm c = norm d -> norm (a ++ c) = norm (b ++ d).
Proof. rewrite !norm_S. apply S_app. Qed.
Lemma norm_nil a : norm [] = norm a -> a = [].
Proof. rewrite norm_S. intros [<-|[A _]]; [reflexivity|]. now destruct (wordlike_nonempty _ A). Qed.
Lemma norm_concat l1 l2 : Forall2 TR l1 l2 -> norm (concat_tokens l1) = norm (concat_tokens l2).
Proof. rewrite norm_S. apply S_concat. Qed.
Lemma norm_as_str t u : TR t u -> norm (as_str t) = norm (as_str u).
Proof. rewrite norm_S. apply S_as_str. Qed.
Lemma norm_ordinary a b : ordinary a -> ordinary b -> norm a = norm b.
Proof. intros [_ A] [_ B]. apply norm_S. now right. Qed.
Lemma norm_wordlike a b : wordlike a -> wordlike b -> norm a = norm b.
Proof. intros A B. apply norm_S. now right. Qed.

(** ** Comparisons with a fixed token or word do not tell related tokens apart *)
Definition rigid (t : token) : Prop := match t with TName _ | TWhitespace _ => False | _ => True end.
Lemma otr_eqb a b t : OTR a b -> rigid t -> otoken_eqb a (Some t) = otoken_eqb b (Some t).
Proof.
  intros H Hr. destruct H as [|u|x y|v w]; try reflexivity; cbn [otoken_eqb];
    (destruct (token_eqb_spec (TName x) t) || destruct (token_eqb_spec (TWhitespace v) t); [subst; contradiction|]);
    (destruct (token_eqb_spec (TName y) t) || destruct (token_eqb_spec (TWhitespace w) t); [subst; contradiction|reflexivity]).
Qed.
Lemma otr_eqb_o a b o : OTR a b -> (forall t, o = Some t -> rigid t) -> otoken_eqb a o = otoken_eqb b o.
Proof. intros H Hr. destruct o as [t|]; [apply otr_eqb; auto|]. destruct H; reflexivity. Qed.
Lemma otoken_eqb_sym a b : otoken_eqb a b = otoken_eqb b a.
Proof. destruct (otoken_eqb_spec a b), (otoken_eqb_spec b a); congruence. Qed.
Lemma otr_eqb_r a b o : OTR a b -> (forall t, o = Some t -> rigid t) -> otoken_eqb o a = otoken_eqb o b.
Proof. intros H Hr. rewrite !(otoken_eqb_sym o). now apply otr_eqb_o. Qed.
Lemma tr_delimiter t u : TR t u -> is_word_delimiter t = is_word_delimiter u.
Proof. destruct 1; reflexivity. Qed.
Lemma tr_eqb_l t u v : TR t u -> rigid v -> token_eqb v t = token_eqb v u.
Proof. intros H Hv. exact (otr_eqb_r (Some t) (Some u) (Some v) (TR_OTR _ _ H) ltac:(intros w [= <-]; exact Hv)). Qed.
Lemma tr_find ts t u : Forall rigid ts -> TR t u ->
  find (fun x => token_eqb x t) ts = find (fun x => token_eqb x u) ts.
Proof.
  intros Hf H. induction Hf as [|x ts Hx _ IH]; [reflexivity|]. cbn [find]. now rewrite (tr_eqb_l t u x H Hx), IH.
Qed.
Lemma tr_existsb ts a b : Forall rigid ts -> OTR a b ->
  existsb (fun x => otoken_eqb (Some x) a) ts = existsb (fun x => otoken_eqb (Some x) b) ts.
Proof.
  intros Hf H. induction Hf as [|x ts Hx _ IH]; [reflexivity|]. cbn [existsb].
  rewrite (otr_eqb_r a b (Some x) H), IH by (intros ? [= <-]; exact Hx). reflexivity.
Qed.
Lemma ordinary_find ws a : ordinary a -> (forall w, In w ws -> In w keywords) ->
  find (fun w => str_eqb w a) ws = None.
Proof.
  intros [Ha _] H. destruct (find _ ws) eqn:E; [|reflexivity]. apply find_some in E. destruct E as [E1 E2].
  destruct (str_eqb_spec s a) as [->|]; [|discriminate]. destruct Ha. now apply H.
Qed.

(** ** The comparison *)
Definition strm (l : located) : list token := map fst (toks l).
#[global] Arguments strm : simpl never.
Definition err_like {E} (e1 e2 : perr E) : Prop :=
  match e1, e2 with
  | BadFd _ _, BadFd _ _ => True
  | BadIdent s _, BadIdent s' _ => s = s'
  | BadSubst t _, BadSubst t' _ => TR t t'
  | Unmatched t _, Unmatched t' _ => t = t'
  | IncompleteCmd c _ k _, IncompleteCmd c' _ k' _ => c = c' /\ k = k'
  | Unexpected t _, Unexpected t' _ => TR t t'
  | UnexpectedEOF, UnexpectedEOF => True
  | Custom e, Custom e' => e = e'
  | _, _ => False
  end.
Definition out_like {E A} (R : A -> A -> Prop) (o1 o2 : outcome E A) : Prop :=
  match o1, o2 with
  | OOk a1, OOk a2 => R a1 a2
  | OErr e1, OErr e2 => err_like e1 e2
  | OPanic s1, OPanic s2 => s1 = s2
  | _, _ => False
  end.
(** Equal after [N]. *)
Definition by_ {A A'} (N : A -> A') (a b : A) : Prop := N a = N b.
Definition any {A} (a b : A) : Prop := True.
Definition opt {A} (R : A -> A -> Prop) (a b : option A) : Prop :=
  match a, b with Some x, Some y => R x y | None, None => True | _, _ => False end.
Definition pair_ {A C} (R : A -> A -> Prop) (Q : C -> C -> Prop) (a b : A * C) : Prop :=
  R (fst a) (fst b) /\ Q (snd a) (snd b).
Definition chunks_like (a b : list (list token * spos)) : Prop :=
  Forall2 TR (flat_map fst a) (flat_map fst b).
Definition iter_like (i1 i2 : new_iter) : Prop :=
  match i1, i2 with
  | FromTokens a, FromTokens b => Forall2 TR a b
  | FromChunks _ a, FromChunks _ b => chunks_like a b
  | _, _ => False
  end.

Lemma hd_otr l1 l2 : Forall2 TR l1 l2 -> OTR (hd_error l1) (hd_error l2).
Proof. destruct 1; [constructor|now apply TR_OTR]. Qed.
Lemma tl_otr l1 l2 : Forall2 TR l1 l2 -> Forall2 TR (tl l1) (tl l2).
Proof. destruct 1; [constructor|assumption]. Qed.
Lemma l_hd_strm l : l_hd l = hd_error (strm l).
Proof. unfold l_hd, strm. destruct l as [[|[t p] ts] e]; reflexivity. Qed.
Lemma l_tl_strm l : strm (l_tl l) = tl (strm l).
Proof. unfold l_tl, strm. destruct l as [[|[t p] ts] e]; reflexivity. Qed.
Lemma locate_strm ts : forall p, map fst (locate ts p) = ts.
Proof. induction ts as [|t ts IH]; intros p; [reflexivity|]. cbn. now rewrite IH. Qed.
Lemma make_strm i : strm (l_make i) = match i with FromTokens ts => ts | FromChunks _ c => flat_map fst c end.
Proof.
  destruct i as [ts|p c]; unfold strm; cbn [l_make toks]; [apply locate_strm|].
  induction c as [|x c IH]; [reflexivity|]. cbn [flat_map]. now rewrite map_app, locate_strm, IH.
Qed.

Section Rel.
Context {BS BE : Type}.
Notation prog := (prog BS BE).
Definition rel {A} (R : A -> A -> Prop) (p1 p2 : prog A) : Prop :=
  forall l1 l2 b, Forall2 TR (strm l1) (strm l2) ->
  match lrun p1 l1 b, lrun p2 l2 b with
  | (OFuel, _, _), _ => True
  | (o1, l1', b1), (o2, l2', b2) => out_like R o1 o2 /\ Forall2 TR (strm l1') (strm l2') /\ b1 = b2
  end.

Lemma rel_fuel {A} (R : A -> A -> Prop) p2 : rel R outoffuel p2.
Proof. intros l1 l2 b H. rewrite lrun_fuel. exact I. Qed.
Lemma rel_ret {A} (R : A -> A -> Prop) a1 a2 : R a1 a2 -> rel R (ret a1) (ret a2).
Proof. intros H l1 l2 b Hl. rewrite !lrun_ret. cbn. auto. Qed.
Lemma rel_throw {A} (R : A -> A -> Prop) e1 e2 : err_like e1 e2 -> rel R (throw e1) (throw e2).
Proof. intros H l1 l2 b Hl. rewrite !lrun_throw. cbn. auto. Qed.
Lemma rel_panic {A} (R : A -> A -> Prop) s : rel R (panic s) (panic s).
Proof. intros l1 l2 b Hl. rewrite !lrun_panic. cbn. auto. Qed.
Lemma rel_bind {A C} (R : A -> A -> Prop) (Q : C -> C -> Prop) p1 p2 k1 k2 :
  rel R p1 p2 -> (forall a1 a2, R a1 a2 -> rel Q (k1 a1) (k2 a2)) -> rel Q (bind p1 k1) (bind p2 k2).
Proof.
  intros Hp Hk l1 l2 b Hl. rewrite !lrun_bind. specialize (Hp l1 l2 b Hl).
  destruct (lrun p1 l1 b) as [[[a1|e1|s1|] l1'] b1], (lrun p2 l2 b) as [[[a2|e2|s2|] l2'] b2];
    cbn in Hp; try tauto; destruct Hp as (H1 & H2 & <-); try tauto.
  exact (Hk a1 a2 H1 _ _ _ H2).
Qed.
Lemma rel_next : rel OTR next next.
Proof.
  intros l1 l2 b H. rewrite !lrun_next, !l_hd_strm. cbn. rewrite !l_tl_strm.
  split; [now apply hd_otr|]. split; [now apply tl_otr|reflexivity].
Qed.
Lemma rel_peek : rel OTR peek peek.
Proof. intros l1 l2 b H. rewrite !lrun_peek, !l_hd_strm. cbn. split; [now apply hd_otr|auto]. Qed.
Lemma rel_getpos : rel any getpos getpos.
Proof. intros l1 l2 b H. rewrite !lrun_getpos. cbn. repeat split; auto. Qed.
Definition mlike {A} (R : A -> A -> Prop) (m1 m2 : mp A) : Prop :=
  forall t1 t2, Forall2 TR t1 t2 -> R (look m1 t1) (look m2 t2).
Lemma rel_multipeek {A} (R : A -> A -> Prop) (m1 m2 : mp A) : mlike R m1 m2 -> rel R (multipeek m1) (multipeek m2).
Proof. intros Hm l1 l2 b H. rewrite !lrun_multipeek. cbn. split; [apply Hm, H|auto]. Qed.
Lemma ml_ret {A} (R : A -> A -> Prop) a b : R a b -> mlike R (MRet a) (MRet b).
Proof. intros H t1 t2 _. exact H. Qed.
Lemma ml_peek {A} (R : A -> A -> Prop) k1 k2 :
  (forall a b, OTR a b -> mlike R (k1 a) (k2 b)) -> mlike R (MPeekNext k1) (MPeekNext k2).
Proof. intros H t1 t2 Ht. cbn [look]. apply H; [now apply hd_otr|now apply tl_otr]. Qed.
Lemma rel_buffer t1 t2 p1 p2 : Forall2 TR t1 t2 -> rel any (buffer t1 p1) (buffer t2 p2).
Proof.
  intros Ht l1 l2 b H. rewrite !lrun_buffer. cbn. split; [exact I|]. split; [|reflexivity].
  unfold strm, l_buffer. cbn [toks]. rewrite !map_app, !locate_strm. now apply Forall2_app.
Qed.
Lemma rel_sub {A} (R : A -> A -> Prop) i1 i2 r q1 q2 : iter_like i1 i2 ->
  rel R q1 q2 -> rel R (sub_iter i1 r q1) (sub_iter i2 r q2).
Proof.
  intros Hi Hp l1 l2 b H. rewrite !lrun_sub.
  assert (Hm : Forall2 TR (strm (l_make i1)) (strm (l_make i2))).
  { rewrite !make_strm. destruct i1, i2; try contradiction; exact Hi. }
  specialize (Hp (l_make i1) (l_make i2) b Hm).
  destruct (lrun q1 (l_make i1) b) as [[[a1|e1|s1|] l1'] b1], (lrun q2 (l_make i2) b) as [[[a2|e2|s2|] l2'] b2];
    cbn in Hp; try tauto; destruct Hp as (H1 & H2 & <-); try tauto; cbn; destruct r; auto.
Qed.
(** The builder is asked for the same thing. *)
Lemma rel_build {A} (f1 f2 : BS -> (A + BE) * BS) : (forall b, f1 b = f2 b) -> rel eq (build f1) (build f2).
Proof. intros E l1 l2 b H. rewrite !lrun_build, E. destruct (f2 b) as [[a|e] b']; cbn; auto. Qed.
Lemma rel_mono {A} (R Q : A -> A -> Prop) p1 p2 : rel R p1 p2 -> (forall a b, R a b -> Q a b) -> rel Q p1 p2.
Proof.
  intros Hp H l1 l2 b Hl. specialize (Hp l1 l2 b Hl).
  destruct (lrun p1 l1 b) as [[[a1|e1|s1|] l1'] b1], (lrun p2 l2 b) as [[[a2|e2|s2|] l2'] b2]; cbn in *; try tauto.
  destruct Hp as (H1 & H2). auto.
Qed.
End Rel.

Create HintDb rel.
#[global] Hint Resolve rel_next rel_peek rel_getpos rel_fuel rel_panic : rel.
#[global] Hint Constructors OTR TR Forall2 : rel.
#[global] Hint Resolve OTR_TR TR_OTR tl_otr hd_otr norm_as_str norm_concat norm_ordinary norm_wordlike norm_app : rel.
#[global] Hint Resolve Forall2_app : rel.

Ltac rel_leaf := solve [eauto with rel].
Ltac rel_red := cbv beta iota; cbn [fst snd negb andb orb option_map is_nil].
(** Use what is known about the two results. *)
Ltac rel_clean :=
  repeat match goal with
  | H : any _ _ |- _ => clear H
  | H : @eq ?T ?a ?b |- _ => (is_var b; subst b) || (is_var a; subst a)
  | H : pair_ _ _ ?a ?b |- _ => is_var a; is_var b; destruct a, b; destruct H; cbn [fst snd] in *
  | H : ~ heredoc_op TDLess |- _ => destruct H; exact I
  | H : ~ heredoc_op TDLessDash |- _ => destruct H; exact I
  end.
Ltac rel_eqb :=
  repeat match goal with
  | H : OTR ?x ?y |- context[otoken_eqb ?x (Some ?t)] => rewrite (otr_eqb x y t H I)
  end.
Ltac rel_step :=
  rel_eqb;
  lazymatch goal with
  | |- rel _ (let _ := _ in _) _ => cbv zeta
  | |- rel _ (bind _ _) (bind _ _) =>
      eapply rel_bind; [rel_leaf|
        let a := fresh "a" in let a2 := fresh "b" in let H := fresh "H" in
        intros a a2 H; rel_clean; rel_red]
  | |- rel _ (ret _) (ret _) => apply rel_ret; first [reflexivity | exact I | rel_leaf | idtac]
  | |- rel _ (throw _) (throw _) => apply rel_throw; first [solve [cbn; eauto with rel] | idtac]
  | |- rel _ (panic _) (panic _) => apply rel_panic
  | |- rel _ (multipeek _) (multipeek _) => apply rel_multipeek
  | |- rel _ outoffuel _ => apply rel_fuel
  | |- rel _ (match ?x with _ => _ end) (match ?x with _ => _ end) =>
      first [destruct x | let E := fresh "E" in destruct x eqn:E]; rel_clean; rel_red
  | H : OTR ?x ?y |- rel _ (match ?x with _ => _ end) (match ?y with _ => _ end) =>
      destruct H as [|? ?|? ? ? ?|? ? ? ?]; rel_red
  | H : OTR (Some ?x) (Some ?y) |- rel _ (match ?x with _ => _ end) (match ?y with _ => _ end) =>
      apply OTR_TR in H; destruct H as [? ?|? ? ? ?|? ? ? ?]; rel_red
  | H : TR ?x ?y |- rel _ (match ?x with _ => _ end) (match ?y with _ => _ end) =>
      destruct H as [? ?|? ? ? ?|? ? ? ?]; rel_red
  | H : opt _ ?x ?y |- rel _ (match ?x with _ => _ end) (match ?y with _ => _ end) =>
      destruct x, y; cbn [opt] in H; try contradiction; rel_clean; rel_red
  | |- _ => rel_leaf
  end.
Ltac ml_step :=
  lazymatch goal with
  | |- mlike _ (MPeekNext _) (MPeekNext _) =>
      let H := fresh "H" in apply ml_peek; intros ? ? H; rel_eqb; rel_red
  | |- mlike _ (MRet _) (MRet _) => rel_eqb; apply ml_ret; first [reflexivity | rel_leaf | idtac]
  | |- mlike _ (match ?x with _ => _ end) (match ?x with _ => _ end) => destruct x; rel_red
  | H : OTR ?x ?y |- mlike _ (match ?x with _ => _ end) (match ?y with _ => _ end) =>
      destruct H as [|? ?|? ? ? ?|? ? ? ?]; rel_red
  end.

Section Base.
Context {BS BE : Type}.
Notation rel := (@rel BS BE _).

Lemma rel_make_unexpected : rel err_like make_unexpected_err make_unexpected_err.
Proof. unfold make_unexpected_err. rel_step. rel_step. apply rel_ret. destruct H; cbn; auto with rel. Qed.
Lemma rel_unexpected {A} (R : A -> A -> Prop) : rel R unexpected unexpected.
Proof. unfold unexpected. eapply rel_bind; [apply rel_make_unexpected|]. intros. now apply rel_throw. Qed.
Hint Resolve rel_unexpected : rel.
Lemma rel_eat t : rigid t -> rel eq (eat t) (eat t).
Proof.
  intros Hr. unfold eat. rel_step. rewrite (otr_eqb a b t) by assumption.
  destruct (otoken_eqb b _); repeat rel_step.
Qed.
Lemma rel_eat_maybe t : rigid t -> rel eq (eat_maybe t) (eat_maybe t).
Proof.
  intros Hr. unfold eat_maybe. rel_step. rewrite (otr_eqb a b t) by assumption.
  destruct (otoken_eqb b _); repeat rel_step.
Qed.
Hint Extern 1 (Names.rel _ (eat _) _) => apply rel_eat; exact I : rel.
Hint Extern 1 (Names.rel _ (eat_maybe _) _) => apply rel_eat_maybe; exact I : rel.

Lemma rel_skip_blanks : forall n, rel eq (skip_blanks n) (skip_blanks n).
Proof.
  induction n as [|n IH]; [apply rel_fuel|]. cbn [skip_blanks]. repeat rel_step.
Qed.

Hint Resolve rel_skip_blanks : rel.
Definition same_len {A} (a b : list A) : Prop := List.length a = List.length b.

Section Fuel.
Variable f : nat.
Lemma ml_backslash : mlike eq found_backslash_newline found_backslash_newline.
Proof. unfold found_backslash_newline. repeat ml_step. Qed.
Hint Resolve ml_backslash : rel.
Lemma rel_skip_loop : forall n, rel eq (skip_whitespace_loop f n) (skip_whitespace_loop f n).
Proof.
  induction n as [|n IH]; [apply rel_fuel|]. cbn [skip_whitespace_loop]. rel_step.
  eapply rel_bind; [apply rel_multipeek, ml_backslash|]. intros b1 ? <-. repeat rel_step.
Qed.
Lemma rel_skip_whitespace : rel eq (skip_whitespace f) (skip_whitespace f).
Proof. apply rel_skip_loop. Qed.
Hint Resolve rel_skip_whitespace : rel.

Lemma rel_take_comment : forall n acc acc2, rel any (take_comment n acc) (take_comment n acc2).
Proof. induction n as [|n IH]; intros; [apply rel_fuel|]. cbn [take_comment]. repeat rel_step. Qed.
Hint Resolve rel_take_comment : rel.
Lemma rel_newline : rel (opt any) (newline f) (newline f).
Proof. unfold newline. repeat rel_step. Qed.
Hint Resolve rel_newline : rel.
Lemma same_len_snoc {A} (a b : list A) x y : same_len a b -> same_len (a ++ [x]) (b ++ [y]).
Proof. unfold same_len. intros H. rewrite !app_length, H. reflexivity. Qed.
Lemma same_len_app {A} (a b c d : list A) : same_len a b -> same_len c d -> same_len (a ++ c) (b ++ d).
Proof. unfold same_len. intros H1 H2. rewrite !app_length, H1, H2. reflexivity. Qed.
Lemma rel_linebreak_loop : forall n acc acc2, same_len acc acc2 ->
  rel same_len (linebreak_loop f n acc) (linebreak_loop f n acc2).
Proof.
  induction n as [|n IH]; intros acc acc2 H; [apply rel_fuel|]. cbn [linebreak_loop]. rel_step. rel_step.
  - apply IH, same_len_snoc, H.
  - apply rel_ret, H.
Qed.
Lemma rel_linebreak : rel same_len (linebreak f) (linebreak f).
Proof. apply rel_linebreak_loop. reflexivity. Qed.
Hint Resolve rel_linebreak : rel.

Lemma ml_reserved_token ts : Forall rigid ts -> mlike eq (reserved_token_try ts) (reserved_token_try ts).
Proof.
  intros Hr. unfold reserved_token_try. ml_step.
  assert (K : forall t u, TR t u ->
    mlike eq (match find (fun x => token_eqb x t) ts with
              | Some x => MPeekNext (fun d => MRet (Some (if match d with Some d => is_word_delimiter d | None => true end then Some x else None)))
              | None => MRet (Some None) end)
             (match find (fun x => token_eqb x u) ts with
              | Some x => MPeekNext (fun d => MRet (Some (if match d with Some d => is_word_delimiter d | None => true end then Some x else None)))
              | None => MRet (Some None) end)).
  { intros t u Ht. rewrite (tr_find ts t u Hr Ht). destruct (find _ ts); [|ml_step]. ml_step. apply ml_ret.
    match goal with H : OTR _ _ |- _ => destruct H; reflexivity end. }
  destruct H; [ml_step| | |]; apply K; constructor; assumption.
Qed.
Lemma rel_tries ts n : Forall rigid ts -> rel eq (reserved_token_tries f n ts) (reserved_token_tries f n ts).
Proof.
  intros Hr. induction n as [|n IH]; cbn [reserved_token_tries]; [repeat rel_step|].
  eapply rel_bind; [apply rel_multipeek, ml_reserved_token, Hr|]. intros r ? <-. repeat rel_step.
Qed.
Lemma rel_peek_reserved_token ts : Forall rigid ts -> rel eq (peek_reserved_token f ts) (peek_reserved_token f ts).
Proof.
  intros Hr. unfold peek_reserved_token. destruct ts as [|x ts]; [rel_step|].
  destruct (existsb _ _); [now apply rel_tries|]. rel_step. now apply rel_tries.
Qed.
Definition words_ok (ws : list str) : Prop := forall w, In w ws -> In w keywords.
Lemma ml_reserved_word ws : words_ok ws -> mlike eq (reserved_word_try ws) (reserved_word_try ws).
Proof.
  intros Hw. unfold reserved_word_try. apply ml_peek. intros a b Ha. apply ml_peek. intros c d Hc. apply ml_ret.
  assert (E : match a with Some (TName kw) | Some (TLiteral kw) => find (fun w => str_eqb w kw) ws | _ => None end =
              match b with Some (TName kw) | Some (TLiteral kw) => find (fun w => str_eqb w kw) ws | _ => None end).
  { destruct Ha as [|t|x y Hx Hy|]; try reflexivity. now rewrite !ordinary_find. }
  cbv zeta. rewrite E. destruct Hc; reflexivity.
Qed.
Lemma rel_peek_reserved_word ws : words_ok ws -> rel eq (peek_reserved_word f ws) (peek_reserved_word f ws).
Proof.
  intros Hw. unfold peek_reserved_word. destruct ws as [|w ws]; [rel_step|]. rel_step.
  apply rel_multipeek, ml_reserved_word, Hw.
Qed.
Lemma rel_reserved_word ws : words_ok ws -> rel eq (reserved_word f ws) (reserved_word f ws).
Proof.
  intros Hw. unfold reserved_word. eapply rel_bind; [apply rel_peek_reserved_word, Hw|]. intros r ? <-.
  repeat rel_step.
Qed.
Definition res_like (r1 r2 : token + perr BE) : Prop :=
  match r1, r2 with
  | inl t, inl t' => TR t t'
  | inr e, inr e' => err_like e e'
  | _, _ => False
  end.
Lemma rel_reserved_token_res ts : Forall rigid ts -> rel res_like (reserved_token_res f ts) (reserved_token_res f ts).
Proof.
  intros Hr. unfold reserved_token_res. eapply rel_bind; [apply rel_peek_reserved_token, Hr|]. intros r ? <-.
  destruct r as [t|].
  - rel_step. destruct H; [apply rel_panic|..]; apply rel_ret; cbn; constructor; assumption.
  - rel_step. rewrite (tr_existsb ts a b Hr H). eapply (rel_bind any).
    + destruct (existsb _ _); repeat rel_step.
    + intros _ _ _. eapply rel_bind; [apply rel_make_unexpected|]. intros e e' He. apply rel_ret. exact He.
Qed.
End Fuel.

(** Balanced sub-iterators. *)
Definition stack_like (s1 s2 : list (token * spos)) : Prop :=
  map fst s1 = map fst s2 /\ Forall rigid (map fst s1).
Record bal_like (b1 b2 : balanced) : Prop := mkBalLike {
  bl_esc : opt (fun x y => TR (fst x) (fst y)) (escaped b1) (escaped b2);
  bl_stack : stack_like (bstack b1) (bstack b2);
  bl_skip : skip_last_delimeter b1 = skip_last_delimeter b2;
  bl_done : bdone b1 = bdone b2 }.
Definition tok_like (a b : token + unmatched) : Prop :=
  match a, b with
  | inl t, inl u => TR t u
  | inr (t, _), inr (u, _) => t = u
  | _, _ => False
  end.
Definition delim_like (d1 d2 : option (token * spos)) : Prop :=
  match d1, d2 with
  | Some (t, _), Some (u, _) => t = u /\ rigid t
  | None, None => True
  | _, _ => False
  end.
Lemma rel_balanced_new d1 d2 : delim_like d1 d2 -> rel bal_like (balanced_new d1) (balanced_new d2).
Proof.
  intros H. unfold balanced_new. rel_step. apply rel_ret.
  destruct d1 as [[t p]|], d2 as [[u q]|]; try contradiction.
  - destruct H as [<- Hr]. split; cbn; auto. split; cbn; auto.
  - split; cbn; auto. split; cbn; auto.
Qed.
Lemma stack_top_like s1 s2 : stack_like s1 s2 -> stack_top s1 = stack_top s2 /\
  (forall t, stack_top s1 = Some t -> rigid t).
Proof.
  intros [E R]. destruct s1 as [|[t p] s1], s2 as [|[u q] s2]; try discriminate; cbn; (split; [|intros ? [=]]); auto.
  - cbn in E. congruence.
  - subst. now inversion R.
Qed.
Lemma stack_tl_like s1 s2 : stack_like s1 s2 -> stack_like (tl s1) (tl s2).
Proof.
  intros [E R]. destruct s1 as [|[t p] s1], s2 as [|[u q] s2]; try discriminate; cbn; auto; (split; [|]); cbn in *; auto; try congruence.
  now inversion R.
Qed.
Lemma stack_nil_like s1 s2 : stack_like s1 s2 -> is_nil s1 = is_nil s2.
Proof. intros [E _]. destruct s1, s2; try discriminate; reflexivity. Qed.
Lemma stack_push_like s1 s2 t p q : stack_like s1 s2 -> rigid t -> stack_like ((t, p) :: s1) ((t, q) :: s2).
Proof. intros [E R] H. split; cbn; [congruence|constructor; assumption]. Qed.
Definition next_like := pair_ (opt tok_like) bal_like.
Lemma rel_balanced_next b1 b2 : bal_like b1 b2 -> rel next_like (balanced_next b1) (balanced_next b2).
Proof.
  intros [He Hs Hk Hd]. destruct b1 as [e1 s1 k1 d1 p1], b2 as [e2 s2 k2 d2 p2]. cbn in He, Hs, Hk, Hd. subst k2 d2.
  unfold balanced_next. cbn [escaped bstack skip_last_delimeter bdone bpos].
  destruct e1 as [[t1 q1]|], e2 as [[t2 q2]|]; try contradiction.
  { apply rel_ret. split; [exact He|]. split; cbn; auto. }
  destruct d1; [apply rel_ret; split; [exact I|split; cbn; auto]|].
  destruct (stack_top_like _ _ Hs) as [Et Hr]. rel_step. rewrite <- Et, (otr_eqb_r a b _ H Hr).
  destruct (otoken_eqb _ b).
  - rel_step. rel_step. rewrite <- (stack_nil_like _ _ (stack_tl_like _ _ Hs)).
    destruct (k1 && _); apply rel_ret; (split; [|split; cbn; auto; now apply stack_tl_like]).
    + exact I.
    + match goal with H : OTR _ _ |- _ => destruct H; cbn; auto with rel end.
  - assert (Eq : opt any (single_quote_top s1) (single_quote_top s2)).
    { destruct Hs as [E _]. destruct s1 as [|[t p] s1], s2 as [|[u q] s2]; try discriminate; [exact I|].
      cbn in E. injection E as -> _. cbn. destruct (token_eqb u TSingleQuote); exact I. }
    destruct (single_quote_top s1) as [x|], (single_quote_top s2) as [y|]; try contradiction.
    + rel_step. rel_step. apply rel_ret. split; [|split; cbn; auto]. 
      match goal with H : OTR _ _ |- _ => destruct H; cbn; auto with rel end.
    + rel_step. rel_step.
      assert (F : forall r1 r2 st1 st2 dn, opt tok_like r1 r2 -> stack_like st1 st2 ->
        rel next_like (p <- getpos;; ret (r1, mkBal None st1 k1 dn p)) (p <- getpos;; ret (r2, mkBal None st2 k1 dn p))).
      { intros r1 r2 st1 st2 dn Hr1 Hst. rel_step. apply rel_ret. split; [exact Hr1|]. split; cbn; auto. }
      rewrite <- (stack_nil_like _ _ Hs).
      cbv zeta.
      match goal with H : OTR ?x ?y |- Names.rel _ (match ?x with _ => _ end) _ => destruct H as [|t Ht|u v Hu Hv|u v Hu Hv] end.
      * destruct Hs as [E R]. destruct s1 as [|[t p] s1], s2 as [|[u q] s2]; try discriminate.
        -- apply F; [exact I|split; [reflexivity|constructor]].
        -- cbn in E. injection E as -> E. apply F; [destruct u; cbn; auto|]. split; [exact E|]. now inversion R.
      * destruct t; try (apply F; [cbn; auto with rel|first [exact Hs|apply stack_push_like; [exact Hs|exact I]]]).
        -- rel_step. rel_step. rel_step. apply rel_ret. split; [cbn; auto with rel|]. split; cbn; auto.
           match goal with H : OTR _ _ |- _ => destruct H; cbn; auto with rel end.
        -- apply F; [cbn; auto with rel|]. destruct (otoken_eqb _ _); [exact Hs|apply stack_push_like; [exact Hs|exact I]].
        -- rel_step. rel_step. rel_eqb. destruct (otoken_eqb _ _); [apply F; [cbn; auto with rel|apply stack_push_like; [exact Hs|exact I]]|].
           destruct (otoken_eqb _ _); apply F; cbn; auto with rel.
      * apply F; cbn; auto with rel.
      * apply F; cbn; auto with rel.
Qed.
Lemma snoc_tr l1 l2 t u : Forall2 TR l1 l2 -> TR t u -> Forall2 TR (l1 ++ [t]) (l2 ++ [u]).
Proof. intros. apply Forall2_app; auto. Qed.
Lemma rel_balanced_collect : forall n b1 b2 a1 a2, bal_like b1 b2 -> Forall2 TR a1 a2 ->
  rel (Forall2 TR) (balanced_collect n b1 a1) (balanced_collect n b2 a2).
Proof.
  induction n as [|n IH]; intros b1 b2 a1 a2 Hb Ha; [apply rel_fuel|]. cbn [balanced_collect].
  eapply rel_bind; [apply rel_balanced_next, Hb|]. intros [r1 c1] [r2 c2] [Hr Hc]. cbn [fst snd] in *.
  destruct r1 as [[t|[t p]]|], r2 as [[u|[u q]]|]; try contradiction.
  - apply IH; [exact Hc|now apply snoc_tr].
  - apply rel_throw. exact Hr.
  - apply rel_ret, Ha.
Qed.
Lemma rel_collect_balanced f d1 d2 : delim_like d1 d2 -> rel (Forall2 TR) (collect_balanced f d1) (collect_balanced f d2).
Proof.
  intros H. unfold collect_balanced. eapply rel_bind; [apply rel_balanced_new, H|]. intros b1 b2 Hb.
  now apply rel_balanced_collect.
Qed.

Lemma chunks_flush all1 all2 c1 c2 p1 p2 : chunks_like all1 all2 -> Forall2 TR c1 c2 ->
  chunks_like (all1 ++ [(c1, p1)]) (all2 ++ [(c2, p2)]).
Proof. intros H Hc. unfold chunks_like. rewrite !flat_map_app. apply Forall2_app; [exact H|]. cbn. rewrite !app_nil_r. exact Hc. Qed.
Lemma rel_chunks_loop : forall n b1 b2 all1 all2 p1 p2 c1 c2, bal_like b1 b2 -> chunks_like all1 all2 -> Forall2 TR c1 c2 ->
  rel (pair_ chunks_like any) (chunks_loop n b1 all1 p1 c1) (chunks_loop n b2 all2 p2 c2).
Proof.
  induction n as [|n IH]; intros b1 b2 all1 all2 p1 p2 c1 c2 Hb Ha Hc; [apply rel_fuel|]. cbn [chunks_loop].
  eapply rel_bind; [apply rel_balanced_next, Hb|]. intros [r1 d1] [r2 d2] [Hr Hd]. cbn [fst snd] in *.
  destruct r1 as [[t|[t p]]|], r2 as [[u|[u q]]|]; try contradiction.
  - assert (D : forall x y, TR x y -> rel (pair_ chunks_like any) (chunks_loop n d1 all1 p1 (c1 ++ [x])) (chunks_loop n d2 all2 p2 (c2 ++ [y]))).
    { intros x y Hxy. apply IH; auto using snoc_tr. }
    cbn in Hr. destruct Hr as [t Ht|x y Hx Hy|x y Hx Hy]; [|apply D; now constructor|apply D; now constructor].
    assert (Dt : rel (pair_ chunks_like any) (chunks_loop n d1 all1 p1 (c1 ++ [t])) (chunks_loop n d2 all2 p2 (c2 ++ [t]))) by (apply D; now constructor).
    destruct t; try exact Dt. cbv zeta.
    eapply rel_bind; [apply rel_balanced_next, Hd|]. intros [r1 e1] [r2 e2] [Hr He]. cbn [fst snd] in *.
    destruct r1 as [[t|[t p]]|], r2 as [[u|[u q]]|]; try contradiction.
    + assert (D2 : forall x y, TR x y -> rel (pair_ chunks_like any) (chunks_loop n e1 all1 p1 (c1 ++ [TBackslash; x])) (chunks_loop n e2 all2 p2 (c2 ++ [TBackslash; y]))).
      { intros x y Hxy. apply IH; auto. apply Forall2_app; [exact Hc|]. repeat constructor; [exact Ht|exact Hxy]. }
      assert (D3 : forall x, ~ heredoc_op x -> rel (pair_ chunks_like any) (chunks_loop n e1 (all1 ++ [(c1, p1)]) (bpos d1) [x]) (chunks_loop n e2 (all2 ++ [(c2, p2)]) (bpos d2) [x])).
      { intros x Hx. apply IH; auto using chunks_flush. repeat constructor. exact Hx. }
      cbn in Hr. destruct Hr as [t Ht2|x y Hx Hy|x y Hx Hy]; [|apply D2; now constructor|apply D2; now constructor].
      assert (D2t := D2 t t ltac:(now constructor)).
      destruct t; first [exact D2t|apply D3; exact Ht2].
    + apply rel_throw. exact Hr.
    + apply IH; auto. apply snoc_tr; [exact Hc|]. now constructor.
  - apply rel_throw. exact Hr.
  - apply rel_ret. split; [|exact I]. cbn [fst].
    destruct Hc as [|t u c1 c2 Ht Hc]; [exact Ha|]. apply chunks_flush; [exact Ha|now constructor].
Qed.
Lemma rel_create_token_iter f p1 p2 : rel iter_like (create_token_iter f p1) (create_token_iter f p2).
Proof.
  unfold create_token_iter. eapply rel_bind; [apply rel_balanced_new; split; [reflexivity|exact I]|]. intros b1 b2 Hb.
  eapply rel_bind; [apply rel_chunks_loop; [exact Hb|constructor|constructor]|]. intros [c1 q1] [c2 q2] [H _].
  apply rel_ret. exact H.
Qed.
End Base.

(** Instances. *)
#[global] Hint Resolve rel_unexpected rel_skip_whitespace rel_newline rel_linebreak rel_create_token_iter : rel.
#[global] Hint Extern 1 (Names.rel _ (eat _) _) => apply rel_eat; exact I : rel.
#[global] Hint Extern 1 (Names.rel _ (eat_maybe _) _) => apply rel_eat_maybe; exact I : rel.
Ltac words_tac := let w := fresh in let H := fresh in intros w H; unfold keywords; cbn [In] in *; tauto.
#[global] Hint Extern 1 (Names.rel _ (peek_reserved_word _ _) _) => apply rel_peek_reserved_word; words_tac : rel.
#[global] Hint Extern 1 (Names.rel _ (reserved_word _ _) _) => apply rel_reserved_word; words_tac : rel.
#[global] Hint Extern 1 (Names.rel _ (peek_reserved_token _ _) _) => apply rel_peek_reserved_token; repeat constructor : rel.
#[global] Hint Extern 1 (Names.rel _ (reserved_token_res _ _) _) => apply rel_reserved_token_res; repeat constructor : rel.
