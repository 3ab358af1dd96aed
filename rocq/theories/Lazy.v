(** * Reading ahead: the rules and the basic methods (C47)

    How many tokens the parser has taken from its source without having consumed them.  [lz c p Q] says
    that the program [p], started with look-ahead as [c] describes, has look-ahead as [Q] describes
    when it succeeds.  All of this is about the iterator of src/parse/iter.rs itself ([concrete]). *)
From Verif Require Import Base Token Pos Ast Builder Prog Iter Located IterProofs RunLemmas ParserBase Balanced Arith.

(** A newline only as the last token. *)
Fixpoint nlast (l : list token) : Prop :=
  match l with
  | [] => True
  | t :: l' => (t = TNewline -> l' = []) /\ nlast l'
  end.
Definition plain_token (t : token) : Prop := t <> TDLess /\ t <> TDLessDash.

(** What is known of the look-ahead. *)
Inductive ahead :=
  | Clear            (* there is none *)
  | Neat             (* a newline only as its last token *)
  | Head (t : token) (* the same, and it starts with [t] *)
  | AtNL             (* it starts with a newline; among the others a newline only as the last *)
  | Loose.           (* among all but the first, a newline only as the last *)
Definition fits (c : ahead) (l : list token) : Prop :=
  match c with
  | Clear => l = []
  | Neat => nlast l
  | Head t => hd_error l = Some t /\ nlast l
  | AtNL => hd_error l = Some TNewline /\ nlast (tl l)
  | Loose => nlast (tl l)
  end.
Definition holds (c : ahead) (s : token_iter) : Prop :=
  exists l, ti_buf s = map TPTok l /\ fits c l /\ forall t, In t (l ++ ti_iter s) -> plain_token t.
Inductive le : ahead -> ahead -> Prop :=
  | le_refl c : le c c
  | le_clear : le Clear Neat
  | le_head t : le (Head t) Neat
  | le_clear_loose : le Clear Loose
  | le_head_loose t : le (Head t) Loose
  | le_neat : le Neat Loose
  | le_atnl : le AtNL Loose.
Create HintDb lazy.
#[export] Hint Constructors le : lazy.

Lemma nlast_tl l : nlast l -> nlast (tl l).
Proof. destruct l; cbn; tauto. Qed.
Lemma le_holds c c' s : le c c' -> holds c s -> holds c' s.
Proof.
  intros H (l & E & F & P). exists l. split; [exact E|]. split; [|exact P].
  destruct H; cbn in *; subst; cbn; try tauto; try (apply nlast_tl; tauto).
Qed.

Section Lazy.
Context {BS BE : Type}.
Notation prog := (prog BS BE).

Definition lz {A} (c : ahead) (p : prog A) (Q : A -> ahead -> Prop) : Prop :=
  forall s b, holds c s ->
  match run concrete p s b with
  | (OOk a, s', b') => exists c', Q a c' /\ holds c' s'
  | _ => True
  end.
(** Neat look-ahead. *)
Definition QN {A} : A -> ahead -> Prop := fun _ c => c = Neat.
(** Neat look-ahead, unless nothing was found. *)
Definition QM {A} : option A -> ahead -> Prop := fun r c => c = Neat \/ (r = None /\ c = Loose).

Lemma lz_bind {A C} (p : prog A) (f : A -> prog C) c (Q : A -> ahead -> Prop) (R : C -> ahead -> Prop) :
  lz c p Q -> (forall a c', Q a c' -> lz c' (f a) R) -> lz c (bind p f) R.
Proof.
  intros Hp Hf s b Hs. specialize (Hp s b Hs). rewrite run_bind_gen.
  destruct (run concrete p s b) as [[[a|e|x|] s1] b1]; auto.
  destruct Hp as (c1 & HQ & H1). exact (Hf a c1 HQ s1 b1 H1).
Qed.
Lemma lz_mono {A} (p : prog A) c (Q R : A -> ahead -> Prop) :
  lz c p Q -> (forall a c', Q a c' -> exists c2, le c' c2 /\ R a c2) -> lz c p R.
Proof.
  intros Hp H s b Hs. specialize (Hp s b Hs). destruct (run concrete p s b) as [[[a|e|x|] s1] b1]; auto.
  destruct Hp as (c1 & HQ & H1). destruct (H a c1 HQ) as (c2 & Hle & HR). exists c2. split; [exact HR|]. exact (le_holds _ _ _ Hle H1).
Qed.
Lemma lz_le {A} (p : prog A) c c' (Q : A -> ahead -> Prop) : lz c' p Q -> le c c' -> lz c p Q.
Proof. intros Hp Hle s b Hs. apply Hp. exact (le_holds _ _ _ Hle Hs). Qed.
Lemma lz_ret {A} (a : A) c c' (Q : A -> ahead -> Prop) : le c c' -> Q a c' -> lz c (ret a) Q.
Proof. intros Hle H s b Hs. exists c'. split; [exact H|]. exact (le_holds _ _ _ Hle Hs). Qed.
Lemma lz_throw {A} e c (Q : A -> ahead -> Prop) : lz c (throw e) Q.
Proof. intros s b Hs. exact I. Qed.
Lemma lz_panic {A} x c (Q : A -> ahead -> Prop) : lz c (panic x) Q.
Proof. intros s b Hs. exact I. Qed.
Lemma lz_fuel {A} c (Q : A -> ahead -> Prop) : lz c outoffuel Q.
Proof. intros s b Hs. exact I. Qed.
Lemma lz_getpos c : lz c getpos (fun _ c' => c' = c).
Proof. intros s b Hs. exists c. auto. Qed.
Lemma lz_build {A} (f : BS -> (A + BE) * BS) c : lz c (build f) (fun _ c' => c' = c).
Proof. intros s b Hs. cbn. destruct (f b) as [[a|e] b']; [|exact I]. exists c. auto. Qed.
Lemma lz_sub {A} i r (q : prog A) c : lz c (sub_iter i r q) (fun _ c' => c' = c).
Proof.
  intros s b Hs. cbn. destruct (run concrete q (ti_make i) b) as [[[a|e|x|] s1] b1]; auto. exists c. auto.
Qed.

(** ** The iterator *)
Lemma pop_toks l p : pop_positions (map TPTok l) p = (map TPTok l, p).
Proof. now destruct l. Qed.
Lemma upd_toks iter l p : updated_buffered_pos (mkTI iter (map TPTok l) p) = mkTI iter (map TPTok l) p.
Proof. unfold updated_buffered_pos. cbn [ti_buf ti_pos ti_iter]. now rewrite pop_toks. Qed.
Lemma next_toks iter l p : ti_next (mkTI iter (map TPTok l) p) =
  match l with
  | t :: l' => Some (Some t, mkTI iter (map TPTok l') (advance p t))
  | [] => match iter with
          | t :: ts => Some (Some t, mkTI ts [] (advance p t))
          | [] => Some (None, mkTI [] [] p)
          end
  end.
Proof.
  destruct l as [|t l]; cbn.
  - destruct iter; reflexivity.
  - unfold ti_next. cbn. now rewrite upd_toks.
Qed.
Definition look_iter (iter l : list token) : option token := hd_error (l ++ iter).
Lemma peek_toks iter l p : ti_peek (mkTI iter (map TPTok l) p) =
  Some (look_iter iter l, mkTI (match l with [] => tl iter | _ => iter end) (map TPTok (match l with [] => firstn 1 iter | _ => l end)) p).
Proof. destruct l as [|t l]; [destruct iter; reflexivity|reflexivity]. Qed.

Definition nextQ (c : ahead) (a : option token) (c' : ahead) : Prop :=
  (forall t, a = Some t -> plain_token t) /\
  match c with
  | Head t => a = Some t /\ c' = (if token_eqb t TNewline then Clear else Neat)
  | AtNL => a = Some TNewline /\ c' = Neat
  | Loose => c' = Neat
  | Clear | Neat => (a = None \/ a = Some TNewline) /\ c' = Clear \/ a <> None /\ a <> Some TNewline /\ c' = Neat
  end.
Definition is_nl (t : token) : {t = TNewline} + {t <> TNewline}.
Proof. destruct (token_eqb_spec t TNewline); [left|right]; assumption. Defined.

Lemma lz_next c : lz c next (nextQ c).
Proof.
  intros [iter buf p] b (l & E & F & P). cbn [ti_buf ti_iter] in *. subst buf.
  cbn [next run]. change (it_next concrete) with ti_next. rewrite next_toks.
  destruct l as [|t l].
  - destruct iter as [|t ts].
    + (* the end *)
      destruct c; cbn in F; try (destruct F; discriminate).
      * exists Clear. split; [split; [discriminate|left; auto]|]. exists []. cbn. auto.
      * exists Clear. split; [split; [discriminate|left; auto]|]. exists []. cbn. auto.
      * exists Neat. split; [split; [discriminate|reflexivity]|]. exists []. cbn. auto.
    + assert (Pt : plain_token t) by (apply P; left; reflexivity).
      assert (Ps : forall x, In x ts -> plain_token x) by (intros x Hx; apply P; now right).
      destruct c; cbn in F; try (destruct F; discriminate).
      * destruct (is_nl t) as [->|N]; [exists Clear|exists Neat]; (split; [split; [congruence|]|exists []; cbn; auto]); [left; auto|right; repeat split; congruence].
      * destruct (is_nl t) as [->|N]; [exists Clear|exists Neat]; (split; [split; [congruence|]|exists []; cbn; auto]); [left; auto|right; repeat split; congruence].
      * exists Neat. split; [split; [congruence|reflexivity]|exists []; cbn; auto].
  - assert (Pt : plain_token t) by (apply P; left; reflexivity).
    assert (Ps : forall x, In x (l ++ iter) -> plain_token x) by (intros x Hx; apply P; now right).
    destruct c; cbn in F; try discriminate.
    + destruct F as [F1 F2]. destruct (is_nl t) as [->|N].
      * pose proof (F1 eq_refl) as ->. exists Clear. split; [split; [congruence|left; auto]|]. exists []. cbn. auto.
      * exists Neat. split; [split; [congruence|right; repeat split; congruence]|]. exists l. cbn. auto.
    + destruct F as [[= ->] [F1 F2]]. eexists. split; [split; [congruence|]; split; reflexivity|].
      destruct (token_eqb_spec t0 TNewline) as [->|N]; exists l; cbn; auto.
    + destruct F as [[= ->] F]. exists Neat. split; [split; [congruence|]; split; reflexivity|]. exists l; cbn; auto.
    + exists Neat. split; [split; [congruence|]; reflexivity|]. exists l; cbn; auto.
Qed.

Definition peekQ (c : ahead) (a : option token) (c' : ahead) : Prop :=
  match a with
  | None => c' = Neat
  | Some t => plain_token t /\
      match c with
      | Head u => t = u /\ c' = Head t
      | AtNL => t = TNewline /\ c' = AtNL
      | Loose => t <> TNewline /\ c' = Head t \/ t = TNewline /\ c' = AtNL
      | Clear | Neat => c' = Head t
      end
  end.
Lemma fits_le c l : fits c l -> nlast (tl l).
Proof. destruct c; cbn; intros H; subst; cbn; try tauto; try (apply nlast_tl; tauto). Qed.
Lemma nlast_one ts : nlast (firstn 1 ts).
Proof. destruct ts; cbn; auto. Qed.
Lemma lz_peek c : lz c peek (peekQ c).
Proof.
  intros [iter buf p] b (l & E & F & P). cbn [ti_buf ti_iter] in *. subst buf.
  cbn [peek run]. change (it_peek concrete) with ti_peek. rewrite peek_toks. unfold look_iter.
  destruct l as [|t l].
  - destruct iter as [|t ts].
    + exists Neat. split; [reflexivity|]. exists []. cbn. auto.
    + assert (Pt : plain_token t) by (apply P; left; reflexivity).
      assert (G : holds (Head t) (mkTI ts [TPTok t] p)).
      { exists [t]. cbn. split; [reflexivity|]. split; [repeat split; auto|]. exact P. }
      destruct c; cbn in F; try (destruct F; discriminate); cbn.
      * exists (Head t). auto.
      * exists (Head t). auto.
      * destruct (is_nl t) as [->|N]; [exists AtNL|exists (Head t)]; (split; [split; [exact Pt|]|]); auto.
        exists [TNewline]. cbn. split; [reflexivity|]. split; [auto|]. exact P.
  - assert (Pt : plain_token t) by (apply P; left; reflexivity).
    assert (G : forall c', fits c' (t :: l) -> holds c' (mkTI iter (map TPTok (t :: l)) p)) by (intros c' Hc; exists (t :: l); auto).
    destruct c; cbn in F; try discriminate; cbn [app hd_error].
    + exists (Head t). split; [split; [exact Pt|reflexivity]|]. apply G. cbn. tauto.
    + destruct F as [[= ->] F]. exists (Head t0). split; [split; [exact Pt|auto]|]. apply G. cbn. tauto.
    + destruct F as [[= ->] F]. exists AtNL. split; [split; [exact Pt|auto]|]. apply G. cbn. tauto.
    + destruct (is_nl t) as [->|N].
      * exists AtNL. split; [split; [exact Pt|auto]|]. apply G. cbn. tauto.
      * exists (Head t). split; [split; [exact Pt|auto]|]. apply G. cbn. tauto.
Qed.

(** ** Look-ahead that stops at a newline *)
Inductive calm {B} : mp B -> Prop :=
  | calm_ret b : calm (MRet b)
  | calm_peek k : (forall t, t <> Some TNewline -> calm (k t)) -> (exists b, k (Some TNewline) = MRet b) -> calm (MPeekNext k).

Lemma nlast_app l0 l : ~ In TNewline l0 -> nlast l -> nlast (l0 ++ l).
Proof.
  intros H Hl. induction l0 as [|t l0 IH]; cbn; [exact Hl|]. cbn in H. split; [intros ->; tauto|]. apply IH. tauto.
Qed.
Lemma pull_toks iter l mb : mp_pull (map TPTok l) iter mb =
  match l ++ iter with
  | [] => (None, [], [], mb)
  | t :: _ => (Some t, map TPTok (tl l), match l with [] => tl iter | _ => iter end, mb ++ [TPTok t])
  end.
Proof. destruct l as [|t l]; [destruct iter|]; reflexivity. Qed.
Lemma rewind_toks l0 iter l p : rewind (map TPTok l0) (mkTI iter (map TPTok l) p) = mkTI iter (map TPTok (l0 ++ l)) p.
Proof.
  unfold rewind, buffer_tokens_and_positions. cbn [ti_buf ti_pos ti_iter]. now rewrite <- map_app, upd_toks.
Qed.
(** The look-ahead after a calm session. *)
Lemma calm_session {B} (m : mp B) : calm m -> forall l0 l iter p, ~ In TNewline l0 -> nlast l ->
  exists r l' iter', mp_session m (map TPTok l0) (mkTI iter (map TPTok l) p) = (r, mkTI iter' (map TPTok (l0 ++ l')) p) /\
    nlast (l0 ++ l') /\ l' ++ iter' = l ++ iter.
Proof.
  induction 1 as [b|k Hk IH [b Hb]]; intros l0 l iter p H0 Hl.
  - exists b, l, iter. cbn. rewrite rewind_toks. repeat split; auto using nlast_app.
  - cbn [mp_session]. unfold peek_next. cbn [ti_buf ti_iter ti_pos]. rewrite pull_toks.
    destruct (l ++ iter) as [|t w] eqn:E.
    + destruct l; [|discriminate]. cbn in E. subst iter.
      destruct (IH None ltac:(discriminate) l0 [] [] p H0 I) as (r & l' & iter' & E1 & E2 & E3).
      exists r, l', iter'. cbn [map] in E1. auto.
    + assert (Em : map TPTok l0 ++ [TPTok t] = map TPTok (l0 ++ [t])) by now rewrite map_app.
      rewrite Em. destruct (is_nl t) as [->|N].
      * (* stops *)
        rewrite Hb. cbn [mp_session]. rewrite rewind_toks.
        destruct l as [|u l]; cbn in E.
        -- subst iter. exists b, [TNewline], w. rewrite <- app_assoc. cbn. split; [reflexivity|]. split; [|reflexivity].
           apply nlast_app; [exact H0|]. cbn. auto.
        -- injection E as -> E. destruct Hl as [Hl1 Hl2]. pose proof (Hl1 eq_refl) as ->. cbn in E. subst w.
           exists b, [TNewline], iter. rewrite <- app_assoc. cbn. split; [reflexivity|]. split; [|reflexivity].
           apply nlast_app; [exact H0|]. cbn. auto.
      * assert (H0' : ~ In TNewline (l0 ++ [t])) by (rewrite in_app_iff; cbn; intuition congruence).
        destruct (IH (Some t) ltac:(congruence) (l0 ++ [t]) (tl l) (match l with [] => tl iter | _ => iter end) p H0' (nlast_tl _ Hl))
          as (r & l' & iter' & E1 & E2 & E3).
        exists r, (t :: l'), iter'. rewrite E1, <- app_assoc. rewrite <- app_assoc in E2. split; [reflexivity|]. split; [exact E2|].
        cbn. rewrite E3. destruct l as [|u l]; cbn in *; [subst iter; reflexivity|congruence].
Qed.

Lemma lz_multipeek_neat {B} (m : mp B) : calm m -> lz Neat (multipeek m) (fun _ c => c = Neat).
Proof.
  intros Hm [iter buf p] b (l & E & F & P). cbn [ti_buf ti_iter] in *. subst buf. cbn [multipeek run].
  change (it_multipeek concrete) with ti_multipeek. unfold ti_multipeek.
  destruct (calm_session m Hm [] l iter p ltac:(auto) F) as (r & l' & iter' & E1 & E2 & E3). cbn [map] in E1. rewrite E1.
  exists Neat. split; [reflexivity|]. exists l'. cbn. split; [reflexivity|]. split; [exact E2|]. now rewrite E3.
Qed.
(** When the next token is known. *)
Lemma lz_multipeek_head {B} (k : option token -> mp B) t : t <> TNewline -> calm (k (Some t)) ->
  lz (Head t) (multipeek (MPeekNext k)) (fun _ c => c = Head t).
Proof.
  intros Ht Hm [iter buf p] b (l & E & [F1 F2] & P). cbn [ti_buf ti_iter] in *. subst buf. cbn [multipeek run].
  change (it_multipeek concrete) with ti_multipeek. unfold ti_multipeek. cbn [mp_session]. unfold peek_next. cbn [ti_buf ti_iter ti_pos].
  destruct l as [|u l]; [discriminate|]. injection F1 as ->. rewrite pull_toks. cbn [app tl].
  destruct (calm_session _ Hm [t] l iter p ltac:(cbn; intuition) (proj2 F2)) as (r & l' & iter' & E1 & E2 & E3). cbn [map] in E1. rewrite E1.
  exists (Head t). split; [reflexivity|]. exists (t :: l'). split; [reflexivity|]. split; [cbn in *; tauto|]. cbn. rewrite E3. exact P.
Qed.
(** Loose look-ahead is neat or starts with a newline. *)
Lemma lz_cases {A} (p : prog A) (Q : A -> ahead -> Prop) : lz Neat p Q -> lz AtNL p Q -> lz Loose p Q.
Proof.
  intros H1 H2 s b (l & E & F & P). destruct l as [|t l].
  - apply H1. exists []. cbn. auto.
  - destruct (is_nl t) as [->|N].
    + apply H2. exists (TNewline :: l). cbn in *. auto.
    + apply H1. exists (t :: l). cbn in *. tauto.
Qed.
Lemma lz_multipeek_nl {B} (m : mp B) : calm m -> lz AtNL (multipeek m) (fun _ c => c = AtNL).
Proof.
  intros Hm [iter buf p] b (l & E & [F1 F] & P). cbn [ti_buf ti_iter] in *. subst buf.
  destruct l as [|t l]; [discriminate|]. injection F1 as ->.
  destruct Hm as [r|k Hk [r Hr]]; cbn [multipeek run]; change (it_multipeek concrete) with ti_multipeek; unfold ti_multipeek; cbn [mp_session].
  - rewrite (rewind_toks []). exists AtNL. split; [reflexivity|]. exists (TNewline :: l). cbn in *. auto.
  - unfold peek_next. cbn [ti_buf ti_iter ti_pos].
    rewrite pull_toks. cbn [app tl]. rewrite Hr. cbn [mp_session]. rewrite (rewind_toks [TNewline]).
    exists AtNL. split; [reflexivity|]. exists (TNewline :: l). cbn in *. auto.
Qed.
Lemma lz_multipeek_loose {B} (m : mp B) : calm m -> lz Loose (multipeek m) (fun _ c => c = Loose).
Proof.
  intros Hm. apply lz_cases.
  - eapply lz_mono; [apply lz_multipeek_neat; exact Hm|]. intros a c ->. exists Loose. auto with lazy.
  - eapply lz_mono; [apply lz_multipeek_nl; exact Hm|]. intros a c ->. exists Loose. auto with lazy.
Qed.
End Lazy.

Section Rules.
Context {BS BE : Type}.
Notation prog := (prog BS BE).
Notation lz := (@lz BS BE _).
Lemma lz_next_neat c : lz c next (fun a c' => (forall t, a = Some t -> plain_token t) /\ c' = Neat).
Proof.
  eapply lz_mono; [apply lz_next|]. intros a c' [H1 H2]. exists Neat. split; [|auto].
  destruct c; [| |destruct H2 as [_ ->]; destruct (token_eqb _ _)|destruct H2 as [_ ->]|subst]; auto with lazy;
    destruct H2 as [[_ ->]|[_ [_ ->]]]; auto with lazy.
Qed.
Lemma lz_next_head t : lz (Head t) next (fun a c' => a = Some t /\ c' = Neat).
Proof.
  eapply lz_mono; [apply lz_next|]. intros a c' [H1 [H2 ->]]. exists Neat. destruct (token_eqb _ _); auto with lazy.
Qed.
Lemma lz_next_nl : lz AtNL next (fun a c' => a = Some TNewline /\ c' = Neat).
Proof. eapply lz_mono; [apply lz_next|]. intros a c' [H1 H2]. exists c'. auto with lazy. Qed.
Lemma lz_next_end : lz (Head TNewline) next (fun a c' => a = Some TNewline /\ c' = Clear).
Proof. eapply lz_mono; [apply lz_next|]. intros a c' [H1 [H2 ->]]. exists Clear. auto with lazy. Qed.
Lemma lz_peek_neat : lz Neat peek (fun a c' => match a with Some t => plain_token t /\ c' = Head t | None => c' = Neat end).
Proof. eapply lz_mono; [apply lz_peek|]. intros [t|] c' H; exists c'; auto with lazy. Qed.
Lemma lz_peek_head t : lz (Head t) peek (fun a c' => a = Some t /\ c' = Head t).
Proof.
  intros s b Hs. pose proof (lz_peek (BS := BS) (BE := BE) (Head t) s b Hs) as H.
  destruct Hs as (l & E & [F1 F2] & P). destruct l as [|u l]; [discriminate|]. injection F1 as ->.
  destruct s as [iter buf p]. cbn [ti_buf ti_iter] in *. subst buf. cbn [peek run] in *. change (it_peek concrete) with ti_peek in *.
  rewrite peek_toks in *. cbn [look_iter app hd_error] in *. destruct H as (c' & [H1 [_ H2]] & H3). exists c'. auto.
Qed.
Lemma lz_peek_nl : lz AtNL peek (fun a c' => a = Some TNewline /\ c' = AtNL).
Proof.
  intros s b Hs. pose proof (lz_peek (BS := BS) (BE := BE) AtNL s b Hs) as H.
  destruct Hs as (l & E & [F1 F2] & P). destruct l as [|u l]; [discriminate|]. injection F1 as ->.
  destruct s as [iter buf p]. cbn [ti_buf ti_iter] in *. subst buf. cbn [peek run] in *. change (it_peek concrete) with ti_peek in *.
  rewrite peek_toks in *. cbn [look_iter app hd_error] in *. destruct H as (c' & [H1 [_ H2]] & H3). exists c'. auto.
Qed.
Lemma lz_unexpected {A} c (Q : A -> ahead -> Prop) : lz c unexpected Q.
Proof.
  unfold unexpected, make_unexpected_err. eapply lz_bind with (Q := fun _ _ => True); [|intros; apply lz_throw].
  eapply lz_bind; [apply lz_getpos|]. intros p c1 _. eapply lz_bind; [apply lz_next_neat|]. intros t c2 _.
  eapply lz_ret; [apply le_refl|exact I].
Qed.
Lemma lz_build_le {A} (f : BS -> (A + BE) * BS) c : le c Neat -> lz c (build f) QN.
Proof. intros H. eapply lz_mono; [apply lz_build|]. intros a c' ->. exists Neat. split; [exact H|reflexivity]. Qed.
End Rules.

Ltac lz_red := cbv beta iota; cbn [fst snd negb andb orb option_map].
Ltac lz_leaf := solve [eauto with lazy].
Ltac lz_post H :=
  cbv beta in H;
  lazymatch type of H with
  | QN _ ?c => red in H; subst c
  | QM _ ?c => destruct H as [-> | [-> ->]]
  | ?c = _ => subst c
  | ?c = _ \/ ?c = _ => destruct H as [-> | ->]
  | False => destruct H
  | _ = _ /\ _ = _ => let H1 := fresh in destruct H as [H1 ->]; first [subst | idtac]
  | _ => idtac
  end.
Ltac lz_step :=
  lazymatch goal with
  | |- forall _, _ => intros ?
  | |- lz _ (let _ := _ in _) _ => cbv zeta
  | |- lz (Head _) (bind next _) _ => eapply lz_bind; [apply lz_next_head|]; intros ? ? [-> ->]; lz_red
  | |- lz AtNL (bind next _) _ => eapply lz_bind; [apply lz_next_nl|]; intros ? ? [-> ->]; lz_red
  | |- lz _ (bind next _) _ =>
      eapply lz_bind; [apply lz_next_neat|];
      let t := fresh "t" in let H := fresh "Hp" in
      intros [t|] ? [H ->]; [specialize (H t eq_refl)|clear H]; lz_red
  | |- lz (Head _) (bind peek _) _ => eapply lz_bind; [apply lz_peek_head|]; intros ? ? [-> ->]; lz_red
  | |- lz AtNL (bind peek _) _ => eapply lz_bind; [apply lz_peek_nl|]; intros ? ? [-> ->]; lz_red
  | |- lz Neat (bind peek _) _ =>
      eapply lz_bind; [apply lz_peek_neat|];
      let t := fresh "t" in let c := fresh "c" in let H := fresh "Hp" in
      intros [t|] c H; [destruct H as [H ->]|subst c]; lz_red
  | |- lz _ (bind getpos _) _ =>
      eapply lz_bind; [apply lz_getpos|]; let p := fresh "p" in let c := fresh "c" in intros p c ->; lz_red
  | |- lz _ (bind (build _) _) _ =>
      eapply lz_bind; [apply lz_build|]; let p := fresh "x" in let c := fresh "c" in intros p c ->; lz_red
  | |- lz _ (bind (sub_iter _ _ _) _) _ =>
      eapply lz_bind; [apply lz_sub|]; let p := fresh "x" in let c := fresh "c" in intros p c ->; lz_red
  | |- lz _ (bind (throw _) _) _ => eapply lz_bind; [apply (lz_throw _ _ (fun _ _ => False))|intros ? ? []]
  | |- lz _ (bind unexpected _) _ => eapply lz_bind; [apply (lz_unexpected _ (fun _ _ => False))|intros ? ? []]
  | |- lz _ (bind (ret ?a) _) _ => change (bind (ret a) ?f) with (f a); lz_red
  | |- lz (Head ?t) (bind _ _) _ => eapply lz_le; [|apply (le_head t)]
  | |- lz _ (bind _ _) _ =>
      eapply lz_bind; [lz_leaf|];
      let a := fresh "a" in let c := fresh "c" in let H := fresh "H" in intros a c H; lz_post H; lz_red
  | |- lz _ (ret _) _ => first [solve [eapply lz_ret; [apply le_refl|]; eauto with lazy] | solve [eapply lz_ret; [constructor|reflexivity]] | idtac]
  | |- lz _ (throw _) _ => apply lz_throw
  | |- lz _ (panic _) _ => apply lz_panic
  | |- lz _ (build _) _ => apply lz_build_le; constructor
  | |- lz _ outoffuel _ => apply lz_fuel
  | |- lz _ unexpected _ => apply lz_unexpected
  | |- lz _ (match ?x with _ => _ end) _ => destruct x; lz_red
  | |- lz (Head ?t) _ _ => first [lz_leaf | eapply lz_le; [lz_leaf|apply (le_head t)]]
  | |- _ => lz_leaf
  end.
#[export] Hint Unfold QN QM : lazy.

Ltac calm_tac := repeat (constructor; [let t := fresh "t" in let N := fresh "N" in intros [t|] N; [destruct t|]; cbn; try solve [exfalso; apply N; reflexivity]|eexists; reflexivity]); try constructor.

Section Base.
Context {BS BE : Type}.
Notation prog := (prog BS BE).
Notation lz := (@lz BS BE _).
Notation neat p := (lz Neat p QN).

Lemma neat_eat t : neat (eat t).
Proof. unfold eat. repeat lz_step. Qed.
Lemma neat_eat_maybe t : neat (eat_maybe t).
Proof. unfold eat_maybe. repeat lz_step. Qed.
Hint Resolve neat_eat neat_eat_maybe : lazy.
Lemma neat_skip_blanks : forall n, neat (skip_blanks n).
Proof. intros n. induction n as [|n IH]; [apply lz_fuel|]. cbn [skip_blanks]. repeat lz_step. Qed.
Hint Resolve neat_skip_blanks : lazy.
Lemma calm_backslash_newline : calm found_backslash_newline.
Proof. unfold found_backslash_newline. calm_tac. Qed.
Section Fuel.
Variable fuel : nat.
Lemma neat_skip_whitespace : neat (skip_whitespace fuel).
Proof.
  unfold skip_whitespace. generalize fuel at 2 as n. intros n. induction n as [|n IH]; [apply lz_fuel|]. cbn [skip_whitespace_loop]. lz_step.
  eapply lz_bind; [apply lz_multipeek_neat, calm_backslash_newline|]. intros x c1 ->. repeat lz_step.
Qed.
Hint Resolve neat_skip_whitespace : lazy.
(** Blanks are not skipped at a newline. *)
Lemma nl_skip_whitespace : lz AtNL (skip_whitespace fuel) (fun _ c => c = AtNL).
Proof.
  unfold skip_whitespace. generalize fuel at 2 as n. intros n. destruct n as [|n]; [apply lz_fuel|]. cbn [skip_whitespace_loop].
  eapply lz_bind with (Q := fun _ c => c = AtNL).
  { destruct fuel as [|m]; [apply lz_fuel|]. cbn [skip_blanks]. lz_step. eapply lz_ret; [apply le_refl|reflexivity]. }
  intros a c ->.
  assert (G : lz AtNL (multipeek found_backslash_newline) (fun x c => x = false /\ c = AtNL)).
  { intros s b Hs. pose proof (lz_multipeek_nl (BS := BS) (BE := BE) found_backslash_newline calm_backslash_newline s b Hs) as G.
    pose proof (multipeek_abs found_backslash_newline s) as R. 
    cbn [multipeek run] in *. change (it_multipeek concrete) with ti_multipeek in *. destruct (ti_multipeek _ _ s) as [r s'].
    destruct G as (c & -> & G). exists AtNL. split; [split; [|reflexivity]|exact G]. destruct R as [R _].
    destruct Hs as (l & E & [F1 _] & _). destruct l as [|u l]; [discriminate|]. injection F1 as ->.
    unfold l_multipeek, abs in R. rewrite E in R. cbn in R. now injection R. }
  eapply lz_bind; [exact G|]. intros x c1 [-> ->]. eapply lz_ret; [apply le_refl|reflexivity].
Qed.
Hint Resolve nl_skip_whitespace : lazy.
Lemma loose_skip_whitespace : lz Loose (skip_whitespace fuel) (fun _ c => c = Neat \/ c = AtNL).
Proof.
  apply lz_cases; (eapply lz_mono; [eauto with lazy|]); intros a c ->; eexists; (split; [apply le_refl|auto]).
Qed.
Lemma neat_take_comment : forall n acc, neat (take_comment n acc).
Proof. intros n. induction n as [|n IH]; intros acc; [apply lz_fuel|]. cbn [take_comment]. repeat lz_step. Qed.
(** Reading a comment, or a newline, leaves nothing. *)
Lemma clear_take_comment : forall n acc, lz Neat (take_comment n acc) (fun _ c => c = Clear).
Proof.
  intros n. induction n as [|n IH]; intros acc; [apply lz_fuel|]. cbn [take_comment].
  eapply lz_bind; [apply lz_next|]. intros t c [_ [[H ->]|(H1 & H2 & ->)]].
  - destruct H as [->| ->]; eapply lz_ret; try apply le_refl; reflexivity.
  - destruct t as [t|]; [|congruence]. destruct t; try apply IH. congruence.
Qed.
Definition nlQ (r : option newline_) (c : ahead) : Prop := match r with Some _ => c = Clear | None => c = Neat end.
Lemma newline_clear : lz Neat (newline fuel) nlQ.
Proof.
  unfold newline. lz_step. lz_step; [|eapply lz_ret; [apply le_refl|reflexivity]].
  destruct t; try (eapply lz_ret; [constructor|reflexivity]).
  - eapply lz_bind; [apply lz_next_end|]. intros x c [-> ->]. eapply lz_ret; [apply le_refl|reflexivity].
  - eapply lz_le; [|apply le_head]. eapply lz_bind; [apply clear_take_comment|]. intros x c ->. eapply lz_ret; [apply le_refl|reflexivity].
Qed.
Lemma neat_newline : neat (newline fuel).
Proof. eapply lz_mono; [apply newline_clear|]. intros [x|] c H; cbn in H; subst; exists Neat; auto with lazy. Qed.
Lemma loose_newline : lz Loose (newline fuel) QN.
Proof. apply lz_cases; [apply neat_newline|]. unfold newline. repeat lz_step. Qed.
Hint Resolve neat_newline loose_newline : lazy.
Lemma neat_linebreak_loop : forall n acc, neat (linebreak_loop fuel n acc).
Proof. intros n. induction n as [|n IH]; intros acc; [apply lz_fuel|]. cbn [linebreak_loop]. repeat lz_step. Qed.
Hint Resolve neat_linebreak_loop : lazy.
Lemma neat_linebreak : neat (linebreak fuel).
Proof. apply neat_linebreak_loop. Qed.
Lemma loose_linebreak : lz Loose (linebreak fuel) QN.
Proof.
  unfold linebreak. generalize fuel at 2 as n. intros [|n]; [apply lz_fuel|]. cbn [linebreak_loop]. repeat lz_step.
Qed.
Hint Resolve neat_linebreak loose_linebreak : lazy.

(** What a look-ahead session finds. *)
Lemma run_multipeek_look {A} (m : mp A) s b :
  exists s', run concrete (multipeek m : prog A) s b = (OOk (look m (strip s)), s', b) /\ strip s' = strip s.
Proof.
  cbn [multipeek run]. change (it_multipeek concrete) with ti_multipeek.
  pose proof (multipeek_abs m s) as R. destruct (ti_multipeek _ m s) as [r s']. destruct R as [R _].
  unfold l_multipeek in R. injection R as -> Ha. exists s'. split; [reflexivity|]. unfold strip. now rewrite Ha.
Qed.
Lemma holds_strip c s : holds c s -> exists l, ti_buf s = map TPTok l /\ fits c l /\ strip s = l ++ ti_iter s.
Proof.
  intros (l & E & F & _). exists l. split; [exact E|]. split; [exact F|].
  destruct s as [iter buf p]. cbn in E. subst buf. unfold strip, abs. cbn [ti_buf ti_iter ti_pos]. clear F. revert p.
  induction l as [|t l IH]; intros p; cbn; [apply locate_fst|]. f_equal. apply IH.
Qed.

Lemma calm_reserved_token tokens : ~ In TNewline tokens -> calm (reserved_token_try tokens).
Proof.
  intros Hn. unfold reserved_token_try. constructor.
  - intros [t|] N; [|constructor]. destruct (find _ tokens); [|constructor].
    constructor; [intros; constructor|eexists; reflexivity].
  - destruct (find _ tokens) as [u|] eqn:E; [|eexists; reflexivity].
    apply find_some in E as [Hi Hu]. destruct (token_eqb_spec u TNewline) as [->|]; [contradiction|discriminate].
Qed.
Lemma look_reserved_token_nl tokens ts : ~ In TNewline tokens -> look (reserved_token_try tokens) (TNewline :: ts) = Some None.
Proof.
  intros Hn. unfold reserved_token_try. cbn [look hd_error tl].
  destruct (find _ tokens) as [u|] eqn:E; [|reflexivity].
  apply find_some in E as [Hi Hu]. destruct (token_eqb_spec u TNewline) as [->|]; [contradiction|discriminate].
Qed.
Lemma nl_reserved_token_try tokens : ~ In TNewline tokens ->
  lz AtNL (multipeek (reserved_token_try tokens)) (fun r c => r = Some None /\ c = AtNL).
Proof.
  intros Hn s b Hs. pose proof (lz_multipeek_nl (BS := BS) (BE := BE) _ (calm_reserved_token tokens Hn) s b Hs) as G.
  destruct (run_multipeek_look (reserved_token_try tokens) s b) as (s' & E & _). rewrite E in *.
  destruct G as (c & -> & G). exists AtNL. split; [split; [|reflexivity]|exact G].
  destruct (holds_strip _ _ Hs) as (l & _ & [F1 _] & ->). destruct l as [|u l]; [discriminate|]. injection F1 as ->.
  now apply look_reserved_token_nl.
Qed.
Lemma neat_tries tokens : ~ In TNewline tokens -> forall n, neat (reserved_token_tries fuel n tokens).
Proof.
  intros Hn. induction n as [|n IH]; cbn [reserved_token_tries]; [lz_step|].
  eapply lz_bind; [apply lz_multipeek_neat, calm_reserved_token; exact Hn|]. intros a c1 ->.
  destruct a as [[t|]|]; repeat lz_step.
Qed.
Lemma nl_tries tokens : ~ In TNewline tokens -> forall n, lz AtNL (reserved_token_tries fuel n tokens) (fun r c => r = None /\ c = AtNL).
Proof.
  intros Hn. induction n as [|n IH]; cbn [reserved_token_tries]; [eapply lz_ret; [apply le_refl|auto]|].
  eapply lz_bind; [apply nl_reserved_token_try; exact Hn|]. intros a c1 [-> ->]. lz_step. exact IH.
Qed.
Lemma neat_peek_reserved_token tokens : ~ In TNewline tokens -> neat (peek_reserved_token fuel tokens).
Proof.
  intros Hn. unfold peek_reserved_token. destruct tokens; [lz_step|]. destruct (existsb _ _).
  - apply neat_tries. exact Hn.
  - lz_step. apply neat_tries. exact Hn.
Qed.
Lemma nl_peek_reserved_token tokens : ~ In TNewline tokens -> lz AtNL (peek_reserved_token fuel tokens) (fun r c => r = None /\ c = AtNL).
Proof.
  intros Hn. unfold peek_reserved_token. destruct tokens; [eapply lz_ret; [apply le_refl|auto]|]. destruct (existsb _ _).
  - apply nl_tries. exact Hn.
  - lz_step. apply nl_tries. exact Hn.
Qed.
Lemma loose_peek_reserved_token tokens : ~ In TNewline tokens -> lz Loose (peek_reserved_token fuel tokens) QM.
Proof.
  intros Hn. apply lz_cases.
  - eapply lz_mono; [apply neat_peek_reserved_token; exact Hn|]. intros a c ->. exists Neat. split; [apply le_refl|now left].
  - eapply lz_mono; [apply nl_peek_reserved_token; exact Hn|]. intros a c [-> ->]. exists Loose. split; [constructor|right; auto].
Qed.

(** Looking for a reserved word takes a second token even after a newline. *)
Lemma nl_word_try words : lz AtNL (multipeek (reserved_word_try words)) (fun r c => r = None /\ c = AtNL).
Proof.
  intros [iter buf p] b (l & E & [F1 F2] & P). cbn [ti_buf ti_iter] in *. subst buf.
  destruct l as [|u l]; [discriminate|]. injection F1 as ->. cbn [tl] in F2.
  cbn [multipeek run]. change (it_multipeek concrete) with ti_multipeek. unfold ti_multipeek, reserved_word_try.
  cbn [mp_session]. unfold peek_next. cbn [ti_buf ti_iter ti_pos]. rewrite pull_toks. cbn [app tl]. cbn [ti_buf ti_iter ti_pos]. rewrite pull_toks.
  destruct l as [|v l].
  - cbn [app]. destruct iter as [|v iter].
    + rewrite (rewind_toks [TNewline] [] []). exists AtNL. split; [auto|]. exists [TNewline]. cbn. auto.
    + rewrite (rewind_toks [TNewline; v] (tl (v :: iter)) []). exists AtNL. split; [split; [now destruct (is_word_delimiter v)|reflexivity]|].
      exists [TNewline; v]. cbn. split; [reflexivity|]. split; [auto|]. exact P.
  - cbn [app tl]. rewrite (rewind_toks [TNewline; v] iter l). exists AtNL. split; [split; [now destruct (is_word_delimiter v)|reflexivity]|].
    exists (TNewline :: v :: l). cbn in *. auto.
Qed.
Lemma neat_word_try words : lz Neat (multipeek (reserved_word_try words)) QM.
Proof.
  assert (C : forall t, t <> TNewline -> lz (Head t) (multipeek (reserved_word_try words)) QM).
  { intros t N. eapply lz_mono; [apply lz_multipeek_head; [exact N|]|].
    - cbn. constructor; [intros; constructor|eexists; reflexivity].
    - intros a c ->. exists Neat. split; [constructor|now left]. }
  assert (N1 : lz AtNL (multipeek (reserved_word_try words)) QM).
  { eapply lz_mono; [apply nl_word_try|]. intros a c [-> ->]. exists Loose. split; [constructor|right; auto]. }
  intros [iter buf p] b (l & E & F & P). cbn [ti_buf ti_iter] in *. subst buf.
  assert (D : forall t l1 iter1, nlast (t :: l1) -> (forall x, In x ((t :: l1) ++ iter1) -> plain_token x) ->
    match run concrete (multipeek (reserved_word_try words) : prog _) (mkTI iter1 (map TPTok (t :: l1)) p) b with
    | (OOk a, s', b') => exists c', QM a c' /\ holds c' s' | _ => True end).
  { intros t l1 iter1 H1 H2. destruct (is_nl t) as [->|N].
    - apply N1. exists (TNewline :: l1). cbn in *. tauto.
    - apply (C t N). exists (t :: l1). cbn in *. tauto. }
  destruct l as [|t l]; [|exact (D t l iter F P)]. destruct iter as [|t ts].
  - exists Neat. split; [now left|]. exists []. cbn. auto.
  - exact (D t [] ts (conj (fun _ => eq_refl) I) P).
Qed.
Lemma neat_peek_reserved_word words : lz Neat (peek_reserved_word fuel words) QM.
Proof. unfold peek_reserved_word. destruct words; [eapply lz_ret; [apply le_refl|now left]|]. lz_step. apply neat_word_try. Qed.
Lemma nl_peek_reserved_word words : lz AtNL (peek_reserved_word fuel words) (fun r c => r = None /\ c = AtNL).
Proof. unfold peek_reserved_word. destruct words; [eapply lz_ret; [apply le_refl|auto]|]. lz_step. apply nl_word_try. Qed.
Lemma loose_peek_reserved_word words : lz Loose (peek_reserved_word fuel words) QM.
Proof.
  apply lz_cases; [apply neat_peek_reserved_word|].
  eapply lz_mono; [apply nl_peek_reserved_word|]. intros a c [-> ->]. exists Loose. split; [constructor|right; auto].
Qed.
Hint Resolve neat_peek_reserved_token neat_peek_reserved_word loose_peek_reserved_word loose_peek_reserved_token
  nl_peek_reserved_token nl_peek_reserved_word : lazy.
Lemma neat_reserved_word words : lz Neat (reserved_word fuel words) QM.
Proof. unfold reserved_word. lz_step; [|eapply lz_ret; [apply le_refl|right; auto]]. destruct a; repeat lz_step; (eapply lz_ret; [apply le_refl|now left]). Qed.
Lemma loose_reserved_word words : lz Loose (reserved_word fuel words) QM.
Proof. unfold reserved_word. lz_step; [|eapply lz_ret; [apply le_refl|right; auto]]. destruct a; repeat lz_step; (eapply lz_ret; [apply le_refl|now left]). Qed.
Lemma neat_make_unexpected c : lz c make_unexpected_err QN.
Proof. unfold make_unexpected_err. lz_step. eapply lz_bind; [apply lz_next_neat|]. intros t c1 [_ ->]. lz_step. Qed.
Hint Resolve neat_make_unexpected neat_reserved_word loose_reserved_word : lazy.
Lemma neat_reserved_token_res tokens : ~ In TNewline tokens -> neat (reserved_token_res fuel tokens).
Proof.
  intros Hn. unfold reserved_token_res. lz_step. destruct a as [t|]; [repeat lz_step|].
  lz_step; (eapply lz_bind with (Q := QN); [destruct (existsb _ _); repeat lz_step|]); intros _ c1 ->; repeat lz_step.
Qed.
Hint Resolve neat_reserved_token_res : lazy.
Lemma neat_reserved_token tokens : ~ In TNewline tokens -> neat (reserved_token fuel tokens).
Proof. intros Hn. unfold reserved_token. repeat lz_step. Qed.
End Fuel.
End Base.
#[export] Hint Extern 1 (~ In TNewline _) => cbn; intuition discriminate : lazy.
#[export] Hint Resolve neat_eat neat_eat_maybe neat_skip_whitespace nl_skip_whitespace loose_skip_whitespace neat_newline loose_newline
  neat_linebreak loose_linebreak neat_peek_reserved_token neat_peek_reserved_word loose_peek_reserved_word loose_peek_reserved_token
  nl_peek_reserved_token nl_peek_reserved_word neat_make_unexpected neat_reserved_word loose_reserved_word
  neat_reserved_token_res neat_reserved_token : lazy.

(** ** Balanced regions *)
Section Balanced.
Context {BS BE : Type}.
Notation prog := (prog BS BE).
Notation lz := (@lz BS BE _).
Notation neat p := (lz Neat p QN).
Lemma neat_balanced_next b : neat (balanced_next b).
Proof. unfold balanced_next. repeat lz_step. Qed.
Hint Resolve neat_balanced_next : lazy.
Lemma neat_balanced_new d : neat (balanced_new d).
Proof. unfold balanced_new. repeat lz_step. Qed.
Hint Resolve neat_balanced_new : lazy.
Lemma neat_collect_balanced fuel d : neat (collect_balanced fuel d).
Proof.
  unfold collect_balanced. lz_step.
  assert (L : forall n b acc, neat (balanced_collect n b acc)); [|apply L].
  intros n. induction n as [|n IH]; intros b acc; [apply lz_fuel|]. cbn [balanced_collect]. repeat lz_step.
Qed.
Lemma neat_chunks : forall n b all p chunk, neat (chunks_loop n b all p chunk).
Proof.
  intros n. induction n as [|n IH]; intros b all p chunk; [apply lz_fuel|]. cbn [chunks_loop]. repeat lz_step.
Qed.
Hint Resolve neat_chunks : lazy.
Lemma neat_token_iter fuel pos : neat (create_token_iter fuel pos).
Proof. unfold create_token_iter. repeat lz_step. Qed.
End Balanced.
#[export] Hint Resolve neat_collect_balanced neat_token_iter : lazy.
