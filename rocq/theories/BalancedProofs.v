(** * The balanced iterators implement [BalancedSpec.v]: C32, C33 *)
From Coq Require Import String.
From Verif Require Import Base Token Pos Ast Prog Located RunLemmas Balanced BalancedSpec.

Section BalancedProofs.
Context {BS BE : Type}.
Notation prog := (prog BS BE).
Notation balanced_next := (@balanced_next BS BE).
Notation balanced_collect := (@balanced_collect BS BE).

(** A [Balanced] at rest, with the stack [st], in front of [l]. *)
Definition bal_at (st : list (token * spos)) (sk : bool) (l : located) : balanced :=
  mkBal None st sk false (l_pos l).

Definition step (b : balanced) (l : located) (r : option (token + unmatched)) (b' : balanced)
    (l' : located) : Prop :=
  forall bs, lrun (balanced_next b) l bs = (OOk (r, b'), l', bs).

Lemma token_eqb_neq a b : a <> b -> token_eqb a b = false.
Proof. intros H. destruct (token_eqb_spec a b); congruence. Qed.

Lemma closer_opens X o c : opens X o = Some c -> closer c.
Proof.
  unfold closer. destruct o; simpl; try discriminate; try (intros [= <-]; tauto).
  destruct X; try discriminate; intros [= <-]; tauto.
Qed.

Lemma step_close X p st sk q ts e :
  step (bal_at ((X, p) :: st) sk (mkL ((X, q) :: ts) e)) (mkL ((X, q) :: ts) e)
    (if sk && is_nil st then None else Some (inl X))
    (mkBal None st sk (is_nil st) (l_pos (mkL ts e))) (mkL ts e).
Proof.
  intros bs. unfold Balanced.balanced_next, bal_at. cbn [escaped bdone bstack stack_top].
  rewrite lrun_bind, lrun_peek. cbn [l_hd toks map hd_error otoken_eqb fst].
  rewrite token_eqb_refl. rewrite lrun_bind, lrun_next, lrun_bind, lrun_getpos.
  cbn [tl skip_last_delimeter]. unfold l_tl; cbn [toks end_pos tl l_hd map hd_error fst].
  destruct (sk && is_nil st); rewrite lrun_ret; reflexivity.
Qed.

Ltac bn :=
  intros bs; unfold Balanced.balanced_next, bal_at; cbn [escaped bdone bstack stack_top];
  rewrite lrun_bind, lrun_peek; cbn [l_hd toks map hd_error otoken_eqb fst].

Lemma step_quoted p st sk t q ts e :
  t <> TSingleQuote ->
  step (bal_at ((TSingleQuote, p) :: st) sk (mkL ((t, q) :: ts) e)) (mkL ((t, q) :: ts) e)
    (Some (inl t)) (bal_at ((TSingleQuote, p) :: st) sk (mkL ts e)) (mkL ts e).
Proof.
  intros Ht. bn. rewrite token_eqb_neq by congruence.
  autorewrite with lrun. cbn [l_hd toks map hd_error fst l_tl tl end_pos]. reflexivity.
Qed.

Lemma step_quoted_end p st sk e :
  step (bal_at ((TSingleQuote, p) :: st) sk (mkL [] e)) (mkL [] e)
    (Some (inr (TSingleQuote, p))) (bal_at ((TSingleQuote, p) :: st) sk (mkL [] e)) (mkL [] e).
Proof. bn. autorewrite with lrun. reflexivity. Qed.

(** [bstack] top is not a single quote and differs from the next token: the general branch. *)
Definition top_ok (st : list (token * spos)) : Prop :=
  match st with (X, _) :: _ => closer X /\ X <> TSingleQuote | [] => True end.
Definition not_top (st : list (token * spos)) (t : token) : Prop :=
  match st with (X, _) :: _ => t <> X | [] => True end.
Definition ctx (st : list (token * spos)) : token :=
  match st with (X, _) :: _ => X | [] => TNewline end.

Lemma not_top_eqb st t : not_top st t -> otoken_eqb (stack_top st) (Some t) = false.
Proof.
  destruct st as [|[X p] st]; simpl; auto. intros H. apply token_eqb_neq. congruence.
Qed.

Lemma sq_none st : top_ok st -> single_quote_top st = None.
Proof.
  destruct st as [|[X p] st]; simpl; auto. intros [_ H]. now rewrite token_eqb_neq.
Qed.

Lemma closer_not_top st t : top_ok st -> ~ closer t -> not_top st t.
Proof. destruct st as [|[X p] st]; simpl; auto. intros [H _] Hn ->. auto. Qed.

Ltac gen_branch Hok H :=
  intros bs; unfold Balanced.balanced_next, bal_at; cbn [escaped bdone bstack];
  rewrite lrun_bind, lrun_peek; cbn [l_hd toks map hd_error fst];
  rewrite (not_top_eqb _ _ H), (sq_none _ Hok), lrun_bind, lrun_getpos, lrun_bind, lrun_next;
  unfold l_tl, l_hd; cbn [toks map hd_error fst tl end_pos].

Ltac not_closer := let H := fresh in intros H; unfold closer in H; intuition discriminate.

Lemma step_escape st sk q t q' ts e :
  top_ok st ->
  step (bal_at st sk (mkL ((TBackslash, q) :: (t, q') :: ts) e))
       (mkL ((TBackslash, q) :: (t, q') :: ts) e)
       (Some (inl TBackslash))
       (mkBal (Some (t, l_pos (mkL ts e))) st sk (is_nil st) q') (mkL ts e).
Proof.
  intros Hok. assert (H : not_top st TBackslash) by (apply closer_not_top; auto; not_closer).
  gen_branch Hok H. reflexivity.
Qed.

Lemma step_escape_end st sk q e :
  top_ok st ->
  step (bal_at st sk (mkL [(TBackslash, q)] e)) (mkL [(TBackslash, q)] e)
       (Some (inl TBackslash))
       (mkBal None st sk (is_nil st) e) (mkL [] e).
Proof.
  intros Hok. assert (H : not_top st TBackslash) by (apply closer_not_top; auto; not_closer).
  gen_branch Hok H. reflexivity.
Qed.

Lemma step_escaped st sk d t q l p :
  step (mkBal (Some (t, q)) st sk d p) l (Some (inl t)) (mkBal None st sk d q) l.
Proof. intros bs. unfold Balanced.balanced_next. cbn. reflexivity. Qed.

Lemma step_dollar st sk q ts e :
  top_ok st -> hd_error (map fst ts) <> Some TCurlyOpen ->
  (st = [] -> hd_error (map fst ts) <> Some TParenOpen) ->
  step (bal_at st sk (mkL ((TDollar, q) :: ts) e)) (mkL ((TDollar, q) :: ts) e)
       (Some (inl TDollar)) (mkBal None st sk (is_nil st) (l_pos (mkL ts e))) (mkL ts e).
Proof.
  intros Hok Hd Hp. assert (H : not_top st TDollar) by (apply closer_not_top; auto; not_closer).
  gen_branch Hok H. rewrite lrun_bind, lrun_getpos, lrun_bind, lrun_peek. unfold l_hd; cbn [toks].
  destruct (otoken_eqb_spec (hd_error (map fst ts)) (Some TCurlyOpen)); [congruence|].
  destruct (otoken_eqb_spec (hd_error (map fst ts)) (Some TParenOpen)); [|reflexivity].
  destruct st; [exfalso; apply Hp; auto|reflexivity].
Qed.

Lemma step_plain st sk t q ts e :
  top_ok st -> not_top st t -> t <> TBackslash -> opens (ctx st) t = None ->
  (t = TDollar -> hd_error (map fst ts) <> Some TCurlyOpen) ->
  (t = TDollar -> st = [] -> hd_error (map fst ts) <> Some TParenOpen) ->
  step (bal_at st sk (mkL ((t, q) :: ts) e)) (mkL ((t, q) :: ts) e)
       (Some (inl t)) (mkBal None st sk (is_nil st) (l_pos (mkL ts e))) (mkL ts e).
Proof.
  intros Hok H Hbs Ho Hd Hp.
  destruct (token_eqb_spec t TDollar) as [->|Hnd]; [apply step_dollar; auto|].
  gen_branch Hok H.
  destruct t; try congruence; simpl in Ho; try discriminate; try reflexivity.
  destruct st as [|[X p] st]; simpl in Ho; [discriminate|].
  destruct X; try discriminate. reflexivity.
Qed.

Lemma step_open st sk o c q ts e :
  top_ok st -> not_top st o -> opens (ctx st) o = Some c ->
  step (bal_at st sk (mkL ((o, q) :: ts) e)) (mkL ((o, q) :: ts) e)
       (Some (inl o)) (bal_at ((c, q) :: st) sk (mkL ts e)) (mkL ts e).
Proof.
  intros Hok H Ho. gen_branch Hok H.
  destruct o; simpl in Ho; try discriminate; try (injection Ho as <-; reflexivity).
  destruct st as [|[X p] st]; simpl in Ho; [injection Ho as <-; reflexivity|].
  destruct X; try discriminate; injection Ho as <-; reflexivity.
Qed.

Lemma step_dollar_brace st sk q q1 ts e :
  top_ok st ->
  step (bal_at st sk (mkL ((TDollar, q) :: (TCurlyOpen, q1) :: ts) e))
       (mkL ((TDollar, q) :: (TCurlyOpen, q1) :: ts) e)
       (Some (inl TDollar)) (bal_at ((TCurlyClose, q1) :: st) sk (mkL ((TCurlyOpen, q1) :: ts) e))
       (mkL ((TCurlyOpen, q1) :: ts) e).
Proof.
  intros Hok. assert (H : not_top st TDollar) by (apply closer_not_top; auto; not_closer).
  gen_branch Hok H. reflexivity.
Qed.

Lemma step_dollar_paren sk q q1 ts e :
  step (bal_at [] sk (mkL ((TDollar, q) :: (TParenOpen, q1) :: ts) e))
       (mkL ((TDollar, q) :: (TParenOpen, q1) :: ts) e)
       (Some (inl TDollar)) (bal_at [] sk (mkL ((TParenOpen, q1) :: ts) e))
       (mkL ((TParenOpen, q1) :: ts) e).
Proof. intros bs. reflexivity. Qed.

Lemma step_end X p st sk e :
  closer X ->
  exists b', step (bal_at ((X, p) :: st) sk (mkL [] e)) (mkL [] e)
    (Some (inr (opener_of X, p))) b' (mkL [] e).
Proof.
  intros [->|[->|[->|[->| ->]]]]; eexists; bn; autorewrite with lrun; reflexivity.
Qed.

Lemma step_end_nil sk e :
  step (bal_at [] sk (mkL [] e)) (mkL [] e) None (mkBal None [] sk true e) (mkL [] e).
Proof. intros bs. unfold Balanced.balanced_next, bal_at. cbn. destruct sk; reflexivity. Qed.

Lemma step_done st sk p l : step (mkBal None st sk true p) l None (mkBal None st sk true p) l.
Proof. intros bs. unfold Balanced.balanced_next. cbn. reflexivity. Qed.

(** ** Several steps *)

(** [gives b l xs b' l']: iterating from [(b, l)] yields the tokens of [xs] (each paired with the
    iterator's own position just before it) and ends in [(b', l')]. *)
Inductive gives : balanced -> located -> list (token * spos) -> balanced -> located -> Prop :=
  | g_nil b l : gives b l [] b l
  | g_cons b l t b1 l1 xs b2 l2 :
      step b l (Some (inl t)) b1 l1 -> gives b1 l1 xs b2 l2 ->
      gives b l ((t, bpos b) :: xs) b2 l2.

Lemma gives_app b l xs b1 l1 ys b2 l2 :
  gives b l xs b1 l1 -> gives b1 l1 ys b2 l2 -> gives b l (xs ++ ys) b2 l2.
Proof. induction 1; simpl; auto. intros H'. econstructor; eauto. Qed.

Lemma gives_one b l t b1 l1 xs b2 l2 q :
  step b l (Some (inl t)) b1 l1 -> gives b1 l1 xs b2 l2 -> q = bpos b ->
  gives b l ((t, q) :: xs) b2 l2.
Proof. intros H1 H2 ->. econstructor; eauto. Qed.

Lemma map_fst_app {A B} (l : list (A * B)) a b :
  map fst l = a ++ b -> exists l1 l2, l = l1 ++ l2 /\ map fst l1 = a /\ map fst l2 = b.
Proof.
  revert l; induction a as [|x a IH]; intros l H; simpl in H.
  - exists [], l. auto.
  - destruct l as [|y l]; [discriminate|]. injection H as H1 H2.
    destruct (IH _ H2) as (l1 & l2 & -> & E1 & E2). exists (y :: l1), l2. simpl. subst; auto.
Qed.

Lemma map_fst_cons {A B} (l : list (A * B)) a b :
  map fst l = a :: b -> exists q l2, l = (a, q) :: l2 /\ map fst l2 = b.
Proof. destruct l as [|[x q] l]; [discriminate|]. intros [= <- <-]. eauto. Qed.

Lemma closer_top X p st : closer X -> X <> TSingleQuote -> top_ok ((X, p) :: st).
Proof. simpl; auto. Qed.

(** The content of a region is yielded, leaving the closer. *)
Lemma content_gives X body : content X body -> closer X ->
  forall p st sk body' q rest e, map fst body' = body ->
  gives (bal_at ((X, p) :: st) sk (mkL (body' ++ (X, q) :: rest) e)) (mkL (body' ++ (X, q) :: rest) e)
        body'
        (bal_at ((X, p) :: st) sk (mkL ((X, q) :: rest) e)) (mkL ((X, q) :: rest) e).
Proof.
  induction 1 as [X|t ts Ht Hc IH|X t ts HX Hc IH|X t ts HX Ht Hbs Ho Hd Hc IH
                 |X o c inner ts HX Hox Ho Hi IHi Hc IH|X inner ts HX Hi IHi Hc IH];
    intros Hcl p st sk body' q rest e Hb.
  - destruct body'; [|discriminate]. simpl. constructor.
  - apply map_fst_cons in Hb. destruct Hb as (q1 & l2 & -> & Hb). simpl.
    eapply gives_one; [apply step_quoted; auto| |reflexivity]. apply IH; auto.
  - apply map_fst_cons in Hb. destruct Hb as (q1 & l2 & -> & Hb).
    apply map_fst_cons in Hb. destruct Hb as (q2 & l3 & -> & Hb). simpl.
    eapply gives_one; [apply step_escape; apply closer_top; auto| |reflexivity].
    eapply gives_one; [apply step_escaped| |reflexivity].
    apply (IH Hcl p st sk l3 q rest e Hb).
  - apply map_fst_cons in Hb. destruct Hb as (q1 & l2 & -> & Hb). simpl.
    eapply gives_one; [apply step_plain; simpl; auto| |reflexivity].
    + intros ->. specialize (Hd eq_refl). rewrite map_app. simpl.
      destruct l2 as [|[t2 q2] l2]; simpl in *; subst; auto.
      destruct Hcl as [->|[->|[->|[->| ->]]]]; discriminate.
    + discriminate.
    + simpl. apply (IH Hcl p st sk l2 q rest e Hb).
  - apply map_fst_cons in Hb. destruct Hb as (q1 & l2 & -> & Hb).
    apply map_fst_app in Hb. destruct Hb as (li & l3 & -> & Hb1 & Hb2).
    apply map_fst_cons in Hb2. destruct Hb2 as (q2 & l4 & -> & Hb2).
    simpl. rewrite <- app_assoc. simpl.
    eapply gives_one; [apply step_open; simpl; eauto| |reflexivity].
    eapply gives_app; [apply IHi; eauto using closer_opens|].
    pose proof (step_close c q1 ((X, p) :: st) sk q2 (l4 ++ (X, q) :: rest) e) as S.
    simpl in S. rewrite andb_false_r in S.
    eapply gives_one; [exact S| |reflexivity].
    apply (IH Hcl p st sk l4 q rest e Hb2).
  - apply map_fst_cons in Hb. destruct Hb as (q1 & l2 & -> & Hb).
    apply map_fst_cons in Hb. destruct Hb as (q2 & l3 & -> & Hb).
    apply map_fst_app in Hb. destruct Hb as (li & l4 & -> & Hb1 & Hb2).
    apply map_fst_cons in Hb2. destruct Hb2 as (q3 & l5 & -> & Hb2).
    simpl. rewrite <- app_assoc. simpl.
    eapply gives_one; [apply step_dollar_brace; apply closer_top; auto| |reflexivity].
    eapply gives_one; [apply step_plain; simpl; try discriminate; auto| |reflexivity].
    { split; [unfold closer; tauto|discriminate]. }
    eapply gives_app; [apply (IHi ltac:(unfold closer; tauto) q2 ((X, p) :: st) sk li q3 (l5 ++ (X, q) :: rest) e Hb1)|].
    pose proof (step_close TCurlyClose q2 ((X, p) :: st) sk q3 (l5 ++ (X, q) :: rest) e) as S.
    simpl in S. rewrite andb_false_r in S.
    eapply gives_one; [exact S| |reflexivity].
    apply (IH Hcl p st sk l5 q rest e Hb2).
Qed.

(** An unclosed region is yielded to the end of the input, then the error. *)
Lemma unclosed_gives Xp ts er : unclosed Xp ts er -> closer (fst Xp) ->
  forall st sk e, exists b' b'',
  gives (bal_at (Xp :: st) sk (mkL ts e)) (mkL ts e) ts b' (mkL [] e) /\
  step b' (mkL [] e) (Some (inr (opener_of (fst er), snd er))) b'' (mkL [] e).
Proof.
  induction 1 as [X p|X p q HX|p t q ts er Ht Hu IH|X p q t q' ts er HX Hu IH
                 |X p t q ts er HX Ht Hbs Ho Hd Hu IH
                 |X p o q c inner q' ts er HX Hox Ho Hi Hu IH
                 |X p o q c inner er HX Hox Ho Hu IH
                 |X p q q1 inner q2 ts er HX Hi Hu IH
                 |X p q q1 inner er HX Hu IH]; intros Hcl st sk e; simpl in Hcl.
  - destruct (step_end X p st sk e Hcl) as [b' Hs]. eexists _, _. split; [constructor|exact Hs].
  - destruct (step_end X p st sk e Hcl) as [b' Hs]. eexists _, _. split; [|exact Hs].
    eapply gives_one; [apply step_escape_end; apply closer_top; auto|constructor|reflexivity].
  - destruct (IH Hcl st sk e) as (b' & b'' & H1 & H2). exists b', b''. split; auto.
    eapply gives_one; [apply step_quoted; auto|exact H1|reflexivity].
  - destruct (IH Hcl st sk e) as (b' & b'' & H1 & H2). exists b', b''. split; auto.
    eapply gives_one; [apply step_escape; apply closer_top; auto| |reflexivity].
    eapply gives_one; [apply step_escaped|exact H1|reflexivity].
  - destruct (IH Hcl st sk e) as (b' & b'' & H1 & H2). exists b', b''. split; auto.
    eapply gives_one; [apply step_plain; simpl; auto; discriminate|exact H1|reflexivity].
  - destruct (IH Hcl st sk e) as (b' & b'' & H1 & H2). exists b', b''. split; auto.
    eapply gives_one; [apply step_open; simpl; eauto| |reflexivity].
    eapply gives_app; [eapply content_gives; eauto using closer_opens|].
    pose proof (step_close c q ((X, p) :: st) sk q' ts e) as S.
    simpl in S. rewrite andb_false_r in S. eapply gives_one; [exact S|exact H1|reflexivity].
  - destruct (IH (closer_opens _ _ _ Ho) ((X, p) :: st) sk e) as (b' & b'' & H1 & H2).
    exists b', b''. split; auto.
    eapply gives_one; [apply step_open; simpl; eauto|exact H1|reflexivity].
  - destruct (IH Hcl st sk e) as (b' & b'' & H1 & H2). exists b', b''. split; auto.
    eapply gives_one; [apply step_dollar_brace; apply closer_top; auto| |reflexivity].
    eapply gives_one; [apply step_plain; simpl; try discriminate; auto| |reflexivity].
    { split; [unfold closer; tauto|discriminate]. }
    eapply gives_app; [eapply content_gives; eauto; unfold closer; tauto|].
    pose proof (step_close TCurlyClose q1 ((X, p) :: st) sk q2 ts e) as S.
    simpl in S. rewrite andb_false_r in S. eapply gives_one; [exact S|exact H1|reflexivity].
  - destruct (IH ltac:(unfold closer; simpl; tauto) ((X, p) :: st) sk e) as (b' & b'' & H1 & H2).
    exists b', b''. split; auto.
    eapply gives_one; [apply step_dollar_brace; apply closer_top; auto| |reflexivity].
    eapply gives_one; [apply step_plain; simpl; try discriminate; auto|exact H1|reflexivity].
    split; [unfold closer; tauto|discriminate].
Qed.

(** Every input is one or the other. *)
Lemma closed_or_unclosed n ts X p : (length ts <= n)%nat -> closer X ->
  (exists body q rest, ts = body ++ (X, q) :: rest /\ content X (map fst body)) \/
  (exists er, unclosed (X, p) ts er).
Proof.
  revert ts X p; induction n as [|n IH]; intros ts X p Hn Hcl.
  { destruct ts; [|simpl in Hn; lia]. right. eexists. constructor. }
  destruct ts as [|[t q] ts]; [right; eexists; constructor|]. simpl in Hn.
  destruct (token_eqb_spec t X) as [->|Ht].
  { left. exists [], q, ts. split; [reflexivity|constructor]. }
  destruct (token_eqb_spec X TSingleQuote) as [->|HX].
  { destruct (IH ts TSingleQuote p) as [(body & q' & rest & -> & Hc)|[er Hu]]; auto; [lia| |].
    - left. exists ((t, q) :: body), q', rest. split; [reflexivity|]. simpl. constructor; auto.
    - right. exists er. constructor; auto. }
  destruct (token_eqb_spec t TBackslash) as [->|Hbs].
  { destruct ts as [|[t2 q2] ts]; [right; eexists; constructor; auto|]. simpl in Hn.
    destruct (IH ts X p) as [(body & q' & rest & -> & Hc)|[er Hu]]; auto; [lia| |].
    - left. exists ((TBackslash, q) :: (t2, q2) :: body), q', rest. split; [reflexivity|].
      simpl. constructor; auto.
    - right. exists er. constructor; auto. }
  destruct (opens X t) as [c|] eqn:Ho.
  { destruct (IH ts c q) as [(inner & q' & rest & -> & Hc)|[er Hu]]; eauto using closer_opens; [lia| |].
    - destruct (IH rest X p) as [(body & q2 & rest2 & -> & Hc2)|[er Hu]]; auto.
      + rewrite app_length in Hn. simpl in Hn. lia.
      + left. exists ((t, q) :: inner ++ (c, q') :: body), q2, rest2.
        split; [simpl; now rewrite <- app_assoc|]. simpl. rewrite map_app. simpl.
        apply c_nested; auto.
      + right. exists er. apply u_nested_closed; auto.
    - right. exists er. eapply u_nested_open; eauto. }
  destruct (token_eqb_spec t TDollar) as [->|Hnd].
  - destruct ts as [|[t2 q2] ts].
    { right. exists (X, p). apply u_plain; auto; [discriminate|constructor]. }
    destruct (token_eqb_spec t2 TCurlyOpen) as [->|Hnc].
    + simpl in Hn. destruct (IH ts TCurlyClose q2) as [(inner & q' & rest & -> & Hc)|[er Hu]];
        [lia|unfold closer; tauto| |].
      * destruct (IH rest X p) as [(body & q3 & rest2 & -> & Hc2)|[er Hu]]; auto.
        -- rewrite app_length in Hn. simpl in Hn. lia.
        -- left. exists ((TDollar, q) :: (TCurlyOpen, q2) :: inner ++ (TCurlyClose, q') :: body), q3, rest2.
           split; [simpl; now rewrite <- app_assoc|]. simpl. rewrite map_app. simpl.
           apply c_braces; auto.
        -- right. exists er. apply u_braces_closed; auto.
      * right. exists er. apply u_braces_open; auto.
    + destruct (IH ((t2, q2) :: ts) X p) as [(body & q' & rest & E & Hc)|[er Hu]]; auto; [lia| |].
      * left. exists ((TDollar, q) :: body), q', rest. split; [simpl; now rewrite E|].
        simpl. apply c_plain; auto. intros _. destruct body as [|[t3 q3] body]; simpl in *; [discriminate|].
        injection E as -> ->. congruence.
      * right. exists er. apply u_plain; auto. intros _. simpl. congruence.
  - destruct (IH ts X p) as [(body & q' & rest & -> & Hc)|[er Hu]]; auto; [lia| |].
    + left. exists ((t, q) :: body), q', rest. split; [reflexivity|]. simpl. apply c_plain; auto; congruence.
    + right. exists er. apply u_plain; auto; congruence.
Qed.

(** ** [for t in balanced] *)

Lemma collect_gives b l xs b' l' : gives b l xs b' l' ->
  forall fuel acc bs, lrun (balanced_collect (length xs + fuel) b acc) l bs =
                      lrun (balanced_collect fuel b' (acc ++ map fst xs)) l' bs.
Proof.
  induction 1 as [b l|b l t b1 l1 xs b2 l2 Hs Hg IH]; intros fuel acc bs; cbn [length plus map fst].
  - now rewrite app_nil_r.
  - cbn [Balanced.balanced_collect]. rewrite lrun_bind, (Hs bs). rewrite IH. now rewrite <- app_assoc.
Qed.

Lemma collect_none fuel b l b' l' acc bs : step b l None b' l' ->
  lrun (balanced_collect (S fuel) b acc) l bs = (OOk acc, l', bs).
Proof. intros Hs. cbn [Balanced.balanced_collect]. rewrite lrun_bind, (Hs bs). reflexivity. Qed.

Lemma collect_err fuel b l b' l' acc bs t p : step b l (Some (inr (t, p))) b' l' ->
  lrun (balanced_collect (S fuel) b acc) l bs = (OErr (Unmatched t p), l', bs).
Proof. intros Hs. cbn [Balanced.balanced_collect]. rewrite lrun_bind, (Hs bs). reflexivity. Qed.

Lemma collect_S f b acc :
  balanced_collect (S f) b acc =
  bind (balanced_next b) (fun x => let (r, b') := x in
      match r with
      | None => ret acc
      | Some (inl t) => balanced_collect f b' (acc ++ [t])
      | Some (inr (t, p)) => throw (Unmatched t p)
      end).
Proof. reflexivity. Qed.

Lemma collect_fuel_mono f b acc l bs r :
  lrun (balanced_collect f b acc) l bs = r -> (fst (fst r) <> OFuel) ->
  lrun (balanced_collect (S f) b acc) l bs = r.
Proof.
  revert b acc l bs; induction f as [|f IH]; intros b acc l bs H Hr.
  - subst r. simpl in Hr. congruence.
  - rewrite collect_S, lrun_bind in H |- *.
    destruct (lrun (balanced_next b) l bs) as [[[[x b1]|?|?|] l1] bs1]; auto.
    destruct x as [[t|[t p]]|]; auto.
Qed.

Lemma collect_fuel_le f g b acc l bs r :
  lrun (balanced_collect f b acc) l bs = r -> (fst (fst r) <> OFuel) -> (f <= g)%nat ->
  lrun (balanced_collect g b acc) l bs = r.
Proof.
  intros H Hr Hle. induction Hle; auto. apply collect_fuel_mono; auto.
Qed.

Lemma lrun_collect_balanced fuel d l bs :
  lrun (@collect_balanced BS BE fuel d) l bs =
  lrun (balanced_collect fuel (mkBal None (match d with Some d => [d] | None => [] end)
         (match d with Some _ => true | None => false end) false (l_pos l)) []) l bs.
Proof.
  unfold collect_balanced, balanced_new. rewrite !lrun_bind, lrun_getpos, lrun_ret. reflexivity.
Qed.

(** C32 with a delimiter: a closed region is yielded without its closer, which is consumed. *)
Theorem balanced_region X p body q rest e fuel bs :
  closer X -> content X (map fst body) -> (length body < fuel)%nat ->
  lrun (@collect_balanced BS BE fuel (Some (X, p))) (mkL (body ++ (X, q) :: rest) e) bs =
  (OOk (map fst body), mkL rest e, bs).
Proof.
  intros Hcl Hc Hf. rewrite lrun_collect_balanced.
  pose proof (content_gives _ _ Hc Hcl p [] true body q rest e eq_refl) as G.
  eapply collect_fuel_le with (f := (length body + 1)%nat); [|discriminate|lia].
  unfold bal_at in G. rewrite (collect_gives _ _ _ _ _ G).
  eapply collect_none. apply (step_close X p [] true q rest e).
Qed.

(** ... and an unclosed one is an error naming the innermost opener and its position. *)
Theorem balanced_unclosed X p ts e er fuel bs :
  closer X -> unclosed (X, p) ts er -> (length ts < fuel)%nat ->
  lrun (@collect_balanced BS BE fuel (Some (X, p))) (mkL ts e) bs =
  (OErr (Unmatched (opener_of (fst er)) (snd er)), mkL [] e, bs).
Proof.
  intros Hcl Hu Hf. rewrite lrun_collect_balanced.
  destruct (unclosed_gives _ _ _ Hu Hcl [] true e) as (b' & b'' & G & S).
  eapply collect_fuel_le with (f := (length ts + 1)%nat); [|discriminate|lia].
  unfold bal_at in G. rewrite (collect_gives _ _ _ _ _ G). eapply collect_err. exact S.
Qed.

(** The two cases are exhaustive... *)
Theorem balanced_cases X p ts : closer X ->
  (exists body q rest, ts = body ++ (X, q) :: rest /\ content X (map fst body)) \/
  (exists er, unclosed (X, p) ts er).
Proof. apply (closed_or_unclosed (length ts)); auto. Qed.


(** C32 without a delimiter: the smallest balanced piece is yielded, nothing else is consumed. *)
Theorem balanced_piece ts rest e fuel bs :
  piece (map fst ts) (map fst rest) -> (length ts < fuel)%nat ->
  lrun (@collect_balanced BS BE fuel None) (mkL (ts ++ rest) e) bs =
  (OOk (map fst ts), mkL rest e, bs).
Proof.
  intros Hp Hf. rewrite lrun_collect_balanced.
  cut (exists p, gives (bal_at [] false (mkL (ts ++ rest) e)) (mkL (ts ++ rest) e) ts
                (mkBal None [] false true p) (mkL rest e)).
  { intros [p G]. eapply collect_fuel_le with (f := (length ts + 1)%nat); [|discriminate|lia].
    unfold bal_at in G. rewrite (collect_gives _ _ _ _ _ G). eapply collect_none. apply step_done. }
  assert (R : forall o c inner q q' rest', opens TNewline o = Some c -> content c (map fst inner) ->
     exists p, gives (bal_at [] false (mkL ((o, q) :: inner ++ (c, q') :: rest') e))
       (mkL ((o, q) :: inner ++ (c, q') :: rest') e) ((o, q) :: inner ++ [(c, q')])
       (mkBal None [] false true p) (mkL rest' e)).
  { intros o c inner q q' rest' Ho Hc. eexists.
    eapply gives_one; [apply (step_open [] false o c); simpl; auto| |reflexivity].
    eapply gives_app; [eapply content_gives; eauto using closer_opens|].
    eapply gives_one; [apply (step_close c q [] false q' rest' e)|constructor|reflexivity]. }
  inversion Hp as [t r H1 H2 H3 Ht Hr|t r Ht|Ht Hr|o c inner r Ho Hc Ht Hr|inner r Hc Ht Hr
                  |r H1 H2 Ht Hr|inner r Hc Ht Hr]; symmetry in Ht.
  - apply map_fst_cons in Ht. destruct Ht as (q & l2 & -> & Ht).
    destruct l2; [|discriminate]. eexists. simpl.
    eapply gives_one; [apply (step_plain [] false); simpl; auto; congruence|constructor|reflexivity].
  - apply map_fst_cons in Ht. destruct Ht as (q & l2 & -> & Ht).
    apply map_fst_cons in Ht. destruct Ht as (q2 & l3 & -> & Ht).
    destruct l3; [|discriminate]. eexists. simpl.
    eapply gives_one; [apply (step_escape [] false); exact I| |reflexivity].
    eapply gives_one; [apply step_escaped|constructor|reflexivity].
  - apply map_fst_cons in Ht. destruct Ht as (q & l2 & -> & Ht).
    destruct l2; [|discriminate]. destruct rest; [|discriminate]. eexists. simpl.
    eapply gives_one; [apply (step_escape_end [] false); exact I|constructor|reflexivity].
  - apply map_fst_cons in Ht. destruct Ht as (q & l2 & -> & Ht).
    apply map_fst_app in Ht. destruct Ht as (li & l3 & -> & Hi & Ht).
    apply map_fst_cons in Ht. destruct Ht as (q2 & l4 & -> & Ht).
    destruct l4; [|discriminate]. subst inner.
    destruct (R o c li q q2 rest Ho Hc) as [p G]. exists p. simpl. rewrite <- app_assoc. exact G.
  - apply map_fst_cons in Ht. destruct Ht as (q & l2 & -> & Ht).
    apply map_fst_cons in Ht. destruct Ht as (q1 & l2' & -> & Ht).
    apply map_fst_app in Ht. destruct Ht as (li & l3 & -> & Hi & Ht).
    apply map_fst_cons in Ht. destruct Ht as (q2 & l4 & -> & Ht).
    destruct l4; [|discriminate]. eexists. simpl. rewrite <- app_assoc. simpl.
    eapply gives_one; [apply (step_dollar_brace [] false); exact I| |reflexivity].
    eapply gives_one; [apply step_plain; simpl; try discriminate; auto| |reflexivity].
    { split; [unfold closer; tauto|discriminate]. }
    eapply gives_app; [eapply (content_gives TCurlyClose inner); eauto; unfold closer; tauto|].
    eapply gives_one; [apply (step_close TCurlyClose q1 [] false q2 rest e)|constructor|reflexivity].
  - apply map_fst_cons in Ht. destruct Ht as (q & l2 & -> & Ht).
    destruct l2; [|discriminate]. eexists. simpl.
    eapply gives_one; [apply (step_plain [] false); simpl; auto; discriminate|constructor|reflexivity].
  - apply map_fst_cons in Ht. destruct Ht as (q & l2 & -> & Ht).
    apply map_fst_cons in Ht. destruct Ht as (q1 & l2' & -> & Ht).
    apply map_fst_app in Ht. destruct Ht as (li & l3 & -> & Hi & Ht).
    apply map_fst_cons in Ht. destruct Ht as (q2 & l4 & -> & Ht).
    destruct l4; [|discriminate]. subst inner.
    destruct (R TParenOpen TParenClose li q1 q2 rest eq_refl Hc) as [p G].
    exists p. simpl. rewrite <- app_assoc. simpl.
    eapply gives_one; [apply step_dollar_paren|exact G|reflexivity].
Qed.

(** An input which does not start with a balanced piece: nothing at all, or an unclosed region. *)
Theorem balanced_piece_none e fuel bs : (0 < fuel)%nat ->
  lrun (@collect_balanced BS BE fuel None) (mkL [] e) bs = (OOk [], mkL [] e, bs).
Proof.
  intros Hf. destruct fuel; [lia|]. rewrite lrun_collect_balanced.
  eapply collect_none. apply step_end_nil.
Qed.

Theorem balanced_piece_unclosed ts e fuel bs o c q inner er pre :
  (pre = [] /\ opens TNewline o = Some c \/
   (exists q0, pre = [(TDollar, q0)]) /\ (o = TParenOpen /\ c = TParenClose \/ o = TCurlyOpen /\ c = TCurlyClose)) ->
  ts = pre ++ (o, q) :: inner -> unclosed (c, q) inner er -> (length ts < fuel)%nat ->
  lrun (@collect_balanced BS BE fuel None) (mkL ts e) bs =
  (OErr (Unmatched (opener_of (fst er)) (snd er)), mkL [] e, bs).
Proof.
  intros Hpre -> Hu Hf. rewrite lrun_collect_balanced.
  assert (Hcl : closer c).
  { destruct Hpre as [[_ H]|[_ [[_ ->]|[_ ->]]]]; [eapply closer_opens; eauto|unfold closer; tauto|unfold closer; tauto]. }
  destruct (unclosed_gives _ _ _ Hu Hcl [] false e) as (b' & b'' & G & S).
  eapply collect_fuel_le with (f := (length (pre ++ (o, q) :: inner) + 1)%nat); [|discriminate|lia].
  cut (gives (bal_at [] false (mkL (pre ++ (o, q) :: inner) e)) (mkL (pre ++ (o, q) :: inner) e)
         (pre ++ (o, q) :: inner) b' (mkL [] e)).
  { intros G'. unfold bal_at in G'. rewrite (collect_gives _ _ _ _ _ G'). eapply collect_err. exact S. }
  destruct Hpre as [[-> Ho]|[[q0 ->] [[-> ->]|[-> ->]]]]; simpl.
  - eapply gives_one; [apply (step_open [] false o c); simpl; auto|exact G|reflexivity].
  - eapply gives_one; [apply step_dollar_paren| |reflexivity].
    eapply gives_one; [apply (step_open [] false TParenOpen TParenClose); simpl; auto|exact G|reflexivity].
  - eapply gives_one; [apply (step_dollar_brace [] false); exact I| |reflexivity].
    eapply gives_one; [apply step_plain; simpl; try discriminate; auto|exact G|reflexivity].
    split; [unfold closer; tauto|discriminate].
Qed.

(** ** C33: removing backslashes inside backticks *)

Definition removable (t : token) : bool :=
  match t with TBackslash | TDollar | TBacktick => true | _ => false end.

Lemma unescape_eq t u r :
  unescape (t :: u :: r) =
  if token_eqb t TBackslash
  then (if removable u then u :: unescape r else TBackslash :: u :: unescape r)
  else t :: unescape (u :: r).
Proof. destruct t; try reflexivity. destruct u; reflexivity. Qed.
Lemma unescape_located_eq t p u q r :
  unescape_located ((t, p) :: (u, q) :: r) =
  if token_eqb t TBackslash
  then (if removable u then (u, q) :: unescape_located r
        else (TBackslash, p) :: (u, q) :: unescape_located r)
  else (t, p) :: unescape_located ((u, q) :: r).
Proof. destruct t; try reflexivity. destruct u; reflexivity. Qed.


(** Positions are contiguous from [p]. *)
Definition contiguous (p : spos) (xs : list (token * spos)) : Prop := xs = locate (map fst xs) p.

Lemma contiguous_cons p t q xs :
  contiguous p ((t, q) :: xs) -> p = q /\ contiguous (advance q t) xs.
Proof. unfold contiguous; simpl. intros [= E1 E2]. subst. auto. Qed.

Lemma gives_inv b l x xs b2 l2 : gives b l (x :: xs) b2 l2 ->
  exists b1 l1, step b l (Some (inl (fst x))) b1 l1 /\ gives b1 l1 xs b2 l2 /\ snd x = bpos b.
Proof. intros H; inversion H; subst. eexists _, _. simpl. eauto. Qed.

Lemma locate_app a b p : locate (a ++ b) p = locate a p ++ locate b (advance_all p a).
Proof. revert p; induction a; intros p; simpl; auto. now rewrite IHa. Qed.
Lemma advance_all_app a b p : advance_all p (a ++ b) = advance_all (advance_all p a) b.
Proof. unfold advance_all. apply fold_left_app. Qed.

Notation chunks_den := (flat_map (fun c : list token * spos => locate (fst c) (snd c))).

Lemma chunks_end all chunk cs :
  chunks_den (match chunk with [] => all | _ => all ++ [(chunk, cs)] end) =
  chunks_den all ++ locate chunk cs.
Proof.
  destruct chunk; [now rewrite app_nil_r|].
  rewrite flat_map_app. simpl. now rewrite app_nil_r.
Qed.

Lemma chunks_push all chunk cs : chunks_den (all ++ [(chunk, cs)]) = chunks_den all ++ locate chunk cs.
Proof. rewrite flat_map_app. simpl. now rewrite app_nil_r. Qed.

(** One iteration of the loop, by cases on what the balanced iterator yields. *)
Lemma chunks_none f b l b1 l1 all cs chunk bs :
  step b l None b1 l1 ->
  lrun (@chunks_loop BS BE (S f) b all cs chunk) l bs =
  (OOk (match chunk with [] => all | _ => all ++ [(chunk, cs)] end, bpos b1), l1, bs).
Proof. intros H. cbn [chunks_loop]. rewrite lrun_bind, (H bs). reflexivity. Qed.
Lemma chunks_err f b l b1 l1 all cs chunk bs t p :
  step b l (Some (inr (t, p))) b1 l1 ->
  lrun (@chunks_loop BS BE (S f) b all cs chunk) l bs = (OErr (Unmatched t p), l1, bs).
Proof. intros H. cbn [chunks_loop]. rewrite lrun_bind, (H bs). reflexivity. Qed.
Lemma chunks_tok f b l b1 l1 all cs chunk bs t :
  step b l (Some (inl t)) b1 l1 -> t <> TBackslash ->
  lrun (@chunks_loop BS BE (S f) b all cs chunk) l bs =
  lrun (chunks_loop f b1 all cs (chunk ++ [t])) l1 bs.
Proof.
  intros H Ht. cbn [chunks_loop]. rewrite lrun_bind, (H bs).
  destruct t; try reflexivity; congruence.
Qed.
Lemma chunks_bs_none f b l b1 l1 b2 l2 all cs chunk bs :
  step b l (Some (inl TBackslash)) b1 l1 -> step b1 l1 None b2 l2 ->
  lrun (@chunks_loop BS BE (S f) b all cs chunk) l bs =
  lrun (chunks_loop f b2 all cs (chunk ++ [TBackslash])) l2 bs.
Proof.
  intros H H2. cbn [chunks_loop]. rewrite lrun_bind, (H bs), lrun_bind, (H2 bs). reflexivity.
Qed.
Lemma chunks_bs_err f b l b1 l1 b2 l2 all cs chunk bs t p :
  step b l (Some (inl TBackslash)) b1 l1 -> step b1 l1 (Some (inr (t, p))) b2 l2 ->
  lrun (@chunks_loop BS BE (S f) b all cs chunk) l bs = (OErr (Unmatched t p), l2, bs).
Proof.
  intros H H2. cbn [chunks_loop]. rewrite lrun_bind, (H bs), lrun_bind, (H2 bs). reflexivity.
Qed.
Lemma chunks_bs_tok f b l b1 l1 b2 l2 all cs chunk bs t :
  step b l (Some (inl TBackslash)) b1 l1 -> step b1 l1 (Some (inl t)) b2 l2 ->
  lrun (@chunks_loop BS BE (S f) b all cs chunk) l bs =
  if removable t then lrun (chunks_loop f b2 (all ++ [(chunk, cs)]) (bpos b1) [t]) l2 bs
  else lrun (chunks_loop f b2 all cs (chunk ++ [TBackslash; t])) l2 bs.
Proof.
  intros H H2. cbn [chunks_loop]. rewrite lrun_bind, (H bs), lrun_bind, (H2 bs).
  destruct t; reflexivity.
Qed.

Lemma chunks_ok n : forall xs b l b' l' bf lf fuel all cs chunk bs, (length xs <= n)%nat ->
  gives b l xs b' l' -> step b' l' None bf lf -> step bf lf None bf lf ->
  contiguous (advance_all cs chunk) xs -> (S (length xs) < fuel)%nat ->
  exists chunks, lrun (@chunks_loop BS BE fuel b all cs chunk) l bs = (OOk (chunks, bpos bf), lf, bs) /\
    chunks_den chunks = chunks_den all ++ locate chunk cs ++ unescape_located xs.
Proof.
  induction n as [|n IH]; intros xs b l b' l' bf lf fuel all cs chunk bs Hn G Hs Hs2 Hc Hf;
    (destruct fuel as [|fuel]; [lia|]).
  - destruct xs; [|simpl in Hn; lia]. inversion G; subst.
    rewrite (chunks_none _ _ _ _ _ _ _ _ _ Hs). eexists. split; [reflexivity|].
    rewrite chunks_end. simpl. now rewrite app_nil_r.
  - destruct xs as [|[t q] xs].
    { inversion G; subst.
      rewrite (chunks_none _ _ _ _ _ _ _ _ _ Hs). eexists. split; [reflexivity|].
      rewrite chunks_end. simpl. now rewrite app_nil_r. }
    apply gives_inv in G. destruct G as (b1 & l1 & S1 & G & Hq). simpl in S1, Hq, Hn, Hf.
    apply contiguous_cons in Hc. destruct Hc as [Hp Hc].
    destruct (token_eqb_spec t TBackslash) as [->|Ht].
    + destruct xs as [|[u q2] xs].
      * inversion G; subst. rewrite (chunks_bs_none _ _ _ _ _ _ _ _ _ _ _ S1 Hs).
        destruct fuel as [|fuel]; [lia|]. rewrite (chunks_none _ _ _ _ _ _ _ _ _ Hs2).
        eexists. split; [reflexivity|]. rewrite chunks_end. rewrite locate_app. simpl.
        now rewrite Hp.
      * apply gives_inv in G. destruct G as (b2 & l2 & S2 & G & Hq2). simpl in S2, Hq2, Hn, Hf.
        apply contiguous_cons in Hc. destruct Hc as [Hp2 Hc].
        rewrite (chunks_bs_tok _ _ _ _ _ _ _ _ _ _ _ _ S1 S2). rewrite unescape_located_eq.
        cbn [token_eqb token_dec]. rewrite token_eqb_refl.
        destruct (removable u).
        -- destruct (IH xs b2 l2 b' l' bf lf fuel (all ++ [(chunk, cs)]) (bpos b1) [u] bs)
             as (chunks & E1 & E2); auto; try lia.
           { unfold advance_all; simpl. now rewrite <- Hq2. }
           exists chunks. split; auto. rewrite E2, chunks_push, <- app_assoc. simpl.
           now rewrite Hq2.
        -- destruct (IH xs b2 l2 b' l' bf lf fuel all cs (chunk ++ [TBackslash; u]) bs)
             as (chunks & E1 & E2); auto; try lia.
           { rewrite advance_all_app. unfold advance_all at 1; simpl. rewrite Hp, Hp2. exact Hc. }
           exists chunks. split; auto. rewrite E2, locate_app, <- app_assoc. simpl.
           rewrite Hp, Hp2. reflexivity.
    + rewrite (chunks_tok _ _ _ _ _ _ _ _ _ _ S1 Ht).
      destruct (IH xs b1 l1 b' l' bf lf fuel all cs (chunk ++ [t]) bs)
        as (chunks & E1 & E2); auto; try lia.
      { rewrite advance_all_app. unfold advance_all at 1; simpl. rewrite Hp. exact Hc. }
      exists chunks. split; auto. rewrite E2, locate_app, <- app_assoc. cbn [locate app]. rewrite Hp.
      f_equal. f_equal. destruct xs as [|[u q2] xs].
      * destruct t; reflexivity.
      * rewrite unescape_located_eq. now rewrite token_eqb_neq.
Qed.

Lemma chunks_bad n : forall xs b l b' l' bf lf fuel all cs chunk bs t p, (length xs <= n)%nat ->
  gives b l xs b' l' -> step b' l' (Some (inr (t, p))) bf lf -> (length xs < fuel)%nat ->
  lrun (@chunks_loop BS BE fuel b all cs chunk) l bs = (OErr (Unmatched t p), lf, bs).
Proof.
  induction n as [|n IH]; intros xs b l b' l' bf lf fuel all cs chunk bs t p Hn G Hs Hf;
    (destruct fuel as [|fuel]; [lia|]).
  - destruct xs; [|simpl in Hn; lia]. inversion G; subst. eapply chunks_err; eauto.
  - destruct xs as [|[u q] xs].
    { inversion G; subst. eapply chunks_err; eauto. }
    apply gives_inv in G. destruct G as (b1 & l1 & S1 & G & Hq). simpl in S1, Hq, Hn, Hf.
    destruct (token_eqb_spec u TBackslash) as [->|Ht].
    + destruct xs as [|[u q2] xs].
      * inversion G; subst. eapply chunks_bs_err; eauto.
      * apply gives_inv in G. destruct G as (b2 & l2 & S2 & G & Hq2). simpl in S2, Hq2, Hn, Hf.
        rewrite (chunks_bs_tok _ _ _ _ _ _ _ _ _ _ _ _ S1 S2).
        destruct (removable u); eapply IH; eauto; lia.
    + rewrite (chunks_tok _ _ _ _ _ _ _ _ _ _ S1 Ht). eapply IH; eauto; lia.
Qed.

(** C33, the buffering implementation: the new iterator yields exactly the unescaped tokens, each
    at its position in the source, and then ends at the position after the closing backtick. *)
Theorem backtick_chunks p0 body q rest e fuel bs :
  content TBacktick (map fst body) -> contiguous (l_pos (mkL (body ++ (TBacktick, q) :: rest) e)) body ->
  (S (length body) < fuel)%nat ->
  exists i, lrun (@create_token_iter BS BE fuel p0) (mkL (body ++ (TBacktick, q) :: rest) e) bs =
      (OOk i, mkL rest e, bs) /\
    l_make i = mkL (unescape_located body) (l_pos (mkL rest e)).
Proof.
  intros Hc Hcon Hf.
  pose proof (content_gives _ _ Hc ltac:(unfold closer; tauto) p0 [] true body q rest e eq_refl) as G.
  pose proof (step_close TBacktick p0 [] true q rest e) as S.
  set (l := mkL (body ++ (TBacktick, q) :: rest) e) in *.
  destruct (chunks_ok _ _ _ _ _ _ _ _ fuel [] (l_pos l) [] bs (le_n _) G S
              (step_done _ _ _ _) Hcon Hf) as (chunks & E1 & E2).
  exists (FromChunks (l_pos (mkL rest e)) chunks). split.
  - unfold create_token_iter, balanced_new. rewrite !lrun_bind, lrun_getpos, lrun_ret.
    rewrite lrun_bind. unfold bal_at in E1. cbn [bpos]. rewrite E1. reflexivity.
  - simpl. f_equal. exact E2.
Qed.

Theorem backtick_chunks_unclosed p0 ts e er fuel bs :
  unclosed (TBacktick, p0) ts er -> (length ts < fuel)%nat ->
  lrun (@create_token_iter BS BE fuel p0) (mkL ts e) bs =
  (OErr (Unmatched (opener_of (fst er)) (snd er)), mkL [] e, bs).
Proof.
  intros Hu Hf.
  destruct (unclosed_gives _ _ _ Hu ltac:(unfold closer; simpl; tauto) [] true e) as (b' & b'' & G & S).
  unfold create_token_iter, balanced_new. rewrite !lrun_bind, lrun_getpos, lrun_ret.
  rewrite lrun_bind. cbn [bpos]. unfold bal_at in G.
  rewrite (chunks_bad _ _ _ _ _ _ _ _ fuel _ _ _ bs _ _ (le_n _) G S Hf). reflexivity.
Qed.

(** The streaming implementation. *)
Lemma bbr_S f s acc :
  @bbr_collect BS BE (S f) s acc =
  bind (bbr_next s) (fun x => let (r, s') := x in
      match r with
      | None => ret acc
      | Some (inl t) => bbr_collect f s' (acc ++ [t])
      | Some (inr (t, p)) => throw (Unmatched t p)
      end).
Proof. reflexivity. Qed.

Lemma bbr_none f b l b1 l1 acc bs :
  step b l None b1 l1 ->
  lrun (@bbr_collect BS BE (S f) (mkBbr b None false) acc) l bs = (OOk acc, l1, bs).
Proof.
  intros H. rewrite bbr_S, lrun_bind. unfold bbr_next; cbn [bbr_peeked bbr_done bbr_iter].
  rewrite lrun_bind, (H bs). reflexivity.
Qed.
Lemma bbr_err f b l b1 l1 acc bs t p :
  step b l (Some (inr (t, p))) b1 l1 ->
  lrun (@bbr_collect BS BE (S f) (mkBbr b None false) acc) l bs = (OErr (Unmatched t p), l1, bs).
Proof.
  intros H. rewrite bbr_S, lrun_bind. unfold bbr_next; cbn [bbr_peeked bbr_done bbr_iter].
  rewrite lrun_bind, (H bs). reflexivity.
Qed.
Lemma bbr_tok f b l b1 l1 acc bs t :
  step b l (Some (inl t)) b1 l1 -> t <> TBackslash ->
  lrun (@bbr_collect BS BE (S f) (mkBbr b None false) acc) l bs =
  lrun (bbr_collect f (mkBbr b1 None false) (acc ++ [t])) l1 bs.
Proof.
  intros H Ht. rewrite bbr_S, lrun_bind. unfold bbr_next; cbn [bbr_peeked bbr_done bbr_iter].
  rewrite lrun_bind, (H bs). destruct t; try reflexivity; congruence.
Qed.
Lemma bbr_bs_tok f b l b1 l1 b2 l2 acc bs t :
  step b l (Some (inl TBackslash)) b1 l1 -> step b1 l1 (Some (inl t)) b2 l2 ->
  lrun (@bbr_collect BS BE (S (S f)) (mkBbr b None false) acc) l bs =
  if removable t then lrun (bbr_collect (S f) (mkBbr b2 None false) (acc ++ [t])) l2 bs
  else lrun (bbr_collect f (mkBbr b2 None false) (acc ++ [TBackslash; t])) l2 bs.
Proof.
  intros H H2. rewrite bbr_S, lrun_bind. unfold bbr_next at 1; cbn [bbr_peeked bbr_done bbr_iter].
  rewrite lrun_bind, (H bs), lrun_bind, (H2 bs).
  destruct t; try reflexivity; cbn [removable]; rewrite lrun_ret, bbr_S, lrun_bind;
    unfold bbr_next at 1; cbn [bbr_peeked bbr_done bbr_iter]; rewrite lrun_ret, <- app_assoc; reflexivity.
Qed.
Lemma bbr_bs_none f b l b1 l1 b2 l2 acc bs :
  step b l (Some (inl TBackslash)) b1 l1 -> step b1 l1 None b2 l2 ->
  lrun (@bbr_collect BS BE (S (S f)) (mkBbr b None false) acc) l bs =
  (OOk (acc ++ [TBackslash]), l2, bs).
Proof.
  intros H H2. rewrite bbr_S, lrun_bind. unfold bbr_next at 1; cbn [bbr_peeked bbr_done bbr_iter].
  rewrite lrun_bind, (H bs), lrun_bind, (H2 bs). reflexivity.
Qed.
Lemma bbr_bs_err f b l b1 l1 b2 l2 acc bs t p :
  step b l (Some (inl TBackslash)) b1 l1 -> step b1 l1 (Some (inr (t, p))) b2 l2 ->
  lrun (@bbr_collect BS BE (S (S f)) (mkBbr b None false) acc) l bs =
  (OErr (Unmatched t p), l2, bs).
Proof.
  intros H H2. rewrite bbr_S, lrun_bind. unfold bbr_next at 1; cbn [bbr_peeked bbr_done bbr_iter].
  rewrite lrun_bind, (H bs), lrun_bind, (H2 bs). reflexivity.
Qed.

Lemma bbr_ok n : forall xs b l b' l' bf lf fuel acc bs, (length xs <= n)%nat ->
  gives b l xs b' l' -> step b' l' None bf lf -> (length xs < fuel)%nat ->
  lrun (@bbr_collect BS BE fuel (mkBbr b None false) acc) l bs =
  (OOk (acc ++ unescape (map fst xs)), lf, bs).
Proof.
  induction n as [|n IH]; intros xs b l b' l' bf lf fuel acc bs Hn G Hs Hf;
    (destruct fuel as [|fuel]; [lia|]).
  - destruct xs; [|simpl in Hn; lia]. inversion G; subst. simpl. rewrite app_nil_r.
    eapply bbr_none; eauto.
  - destruct xs as [|[t q] xs].
    { inversion G; subst. simpl. rewrite app_nil_r. eapply bbr_none; eauto. }
    apply gives_inv in G. destruct G as (b1 & l1 & S1 & G & Hq). simpl in S1, Hq, Hn, Hf.
    destruct (token_eqb_spec t TBackslash) as [->|Ht].
    + destruct xs as [|[u q2] xs]; (destruct fuel as [|fuel]; [simpl in Hf; lia|]).
      * inversion G; subst. rewrite (bbr_bs_none _ _ _ _ _ _ _ _ _ S1 Hs). reflexivity.
      * apply gives_inv in G. destruct G as (b2 & l2 & S2 & G & Hq2). simpl in S2, Hq2, Hn, Hf.
        rewrite (bbr_bs_tok _ _ _ _ _ _ _ _ _ _ S1 S2).
        cbn [map fst]. rewrite unescape_eq, token_eqb_refl.
        destruct (removable u).
        -- rewrite (IH xs b2 l2 b' l' bf lf); auto; try lia. now rewrite <- app_assoc.
        -- rewrite (IH xs b2 l2 b' l' bf lf); auto; try lia. now rewrite <- app_assoc.
    + rewrite (bbr_tok _ _ _ _ _ _ _ _ S1 Ht).
      rewrite (IH xs b1 l1 b' l' bf lf); auto; try lia. rewrite <- app_assoc. cbn [app map fst].
      f_equal. f_equal. f_equal. f_equal. destruct xs as [|[u q2] xs].
      * destruct t; reflexivity.
      * cbn [map fst]. rewrite unescape_eq. now rewrite token_eqb_neq.
Qed.

Lemma bbr_bad n : forall xs b l b' l' bf lf fuel acc bs t p, (length xs <= n)%nat ->
  gives b l xs b' l' -> step b' l' (Some (inr (t, p))) bf lf -> (S (length xs) < fuel)%nat ->
  lrun (@bbr_collect BS BE fuel (mkBbr b None false) acc) l bs = (OErr (Unmatched t p), lf, bs).
Proof.
  induction n as [|n IH]; intros xs b l b' l' bf lf fuel acc bs t p Hn G Hs Hf;
    (destruct fuel as [|fuel]; [lia|]).
  - destruct xs; [|simpl in Hn; lia]. inversion G; subst. eapply bbr_err; eauto.
  - destruct xs as [|[u q] xs].
    { inversion G; subst. eapply bbr_err; eauto. }
    apply gives_inv in G. destruct G as (b1 & l1 & S1 & G & Hq). simpl in S1, Hq, Hn, Hf.
    destruct (token_eqb_spec u TBackslash) as [->|Ht].
    + destruct xs as [|[u q2] xs]; (destruct fuel as [|fuel]; [simpl in Hf; lia|]).
      * inversion G; subst. eapply bbr_bs_err; eauto.
      * apply gives_inv in G. destruct G as (b2 & l2 & S2 & G & Hq2). simpl in S2, Hq2, Hn, Hf.
        rewrite (bbr_bs_tok _ _ _ _ _ _ _ _ _ _ S1 S2).
        destruct (removable u); eapply IH; eauto; lia.
    + rewrite (bbr_tok _ _ _ _ _ _ _ _ S1 Ht). eapply IH; eauto; lia.
Qed.

Theorem backtick_stream p0 body q rest e fuel bs :
  content TBacktick (map fst body) -> (length body < fuel)%nat ->
  lrun (@collect_bbr BS BE fuel p0) (mkL (body ++ (TBacktick, q) :: rest) e) bs =
  (OOk (unescape (map fst body)), mkL rest e, bs).
Proof.
  intros Hc Hf.
  pose proof (content_gives _ _ Hc ltac:(unfold closer; tauto) p0 [] true body q rest e eq_refl) as G.
  pose proof (step_close TBacktick p0 [] true q rest e) as S.
  unfold collect_bbr, bbr_new, balanced_new. rewrite !lrun_bind, lrun_getpos, !lrun_ret.
  exact (bbr_ok _ _ _ _ _ _ _ _ fuel [] bs (le_n _) G S Hf).
Qed.

Theorem backtick_stream_unclosed p0 ts e er fuel bs :
  unclosed (TBacktick, p0) ts er -> (S (length ts) < fuel)%nat ->
  lrun (@collect_bbr BS BE fuel p0) (mkL ts e) bs =
  (OErr (Unmatched (opener_of (fst er)) (snd er)), mkL [] e, bs).
Proof.
  intros Hu Hf.
  destruct (unclosed_gives _ _ _ Hu ltac:(unfold closer; simpl; tauto) [] true e) as (b' & b'' & G & S).
  unfold collect_bbr, bbr_new, balanced_new. rewrite !lrun_bind, lrun_getpos, !lrun_ret.
  exact (bbr_bad _ _ _ _ _ _ _ _ fuel [] bs _ _ (le_n _) G S Hf).
Qed.
End BalancedProofs.

(** ... and the region is unique. *)
Theorem balanced_unique X (body body' : list (token * spos)) q q' rest rest' :
  closer X -> content X (map fst body) -> content X (map fst body') ->
  body ++ (X, q) :: rest = body' ++ (X, q') :: rest' -> body = body' /\ rest = rest'.
Proof.
  intros Hcl H1 H2 E.
  set (f := S (length body + length body')).
  pose proof (@balanced_region unit unit X pos_new body q rest pos_new f tt Hcl H1 ltac:(lia)) as R1.
  pose proof (@balanced_region unit unit X pos_new body' q' rest' pos_new f tt Hcl H2 ltac:(lia)) as R2.
  rewrite E, R2 in R1. injection R1 as R1 R3. split; auto.
  assert (L : length body = length body') by (apply (f_equal (@length _)) in R1; rewrite !map_length in R1; auto).
  clear -L E. revert body' L E. induction body as [|x body IH]; intros [|y body'] L E; simpl in *; try discriminate; auto.
  injection E as -> E. f_equal. eapply IH; eauto.
Qed.

(** The two implementations agree on the tokens. *)
Theorem unescape_located_tokens ts : map fst (unescape_located ts) = unescape (map fst ts).
Proof.
  remember (length ts) as n eqn:Hn. assert (H : (length ts <= n)%nat) by lia. clear Hn.
  revert ts H; induction n as [|n IH]; intros ts H.
  - destruct ts; [reflexivity|simpl in H; lia].
  - destruct ts as [|[t p] [|[u q] ts]]; [reflexivity|destruct t; reflexivity|].
    simpl in H. cbn [map fst]. rewrite unescape_located_eq, unescape_eq.
    destruct (token_eqb t TBackslash); [destruct (removable u)|]; cbn [map fst]; rewrite ?IH; auto; simpl; lia.
Qed.

(** Concrete cases: the content of [`a "b'" $(c `], and an unclosed region. *)
Example content_example :
  content TBacktick [TName (s_of "a"); TDoubleQuote; TSingleQuote; TDoubleQuote; TBackslash; TBacktick;
                     TDollar; TCurlyOpen; TName (s_of "x"); TCurlyClose; TDollar; TParenOpen; TStar; TParenClose].
Proof.
  apply c_plain; try discriminate; auto.
  apply (c_nested TBacktick TDoubleQuote TDoubleQuote [TSingleQuote]); try discriminate; auto.
  { apply c_plain; try discriminate; auto. constructor. }
  apply c_escape; try discriminate.
  apply (c_braces TBacktick [TName (s_of "x")]); try discriminate.
  { apply c_plain; try discriminate; auto. constructor. }
  apply c_plain; try discriminate; auto.
  apply (c_nested TBacktick TParenOpen TParenClose [TStar] []); try discriminate; auto.
  { apply c_plain; try discriminate; auto. constructor. }
  constructor.
Qed.

Example unclosed_example p q :
  unclosed (TBacktick, p) [(TName (s_of "a"), p); (TParenOpen, q); (TStar, p)] (TParenClose, q).
Proof.
  apply u_plain; try discriminate; auto.
  eapply (u_nested_open TBacktick p TParenOpen q TParenClose); try discriminate; auto.
  apply u_plain; try discriminate; auto. constructor.
Qed.
