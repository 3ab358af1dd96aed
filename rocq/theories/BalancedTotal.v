(** * The balanced iterators on arbitrary streams: they always return *)
From Verif Require Import Base Token Pos Ast Prog Located RunLemmas Balanced BalancedSpec BalancedProofs.

Section BalancedTotal.
Context {BS BE : Type}.
Notation prog := (prog BS BE).
Notation chunks_den := (flat_map (fun c : list token * spos => locate (fst c) (snd c))).

Lemma map_fst_locate ts p : map fst (locate ts p) = ts.
Proof. revert p; induction ts; intros; simpl; congruence. Qed.

(** The tokens of the chunks, whatever the positions. *)
Lemma chunks_tokens n : forall xs b l b' l' bf lf fuel all cs chunk bs, (length xs <= n)%nat ->
  gives (BS:=BS) (BE:=BE) b l xs b' l' -> step (BS:=BS) (BE:=BE) b' l' None bf lf ->
  step (BS:=BS) (BE:=BE) bf lf None bf lf ->
  (S (length xs) < fuel)%nat ->
  exists chunks, lrun (@chunks_loop BS BE fuel b all cs chunk) l bs = (OOk (chunks, bpos bf), lf, bs) /\
    map fst (chunks_den chunks) = map fst (chunks_den all) ++ chunk ++ unescape (map fst xs).
Proof.
  induction n as [|n IH]; intros xs b l b' l' bf lf fuel all cs chunk bs Hn G Hs Hs2 Hf;
    (destruct fuel as [|fuel]; [lia|]).
  - destruct xs; [|simpl in Hn; lia]. inversion G; subst.
    rewrite (chunks_none _ _ _ _ _ _ _ _ _ Hs). eexists. split; [reflexivity|].
    rewrite chunks_end, map_app, map_fst_locate. simpl. now rewrite app_nil_r.
  - destruct xs as [|[t q] xs].
    { inversion G; subst.
      rewrite (chunks_none _ _ _ _ _ _ _ _ _ Hs). eexists. split; [reflexivity|].
      rewrite chunks_end, map_app, map_fst_locate. simpl. now rewrite app_nil_r. }
    apply gives_inv in G. destruct G as (b1 & l1 & S1 & G & Hq). simpl in S1, Hq, Hn, Hf.
    destruct (token_eqb_spec t TBackslash) as [->|Ht].
    + destruct xs as [|[u q2] xs].
      * inversion G; subst. rewrite (chunks_bs_none _ _ _ _ _ _ _ _ _ _ _ S1 Hs).
        destruct fuel as [|fuel]; [lia|]. rewrite (chunks_none _ _ _ _ _ _ _ _ _ Hs2).
        eexists. split; [reflexivity|]. now rewrite chunks_end, map_app, map_fst_locate.
      * apply gives_inv in G. destruct G as (b2 & l2 & S2 & G & Hq2). simpl in S2, Hq2, Hn, Hf.
        rewrite (chunks_bs_tok _ _ _ _ _ _ _ _ _ _ _ _ S1 S2). cbn [map fst]. rewrite unescape_eq.
        rewrite token_eqb_refl.
        destruct (removable u).
        -- destruct (IH xs b2 l2 b' l' bf lf fuel (all ++ [(chunk, cs)]) (bpos b1) [u] bs)
             as (chunks & E1 & E2); auto; try lia.
           exists chunks. split; auto.
           rewrite E2, chunks_push, map_app, map_fst_locate, <- app_assoc. reflexivity.
        -- destruct (IH xs b2 l2 b' l' bf lf fuel all cs (chunk ++ [TBackslash; u]) bs)
             as (chunks & E1 & E2); auto; try lia.
           exists chunks. split; auto. rewrite E2, <- app_assoc. reflexivity.
    + rewrite (chunks_tok _ _ _ _ _ _ _ _ _ _ S1 Ht).
      destruct (IH xs b1 l1 b' l' bf lf fuel all cs (chunk ++ [t]) bs)
        as (chunks & E1 & E2); auto; try lia.
      exists chunks. split; auto. rewrite E2, <- app_assoc. cbn [app map fst].
      f_equal. f_equal. destruct xs as [|[u q2] xs].
      * destruct t; reflexivity.
      * cbn [map fst]. rewrite unescape_eq. now rewrite token_eqb_neq.
Qed.

(** Every token of the sub-iterator made for a backticked region; its positions if the region is
    contiguous. *)
Lemma create_token_iter_ok p0 body q rest e fuel bs :
  content TBacktick (map fst body) -> (S (length body) < fuel)%nat ->
  exists i, lrun (@create_token_iter BS BE fuel p0) (mkL (body ++ (TBacktick, q) :: rest) e) bs =
      (OOk i, mkL rest e, bs) /\
    map fst (toks (l_make i)) = unescape (map fst body) /\
    end_pos (l_make i) = l_pos (mkL rest e) /\
    (contiguous (l_pos (mkL (body ++ (TBacktick, q) :: rest) e)) body ->
     toks (l_make i) = unescape_located body).
Proof.
  intros Hc Hf.
  pose proof (@content_gives BS BE _ _ Hc ltac:(unfold closer; tauto) p0 [] true body q rest e eq_refl) as G.
  pose proof (@step_close BS BE TBacktick p0 [] true q rest e) as S.
  set (l := mkL (body ++ (TBacktick, q) :: rest) e) in *.
  destruct (chunks_tokens _ _ _ _ _ _ _ _ fuel [] (l_pos l) [] bs (le_n _) G S
              (step_done _ _ _ _) Hf) as (chunks & E1 & E2).
  assert (E0 : lrun (@create_token_iter BS BE fuel p0) l bs =
           (OOk (FromChunks (l_pos (mkL rest e)) chunks), mkL rest e, bs)).
  { unfold create_token_iter, balanced_new. rewrite !lrun_bind, lrun_getpos, lrun_ret.
    rewrite lrun_bind. unfold bal_at in E1. cbn [bpos]. rewrite E1. reflexivity. }
  exists (FromChunks (l_pos (mkL rest e)) chunks). split; [exact E0|].
  split; [exact E2|split; [reflexivity|]]. intros Hcon.
  destruct (backtick_chunks (BS:=BS) (BE:=BE) p0 body q rest e fuel bs Hc Hcon Hf) as (i & E3 & E4).
  fold l in E3. rewrite E0 in E3. injection E3 as <-. rewrite E4. reflexivity.
Qed.

Lemma unclosed_in Xp ts er : unclosed Xp ts er ->
  er = Xp \/ In (opener_of (fst er), snd er) ts.
Proof.
  induction 1 as [X p|X p q HX|p t q ts er Ht Hu IH|X p q t q' ts er HX Hu IH
                 |X p t q ts er HX Ht Hbs Ho Hd Hu IH
                 |X p o q c inner q' ts er HX Hox Ho Hi Hu IH
                 |X p o q c inner er HX Hox Ho Hu IH
                 |X p q q1 inner q2 ts er HX Hi Hu IH
                 |X p q q1 inner er HX Hu IH]; simpl; auto;
    try (destruct IH as [->|IH]; auto; fail).
  - destruct IH as [->|IH]; auto. right. right. apply in_or_app. right. right. exact IH.
  - destruct IH as [->|IH]; auto. simpl. right. left.
    f_equal. destruct o; try discriminate; simpl in Ho; try congruence.
    + injection Ho as <-. reflexivity.
    + destruct X; try discriminate; injection Ho as <-; reflexivity.
    + injection Ho as <-. reflexivity.
    + injection Ho as <-. reflexivity.
  - destruct IH as [->|IH]; auto. right. right. right. apply in_or_app. right. right. exact IH.
Qed.

(** The tokens that open a region. *)
Definition opener (t : token) : Prop :=
  t = TSingleQuote \/ t = TDoubleQuote \/ t = TBacktick \/ t = TParenOpen \/ t = TCurlyOpen.
Lemma opener_of_closer X : closer X -> opener (opener_of X).
Proof. unfold closer, opener. intros [->|[->|[->|[->| ->]]]]; cbn; tauto. Qed.
Lemma unclosed_opener Xp ts er : unclosed Xp ts er -> closer (fst Xp) -> opener (opener_of (fst er)).
Proof.
  induction 1; cbn [fst] in *; intros Hc; auto using opener_of_closer.
  - apply IHunclosed. eapply closer_opens; eauto.
  - apply IHunclosed. unfold closer. tauto.
Qed.

(** Every stream starts with a balanced piece, is empty, or has an unclosed region. *)
Lemma piece_cases ts :
  ts = [] \/
  (exists a b, ts = a ++ b /\ a <> [] /\ piece (map fst a) (map fst b)) \/
  (exists o c q inner er pre,
     (pre = [] /\ opens TNewline o = Some c \/
      (exists q0, pre = [(TDollar, q0)]) /\
      (o = TParenOpen /\ c = TParenClose \/ o = TCurlyOpen /\ c = TCurlyClose)) /\
     ts = pre ++ (o, q) :: inner /\ unclosed (c, q) inner er).
Proof.
  destruct ts as [|[t p] ts]; [auto|right].
  assert (Region : forall o c, opens TNewline o = Some c -> t = o ->
    (exists a b, (t, p) :: ts = a ++ b /\ a <> [] /\ piece (map fst a) (map fst b)) \/
    (exists er, unclosed (c, p) ts er)).
  { intros o c Ho ->. destruct (balanced_cases c p ts (closer_opens _ _ _ Ho))
      as [(body & q & rest & -> & Hc)|(er & Hu)]; [left|right; eauto].
    exists ((o, p) :: body ++ [(c, q)]), rest. split; [simpl; now rewrite <- app_assoc|].
    split; [discriminate|]. cbn [map fst]. rewrite map_app. simpl. eapply p_region; eauto. }
  destruct (opens TNewline t) as [c|] eqn:Ho.
  { destruct (Region t c Ho eq_refl) as [H|[er Hu]]; [auto|right].
    exists t, c, p, ts, er, []. auto. }
  destruct (token_eqb_spec t TBackslash) as [->|Hb].
  { left. destruct ts as [|[u q] ts].
    - exists [(TBackslash, p)], []. split; [reflexivity|split; [discriminate|apply p_backslash]].
    - exists [(TBackslash, p); (u, q)], ts. split; [reflexivity|split; [discriminate|apply p_escape]]. }
  destruct (token_eqb_spec t TDollar) as [->|Hd].
  { destruct ts as [|[u q] ts].
    { left. exists [(TDollar, p)], []. split; [reflexivity|split; [discriminate|]]. apply p_dollar; discriminate. }
    destruct (token_eqb_spec u TCurlyOpen) as [->|H1].
    { destruct (balanced_cases TCurlyClose q ts ltac:(unfold closer; tauto))
        as [(body & q1 & rest & -> & Hc)|(er & Hu)].
      - left. exists ((TDollar, p) :: (TCurlyOpen, q) :: body ++ [(TCurlyClose, q1)]), rest.
        split; [simpl; now rewrite <- app_assoc|]. split; [discriminate|]. cbn [map fst].
        rewrite map_app. simpl. apply p_braces; auto.
      - right. exists TCurlyOpen, TCurlyClose, q, ts, er, [(TDollar, p)].
        split; [right; split; eauto|]. auto. }
    destruct (token_eqb_spec u TParenOpen) as [->|H2].
    { destruct (balanced_cases TParenClose q ts ltac:(unfold closer; tauto))
        as [(body & q1 & rest & -> & Hc)|(er & Hu)].
      - left. exists ((TDollar, p) :: (TParenOpen, q) :: body ++ [(TParenClose, q1)]), rest.
        split; [simpl; now rewrite <- app_assoc|]. split; [discriminate|]. cbn [map fst].
        rewrite map_app. simpl. apply p_dollar_paren; auto.
      - right. exists TParenOpen, TParenClose, q, ts, er, [(TDollar, p)].
        split; [right; split; eauto|]. auto. }
    left. exists [(TDollar, p)], ((u, q) :: ts). split; [reflexivity|split; [discriminate|]].
    apply p_dollar; simpl; congruence. }
  left. exists [(t, p)], ts. split; [reflexivity|split; [discriminate|]]. apply p_plain; auto.
Qed.

Lemma piece_opener o c pre : (pre = [] /\ opens TNewline o = Some c \/
      (exists q0 : spos, pre = [(TDollar, q0)]) /\
      (o = TParenOpen /\ c = TParenClose \/ o = TCurlyOpen /\ c = TCurlyClose)) -> opener_of c = o.
Proof.
  intros [[_ H]|[_ [[-> ->]|[-> ->]]]]; try reflexivity.
  destruct o; try discriminate; injection H as <-; reflexivity.
Qed.

(** [collect_balanced] always returns: a balanced prefix, or an error naming an opener. *)
Lemma collect_balanced_total fuel d l bs : (length (toks l) < fuel)%nat ->
  match d with Some (X, _) => closer X | None => True end ->
  (exists ts l', lrun (@collect_balanced BS BE fuel d) l bs = (OOk ts, l', bs) /\
     (length ts + length (toks l') <= length (toks l))%nat /\ end_pos l' = end_pos l /\
     (exists pre, toks l = pre ++ toks l') /\
     (d = None -> toks l <> [] -> (length (toks l') < length (toks l))%nat)) \/
  (exists t p l', lrun (@collect_balanced BS BE fuel d) l bs = (OErr (Unmatched t p), l', bs) /\
     toks l' = [] /\ end_pos l' = end_pos l /\ opener t /\
     ((exists X, d = Some (X, p) /\ t = opener_of X) \/ In (t, p) (toks l))).
Proof.
  destruct l as [ts e]. cbn [toks end_pos]. intros Hf Hd. destruct d as [[X p]|].
  - destruct (balanced_cases X p ts Hd) as [(body & q & rest & -> & Hc)|(er & Hu)].
    + left. rewrite app_length in *. simpl in Hf. eexists _, _.
      split; [apply balanced_region; auto; lia|]. rewrite map_length. cbn [toks end_pos length].
      split; [lia|split; [reflexivity|split; [|discriminate]]].
      exists (body ++ [(X, q)]). now rewrite <- app_assoc.
    + right. eexists _, _, _. split; [eapply balanced_unclosed; eauto|].
      split; [reflexivity|]. split; [reflexivity|]. split; [eapply unclosed_opener; eauto|].
      destruct (unclosed_in _ _ _ Hu) as [->|H]; eauto.
  - destruct (piece_cases ts) as [->|[(a & b & -> & Ha & Hp)|(o & c & q & inner & er & pre & Hpre & -> & Hu)]].
    + left. eexists _, _. split; [apply balanced_piece_none; simpl in *; lia|]. simpl.
      split; auto. split; auto. split; [exists []; reflexivity|]. congruence.
    + left. rewrite app_length in *. eexists _, _. 
      split; [apply balanced_piece; auto; lia|]. rewrite map_length. cbn [toks end_pos].
      split; [lia|split; [reflexivity|split; [eauto|]]]. intros _ _.
      destruct a; [congruence|]. simpl. lia.
    + right. eexists _, _, _. split; [eapply balanced_piece_unclosed; eauto|].
      split; [reflexivity|]. split; [reflexivity|].
      split; [eapply unclosed_opener; [exact Hu|]|].
      { destruct Hpre as [[_ Hpre]|[_ [[_ ->]|[_ ->]]]]; [exact (closer_opens _ _ _ Hpre)| |]; unfold closer; tauto. }
      right. destruct (unclosed_in _ _ _ Hu) as [->|H].
      * simpl. rewrite (piece_opener _ _ _ Hpre). apply in_or_app. simpl. auto.
      * apply in_or_app. simpl. auto.
Qed.

Lemma collect_piece_total fuel l bs ts l' bs' : (length (toks l) < fuel)%nat ->
  lrun (@collect_balanced BS BE fuel None) l bs = (OOk ts, l', bs') ->
  exists pre, toks l = pre ++ toks l' /\ ts = map fst pre.
Proof.
  destruct l as [ts0 e]. cbn [toks]. intros Hf E.
  destruct (piece_cases ts0) as [->|[(a & b & -> & Ha & Hp)|(o & c & q & inner & er & pre & Hpre & -> & Hu)]].
  - rewrite balanced_piece_none in E by (simpl in *; lia). injection E as <- <- _. now exists [].
  - rewrite app_length in Hf. rewrite balanced_piece in E by (auto; lia). injection E as <- <- _. now exists a.
  - erewrite balanced_piece_unclosed in E by eauto. discriminate.
Qed.

Lemma unescape_length ts : (length (unescape ts) <= length ts)%nat.
Proof.
  remember (length ts) as n eqn:Hn. assert (H : (length ts <= n)%nat) by lia.
  rewrite Hn. clear Hn. revert ts H. induction n as [|n IH]; intros ts H.
  - destruct ts; simpl in *; lia.
  - destruct ts as [|t [|u ts]]; [simpl; lia|destruct t; simpl; lia|].
    rewrite unescape_eq. simpl in H.
    pose proof (IH ts ltac:(lia)). pose proof (IH (u :: ts) ltac:(simpl; lia)).
    destruct (token_eqb t TBackslash); [destruct (removable u)|]; simpl in *; lia.
Qed.

Lemma collect_bbr_total fuel p l bs : (S (length (toks l)) < fuel)%nat ->
  (exists ts l', lrun (@collect_bbr BS BE fuel p) l bs = (OOk ts, l', bs) /\
     (length (toks l') <= length (toks l))%nat) \/
  (exists t q l', lrun (@collect_bbr BS BE fuel p) l bs = (OErr (Unmatched t q), l', bs)).
Proof.
  destruct l as [ts e]. cbn [toks]. intros Hf.
  destruct (balanced_cases TBacktick p ts ltac:(unfold closer; tauto)) as [(body & q & rest & -> & Hc)|(er & Hu)].
  - left. rewrite app_length in *. simpl in Hf. eexists _, _.
    split; [apply backtick_stream; auto; lia|]. cbn [toks length]. lia.
  - right. eexists _, _, _. eapply backtick_stream_unclosed; eauto.
Qed.

Lemma create_token_iter_total fuel p l bs : (S (length (toks l)) < fuel)%nat ->
  (exists i body q rest, lrun (@create_token_iter BS BE fuel p) l bs = (OOk i, mkL rest (end_pos l), bs) /\
     toks l = body ++ (TBacktick, q) :: rest /\ content TBacktick (map fst body) /\
    map fst (toks (l_make i)) = unescape (map fst body) /\
    end_pos (l_make i) = l_pos (mkL rest (end_pos l)) /\
    (contiguous (l_pos l) body -> toks (l_make i) = unescape_located body)) \/
  (exists t q l', lrun (@create_token_iter BS BE fuel p) l bs = (OErr (Unmatched t q), l', bs) /\
    toks l' = [] /\ end_pos l' = end_pos l /\ opener t /\
    ((t, q) = (TBacktick, p) \/ In (t, q) (toks l))).
Proof.
  destruct l as [ts e]. cbn [toks end_pos]. intros Hf.
  destruct (balanced_cases TBacktick p ts ltac:(unfold closer; tauto)) as [(body & q & rest & -> & Hc)|(er & Hu)].
  - left. rewrite app_length in *. simpl in *.
    destruct (create_token_iter_ok p body q rest e fuel bs Hc ltac:(lia)) as (i & E1 & E2 & E3 & E4).
    exists i, body, q, rest. auto 10.
  - right. eexists _, _, _. split; [eapply backtick_chunks_unclosed; eauto; lia|].
    split; [reflexivity|]. split; [reflexivity|]. split; [eapply unclosed_opener; [exact Hu|unfold closer; cbn; tauto]|].
    destruct (unclosed_in _ _ _ Hu) as [->|H]; auto.
Qed.

End BalancedTotal.
