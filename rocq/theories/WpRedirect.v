(** * The walk over redirections and here-documents *)
From Coq Require Import String.
From Verif Require Import Base Token Pos Ast Prog Located IterProofs RunLemmas ParserBase BaseRun
  Balanced BalancedSpec BalancedProofs BalancedTotal Builder Wp Arith WpArith Word WpWord Redirect.

Definition chunk_sum (cs : list (list token * spos)) : nat := length (flat_map fst cs).

Lemma chunk_sum_app a b : chunk_sum (a ++ b) = (chunk_sum a + chunk_sum b)%nat.
Proof. unfold chunk_sum. now rewrite flat_map_app, app_length. Qed.

Lemma locate_length ts : forall p, length (locate ts p) = length ts.
Proof. induction ts; intros; simpl; auto. Qed.

Lemma size_make i : size (l_make i) =
  match i with FromTokens ts => length ts | FromChunks _ cs => chunk_sum cs end.
Proof.
  destruct i as [ts|p cs]; unfold size, l_make, chunk_sum; simpl.
  - apply locate_length.
  - induction cs as [|[a q] cs IH]; simpl; auto. rewrite !app_length, locate_length. simpl in IH. lia.
Qed.
Lemma size_buffer ts p l : size (l_buffer ts p l) = (length ts + size l)%nat.
Proof. unfold size, l_buffer; simpl. now rewrite app_length, locate_length. Qed.

Lemma make_chunks_fst p cs : map fst (toks (l_make (FromChunks p cs))) = flat_map fst cs.
Proof.
  cbn [l_make toks]. induction cs as [|[a q] cs IH]; [reflexivity|]. cbn [flat_map fst snd].
  rewrite map_app, locate_fst. now rewrite IH.
Qed.

Definition bal_measure (b : balanced) (l : located) : nat :=
  ((if escaped b then 1 else 0) + size l)%nat.

Section Heredoc.
Context {B : builder} (am : ambient B).
Notation prog := (prog (bst B) (b_err B)).
Notation ok l := (Inv am l).
Notation wp := (wp am).
Hypothesis hd : HD am.

Lemma wp_balanced_next b l :
  wp (balanced_next b) l (fun '(r, b') l' =>
    (size l' <= size l)%nat /\ (bal_measure b' l' <= bal_measure b l)%nat /\
    match r with Some (inl _) => (bal_measure b' l' < bal_measure b l)%nat | _ => True end).
Proof.
  unfold balanced_next, bal_measure. destruct (escaped b) as [[tok pos]|] eqn:Ee.
  { wstep. cbn [escaped]. repeat split; lia. }
  destruct (bdone b). { wstep. rewrite Ee. repeat split; try lia. }
  wstep. wstep. destruct (otoken_eqb (stack_top (bstack b)) (l_hd l)).
  { wstep. wstep. wstep. wstep. destruct (_ && _); wstep; cbn [escaped]; rewrite ?size_tl; repeat split; try lia.
    dl l; cbn [option_map]; auto; unfold size; simpl; lia. }
  destruct (single_quote_top (bstack b)).
  { wstep. wstep. wstep. wstep. wstep. cbn [escaped]. rewrite size_tl. repeat split; try lia.
    dl l; auto; unfold size; simpl; lia. }
  wstep. wstep. wstep. wstep. dl l.
  { destruct (bstack b); wstep; wstep; wstep; cbn [escaped]; repeat split; auto. }
  assert (F : forall (r : option (token + unmatched)) st dn',
     wp (p <- getpos ;; ret (r, mkBal None st (skip_last_delimeter b) dn' p)) (mkL ts e)
     (fun '(r, b') l' => (size l' <= size (mkL ((t, p) :: ts) e))%nat /\
        ((if escaped b' then 1 else 0) + size l' <= 0 + size (mkL ((t, p) :: ts) e))%nat /\
        match r with Some (inl _) => ((if escaped b' then 1 else 0) + size l' < 0 + size (mkL ((t, p) :: ts) e))%nat
        | _ => True end)).
  { intros r st d. wstep. wstep. wstep. cbn [escaped]. unfold size; cbn [toks length].
    repeat split; try lia. destruct r as [[|]|]; auto; lia. }
  destruct t; try apply F.
  - wstep. wstep. wstep. wstep. wstep. wstep. wstep. destruct ts as [|[t2 p2] ts]; cbn; unfold size; cbn [toks length]; repeat split; lia.
  - wstep. wstep. wstep. wstep. destruct (otoken_eqb _ _); [apply F|]. destruct (otoken_eqb _ _); apply F.
Qed.

Variable fuel : nat.
Variable M : nat.
Hypothesis HM : (M + 2 < fuel)%nat.

Lemma wp_delim_dq : forall n b d l, (bal_measure b l < n)%nat ->
  wp (delim_dq_loop B n b d) l (fun _ l' => (size l' <= size l)%nat).
Proof.
  induction n as [|n IH]; intros b d l Hf; [lia|]. cbn [delim_dq_loop]. wstep.
  eapply wp_mono; [apply wp_balanced_next|]. intros [r b1] l1 (H1 & H2 & H3).
  assert (REC : forall b d l1, (bal_measure b l1 < n)%nat -> (size l1 <= size l)%nat ->
    wp (delim_dq_loop B n b d) l1 (fun _ l' => (size l' <= size l)%nat)).
  { intros b' d' l' A1 A2. eapply wp_mono; [apply IH; auto|]. cbn. intros; lia. }
  destruct r as [[t|[t p]]|]; [|apply wp_throw_hd; [auto|discriminate]|wstep; auto].
  assert (P : wp (delim_dq_loop B n b1 (d ++ as_str t)) l1 (fun _ l' => (size l' <= size l)%nat))
    by (apply REC; [lia|auto]).
  destruct t; try exact P. clear P.
  wstep. eapply wp_mono; [apply wp_balanced_next|]. intros [r b2] l2 (H4 & H5 & H6).
  destruct r as [[t|[t p]]|]; [|apply wp_throw_hd; [auto|discriminate]|apply REC; lia].
  destruct t; apply REC; lia.
Qed.

Lemma wp_delim_loop : forall n q d l, (size l <= M)%nat -> (size l < n)%nat ->
  wp (delim_loop B fuel n q d) l (fun _ l' => True).
Proof.
  induction n as [|n IH]; intros q d l Hs Hf; [lia|]. cbn [delim_loop]. wstep. wstep. wstep. wstep.
  dl l; [wstep; auto|].
  assert (P : forall q d, wp (delim_loop B fuel n q d) (mkL ts e) (fun _ l' => True))
    by (intros; apply IH; sz).
  assert (REC : forall q d l', (size l' <= size (mkL ts e))%nat -> wp (delim_loop B fuel n q d) l' (fun _ l' => True))
    by (intros; apply IH; sz).
  destruct t; try apply P.
  - wstep. wstep. apply REC. rewrite size_tl. lia.
  - wstep. apply wp_collect_balanced_hd; [sz|exact hd|cbn; unfold closer; tauto|].
    intros xs l' _ H1 _. apply REC. lia.
  - wstep. unfold balanced_new. wstep. wstep. wstep. wstep. eapply wp_mono; [apply wp_delim_dq|].
    + unfold bal_measure. cbn [escaped]. sz.
    + cbn. intros a l' H. apply REC. auto.
  - wstep. apply wp_collect_bbr; [sz|auto|]. intros xs l' H. apply REC. auto.
Qed.

Lemma wp_delim_tokens : forall n acc l, (size l < fuel)%nat -> (size l < n)%nat ->
  wp (delim_tokens_loop B fuel n acc) l (fun ts l' => tail_of l l' /\
     (length ts + size l' <= length acc + size l)%nat).
Proof.
  induction n as [|n IH]; intros acc l Hs Hf; [lia|]. cbn [delim_tokens_loop]. wstep. wstep.
  destruct (l_hd l) as [t|] eqn:Eh; [|wstep; split; [apply tail_refl|lia]].
  destruct (_ && _); [wstep; split; [apply tail_refl|lia]|].
  wstep. apply wp_collect_balanced_hd; [sz|exact hd|exact I|]. intros xs l1 HT H1 H2.
  destruct (H2 eq_refl) as [_ H3]. assert (toks l <> []) as Hne by (destruct l as [[|] ?]; discriminate).
  specialize (H3 Hne). eapply wp_mono; [apply IH; lia|]. cbn. intros ts l2 [HT2 H4].
  rewrite app_length in H4. split; [eapply tail_trans; eauto|lia].
Qed.

(** The saved tokens are the rest of the line. *)
Lemma wp_saved_tokens : forall n acc l, (size l < fuel)%nat -> (size l < n)%nat ->
  wp (saved_tokens_loop B fuel n acc) l (fun ts l' => tail_of l l' /\
     (length ts + size l' <= length acc + size l)%nat /\
     acc ++ map fst (toks l) = ts ++ map fst (toks l') /\
     (toks l' = [] \/ exists ts', ts = ts' ++ [TNewline])).
Proof.
  induction n as [|n IH]; intros acc l Hs Hf; [lia|]. cbn [saved_tokens_loop]. wstep. wstep.
  destruct (l_hd l) as [t|] eqn:Eh.
  2: { wstep. assert (E : toks l = []) by (destruct l as [[|[]] ?]; [reflexivity|discriminate]).
       split; [apply tail_refl|]. rewrite E. repeat split; auto. }
  assert (Hne : toks l <> []) by (destruct l as [[|] ?]; discriminate).
  assert (P : wp (ts <- collect_balanced fuel None ;; saved_tokens_loop B fuel n (acc ++ ts)) l
     (fun ts l' => tail_of l l' /\ (length ts + size l' <= length acc + size l)%nat /\
     acc ++ map fst (toks l) = ts ++ map fst (toks l') /\
     (toks l' = [] \/ exists ts', ts = ts' ++ [TNewline]))).
  { wstep. apply wp_collect_balanced_hd; [sz|exact hd|exact I|]. intros xs l1 HT H1 H2.
    destruct (H2 eq_refl) as [H3 H4]. specialize (H4 Hne). eapply wp_mono; [apply IH; lia|].
    cbn. intros ts l2 (A1 & A2 & A3 & A4). rewrite app_length in A2.
    split; [eapply tail_trans; eauto|]. split; [lia|]. split; [|exact A4].
    rewrite H3, app_assoc. exact A3. }
  destruct t; try exact P. clear P. wstep. wstep. rewrite Eh. wstep.
  destruct l as [[|[t q] ts] e]; [discriminate|]. injection Eh as ->. split; [apply tail_tl|].
  cbn. rewrite app_length. split; [unfold size; simpl; lia|]. rewrite <- app_assoc. split; [reflexivity|].
  right. eauto.
Qed.

Lemma inked_app a b : inked (a ++ b) = inked a ++ inked b.
Proof. apply filter_app. Qed.

Lemma wp_heredoc_line strip d : forall n line p l, (size l < n)%nat ->
  wp (heredoc_line B strip d n line p) l (fun r l' => tail_of l l' /\ (size l' <= size l)%nat /\
     match r with
     | HDone => True
     | HLine line' _ => (length line' + size l' <= length line + size l)%nat /\
                        ((size l' < size l)%nat \/ line <> []) /\
                        inked line ++ inked (map fst (toks l)) = inked line' ++ inked (map fst (toks l')) /\
                        (toks l' = [] \/ exists x, line' = x ++ [TNewline])
     end).
Proof.
  induction n as [|n IH]; intros line p l Hf; [lia|]. cbn [heredoc_line]. wstep.
  set (R := fun (L : located) (ln : list token) (r : line_end) (l' : located) => tail_of L l' /\
     (size l' <= size L)%nat /\
     match r with
     | HDone => True
     | HLine line' _ => (length line' + size l' <= length ln + size L)%nat /\
                        ((size l' < size L)%nat \/ ln <> []) /\
                        inked ln ++ inked (map fst (toks L)) = inked line' ++ inked (map fst (toks l')) /\
                        (toks l' = [] \/ exists x, line' = x ++ [TNewline])
     end).
  assert (TAIL : forall ln q l1, tail_of l l1 -> (length ln + size l1 <= length line + size l)%nat ->
    inked line ++ inked (map fst (toks l)) = inked ln ++ inked (map fst (toks l1)) ->
    (size l1 < size l \/ (size l1 <= size l)%nat /\ ln = line)%nat ->
    wp (t <- next ;;
      match t with
      | None =>
          match ln with
          | [] => ret HDone
          | _ => if is_delim_line d ln then ret HDone else ret (HLine ln q)
          end
      | Some TNewline =>
          if is_delim_line d ln then ret HDone
          else ret (HLine (ln ++ [TNewline]) q)
      | Some t => heredoc_line B strip d n (ln ++ [t]) q
      end) l1 (R l line)).
  { intros ln q l1 HT H1 HI H2. wstep. wstep. dl l1.
    - destruct ln as [|t ln]; [wstep; split; [exact HT|split; auto; sz]|].
      destruct (is_delim_line _ _); wstep; (split; [exact HT|]); split; auto; try sz. split; [sz|].
      split; [|split; [exact HI|now left]].
      destruct H2 as [H2|[_ <-]]; [left; sz|right; discriminate].
    - assert (HT' : tail_of l (mkL ts e)) by (eapply tail_trans; [exact HT|apply (tail_tl (mkL ((t, p0) :: ts) e))]).
      assert (HI' : inked line ++ inked (map fst (toks l)) = inked (ln ++ [t]) ++ inked (map fst ts)).
      { rewrite HI. cbn [toks map fst]. rewrite inked_app, <- app_assoc. f_equal. apply (inked_app [t]). }
      assert (P : wp (heredoc_line B strip d n (ln ++ [t]) q) (mkL ts e) (R l line)).
      { eapply wp_mono; [apply IH; sz|]. intros r l' (A0 & A1 & A2). split; [eapply tail_trans; eauto|].
        split; [sz|]. destruct r; auto.
        destruct A2 as (A2 & A3 & A4 & A5). rewrite app_length in A2. split; [sz|]. split; [left; sz|].
        split; [|exact A5]. rewrite HI'. exact A4. }
      destruct t; try exact P.
      destruct (is_delim_line d ln); wstep; (split; [exact HT'|]); split; auto; try sz.
      rewrite app_length. cbn [length]. split; [sz|split; [left; sz|]]. split; [exact HI'|right; eauto]. }
  destruct strip.
  - wstep. wstep. dl l; try (wstep; apply TAIL; auto using tail_refl).
    destruct t; try (wstep; apply TAIL; auto using tail_refl). wstep. wstep. wstep. red_l.
    apply TAIL; [apply (tail_tl (mkL ((TWhitespace s, p0) :: ts) e))| | |left; sz].
    + destruct (trim_start_matches c_tab s); [sz|]. rewrite app_length. cbn [length]. sz.
    + cbn [toks map fst]. change (inked (TWhitespace s :: map fst ts)) with (inked (map fst ts)).
      destruct (trim_start_matches c_tab s); [reflexivity|]. rewrite inked_app. cbn. now rewrite app_nil_r.
  - wstep. apply TAIL; auto using tail_refl.
Qed.

Lemma ends_inked x : ends_line (inked (x ++ [TNewline])).
Proof. right. rewrite inked_app. eauto. Qed.

Lemma wp_heredoc_lines strip d : forall n acc l, (size l < fuel)%nat -> (size l < n)%nat ->
  (ends_line (inked (flat_map fst acc)) \/ toks l = []) ->
  wp (heredoc_lines B fuel strip d n acc) l (fun cs l' => tail_of l l' /\
     (chunk_sum cs + size l' <= chunk_sum acc + size l)%nat /\
     exists junk, inked (flat_map fst acc) ++ inked (map fst (toks l)) =
                  inked (flat_map fst cs) ++ junk ++ inked (map fst (toks l')) /\
       (ends_line (inked (flat_map fst cs)) \/ junk = [] /\ toks l' = [])).
Proof.
  induction n as [|n IH]; intros acc l Hs Hf HA; [lia|]. cbn [heredoc_lines]. wstep. wstep. wstep.
  eapply wp_mono; [apply wp_heredoc_line; lia|]. intros r l1 (H0 & H1 & H2). destruct r as [|line p].
  - wstep. split; [exact H0|]. split; [lia|]. destruct H0 as [_ [pre E]]. exists (inked (map fst pre)).
    rewrite E, map_app, inked_app. split; [reflexivity|]. destruct HA as [HA|HA]; [now left|right].
    rewrite HA in E. symmetry in E. apply app_eq_nil in E. destruct E as [-> ->]. auto.
  - destruct H2 as (H2 & [H3|H3] & H4 & H5); [|congruence]. cbn [inked filter app] in H4.
    assert (X : inked (flat_map fst (acc ++ [(line, p)])) = inked (flat_map fst acc) ++ inked line).
    { rewrite flat_map_app, inked_app. cbn [flat_map fst]. now rewrite app_nil_r. }
    eapply wp_mono; [apply IH; [lia|lia|]|].
    + rewrite X. destruct H5 as [H5|[x ->]]; [now right|left]. right. rewrite inked_app.
      cbn [inked filter]. rewrite app_assoc. eauto.
    + cbn. intros cs l2 (A0 & A1 & junk & A2 & A3).
      rewrite chunk_sum_app in A1. unfold chunk_sum in A1 at 3. simpl in A1. rewrite app_nil_r in A1.
      simpl in H2. split; [eapply tail_trans; eauto|]. split; [lia|]. exists junk. split; [|exact A3].
      rewrite <- A2, X, <- app_assoc. f_equal. exact H4.
Qed.

End Heredoc.

Section WpRedirect.
Context {B : builder} (am : ambient B).
Notation prog := (prog (bst B) (b_err B)).
Notation ok l := (Inv am l).
Notation wp := (wp am).
Notation dn := (dn am).
Notation sdn := (sdn am).
Variable fuel : nat.
Variable M : nat.
Hypothesis HM : (M + 2 < fuel)%nat.
Variable K : knots (bst B) (b_err B) (b_cmd B).
Hypothesis KG : forall cfg l, ok l -> (size l < M)%nat -> wp (k_group K cfg) l (fun _ l' => dn l l').
Hypothesis KP : forall l, ok l -> (size l <= M)%nat -> wp (k_param K) l (fun _ l' => sdn l l').

Lemma wp_redirect_heredoc fd l : ok l -> (size l <= M)%nat ->
  wp (redirect_heredoc B fuel K fd) l (fun _ l' => sdn l l').
Proof.
  intros Hl Hs. unfold redirect_heredoc. wstep. wstep. wstep.
  assert (REST : forall strip l1, HD am -> tail_of l l1 -> (size l1 < size l)%nat ->
    wp (skip_whitespace fuel ;;
  delim_tokens <- delim_tokens_loop B fuel fuel [] ;;
  '(delim, quoted) <- sub_iter (FromTokens delim_tokens) true (delim_loop B fuel fuel false []) ;;
  match delim with
  | [] => unexpected
  | _ =>
      saved_pos <- getpos ;;
      saved_tokens <- saved_tokens_loop B fuel fuel [] ;;
      heredoc_start_pos <- getpos ;;
      heredoc <- heredoc_lines B fuel strip delim fuel [] ;;
      buffer saved_tokens saved_pos ;;
      body <- (if quoted : bool then
                 ret (KSingle (KSimple (KLiteral (concat_tokens (flat_map fst heredoc)))))
               else
                 ws <- sub_iter (FromChunks heredoc_start_pos heredoc) false
                         (word_interpolated_raw fuel K None heredoc_start_pos) ;;
                 ret (heredoc_body_word ws)) ;;
      w <- build (o_word B body) ;;
      build (o_redirect B (RHeredoc fd w))
  end) l1 (fun _ l' => sdn l l')).
  { intros strip l1 hd HT1 Hs1. assert (Hl1 : ok l1) by (eapply inv_tail; eauto).
    wstep. apply wp_skip_ws; [sz|auto|]. intros l2 Hl2 Hs2 _ _ _.
    wstep. eapply wp_mono; [eapply wp_delim_tokens; eauto; lia|]. intros dts l3 [HT3 H3]. simpl in H3.
    assert (Hl3 : ok l3) by (eapply inv_tail; eauto).
    wstep. apply wp_sub; [left; assumption|]. eapply wp_mono; [apply wp_delim_loop with (M := M); auto; rewrite size_make; lia|].
    intros [delim quoted] _ _. destruct delim as [|c delim]; [now apply wp_unexpected_hd|].
    wstep. wstep. wstep. eapply wp_mono; [eapply wp_saved_tokens; eauto; lia|]. intros sts l4 (HT4 & H4 & HS4 & HE4). simpl in H4.
    assert (Hl4 : ok l4) by (eapply inv_tail; eauto).
    wstep. wstep. wstep. eapply wp_mono; [eapply wp_heredoc_lines; eauto; [lia|lia|left; now left]|].
    intros cs l5 (HT5 & H5 & junk & HJ & HE5).
    unfold chunk_sum in H5 at 2. simpl in H5. wstep. apply wp_buffer. wstep.
    assert (Hbuf : ok (l_buffer sts (l_pos l3) l5)).
    { apply (hd_inv _ am hd). apply (inv_shape _ am hd) in Hl3. eapply shape_short; [exact Hl3|].
      destruct HT5 as [_ [pre E5]]. exists [], (inked sts), (inked (map fst pre)), (inked (map fst (toks l5))).
      cbn [app] in HS4. rewrite HS4, E5, map_app, !inked_app. split; [reflexivity|].
      unfold l_buffer. cbn [toks]. rewrite map_app, locate_fst, inked_app. split; [reflexivity|].
      destruct HE4 as [HE4|[x ->]]; [left|right; apply ends_inked].
      rewrite HE4 in E5. symmetry in E5. apply app_eq_nil in E5. destruct E5 as [-> _]. reflexivity. }
    assert (Hsub : ok (l_make (FromChunks (l_pos l4) cs))).
    { apply (hd_inv _ am hd). apply (inv_shape _ am hd) in Hl4. eapply shape_short; [exact Hl4|].
      exists [], (inked (flat_map fst cs)), (junk ++ inked (map fst (toks l5))), [].
      cbn in HJ. rewrite HJ, !app_nil_r. split; [reflexivity|]. split; [now rewrite make_chunks_fst|].
      destruct HE5 as [HE5|[-> HE5]]; [now right|left]. now rewrite HE5. }
    assert (E : forall body, wp (w <- build (o_word B body);; build (o_redirect B (RHeredoc fd w)))
       (l_buffer sts (l_pos l3) l5) (fun _ l' => sdn l l')).
    { intros body. wstep. apply wp_build; [apply bk_word|]. intros w. apply wp_build; [apply bk_redirect|].
      intros r. split; [auto|]. rewrite size_buffer. lia. }
    destruct quoted.
    - wstep. apply E.
    - wstep. apply wp_sub; [left; assumption|]. eapply wp_mono; [eapply wp_interpolated with (M := M); auto; rewrite size_make; lia|].
      intros ws _ _. wstep. apply E. }
  dl l; [wstep|]. destruct t; try (solve [wstep]).
  - wstep. wstep. wstep. red_l. apply REST; [|apply (tail_tl (mkL ((_, p) :: ts) e))|sz]. eapply inv_hd; [exact Hl|simpl; eauto|auto].
  - wstep. wstep. wstep. red_l. apply REST; [|apply (tail_tl (mkL ((_, p) :: ts) e))|sz]. eapply inv_hd; [exact Hl|simpl; eauto|auto].
Qed.

Lemma wp_get_path l : ok l -> (size l <= M)%nat -> wp (get_path B fuel K) l (fun _ l' => dn l l').
Proof.
  intros Hl Hs. unfold get_path. wstep. eapply wp_mono; [eapply wp_word_raw; eauto|].
  intros w l1 [[H1 H2] H3]. destruct w; [|wstep]. apply wp_build; [apply bk_word|]. intros; dnn.
Qed.

Lemma wp_get_dup_path l : ok l -> (size l <= M)%nat -> wp (get_dup_path B fuel K) l (fun _ l' => dn l l').
Proof.
  intros Hl Hs. unfold get_dup_path. wstep. apply wp_peek_reserved_token; [sz|okk|reflexivity|].
  intros l1 H1 H2 _. wstep.
  assert (E : forall path l2, ok l2 -> (size l2 <= size l)%nat ->
     wp (build (o_word B path)) l2 (fun _ l' => dn l l')).
  { intros p l2 A1 A2. apply wp_build; [apply bk_word|]. intros; dnn. }
  destruct (rt_found [TDash] (map fst (toks l1))).
  - wstep. apply wp_reserved_token; [sz|okk|reflexivity|discriminate|]. intros t' l2 _ H3 H4.
    wstep. apply E; auto. lia.
  - wstep. wstep. wstep. eapply wp_mono; [eapply wp_word_raw; eauto; lia|].
    intros w l2 [[H3 H4] H5]. destruct w as [w|]; [|wstep].
    destruct (match w with KSingle p => could_be_numeric p | KConcat v => forallb could_be_numeric v end).
    + wstep. apply E; auto. lia.
    + wstep. wstep. apply wp_throw. split; apply inv_pos; auto.
Qed.

Lemma wp_redirect_op op fd l : ok l -> (size l <= M)%nat ->
  In op [TLess; TGreat; TDGreat; TClobber; TLessAnd; TGreatAnd; TLessGreat] ->
  wp (redirect_op B fuel K op fd) l (fun _ l' => dn l l').
Proof.
  intros Hl Hs Hop. unfold redirect_op. wstep. wstep. wstep.
  assert (E : forall r l2, ok l2 -> (size l2 <= size l)%nat ->
     wp (build (o_redirect B r)) l2 (fun _ l' => dn l l')).
  { intros p l2 A1 A2. apply wp_build; [apply bk_redirect|]. intros; dnn. }
  simpl in Hop. intuition subst;
    (wstep; apply wp_dn; [first [apply wp_get_path|apply wp_get_dup_path]; auto; lia|];
     intros w l1 H1 H2; wstep; apply E; auto; lia).
Qed.

Lemma wp_redirect_after fd w l : ok l -> (size l <= M)%nat ->
  wp (redirect_after B fuel K fd w) l (fun r l' => dn l l' /\
     (match r with Some (inl _) => (size l' < size l)%nat | Some (inr _) => w <> None | None => w = None end)).
Proof.
  intros Hl Hs. unfold redirect_after. wstep. wstep.
  assert (D : wp (match w with
      | Some w => w <- build (o_word B w) ;; ret (Some (inr w))
      | None => ret None
      end : prog (option (b_redirect B + b_word B))) l (fun r l' => dn l l' /\
     (match r with Some (inl _) => (size l' < size l)%nat | Some (inr _) => w <> None | None => w = None end))).
  { destruct w.
    - wstep. apply wp_build; [apply bk_word|]. intros w. wstep. split; [dnn|discriminate].
    - wstep. split; [dnn|auto]. }
  dl l; [exact D|].
  destruct t; try exact D;
    try (wstep; wstep; red_l; wstep; apply wp_dn;
         [apply wp_redirect_op; [okk|sz|simpl; tauto]|]; intros r l1 H1 H2; wstep; split; [dnn|sz]).
  all: wstep; apply wp_sdn; [apply wp_redirect_heredoc; auto|];
    intros r l1 H1 H2; wstep; split; [dnn|sz].
Qed.

(** [redirect] finds nothing, or consumes something. *)
Lemma wp_redirect l : ok l -> (size l <= M)%nat ->
  wp (redirect B fuel K) l (fun r l' => some_lt am l r l').
Proof.
  intros Hl Hs. unfold redirect. wstep. eapply wp_mono; [eapply wp_word_raw; eauto|].
  intros w l1 [[H1 H2] H3]. destruct w as [w|].
  - specialize (H3 ltac:(discriminate)). destruct (word_as_num w).
    + eapply wp_mono; [apply wp_redirect_after; auto; lia|]. intros r l2 [[A1 A2] A3]. split; [dnn|]. intros; lia.
    + wstep. apply wp_build; [apply bk_word|]. intros r. wstep. split; [dnn|]. intros; lia.
  - eapply wp_mono; [apply wp_redirect_after; auto; lia|]. intros r l2 [[A1 A2] A3]. split; [dnn|].
    destruct r as [[r|r]|]; [intros; lia|congruence|congruence].
Qed.

Lemma wp_redirect_list_loop : forall n acc l, ok l -> (size l <= M)%nat -> (size l < n)%nat ->
  wp (redirect_list_loop B fuel K n acc) l (fun _ l' => dn l l').
Proof.
  induction n as [|n IH]; intros acc l Hl Hs Hf; [lia|]. cbn [redirect_list_loop].
  wstep. wstep. wstep. wstep. wstep. eapply wp_mono; [apply wp_redirect; [okk|sz]|].
  intros r l1 [[H1 H2] H3]. destruct r as [[r|r]|].
  - specialize (H3 ltac:(discriminate)). apply wp_dn; [apply IH; [okk|lia|lia]|]. intros a l2 A1 A2. dnn.
  - wstep. wstep. apply wp_throw. split; apply inv_pos; auto.
  - wstep. dnn.
Qed.
Lemma wp_redirect_list l : ok l -> (size l <= M)%nat ->
  wp (redirect_list B fuel K) l (fun _ l' => dn l l').
Proof. intros. apply wp_redirect_list_loop; auto. lia. Qed.

Lemma wp_word l : ok l -> (size l <= M)%nat ->
  wp (word B fuel K) l (fun r l' => some_lt am l r l' /\ ws_free (toks l')).
Proof.
  intros Hl Hs. unfold word, word_preserve_trailing_whitespace. wstep. wstep.
  eapply wp_mono; [eapply wp_word_raw; eauto|]. intros w l1 [[H1 H2] H3]. destruct w as [w|].
  - specialize (H3 ltac:(discriminate)). wstep. apply wp_build; [apply bk_word|]. intros r. wstep. wstep.
    wstep. wstep. split; [split; [dnn|]; intros; lia|auto].
  - wstep. wstep. wstep. wstep. split; [split; [dnn|]; congruence|auto].
Qed.

Lemma wp_word_pres l : ok l -> (size l <= M)%nat ->
  wp (word_preserve_trailing_whitespace B fuel K) l (fun r l' => some_lt am l r l').
Proof.
  intros Hl Hs. unfold word_preserve_trailing_whitespace. wstep.
  eapply wp_mono; [eapply wp_word_raw; eauto|]. intros w l1 [[H1 H2] H3]. destruct w as [w|].
  - specialize (H3 ltac:(discriminate)). wstep. apply wp_build; [apply bk_word|]. intros r. wstep.
    split; [dnn|]; intros; lia.
  - wstep. split; [dnn|]; congruence.
Qed.

End WpRedirect.
