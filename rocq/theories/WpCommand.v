(** * The walk over commands, and the recursive knot *)
From Coq Require Import String.
From Verif Require Import Base Token Pos Ast Prog Located RunLemmas ParserBase BaseRun
  Balanced BalancedSpec BalancedProofs BalancedTotal Builder Wp Arith WpArith Word WpWord
  Redirect WpRedirect Command.

Section WpReserved.
Context {B : builder} (am : ambient B).
Notation prog := (prog (bst B) (b_err B)).
Notation ok l := (Inv am l).
Notation wp := (wp am).
Notation dn := (dn am).
Notation sdn := (sdn am).
Variable fuel : nat.

Lemma wp_exact {A} (p : prog A) l a l' (Q : A -> located -> Prop) :
  (forall b, lrun p l b = (OOk a, l', b)) -> Q a l' -> wp p l Q.
Proof. intros H HQ b Hb. rewrite H. auto. Qed.

(** [peek_reserved_token] for any tokens, blanks included. *)
Lemma wp_peek_reserved_token_any tokens l (Q : option token -> located -> Prop) :
  (size l < fuel)%nat -> ok l ->
  (forall r l', ok l' -> (size l' <= size l)%nat ->
     (forall t, r = Some t -> In t tokens /\ l_hd l' = Some t) -> Q r l') ->
  wp (peek_reserved_token fuel tokens) l Q.
Proof.
  intros Hf Hl HQ. destruct (existsb is_whitespace_tok tokens) eqn:Hw.
  - intros b Hb. destruct l as [ts e]. rewrite lrun_peek_reserved_token_ws by auto.
    assert (HD : forall ts' t, rt_found tokens (map fst ts') = Some t ->
              In t tokens /\ l_hd (mkL ts' e) = Some t).
    { intros ts' t H. destruct (rt_found_in _ _ _ H) as [H1 [r H2]]. split; auto.
      destruct ts' as [|[? ?] ?]; simpl in *; [discriminate|]. unfold l_hd; simpl. congruence. }
    destruct (rt_found tokens (map fst ts)) as [t|] eqn:E.
    + split; auto. apply HQ; auto. intros t' [= <-]. auto.
    + split; auto. destruct (skip_ws_suffix ts) as [pre E']. apply HQ; auto.
      * apply (inv_suffix _ am pre). now rewrite <- E'.
      * apply skip_ws_length.
  - apply wp_peek_reserved_token; auto. intros l' H1 H2 H3. apply HQ; auto.
    intros t Ht. destruct tokens as [|t0 tokens]; [discriminate|].
    destruct (rt_found_in _ _ _ Ht) as [A1 [r A2]]. split; auto.
    destruct l' as [[|[? ?] ?] ?]; simpl in *; [discriminate|]. unfold l_hd; simpl. congruence.
Qed.

Lemma wp_reserved_token_res_any tokens l (Q : token + perr (b_err B) -> located -> Prop) :
  (size l < fuel)%nat -> ok l ->
  (forall t l', In t tokens -> ok l' -> (size l' < size l)%nat -> Q (inl t) l') ->
  (forall e l', ok l' -> (size l' <= size l)%nat -> err_ok am l' e -> Q (inr e) l') ->
  wp (reserved_token_res fuel tokens) l Q.
Proof.
  intros Hf Hl H1 H2. unfold reserved_token_res. wstep.
  apply wp_peek_reserved_token_any; auto. intros r l' Hl' Hs Hr. destruct r as [t|].
  - destruct (Hr t eq_refl) as [Hin Hh]. wstep. wstep. rewrite Hh. wstep. apply H1; auto.
    + okk.
    + rewrite size_tl. assert (size l' <> 0)%nat; [|lia].
      unfold size. destruct l' as [[|] ?]; simpl in *; [discriminate|lia].
  - wstep. wstep. wstep.
    assert (K : forall l2, ok l2 -> (size l2 <= size l)%nat ->
      wp (e <- make_unexpected_err;; ret (inr e)) l2 Q).
    { intros l2 Hl2 Hs2. wstep. apply wp_make_unexpected; auto. intros e l3 Hl3 Hs3 He.
      wstep. apply H2; auto. lia. }
    destruct (existsb _ tokens).
    + wstep. wstep. wstep. apply K; [okk|]. rewrite size_tl. lia.
    + wstep. apply K; auto.
Qed.

Lemma wp_reserved_token_any tokens l (Q : token -> located -> Prop) :
  (size l < fuel)%nat -> ok l ->
  (forall t l', In t tokens -> ok l' -> (size l' < size l)%nat -> Q t l') ->
  wp (reserved_token fuel tokens) l Q.
Proof.
  intros Hf Hl H1. unfold reserved_token. wstep. apply wp_reserved_token_res_any; auto.
  - intros t l' H2 H3 H4. wstep. auto.
  - intros e l' H2 H3 H4. apply wp_throw. auto.
Qed.

(** The opening brace, when no blank comes first. *)
Lemma wp_reserved_curly l (Q : token -> located -> Prop) :
  (size l < fuel)%nat -> ok l -> ws_free (toks l) ->
  (forall l', TokAt am TCurlyOpen (l_pos l) -> ok l' -> (size l' < size l)%nat -> Q TCurlyOpen l') ->
  wp (reserved_token fuel [TCurlyOpen]) l Q.
Proof.
  intros Hf Hl Hfr H1. unfold reserved_token, reserved_token_res. wstep. wstep.
  destruct l as [ts e]. cbn [toks] in Hfr.
  eapply wp_exact; [intros b; rewrite lrun_peek_reserved_token by auto; reflexivity|]. rewrite Hfr.
  destruct (rt_found [TCurlyOpen] (map fst ts)) as [t|] eqn:E.
  - destruct (rt_found_in _ _ _ E) as [[<-|[]] [r Hr]]. destruct ts as [|[t p] ts]; [discriminate|].
    simpl in Hr. injection Hr as -> _.
    wstep. wstep. red_l. wstep. wstep. apply H1; [eapply tok_cons; eauto|okk|sz].
  - wstep. wstep. wstep.
    assert (K : forall l2, ok l2 ->
      wp (e <- make_unexpected_err;; ret (inr e)) l2
       (fun (a : token + perr (b_err B)) (l' : located) =>
          wp match a with inl t => ret t | inr e => throw e end l' Q)).
    { intros l2 Hl2. wstep. apply wp_make_unexpected; auto. intros e' l3 Hl3 Hs3 He.
      wstep. apply wp_throw. auto. }
    destruct (existsb _ [TCurlyOpen]).
    + wstep. wstep. wstep. apply K. okk.
    + wstep. apply K. auto.
Qed.

End WpReserved.

Section WpCommand.
Context {B : builder} (am : ambient B).
Notation prog := (prog (bst B) (b_err B)).
Notation ok l := (Inv am l).
Notation wp := (wp am).
Notation dn := (dn am).
Notation sdn := (sdn am).
Variable fuel : nat.
Variable M : nat.
Hypothesis HM : (M + 2 < fuel)%nat.
Variable K : knots (bst B) (b_err B) (b_cmd B).
Hypothesis KG : forall cfg l, ok l -> (size l < M)%nat -> wp (k_group K cfg) l (fun _ l' => dn l l').
Hypothesis KP : forall l, ok l -> (size l <= M)%nat -> wp (k_param K) l (fun _ l' => sdn l l').

Ltac kw := repeat (lazymatch goal with
  | |- context [str_eqb ?a ?b] =>
      let v := eval vm_compute in (str_eqb a b) in change (str_eqb a b) with v; cbv iota
  end).
Ltac inc := apply wp_throw; split; [|split]; [assumption|apply inv_pos; solve [okk]|
  unfold incomplete_ok; simpl; tauto].
Ltac rw := apply wp_reserved_word; [sz|solve [okk]|discriminate| |].

(** Simple commands. *)
Lemma wp_simple_vars : forall n vars l, ok l -> (size l <= M)%nat -> (size l < n)%nat ->
  wp (simple_vars_loop B fuel K n vars) l
    (fun r l' => dn l l' /\ (r = (vars, None) \/ (size l' < size l)%nat)).
Proof.
  induction n as [|n IH]; intros vars l Hl Hs Hf; [lia|]. cbn [simple_vars_loop].
  assert (REC : forall vars' l1, ok l1 -> (size l1 < size l)%nat ->
    wp (simple_vars_loop B fuel K n vars') l1
      (fun r l' => dn l l' /\ (r = (vars, None) \/ (size l' < size l)%nat))).
  { intros vars' l1 H1 H2. eapply wp_mono; [apply IH; [okk|lia|lia]|].
    intros a l' [[H3 H4] _]. split; [split; [okk|lia]|right; lia]. }
  wstep. wstep. wstep. wstep.
  destruct (look assignment_try (map fst (toks l0))) eqn:E.
  - wstep. wstep. destruct l0 as [[|[t p] ts] e]; simpl in E; [discriminate|].
    destruct t; simpl in E; try discriminate. red_l. wstep. wstep. wstep. wstep. wstep.
    assert (okt : ok (l_tl (mkL ts e))) by okk.
    assert (st : (size (l_tl (mkL ts e)) < size l)%nat) by (rewrite size_tl; sz).
    assert (W : forall l2, ok l2 -> (size l2 < size l)%nat ->
       wp (word B fuel K) l2 (fun value l' => 
       wp (simple_vars_loop B fuel K n (vars ++ [EEnvVar s value])) l'
          (fun r l' => dn l l' /\ (r = (vars, None) \/ (size l' < size l)%nat)))).
    { intros l2 A1 A2. eapply wp_mono; [eapply wp_word; eauto; lia|]. intros w l3 [[[H1 H2] _] _].
      apply REC; auto. lia. }
    destruct (l_hd (l_tl (mkL ts e))) as [t|]; [|apply W; auto].
    destruct t; try (apply W; auto). wstep. apply REC; auto.
  - wstep. eapply wp_mono; [eapply wp_redirect; eauto; lia|]. intros r l1 [[H1 H2] H3].
    destruct r as [[r|w]|].
    + specialize (H3 ltac:(discriminate)). apply REC; [auto|lia].
    + specialize (H3 ltac:(discriminate)). wstep. split; [dnn|right; lia].
    + wstep. split; [dnn|auto].
Qed.

Lemma wp_simple_args : forall n args l, ok l -> (size l <= M)%nat -> (size l < n)%nat ->
  wp (simple_args_loop B fuel K n args) l
    (fun r l' => dn l l' /\ (r = args \/ (size l' < size l)%nat)).
Proof.
  induction n as [|n IH]; intros args l Hl Hs Hf; [lia|]. cbn [simple_args_loop].
  assert (REC : forall vars' l1, ok l1 -> (size l1 < size l)%nat ->
    wp (simple_args_loop B fuel K n vars') l1
      (fun r l' => dn l l' /\ (r = args \/ (size l' < size l)%nat))).
  { intros vars' l1 H1 H2. eapply wp_mono; [apply IH; [okk|lia|lia]|].
    intros a l' [[H3 H4] _]. split; [split; [okk|lia]|right; lia]. }
  wstep. eapply wp_mono; [eapply wp_redirect; eauto; lia|]. intros r l1 [[H1 H2] H3].
  destruct r as [[r|w]|].
  + specialize (H3 ltac:(discriminate)). apply REC; [auto|lia].
  + specialize (H3 ltac:(discriminate)). apply REC; [auto|lia].
  + wstep. split; [dnn|auto].
Qed.

Lemma wp_simple_command l : ok l -> (size l <= M)%nat ->
  wp (simple_command B fuel K) l (fun _ l' => sdn l l').
Proof.
  intros Hl Hs. unfold simple_command. wstep. eapply wp_mono; [apply wp_simple_vars; [okk|lia|lia]|].
  intros [vars exec] l1 [[H1 H2] H3]. wstep. eapply wp_mono; [apply wp_simple_args; [okk|lia|lia]|].
  intros args l2 [[H4 H5] H6].
  destruct (is_nil vars && is_nil args) eqn:E; [wstep|].
  apply wp_build; [apply bk_simple_command|]. intros _. split; [auto|].
  destruct H3 as [[= -> ->]|H3]; [|lia]. destruct H6 as [->|H6]; [discriminate E|lia].
Qed.

(** Groups. *)
Lemma wp_command_group cfg l : ok l -> (size l < M)%nat ->
  wp (command_group B K cfg) l (fun _ l' => dn l l').
Proof.
  intros Hl Hs. unfold command_group. wstep. apply wp_dn; [apply KG; auto|]. intros g l1 H1 H2.
  destruct (is_nil (commands g)); wstep. dnn.
Qed.

Lemma wp_do_group l : ok l -> (size l <= M)%nat -> Direct am \/ ws_free (toks l) ->
  wp (do_group B fuel K) l (fun _ l' => sdn l l').
Proof.
  intros Hl Hs Hd. unfold do_group. wstep. wstep. wstep. rw.
  - intros w l1 l2 Kf Kt Kw H1 H2. assert (Hc : cmd_at am DO (l_pos l)).
    { eapply cmd_at_found; eauto. destruct Kw as [<-|[]]. now left. }
    wstep. apply wp_dn; [apply wp_command_group; [auto|lia]|].
    intros g l3 H3 H4. wstep. rw.
    + intros w2 l4 l5 _ _ _ H5 H6. wstep. split; [auto|lia].
    + intros l4 _ _ H5 H6. wstep. wstep. inc.
  - intros l1 _ _ H1 H2. wstep.
Qed.

Lemma wp_brace_group l : ok l -> (size l <= M)%nat -> ws_free (toks l) ->
  wp (brace_group B fuel K) l (fun _ l' => sdn l l').
Proof.
  intros Hl Hs Hfr. unfold brace_group. wstep. wstep. wstep. apply wp_reserved_curly; [sz|auto|auto|].
  intros l1 HT H1 H2. wstep. apply wp_dn; [apply wp_command_group; [auto|lia]|]. intros g l2 H3 H4.
  wstep. apply wp_reserved_token_res_any; [sz|auto| |].
  - intros t l3 _ H5 H6. wstep. split; [auto|lia].
  - intros e l3 _ _ _. apply wp_throw. split; [exact HT|]. split; [unfold opener; tauto|congruence].
Qed.

Lemma wp_subshell l : ok l -> (size l <= M)%nat -> wp (subshell B K) l (fun _ l' => sdn l l').
Proof. intros Hl Hs. eapply wp_subshell_internal; eauto. Qed.

Lemma wp_next_compound l : ok l -> (size l <= M)%nat ->
  wp (next_compound_command_type B fuel) l (fun _ l' => dn l l' /\ ws_free (toks l')).
Proof.
  intros Hl Hs. unfold next_compound_command_type. wstep. wstep. wstep. wstep.
  destruct (otoken_eqb _ _); [wstep; split; [dnn|auto]|].
  wstep. apply wp_peek_reserved_token; [sz|okk|reflexivity|]. intros l1 H1 H2 H3.
  destruct (rt_found [TCurlyOpen] (map fst (toks l1))).
  { wstep. split; [dnn|apply H3; discriminate]. }
  wstep. apply wp_peek_reserved_word; [sz|okk|]. intros l2 H4 H5 H6 _. wstep.
  split; [dnn|apply H6; discriminate].
Qed.

Lemma wp_loop_command l : ok l -> (size l <= M)%nat -> Direct am \/ ws_free (toks l) ->
  wp (loop_command B fuel K) l (fun _ l' => sdn l l').
Proof.
  intros Hl Hs Hd. unfold loop_command. wstep. wstep. wstep. rw.
  - intros w l1 l2 Kf Kt Hin H1 H2. assert (Hc : cmd_at am WHILE (l_pos l)).
    { eapply cmd_at_found; eauto. destruct Hin as [<-|[<-|[]]]; auto. }
    wstep.
    assert (REST : forall kind, wp (guard <- command_group B K (mkDelims [] [DO] []) ;;
      d <- peek_reserved_word fuel [DO] ;;
      match d with
      | Some _ => body <- do_group B fuel K ;; ret (kind, mkGBP guard body)
      | None => p <- getpos ;; throw (IncompleteCmd WHILE (l_pos l) DO p)
      end) l2 (fun (_ : loop_kind * gbpair (b_cmd B)) l' => sdn l l')).
    { intros kind. wstep. apply wp_dn; [apply wp_command_group; [auto|lia]|]. intros g l3 H3 H4.
      wstep. apply wp_peek_reserved_word; [sz|okk|]. intros l4 H5 H6 Hw _. specialize (Hw ltac:(discriminate)) as [Hw _].
      destruct (rw_found [DO] (map fst (toks l4))).
      - wstep. apply wp_sdn; [apply wp_do_group; [auto|lia|auto]|]. intros body l5 H7 H8. wstep. split; [auto|lia].
      - wstep. wstep. inc. }
    simpl in Hin. destruct Hin as [<-|[<-|[]]]; (kw; wstep; apply REST).
  - intros l1 _ _ H1 H2. wstep.
Qed.

Lemma wp_if_loop sp : cmd_at am IF sp -> forall n conds l, ok l -> (size l < M)%nat -> (size l < n)%nat ->
  wp (if_loop B fuel K sp n conds) l (fun _ l' => dn l l').
Proof.
  intros Hsp. induction n as [|n IH]; intros conds l Hl Hs Hf; [lia|]. cbn [if_loop].
  wstep. apply wp_dn; [apply wp_command_group; [auto|lia]|]. intros g l1 H1 H2. wstep. rw.
  - intros w l2 l3 _ _ _ H3 H4. wstep. apply wp_dn; [apply wp_command_group; [auto|lia]|].
    intros body l4 H5 H6. wstep. rw.
    + intros k l5 l6 _ _ Hin H7 H8. simpl in Hin. destruct Hin as [<-|[<-|[<-|[]]]]; kw.
      * apply wp_dn; [apply IH; [auto|lia|lia]|]. intros a l7 H9 H10. dnn.
      * wstep. apply wp_dn; [apply wp_command_group; [auto|lia]|]. intros els l7 H9 H10. wstep. rw.
        -- intros w2 l8 l9 _ _ _ H11 H12. wstep. dnn.
        -- intros l8 _ _ H11 H12. wstep. wstep. inc.
      * wstep. dnn.
    + intros l5 _ _ H7 H8. wstep. wstep. inc.
  - intros l2 _ _ H3 H4. wstep. wstep. inc.
Qed.

Lemma wp_if_command l : ok l -> (size l <= M)%nat -> Direct am \/ ws_free (toks l) ->
  wp (if_command B fuel K) l (fun _ l' => sdn l l').
Proof.
  intros Hl Hs Hd. unfold if_command. wstep. wstep. wstep. rw.
  - intros w l1 l2 Kf Kt Kw H1 H2. assert (Hc : cmd_at am IF (l_pos l)).
    { eapply cmd_at_found; eauto. destruct Kw as [<-|[]]. now left. }
    apply wp_dn; [apply wp_if_loop; [auto|auto|lia|lia]|].
    intros a l3 H3 H4. split; [auto|lia].
  - intros l1 _ _ H1 H2. wstep.
Qed.

Lemma wp_words_loop : forall n acc l, ok l -> (size l <= M)%nat -> (size l < n)%nat ->
  wp (words_loop B fuel K n acc) l (fun _ l' => dn l l').
Proof.
  induction n as [|n IH]; intros acc l Hl Hs Hf; [lia|]. cbn [words_loop]. wstep.
  eapply wp_mono; [eapply wp_word; eauto; lia|]. intros w l1 [[[H1 H2] H3] _]. destruct w.
  - specialize (H3 ltac:(discriminate)). apply wp_dn; [apply IH; [auto|lia|lia]|]. intros a l2 A1 A2. dnn.
  - wstep. dnn.
Qed.

Lemma wp_for_words sp pvc l : ok l -> (size l <= M)%nat -> cmd_at am FOR sp ->
  wp (for_words B fuel K sp pvc) l (fun _ l' => dn l l').
Proof.
  intros Hl Hs Hsp. unfold for_words. wstep. apply wp_peek_reserved_word; [sz|okk|].
  intros l1 H1 H2 H3 _. destruct (H3 ltac:(discriminate)) as [Hfr _].
  destruct (rw_found [IN] (map fst (toks l1))) eqn:E.
  - wstep. rw.
    + intros w l2 l3 _ _ _ H4 H5. wstep. apply wp_dn; [apply wp_words_loop; [auto|lia|lia]|].
      intros ws l4 H6 H7. wstep.
      assert (REST : forall (fs : bool) l5, ok l5 -> (size l5 <= size l4)%nat ->
        wp (words_comment <- newline fuel ;;
          if negb fs && match words_comment with None => true | Some _ => false end
          then unexpected
          else
            lb <- linebreak fuel ;;
            ret (Some (pvc, ws, words_comment), lb)) l5 (fun _ l' => dn l l')).
      { intros fs l5 A1 A2. wstep. apply wp_newline; [sz|auto| |].
        - intros x l6 A3 A4. rewrite Bool.andb_false_r. wstep. apply wp_linebreak; [sz|auto|].
          intros xs l7 A5 A6 _. wstep. dnn.
        - intros l6 A3 A4 _. destruct fs; simpl; [|wstep]. wstep. apply wp_linebreak; [sz|auto|].
          intros xs l7 A5 A6 _. wstep. dnn. }
      wstep; apply REST; auto; sz.
    + intros l2 Hn Ht _ _. rewrite Ht, Hfr in Hn. congruence.
  - wstep. wstep. destruct (otoken_eqb _ _).
    + wstep. wstep. wstep. apply wp_linebreak; [sz|auto|]. intros xs l3 A1 A2 _. wstep. dnn.
    + wstep. apply wp_peek_reserved_word; [sz|okk|]. intros l2 H4 H5 _ _.
      destruct (rw_found [DO] (map fst (toks l2))).
      * wstep. dnn.
      * wstep. wstep. inc.
Qed.

Lemma wp_for_command l : ok l -> (size l <= M)%nat -> Direct am \/ ws_free (toks l) ->
  wp (for_command B fuel K) l (fun _ l' => sdn l l').
Proof.
  intros Hl Hs Hd. unfold for_command. wstep. wstep. wstep. rw.
  - intros w l1 l2 Kf Kt Kw H1 H2. assert (Hc : cmd_at am FOR (l_pos l)).
    { eapply cmd_at_found; eauto. destruct Kw as [<-|[]]. now left. }
    wstep. wstep. wstep. wstep. dl l0; [wstep|].
    destruct t; try (solve [wstep]).
    + wstep. wstep. wstep. wstep. red_l. apply wp_throw. eapply tok_cons; eauto.
    + wstep. wstep. wstep. wstep. red_l. wstep.
      assert (REST : forall vc l3, ok l3 -> (size l3 < size l)%nat -> wp (post_var_comments <- linebreak fuel ;;
              '(words, pre_body_comments) <- for_words B fuel K (l_pos l) post_var_comments ;;
              d <- peek_reserved_word fuel [DO] ;;
              match d with
              | None => q <- getpos ;; throw (IncompleteCmd FOR (l_pos l) DO q)
              | Some _ =>
                  body <- do_group B fuel K ;;
                  ret (mkFF s vc words pre_body_comments body)
              end) l3 (fun _ l' => sdn l l')).
      { intros vc l3 A1 A2. wstep. apply wp_linebreak; [sz|auto|]. intros xs l4 A3 A4 _.
        wstep. apply wp_dn; [apply wp_for_words; [auto|sz|auto]|].
        intros [ws pbc] l5 A5 A6. wstep. apply wp_peek_reserved_word; [sz|okk|]. intros l6 A7 A8 Hw _. specialize (Hw ltac:(discriminate)) as [Hw _].
        destruct (rw_found [DO] (map fst (toks l6))).
        - wstep. apply wp_sdn; [apply wp_do_group; [auto|lia|auto]|]. intros body l7 A9 A10. wstep. split; [auto|lia].
        - wstep. wstep. inc. }
      apply wp_newline; [sz|okk| |].
      * intros x l3 A1 A2. apply REST; [auto|sz].
      * intros l3 A1 A2 _. apply REST; [auto|sz].
  - intros l1 _ _ H1 H2. wstep.
Qed.

Lemma wp_patterns sp : cmd_at am CASE sp -> forall n acc l, ok l -> (size l <= M)%nat -> (size l < n)%nat ->
  wp (patterns_loop B fuel K sp n acc) l (fun _ l' => sdn l l').
Proof.
  intros Hsp. induction n as [|n IH]; intros acc l Hl Hs Hf; [lia|]. cbn [patterns_loop]. wstep.
  eapply wp_mono; [eapply wp_word; eauto; lia|]. intros w l1 [[[H1 H2] H3] _]. destruct w as [w|]; [|wstep].
  specialize (H3 ltac:(discriminate)). wstep. wstep. dl l1.
  - wstep. wstep. inc.
  - destruct t; try (solve [wstep]).
    + wstep. wstep. red_l. wstep. split; [okk|sz].
    + wstep. wstep. red_l. apply wp_sdn; [apply IH; [okk|sz|sz]|]. intros a l2 A1 A2. split; [okk|sz].
Qed.

Lemma wp_arms sp : cmd_at am CASE sp -> forall n arms l, ok l -> (size l < M)%nat -> (size l < n)%nat ->
  wp (arms_loop B fuel K sp n arms) l (fun _ l' => dn l l').
Proof.
  intros Hsp. induction n as [|n IH]; intros acc l Hl Hs Hf; [lia|]. cbn [arms_loop]. wstep.
  apply wp_linebreak; [sz|auto|]. intros xs l1 H1 H2 _. wstep. apply wp_peek_reserved_word; [sz|okk|].
  intros l2 H3 H4 _ _. destruct (rw_found [ESAC] (map fst (toks l2))); [wstep; dnn|].
  assert (REST : forall l3, ok l3 -> (size l3 <= size l2)%nat ->
    wp (p <- peek ;;
          match p with
          | None => q <- getpos ;; throw (IncompleteCmd CASE sp ESAC q)
          | Some _ =>
              patterns <- patterns_loop B fuel K sp fuel [] ;;
              pattern_comment <- newline fuel ;;
              body <- k_group K (mkDelims [] [ESAC] [TDSemi]) ;;
              d <- eat_maybe TDSemi ;;
              if d : bool then
                arm_comment <- newline fuel ;;
                arms_loop B fuel K sp n
                  (acc ++ [mkCA (mkCP xs patterns pattern_comment)
                                 body arm_comment])
              else
                ret (acc ++ [mkCA (mkCP xs patterns pattern_comment)
                                   body None], [])
          end) l3 (fun _ l' => dn l l')).
  { intros l3 A1 A2. wstep. wstep. destruct (l_hd l3) eqn:E.
    - wstep. apply wp_sdn; [apply wp_patterns; [auto|auto|lia|lia]|]. intros pats l4 A3 A4.
      wstep.
      assert (REST : forall pc l5, ok l5 -> (size l5 <= size l4)%nat -> wp
             (body <- k_group K (mkDelims [] [ESAC] [TDSemi]) ;;
              d <- eat_maybe TDSemi ;;
              if d : bool then
                arm_comment <- newline fuel ;;
                arms_loop B fuel K sp n
                  (acc ++ [mkCA (mkCP xs pats pc)
                                 body arm_comment])
              else
                ret (acc ++ [mkCA (mkCP xs pats pc)
                                   body None], [])) l5 (fun _ l' => dn l l')).
      { intros pc l5 A5 A6. wstep. apply wp_dn; [apply KG; [auto|lia]|]. intros g l6 A7 A8. wstep. wstep.
        - wstep. apply wp_newline; [sz|auto| |].
          + intros x l7 A9 A10. apply wp_dn; [apply IH; [auto|sz|sz]|]. intros a l8 A11 A12. dnn.
          + intros l7 A9 A10 _. apply wp_dn; [apply IH; [auto|sz|sz]|]. intros a l8 A11 A12. dnn.
        - wstep. dnn. }
      apply wp_newline; [sz|okk| |].
      * intros x l5 A5 A6. apply REST; [auto|lia].
      * intros l5 A5 A6 _. apply REST; auto.
    - wstep. wstep. inc. }
  wstep. wstep; apply REST; auto; sz.
Qed.

Lemma wp_case_command l : ok l -> (size l <= M)%nat -> Direct am \/ ws_free (toks l) ->
  wp (case_command B fuel K) l (fun _ l' => sdn l l').
Proof.
  intros Hl Hs Hd. unfold case_command. wstep. wstep. wstep. rw.
  - intros w l1 l2 Kf Kt Kw H1 H2. assert (Hc : cmd_at am CASE (l_pos l)).
    { eapply cmd_at_found; eauto. destruct Kw as [<-|[]]. now left. }
    wstep. eapply wp_mono; [eapply wp_word; eauto; lia|].
    intros w2 l3 [[[H3 H4] _] _]. destruct w2 as [w2|]; [|wstep]. wstep.
    apply wp_linebreak; [sz|auto|]. intros xs l4 H5 H6 _. wstep. rw.
    + intros w3 l5 l6 _ _ _ H7 H8. wstep.
      assert (REST : forall ic l7, ok l7 -> (size l7 <= size l6)%nat -> wp
         ('(arms, pre_esac_comments) <- arms_loop B fuel K (l_pos l) fuel [] ;;
              remaining_comments <- linebreak fuel ;;
              e <- reserved_word fuel [ESAC] ;;
              match e with
              | None => q <- getpos ;; throw (IncompleteCmd CASE (l_pos l) ESAC q)
              | Some _ =>
                  ret (mkCF w2 xs ic arms
                            (pre_esac_comments ++ remaining_comments))
              end) l7 (fun _ l' => sdn l l')).
      { intros ic l7 A1 A2. wstep. apply wp_dn; [apply wp_arms; [auto|auto|lia|lia]|].
        intros [arms pec] l8 A3 A4. wstep. apply wp_linebreak; [sz|auto|]. intros rc l9 A5 A6 _.
        wstep. rw.
        - intros w4 l10 l11 _ _ _ A7 A8. wstep. split; [auto|lia].
        - intros l10 _ _ A7 A8. wstep. wstep. inc. }
      apply wp_newline; [sz|okk| |].
      * intros x l7 A1 A2. apply REST; [auto|lia].
      * intros l7 A1 A2 _. apply REST; auto.
    + intros l5 _ _ H7 H8. wstep. wstep. inc.
  - intros l1 _ _ H1 H2. wstep.
Qed.

Lemma wp_compound_kw kw l : ok l -> (size l <= M)%nat -> ws_free (toks l) ->
  wp (compound_command_kw B fuel K kw) l (fun _ l' => sdn l l').
Proof.
  intros Hl Hs Hfr. unfold compound_command_kw.
  assert (E : forall (X : Type) (f : X -> list (b_redirect B) -> bst B -> (b_compound B + b_err B) * bst B) x l1,
    (forall a b, bld_ok (BInv am) (CustOk am) (f a b)) -> ok l1 -> (size l1 < size l)%nat ->
    wp (io <- redirect_list B fuel K ;; build (f x io)) l1 (fun _ l' => sdn l l')).
  { intros X f x l1 Hb A1 A2. wstep. apply wp_dn; [eapply wp_redirect_list; eauto; lia|].
    intros io l2 A3 A4. apply wp_build; [apply Hb|]. intros _. split; [auto|lia]. }
  destruct kw as [[]|]; [..|solve [wstep]].
  - wstep. apply wp_sdn; [apply wp_for_command; auto|]. intros f l1 A1 A2. apply E; auto. apply bk_for_command.
  - wstep. apply wp_sdn; [apply wp_case_command; auto|]. intros f l1 A1 A2. apply E; auto. apply bk_case_command.
  - wstep. apply wp_sdn; [apply wp_if_command; auto|]. intros f l1 A1 A2. apply E; auto. apply bk_if_command.
  - wstep. apply wp_sdn; [apply wp_loop_command; auto|]. intros [k gb] l1 A1 A2.
    apply (E _ (o_loop_command B k)); auto. intros; apply bk_loop_command.
  - wstep. apply wp_sdn; [apply wp_loop_command; auto|]. intros [k gb] l1 A1 A2.
    apply (E _ (o_loop_command B k)); auto. intros; apply bk_loop_command.
  - wstep. apply wp_sdn; [apply wp_brace_group; auto|]. intros f l1 A1 A2. apply E; auto. apply bk_brace_group.
  - wstep. apply wp_sdn; [apply wp_subshell; auto|]. intros f l1 A1 A2. apply E; auto. apply bk_subshell.
Qed.

Lemma wp_compound_command l : ok l -> (size l <= M)%nat ->
  wp (compound_command B fuel K) l (fun _ l' => sdn l l').
Proof.
  intros Hl Hs. unfold compound_command. wstep. eapply wp_mono; [apply wp_next_compound; auto|].
  intros kw l1 [[H1 H2] H3]. apply wp_sdn; [apply wp_compound_kw; auto; lia|]. intros a l2 A1 A2.
  split; [auto|lia].
Qed.

(** Functions. *)
Lemma wp_function_parens b l : ok l -> (size l <= M)%nat ->
  wp (function_parens B fuel K b) l (fun _ l' => dn l l').
Proof.
  intros Hl Hs. unfold function_parens. wstep. wstep. destruct (otoken_eqb _ _).
  { wstep. wstep. wstep. wstep. wstep. wstep. wstep. dnn. }
  destruct (_ && _); [wstep; dnn|]. wstep. dl l; [wstep|]. destruct t; try (solve [wstep]).
  wstep. wstep. wstep. red_l. wstep. wstep. destruct b; cbn [negb].
  - wstep. wstep. destruct (otoken_eqb _ _).
    + wstep. apply wp_sdn; [eapply wp_subshell_internal; eauto; sz|]. intros g l1 A1 A2.
      destruct (_ && _); [wstep; split; [auto|sz]|]. wstep. apply wp_build; [apply bk_subshell|].
      intros c. wstep. split; [auto|sz].
    + wstep. split; [auto|sz].
  - wstep. wstep. wstep. wstep. wstep. wstep. wstep. split; [okk|sz].
Qed.

Lemma wp_function_internal l : ok l -> (size l <= M)%nat ->
  wp (function_declaration_internal B fuel K) l (fun _ l' => sdn l l').
Proof.
  intros Hl Hs. unfold function_declaration_internal. wstep. apply wp_peek_reserved_word; [sz|okk|].
  intros l1 H1 H2 _ _. wstep.
  assert (REST : forall found_fn l2, ok l2 -> (size l2 <= size l)%nat -> wp
  (skip_whitespace fuel ;;
  p <- peek ;;
  match p with
  | Some (TName _) | Some (TLiteral _) =>
      ident_pos <- getpos ;;
      t <- next ;;
      match t with
      | Some (TName name) =>
          body <- function_parens B fuel K found_fn ;;
          match body with
          | Some c => ret (name, [], c)
          | None =>
              lb <- linebreak fuel ;;
              c <- compound_command B fuel K ;;
              ret (name, lb, c)
          end
      | Some (TLiteral s) => throw (BadIdent s ident_pos)
      | _ => panic PS_fn_name
      end
  | _ => unexpected
  end) l2 (fun _ l' => sdn l l')).
  { intros ff l2 A1 A2. wstep. wstep. wstep. wstep. dl l0; [wstep|]. destruct t; try (solve [wstep]).
    - wstep. wstep. wstep. wstep. red_l. apply wp_throw. eapply tok_cons; eauto.
    - wstep. wstep. wstep. wstep. red_l. wstep. apply wp_dn; [apply wp_function_parens; [okk|sz]|].
      intros body l3 A3 A4. destruct body as [c|].
      + wstep. split; [auto|sz].
      + wstep. apply wp_linebreak; [sz|auto|]. intros xs l4 A5 A6 _. wstep.
        apply wp_sdn; [apply wp_compound_command; [auto|sz]|]. intros c l5 A7 A8. wstep. split; [auto|sz]. }
  destruct (rw_found [FUNCTION] (map fst (toks l1))).
  - wstep. wstep. wstep. apply REST; [okk|]. rewrite size_tl. lia.
  - wstep. apply REST; auto.
Qed.

Lemma wp_function_declaration l : ok l -> (size l <= M)%nat ->
  wp (function_declaration B fuel K) l (fun _ l' => sdn l l').
Proof.
  intros Hl Hs. unfold function_declaration. wstep. apply wp_sdn; [apply wp_function_internal; auto|].
  intros [[nm cs] c] l1 H1 H2. apply wp_build; [apply bk_function_declaration|]. intros _. split; auto.
Qed.

Lemma wp_maybe_function l : ok l -> (size l <= M)%nat ->
  wp (maybe_function_declaration B fuel K) l (fun r l' => some_lt am l r l').
Proof.
  intros Hl Hs. unfold maybe_function_declaration. wstep. apply wp_peek_reserved_word; [sz|okk|].
  intros l1 H1 H2 _ _.
  assert (F : wp (f <- function_declaration B fuel K;; ret (Some f)) l1 (fun r l' => some_lt am l r l')).
  { wstep. apply wp_sdn; [apply wp_function_declaration; auto; lia|]. intros f l2 A1 A2. wstep.
    split; [dnn|]. intros; lia. }
  destruct (rw_found [FUNCTION] (map fst (toks l1))); [exact F|].
  wstep. wstep. destruct (look function_try _); [exact F|]. wstep. split; [dnn|congruence].
Qed.

Lemma wp_command l : ok l -> (size l <= M)%nat ->
  wp (command B fuel K) l (fun _ l' => sdn l l').
Proof.
  intros Hl Hs. unfold command. wstep. eapply wp_mono; [apply wp_next_compound; auto|].
  intros kw l1 [[H1 H2] H3]. destruct kw as [kw|].
  - wstep. apply wp_sdn; [apply wp_compound_kw; auto; lia|]. intros c l2 A1 A2.
    apply wp_build; [apply bk_into_pipeable|]. intros _. split; [auto|lia].
  - wstep. eapply wp_mono; [apply wp_maybe_function; auto; lia|]. intros f l2 [[A1 A2] A3]. destruct f as [f|].
    + specialize (A3 ltac:(discriminate)). wstep. split; [auto|lia].
    + apply wp_sdn; [apply wp_simple_command; auto; lia|]. intros c l3 A4 A5. split; [auto|lia].
Qed.

(** Lists. *)
Lemma wp_pipeline_loop : forall n cmds l, ok l -> (size l <= M)%nat -> (size l < n)%nat ->
  wp (pipeline_loop B fuel K n cmds) l (fun r l' => sdn l l' /\ r <> []).
Proof.
  induction n as [|n IH]; intros cmds l Hl Hs Hf; [lia|]. cbn [pipeline_loop]. wstep. wstep.
  destruct (otoken_eqb _ _); [wstep|]. wstep. apply wp_sdn; [apply wp_command; auto|]. intros c l1 H1 H2.
  wstep. wstep.
  - wstep. apply wp_linebreak; [sz|auto|]. intros xs l2 H3 H4 _.
    eapply wp_mono; [apply IH; [auto|sz|sz]|]. intros r l3 [[A1 A2] A3]. split; [split; [auto|sz]|auto].
  - wstep. split; [split; auto|]. destruct cmds; discriminate.
Qed.

Lemma wp_pipeline l : ok l -> (size l <= M)%nat ->
  wp (pipeline B fuel K) l (fun _ l' => sdn l l').
Proof.
  intros Hl Hs. unfold pipeline. wstep. wstep. wstep.
  assert (REST : forall bang l1, ok l1 -> (size l1 <= size l)%nat ->
     wp (cmds <- pipeline_loop B fuel K fuel [] ;; build (o_pipeline B bang cmds)) l1 (fun _ l' => sdn l l')).
  { intros bang l1 A1 A2. wstep. eapply wp_mono; [apply wp_pipeline_loop; [auto|lia|lia]|].
    intros r l2 [[A3 A4] A5]. apply wp_build; [apply bk_pipeline; auto|]. intros _. split; [auto|lia]. }
  wstep; apply REST; auto; sz.
Qed.

Lemma wp_and_or_loop : forall n rest l, ok l -> (size l <= M)%nat -> (size l < n)%nat ->
  wp (and_or_loop B fuel K n rest) l (fun _ l' => dn l l').
Proof.
  induction n as [|n IH]; intros rest l Hl Hs Hf; [lia|]. cbn [and_or_loop]. wstep. wstep. wstep. wstep.
  dl l0; [wstep; split; [auto|sz]|]. destruct t; try (solve [wstep; split; [auto|sz]]).
  all: wstep; wstep; red_l; wstep; apply wp_linebreak; [sz|okk|]; intros xs l2 A1 A2 _; wstep;
    (apply wp_sdn; [apply wp_pipeline; [auto|sz]|]); intros c l3 A3 A4;
    (apply wp_dn; [apply IH; [auto|sz|sz]|]); intros a l4 A5 A6; split; [auto|sz].
Qed.

Lemma wp_and_or_list l : ok l -> (size l <= M)%nat ->
  wp (and_or_list B fuel K) l (fun _ l' => sdn l l').
Proof.
  intros Hl Hs. unfold and_or_list. wstep. apply wp_sdn; [apply wp_pipeline; auto|]. intros c l1 H1 H2.
  wstep. apply wp_dn; [apply wp_and_or_loop; [auto|lia|lia]|]. intros r l2 H3 H4.
  apply wp_build; [apply bk_and_or_list|]. intros _. split; [auto|lia].
Qed.

Lemma wp_complete_with pre l : ok l -> (size l <= M)%nat ->
  wp (complete_command_with_leading_comments B fuel K pre) l (fun _ l' => sdn l l').
Proof.
  intros Hl Hs. unfold complete_command_with_leading_comments. wstep.
  apply wp_sdn; [apply wp_and_or_list; auto|]. intros c l1 H1 H2. wstep. wstep. wstep.
  assert (REST : forall sep cc l2, ok l2 -> (size l2 < size l)%nat ->
    wp (build (o_complete_command B pre c sep cc)) l2 (fun _ l' => sdn l l')).
  { intros sep cc l2 A1 A2. apply wp_build; [apply bk_complete_command|]. intros _. split; auto. }
  assert (P : wp (n <- newline fuel ;;
         ret (match n with Some _ => SepNewline | None => SepOther end, n)) l1
      (fun (a : sep_kind * option newline_) (l' : located) =>
        wp (let '(sep, cmd_comment) := a in build (o_complete_command B pre c sep cmd_comment)) l'
          (fun _ l'0 => sdn l l'0))).
  { wstep. apply wp_newline; [sz|auto| |].
    - intros x l2 A1 A2. wstep. apply REST; [auto|lia].
    - intros l2 A1 A2 _. wstep. apply REST; [auto|lia]. }
  dl l1; [exact P|]. destruct t; try exact P.
  all: wstep; wstep; red_l; wstep; apply wp_newline; [sz|okk| |];
    [intros x l2 A1 A2; wstep; apply REST; [auto|sz]|intros l2 A1 A2 _; wstep; apply REST; [auto|sz]].
Qed.

Lemma wp_complete_command l : ok l -> (size l <= M)%nat ->
  wp (complete_command B fuel K) l (fun r l' => some_lt am l r l' /\ (r = None -> toks l' = [])).
Proof.
  intros Hl Hs. unfold complete_command. wstep. apply wp_linebreak; [sz|auto|]. intros xs l1 H1 H2 _.
  wstep. wstep. dl l1.
  - destruct (is_nil xs).
    + wstep. split; [split; [dnn|congruence]|auto].
    + wstep. apply wp_build; [apply bk_comments|]. intros _. wstep. split; [split; [dnn|congruence]|auto].
  - wstep. apply wp_sdn; [apply wp_complete_with; [auto|sz]|]. intros c l2 A1 A2. wstep.
    split; [split; [dnn|]|]; [intros; sz|discriminate].
Qed.

Lemma wp_found_delim cfg l : ok l -> (size l <= M)%nat ->
  wp (found_delim B fuel cfg) l (fun _ l' => dn l l').
Proof.
  intros Hl Hs. unfold found_delim. wstep.
  assert (REST : forall fe : bool, wp (if fe then ret true
  else
    w <- peek_reserved_word fuel (reserved_words cfg) ;;
    match w with
    | Some _ => ret true
    | None =>
        t <- peek_reserved_token fuel (reserved_tokens cfg) ;;
        ret (match t with Some _ => true | None => false end)
    end) l (fun _ l' => dn l l')).
  { intros [|]; [wstep; dnn|]. wstep. apply wp_peek_reserved_word; [sz|auto|]. intros l1 A1 A2 _ _.
    destruct (match reserved_words cfg with [] => None | _ => _ end); [wstep; dnn|].
    wstep. apply wp_peek_reserved_token_any; [sz|auto|]. intros r l2 A3 A4 _. wstep. dnn. }
  destruct (exact_tokens cfg).
  - wstep. apply (REST false).
  - wstep. wstep. wstep. apply REST.
Qed.

Lemma wp_command_group_loop cfg : forall n cmds l, ok l -> (size l <= M)%nat -> (size l < n)%nat ->
  wp (command_group_loop B fuel K cfg n cmds) l (fun _ l' => dn l l').
Proof.
  induction n as [|n IH]; intros cmds l Hl Hs Hf; [lia|]. cbn [command_group_loop]. wstep.
  apply wp_dn; [apply wp_found_delim; auto|]. intros d l1 H1 H2. destruct d; [wstep; dnn|].
  wstep. apply wp_linebreak; [sz|auto|]. intros xs l2 H3 H4 _. wstep.
  apply wp_dn; [apply wp_found_delim; [auto|lia]|]. intros d2 l3 H5 H6. wstep.
  assert (REST : forall stop : bool, wp (if stop then ret (mkCG cmds xs)
        else
          c <- complete_command_with_leading_comments B fuel K xs ;;
          command_group_loop B fuel K cfg n (cmds ++ [c])) l3 (fun _ l' => dn l l')).
  { intros [|]; [wstep; dnn|]. wstep. apply wp_sdn; [apply wp_complete_with; [auto|lia]|].
    intros c l4 A1 A2. apply wp_dn; [apply IH; [auto|lia|lia]|]. intros a l5 A3 A4. dnn. }
  destruct d2; [wstep; apply (REST true)|]. wstep. wstep. wstep. apply REST.
Qed.

Lemma wp_command_group_internal cfg l : ok l -> (size l <= M)%nat ->
  wp (command_group_internal B fuel K cfg) l (fun _ l' => dn l l').
Proof. intros Hl Hs. apply wp_command_group_loop; [auto|auto|lia]. Qed.

End WpCommand.

Section Knot.
Context {B : builder} (am : ambient B).
Notation ok l := (Inv am l).
Notation wp := (wp am).
Variable fuel : nat.

Lemma wp_knot : forall n, (n <= fuel)%nat ->
  (forall cfg l, ok l -> (S (size l) < n)%nat -> (S (S (size l)) < fuel)%nat ->
     wp (k_group (knot B fuel n) cfg) l (fun _ l' => dn am l l')) /\
  (forall l, ok l -> (size l < n)%nat -> (S (S (size l)) < fuel)%nat ->
     wp (k_param (knot B fuel n)) l (fun _ l' => sdn am l l')).
Proof.
  induction n as [|n IH]; intros Hn; [split; intros; lia|].
  destruct (IH ltac:(lia)) as [IHG IHP]. cbn [knot k_group k_param]. split.
  - intros cfg l Hl H1 H2. apply wp_command_group_internal with (M := size l); auto; [lia| |].
    + intros cfg' l' Hl' H3. apply IHG; auto; lia.
    + intros l' Hl' H3. apply IHP; auto; lia.
  - intros l Hl H1 H2. apply wp_parameter_raw with (M := size l); auto; [lia| |].
    + intros cfg' l' Hl' H3. apply IHG; auto; lia.
    + intros l' Hl' H3. apply IHP; auto; lia.
Qed.

Notation K := (knot B fuel fuel).
Lemma knot_group l0 : (S (S (size l0)) < fuel)%nat -> forall cfg l, ok l -> (size l < size l0)%nat ->
  wp (k_group K cfg) l (fun _ l' => dn am l l').
Proof. intros. apply wp_knot; auto; lia. Qed.
Lemma knot_param l0 : (S (S (size l0)) < fuel)%nat -> forall l, ok l -> (size l <= size l0)%nat ->
  wp (k_param K) l (fun _ l' => sdn am l l').
Proof. intros. apply wp_knot; auto; lia. Qed.
End Knot.
