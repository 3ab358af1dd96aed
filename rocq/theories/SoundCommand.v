(** * What the readers of redirections and commands have read

    The converse of [CommandRuns.v] and [CompoundRuns.v]: a successful run has read one of the forms
    of [Forms.v]. *)
From Coq Require Import String.
From Verif Require Import Base Token Pos Ast Builder Prog Iter Located IterProofs ParserBase Balanced RunLemmas BaseRun
  Sim BalancedSpec BalancedProofs BalancedTotal Arith Word Redirect Command Runs Pure Relex ArithSpec HeredocSpec Forms
  BaseForms WordRuns HeredocRuns CommandRuns CompoundRuns FormsRuns Reserved Gives ArithRuns ArithExact SoundBase SoundWord.
Notation gives := Gives.gives.

Lemma digits_of s : forallb is_digit10 s = true -> digits s.
Proof.
  unfold digits. induction s as [|c s IH]; [constructor|]. cbn. intros H. apply andb_true_iff in H as [H1 H2].
  constructor; [|auto]. unfold is_digit10 in H1. apply andb_true_iff in H1 as [H1 H3].
  apply N.leb_le in H1, H3. lia.
Qed.
Lemma maybe_digits_of {C} (s : swk C) : simple_could_be_numeric s = true -> maybe_digits s.
Proof. destruct s; cbn; auto; try discriminate; apply digits_of. Qed.
Lemma maybe_number_of {C} (w : wk C) : could_be_numeric w = true -> maybe_number w.
Proof.
  destruct w as [s|l|s]; cbn [could_be_numeric maybe_number].
  - apply maybe_digits_of.
  - intros H. apply Forall_forall. intros y Hy. apply maybe_digits_of. exact (proj1 (forallb_forall _ _) H y Hy).
  - apply digits_of.
Qed.
Lemma no_redirect_of rest : (match rest with t :: _ => redirect_token t | [] => false end) = false -> no_redirect rest.
Proof. destruct rest; cbn; auto. Qed.

Section SoundCommand.
Variable B : builder.
Variable P : pure B.
Notation C := (b_cmd B).
Notation prog := (prog (bst B) (b_err B)).
Notation frag := (@Forms.frag B P written_arith).
Notation dollar := (@Forms.dollar B P written_arith).
Notation quoted := (@Forms.quoted B P written_arith).
Notation frags := (@Forms.frags B P written_arith).
Notation word_form := (@Forms.word_form B P written_arith).
Notation redirect_form := (@Forms.redirect_form B P written_arith).
Notation redirects := (@Forms.redirects B P written_arith).
Notation arguments := (@Forms.arguments B P written_arith).
Notation simple := (@Forms.simple B P written_arith).
Notation command_form := (@Forms.command_form B P written_arith).
Notation function_body := (@Forms.function_body B P written_arith).
Notation compound := (@Forms.compound B P written_arith).
Notation do_form := (@Forms.do_form B P written_arith).
Notation conditionals := (@Forms.conditionals B P written_arith).
Notation for_list := (@Forms.for_list B P written_arith).
Notation for_words_form := (@Forms.for_words_form B P written_arith).
Notation case_arms := (@Forms.case_arms B P written_arith).
Notation patterns_form := (@Forms.patterns_form B P written_arith).
Notation pipe_form := (@Forms.pipe_form B P written_arith).
Notation pipeline_form := (@Forms.pipeline_form B P written_arith).
Notation and_or_form := (@Forms.and_or_form B P written_arith).
Notation list_form := (@Forms.list_form B P written_arith).
Notation complete_form := (@Forms.complete_form B P written_arith).
Notation group := (@Forms.group B P written_arith).

Variable fuel : nat.
Variable K : knots (bst B) (b_err B) C.
Hypothesis KG : forall cfg, plain cfg -> forall ts, gives (k_group K cfg) ts (fun g rest => group cfg g ts rest).
Hypothesis KP : forall ts, gives (k_param K) ts (fun s rest => dollar s ts rest).

Tactic Notation "gcall" constr(H) := eapply gives_mono; [apply H|]; cbv beta.
Notation word_gives' := (SoundBase.word_gives fuel).
Notation word_raw_gives := (SoundWord.word_raw_gives B P fuel K KG KP).

(** ** Words *)
Lemma word_gives ts (Q : option (b_word B) -> list token -> Prop) :
  (forall k mid, word_form k (skipw ts) mid -> Q (Some (pu_word P k)) (skipw mid)) ->
  (forall rest, no_word ts rest -> Q None rest) ->
  gives (word B fuel K) ts Q.
Proof.
  intros H1 H2. unfold word, word_preserve_trailing_whitespace. gstep. gstep. apply word_raw_gives.
  - intros k rest Hk. gstep. eapply gives_build; [apply pu_word_ok|]. gstep. gstep. apply gives_skipw. gstep. now apply H1.
  - intros rest Hn. gstep. gstep. apply gives_skipw. gstep. rewrite (no_word_skipw _ _ Hn). now apply H2.
Qed.

(** ** Redirections *)
Lemma path_gives ts (Q : b_word B -> list token -> Prop) :
  (forall k rest, word_form k (skipw ts) rest -> Q (pu_word P k) rest) -> gives (get_path B fuel K) ts Q.
Proof.
  intros H. unfold get_path. gstep. apply word_raw_gives.
  - intros k rest Hk. eapply gives_build; [apply pu_word_ok|]. now apply H.
  - intros rest _. gstep.
Qed.
Lemma dup_path_gives ts (Q : b_word B -> list token -> Prop) :
  (forall rest, skipw ts = TDash :: rest -> delimited rest -> Q (pu_word P (KSingle (KSimple (KLiteral (s_of "-"))))) rest) ->
  (forall w ws k rest, frags None (w :: ws) (skipw ts) rest -> Forall maybe_number (w :: ws) -> word_of (w :: ws) = Some k ->
     Q (pu_word P k) rest) ->
  gives (get_dup_path B fuel K) ts Q.
Proof.
  intros H1 H2. unfold get_dup_path. gstep. apply peek_token_gives; [discriminate|repeat constructor| |].
  - intros t rest [<-|[]] E Hd. gstep. gstep. apply token_gives; [discriminate|repeat constructor|].
    intros t r [<-|[]] E' Hd'. gstep. eapply gives_build; [apply pu_word_ok|]. rewrite skipw_idem in E'. now apply H1.
  - intros _. gstep. gstep. gstep. gstep. apply word_raw_gives.
    + rewrite skipw_idem. intros k rest Hk. cbv zeta.
      destruct Hk as [w ws k ts' rest Hf Hp Hk].
      destruct (match k with KSingle p => could_be_numeric p | KConcat v => forallb could_be_numeric v end) eqn:En.
      * gstep. eapply gives_build; [apply pu_word_ok|]. eapply H2; [exact Hf| |exact Hk].
        destruct ws as [|w2 ws]; cbn [word_of] in Hk; injection Hk as <-.
        -- constructor; [|constructor]. now apply maybe_number_of.
        -- apply Forall_forall. intros y Hy. apply maybe_number_of. exact (proj1 (forallb_forall _ _) En y Hy).
      * gstep. gstep. gstep.
    + intros rest _. gstep.
Qed.
Lemma op_gives op fd ts0 ts (Q : b_redirect B -> list token -> Prop) : fd_form fd ts0 (op :: ts) ->
  (match op with TLess | TGreat | TDGreat | TClobber | TLessAnd | TGreatAnd | TLessGreat => true | _ => false end) = true ->
  (forall r rest, redirect_form r ts0 rest -> Q r rest) ->
  gives (redirect_op B fuel K op fd) ts Q.
Proof.
  intros Hf Ho H. unfold redirect_op. gstep. apply gives_skipw.
  assert (X : forall mk, redirect_op_form op mk -> gives (w <- get_path B fuel K ;; ret (mk fd w)) (skipw ts)
     (fun r mid => gives (build (o_redirect B r)) mid Q)).
  { intros mk Hm. gstep. apply path_gives. rewrite skipw_idem. intros k rest Hk. gstep.
    eapply gives_build; [apply pu_redirect_ok|]. apply H. eapply rf_file; eassumption. }
  assert (Y : forall mk, dup_op_form op mk -> gives (w <- get_dup_path B fuel K ;; ret (mk fd w)) (skipw ts)
     (fun r mid => gives (build (o_redirect B r)) mid Q)).
  { intros mk Hm. gstep. apply dup_path_gives; rewrite skipw_idem.
    - intros rest E Hd. gstep. eapply gives_build; [apply pu_redirect_ok|]. apply H. eapply rf_close; eassumption.
    - intros w ws k rest Hw Hn Hk. gstep. eapply gives_build; [apply pu_redirect_ok|]. apply H. eapply rf_dup; eassumption. }
  gstep. destruct op; try discriminate Ho; first [eapply X; constructor|eapply Y; constructor].
Qed.
Lemma heredoc_op_gives fd ts (Q : b_redirect B -> list token -> Prop) :
  (forall op strip body us rest, ts = op :: us -> here_op op strip -> here_document strip true body (skipw us) rest ->
     Q (pu_redirect P (RHeredoc fd (pu_word P (KSingle (KSimple (KLiteral (text body))))))) rest) ->
  (forall op strip body ws us rest, ts = op :: us -> here_op op strip -> here_document strip false body (skipw us) rest ->
     quoted None ws body [] -> Q (pu_redirect P (RHeredoc fd (pu_word P (here_word ws)))) rest) ->
  gives (redirect_heredoc B fuel K fd) ts Q.
Proof.
  intros H H'. unfold redirect_heredoc. gstep. gstep. gstep.
  assert (X : forall op strip us, here_op op strip -> ts = op :: us -> gives (
  skip_whitespace fuel ;;
  delim_tokens <- delim_tokens_loop B fuel fuel [] ;;
  '(delim, quoted) <- sub_iter (FromTokens delim_tokens) true (delim_loop B fuel fuel false []) ;;
  match delim with
  | [] => unexpected
  | _ =>
      saved_pos <- getpos ;;
      saved_tokens <- saved_tokens_loop B fuel fuel [] ;;
      heredoc_start_pos <- getpos ;;
      heredoc <- heredoc_lines B fuel strip delim fuel [] ;;
      buffer saved_tokens saved_pos ;;
      body <- (if quoted : bool then
                 ret (KSingle (KSimple (KLiteral (concat_tokens (flat_map fst heredoc)))))
               else
                 ws <- sub_iter (FromChunks heredoc_start_pos heredoc) false
                         (word_interpolated_raw fuel K None heredoc_start_pos) ;;
                 ret (heredoc_body_word ws)) ;;
      w <- build (o_word B body) ;;
      build (o_redirect B (RHeredoc fd w))
  end) us Q).
  { intros op strip us Ho Hfd. gstep. apply gives_skipw. gstep. apply delim_tokens_gives. intros d rest E Hd. cbn [app].
    gstep. apply gives_sub. cbn [iter_toks]. eapply delim_gives; [exact Hd|]. intros s q Hs. cbv beta match.
    destruct s as [|c s]; [gstep|]. gstep. gstep. gstep. apply saved_gives. intros l rest' -> Hl. cbn [app]. gstep. gstep.
    gstep. apply lines_gives. intros body rest chunks Hb Ec. gstep. apply gives_buffer.
    assert (Hh : here_document strip q body (skipw us) (l ++ rest)).
    { rewrite E. eapply here_doc; try eassumption. discriminate. }
    gstep. destruct q.
    - gstep. gstep. eapply gives_build; [apply pu_word_ok|]. eapply gives_build; [apply pu_redirect_ok|].
      rewrite concat_tokens_text, Ec. eapply H; eassumption.
    - gstep. apply gives_sub. gcall (interpolated_gives B P fuel K KG KP None).
      + now left.
      + cbn [option_map]. intros ws r (r' & Hq & Hr & ->).
        match type of Hq with Forms.quoted _ _ _ _ ?x _ => replace x with body in Hq end.
        destruct r'; [|discriminate]. gstep. gstep. eapply gives_build; [apply pu_word_ok|].
          eapply gives_build; [apply pu_redirect_ok|]. eapply H'; eassumption. }
  destruct ts as [|t ts]; cbn [hd_error]; [gstep|].
  destruct t; try gstep.
  - gstep. gstep. apply (X TDLess); [constructor|reflexivity].
  - gstep. gstep. apply (X TDLessDash); [constructor|reflexivity].
Qed.
Lemma heredoc_gives fd ts0 ts (Q : b_redirect B -> list token -> Prop) :
  (forall op r, ts = op :: r -> fd_form fd ts0 (op :: r)) ->
  (forall r rest, redirect_form r ts0 rest -> Q r rest) ->
  gives (redirect_heredoc B fuel K fd) ts Q.
Proof.
  intros Hf H. apply heredoc_op_gives; intros; apply H; [eapply rf_here_quoted|eapply rf_here]; eauto.
Qed.
(** The digits before a redirection operator are read as a word that is a number. *)
Lemma fd_word_raw n ts op r : fd_form (Some n) (skipw ts) (op :: r) -> redirect_token op = true ->
  exists k, word_as_num k = Some n /\ runs (word_raw fuel K) ts (Some k) (op :: r).
Proof.
  intros Hf Ho.
  assert (Hd : delimited (op :: r)) by (destruct op; try discriminate; reflexivity).
  assert (D : exists d, Forall (fun t => literal_token t = true) d /\ number (text d) n /\ (n < 2 ^ 16)%N /\
      (skipw ts = d ++ op :: r \/ skipw ts = d ++ TBackslash :: TNewline :: op :: r)) by (inversion Hf; subst; eauto 10).
  destruct D as (d & D3 & D4 & D5 & D2). destruct (number_word B d n D4 D5) as (k & Ek & En). exists k. split; [exact En|].
  unfold word_raw, word_raw_with_delim. rstep. rstep.
  replace (otoken_eqb (hd_error (skipw ts)) (Some TPound)) with false.
  - eapply (runs_call _ _ _ (map (fun t => KSimple (KLiteral (as_str t))) d) (op :: r)).
    + destruct D2 as [-> | ->]; (apply loop_literals; [exact D3|]; intros m); cbn [app].
      * apply loop_end. now left.
      * apply loop_escaped_newline. discriminate.
    + rewrite Ek. apply runs_ret.
  - symmetry. pose proof (number_chars _ _ D4) as [N1 N2]. destruct d as [|t d]; [exfalso; now apply N1|].
    destruct (otoken_eqb_spec (hd_error (skipw ts)) (Some TPound)) as [Ep|Ep]; [|reflexivity]. exfalso.
    assert (t = TPound) by (destruct D2 as [E|E]; rewrite E in Ep; cbn in Ep; congruence). subst t.
    rewrite text_cons in N2. inversion N2 as [|? ? Hc]; subst. lia.
Qed.
Lemma fd_gives ts : gives (word_raw fuel K) ts (fun k rest => forall n op r, rest = op :: r -> redirect_token op = true ->
  fd_form (Some n) (skipw ts) rest -> exists k', k = Some k' /\ word_as_num k' = Some n).
Proof.
  intros L e b HL.
  destruct (lrun (word_raw fuel K) (mkL L e) b) as [[o l'] b'] eqn:El. destruct o as [k|x|x|]; auto.
  intros n op r E Ho Hf. rewrite E in Hf. destruct (fd_word_raw n ts op r Hf Ho) as (k' & Hk & Hr).
  specialize (Hr L e b HL). rewrite El in Hr. destruct Hr as (-> & _). eauto.
Qed.
Lemma redirect_gives ts (Q : option (b_redirect B + b_word B) -> list token -> Prop) :
  (forall r rest, redirect_form r (skipw ts) rest -> Q (Some (inl r)) rest) ->
  (forall k rest, word_form k (skipw ts) rest -> not_fd (skipw ts) rest -> Q (Some (inr (pu_word P k))) rest) ->
  (forall rest, no_word ts rest -> no_redirect rest -> Q None rest) ->
  gives (redirect B fuel K) ts Q.
Proof.
  intros H1 H2 H3. unfold redirect. gstep. eapply gives_mono; [apply gives_and; [apply (fd_gives ts)|]|].
  { apply (word_raw_gives ts (fun k rest => match k with Some k => word_form k (skipw ts) rest | None => no_word ts rest end)); auto. }
  cbv beta. intros [k|] rest [Hfd Hw].
  - destruct (word_as_num k) as [n|] eqn:En.
    + unfold redirect_after. gstep. gstep.
      assert (W : (match rest with t :: _ => redirect_token t | [] => false end) = false ->
         gives (w <- build (o_word B k) ;; ret (Some (inr w))) rest Q).
      { intros Hr. gstep. eapply gives_build; [apply pu_word_ok|]. gstep. apply H2; [exact Hw|].
        unfold not_fd. destruct rest as [|t rest]; [exact I|]. congruence. }
      assert (F : forall op r, rest = op :: r -> fd_form (Some n) (skipw ts) (op :: r)).
      { intros op r ->. inversion Hw; subst. eapply (@word_num_fd B P written_arith); [eassumption|eassumption|exact En|discriminate]. }
      destruct rest as [|t rest]; cbn [hd_error]; [now apply W|].
      destruct t; try (apply W; reflexivity);
        try (gstep; gstep; gstep; eapply op_gives; [apply F; reflexivity|reflexivity|]; intros r0 rest0 Hr0; gstep; now apply H1);
        (gstep; eapply heredoc_gives; [intros; apply F; eassumption|]; intros r0 rest0 Hr0; gstep; now apply H1).
    + gstep. eapply gives_build; [apply pu_word_ok|]. gstep. apply H2; [exact Hw|].
      unfold not_fd. destruct rest as [|t rest]; [exact I|]. intros Ht n Hf.
      destruct (Hfd n t rest eq_refl Ht Hf) as (k' & [= <-] & E). congruence.
  - unfold redirect_after. gstep. gstep.
    assert (W : (match rest with t :: _ => redirect_token t | [] => false end) = false -> gives (ret None : prog _) rest Q).
    { intros Hr. gstep. apply H3; [exact Hw|]. now apply no_redirect_of. }
    assert (F : forall op r, rest = op :: r -> redirect_token op = true -> fd_form None (skipw ts) (op :: r)).
    { intros op r -> Ho. inversion Hw; apply fd_none. }
    destruct rest as [|t rest]; cbn [hd_error]; [now apply W|].
    destruct t; try (apply W; reflexivity);
        try (gstep; gstep; gstep; eapply op_gives; [apply F; reflexivity|reflexivity|]; intros r0 rest0 Hr0; gstep; now apply H1);
        (gstep; eapply heredoc_gives; [intros op r E; injection E as <- <-; apply F; reflexivity|]; intros r0 rest0 Hr0; gstep; now apply H1).
Qed.

Lemma redirect_loop_gives n : forall acc ts, gives (redirect_list_loop B fuel K n acc) ts
  (fun res rest => exists rs, res = acc ++ rs /\ redirects rs ts rest).
Proof.
  induction n as [|n IH]; intros acc ts; [apply gives_fuel|]. cbn [redirect_list_loop]. gstep. apply gives_skipw. gstep. gstep.
  gstep. apply redirect_gives; rewrite ?skipw_idem.
  - intros r mid Hr. gcall IH. intros res rest (rs & -> & H). exists (r :: rs). split; [now rewrite <- app_assoc|].
    eapply re_more; eassumption.
  - intros k rest _ _. gstep. gstep. gstep.
  - intros rest Hn Hr. gstep. exists []. split; [now rewrite app_nil_r|]. apply re_end; [|exact Hr]. now apply no_word_of_skipw.
Qed.
Lemma redirect_list_gives ts : gives (redirect_list B fuel K) ts (fun rs rest => redirects rs ts rest).
Proof. gcall redirect_loop_gives. intros res rest (rs & -> & H). exact H. Qed.

(** ** Simple commands *)
Lemma args_gives n : forall acc ts, gives (simple_args_loop B fuel K n acc) ts
  (fun res rest => exists args, res = acc ++ args /\ arguments args ts rest).
Proof.
  induction n as [|n IH]; intros acc ts; [apply gives_fuel|]. cbn [simple_args_loop].
  gstep. apply redirect_gives.
  - intros r mid Hr. gcall IH. intros res rest (rs & -> & H). exists (DRedirect r :: rs). split; [now rewrite <- app_assoc|].
    eapply ag_redirect; eassumption.
  - intros k mid Hk Hf. gcall IH. intros res rest (rs & -> & H). exists (DCmdWord (pu_word P k) :: rs). split; [now rewrite <- app_assoc|].
    eapply ag_word; eassumption.
  - intros rest Hn Hr. gstep. exists []. split; [now rewrite app_nil_r|]. now apply ag_end.
Qed.
Lemma simple_skipw v a ts ts0 rest : skipw ts0 = skipw ts -> simple v a ts rest -> simple v a ts0 rest.
Proof.
  intros E H. destruct H.
  - apply si_end; [|assumption]. apply no_word_of_skipw. rewrite E.
    match goal with N : no_word _ _ |- _ => inversion N; subst end.
    + rewrite <- (skipw_idem ts) at 2. apply nw_delimited. now rewrite skipw_idem.
    + rewrite <- (skipw_idem ts) at 2. apply nw_comment. now rewrite skipw_idem.
    + apply nw_backslash. now rewrite skipw_idem.
  - rewrite <- E in *. eapply si_redirect; eassumption.
  - rewrite <- E in *. eapply si_assign; eassumption.
  - rewrite <- E in *. eapply si_assign_empty; eassumption.
  - rewrite <- E in *. eapply si_command; eassumption.
Qed.
Lemma at_assignment_look ts : look assignment_try ts = true -> exists v us, ts = TName v :: TEquals :: us.
Proof.
  unfold assignment_try. destruct ts as [|t ts]; [discriminate|]. destruct t; try discriminate.
  cbn [look hd_error tl]. destruct ts as [|t ts]; [discriminate|]. cbn [hd_error].
  intros H. destruct (token_eqb_spec t TEquals) as [->|Hn]; [eauto|]. exfalso.
  change (otoken_eqb (Some t) (Some TEquals)) with (token_eqb t TEquals) in H. destruct (token_eqb_spec t TEquals); congruence.
Qed.
Lemma look_not_assignment ts : look assignment_try ts = false -> ~ at_assignment ts.
Proof.
  intros H Ha. destruct ts as [|t ts]; [exact Ha|]. destruct t; try exact Ha. destruct ts as [|t ts]; [exact Ha|].
  destruct t; try exact Ha. discriminate.
Qed.
Definition vars_claim (vars0 : list (redirect_or_env_var (b_redirect B) str (b_word B))) ts
  (res : list (redirect_or_env_var (b_redirect B) str (b_word B)) * option (b_word B)) rest : Prop :=
  exists vars, fst res = vars0 ++ vars /\
    match snd res with
    | Some w => forall args rest', arguments args rest rest' -> simple vars (DCmdWord w :: args) ts rest'
    | None => simple vars [] ts rest /\ no_word rest rest /\ no_redirect rest
    end.
Lemma vars_gives n : forall vars0 ts, gives (simple_vars_loop B fuel K n vars0) ts (vars_claim vars0 ts).
Proof.
  induction n as [|n IH]; intros vars0 ts; [apply gives_fuel|]. cbn [simple_vars_loop]. gstep. apply gives_skipw. gstep. gstep.
  assert (X : forall v mid ts1, (forall vars args rest, simple vars args mid rest -> simple (v :: vars) args ts rest) ->
     skipw ts1 = skipw mid ->
     gives (simple_vars_loop B fuel K n (vars0 ++ [v])) ts1 (vars_claim vars0 ts)).
  { intros v mid ts1 Hv E. gcall IH. intros [vs ex] rest (vars & E1 & H). exists (v :: vars). split; [rewrite E1, <- app_assoc; reflexivity|].
    cbn [snd] in *. destruct ex as [w|].
    - intros args rest' Ha. apply Hv. eapply simple_skipw; [symmetry; exact E|]. now apply H.
    - destruct H as [H H']. split; [|exact H']. apply Hv. eapply simple_skipw; [symmetry; exact E|exact H]. }
  destruct (look assignment_try (skipw ts)) eqn:Ea.
  - destruct (at_assignment_look _ Ea) as (v & us & E). rewrite E. gstep. gstep. gstep. gstep. gstep. gstep. gstep.
    assert (W : (forall w, hd_error us <> Some (TWhitespace w)) ->
       gives (word B fuel K) us (fun a r => gives (simple_vars_loop B fuel K n (vars0 ++ [EEnvVar v a])) r (vars_claim vars0 ts))).
    { intros Hw. apply word_gives.
      - intros k mid Hk. eapply X; [|apply skipw_idem]. intros vars args rest Hs. eapply si_assign; eassumption.
      - intros rest Hn. eapply X; [|reflexivity]. intros vars args rest' Hs. eapply si_assign_empty; [eassumption| |eassumption].
        now apply nv_none. }
    destruct us as [|t us]; cbn [hd_error] in *; [apply W; discriminate|].
    destruct t; try (apply W; discriminate).
    gstep. eapply X; [|reflexivity]. intros vars args rest' Hs. eapply si_assign_empty; [eassumption| |eassumption]. apply nv_blank.
  - gstep. apply redirect_gives; rewrite ?skipw_idem.
    + intros r mid Hr. eapply X; [|reflexivity]. intros vars args rest Hs. eapply si_redirect; eassumption.
    + intros k mid Hk Hf. gstep. exists []. split; [now rewrite app_nil_r|]. cbn [snd]. intros args rest' Ha.
      eapply si_command; try eassumption. now apply look_not_assignment.
    + intros rest Hn Hr. gstep. exists []. split; [now rewrite app_nil_r|]. cbn [snd]. split; [|split; [|exact Hr]].
      * apply si_end; [|exact Hr]. now apply no_word_of_skipw.
      * eapply no_word_again; exact Hn.
Qed.
Lemma simple_gives ts (Q : b_pipeable B -> list token -> Prop) :
  (forall vars args rest, simple vars args ts rest -> (vars <> [] \/ args <> []) -> Q (pu_simple_command P vars args) rest) ->
  gives (simple_command B fuel K) ts Q.
Proof.
  intros H. unfold simple_command. gstep. gcall vars_gives. intros [vs ex] mid (vars & E & Hv). cbn [fst snd app] in *. subst vs.
  assert (X : forall args rest, simple vars args ts rest ->
    gives (if is_nil vars && is_nil args then unexpected else build (o_simple_command B vars args)) rest Q).
  { intros args rest Hs. destruct (is_nil vars && is_nil args) eqn:En; [gstep|].
    eapply gives_build; [apply pu_simple_command_ok|]. apply H; [exact Hs|].
    destruct vars; [|left; discriminate]. right. intros E. rewrite E in En. discriminate. }
  gstep. destruct ex as [w|].
  - gcall args_gives. intros res rest (args & -> & Ha). apply X. now apply Hv.
  - destruct Hv as (Hv & Hn & Hr).
    eapply gives_runs; [apply (arguments_end B fuel K mid mid Hn Hr fuel []); reflexivity|]. now apply X.
Qed.

(** ** Compound commands *)
Lemma group_rest cfg : forall cs tr ts rest, group cfg (mkCG cs tr) ts rest -> no_newline rest /\ skipw rest = rest.
Proof.
  induction cs as [|c cs IH]; intros tr ts rest H; inversion H; subst; [eapply newlines_rest; eassumption|]. eapply IH. eassumption.
Qed.
Lemma group_normal cfg g ts rest : group cfg g ts rest -> no_newline rest /\ skipw rest = rest.
Proof. destruct g. apply group_rest. Qed.
Lemma command_group_gives cfg ts (Q : cgroup C -> list token -> Prop) : plain cfg ->
  (forall g rest, group cfg g ts rest -> commands g <> [] -> Q g rest) -> gives (command_group B K cfg) ts Q.
Proof.
  intros Hp H. unfold command_group. gstep. gcall (KG cfg Hp). intros g rest Hg.
  destruct (commands g) eqn:E; cbn [is_nil]; [gstep|]. gstep. apply H; [exact Hg|congruence].
Qed.
Lemma keyword_of_skipw k ts rest : keyword k (skipw ts) rest -> keyword k ts rest.
Proof. apply keyword_skipw. now rewrite skipw_idem. Qed.
Lemma at_keyword_one k ts rest : keyword k ts rest -> at_keyword [k] ts.
Proof. intros H. exists k, rest. split; [now left|exact H]. Qed.
Lemma do_gives ts (Q : cgroup C -> list token -> Prop) :
  (forall g rest, do_form g ts rest -> Q g rest) -> gives (do_group B fuel K) ts Q.
Proof.
  intros H. unfold do_group. gstep. gstep. gstep. apply word_gives'; [discriminate| |].
  - intros k ts1 [<-|[]] Hk. gstep. apply command_group_gives; [apply plain_words|]. intros g ts2 Hg Hn. gstep.
    apply word_gives'; [discriminate| |].
    + intros k rest [<-|[]] Hk2. gstep. apply H. eapply df_do; eassumption.
    + intros _. gstep. gstep. gstep.
  - intros _. gstep.
Qed.
Lemma loop_gives ts (Q : loop_kind * gbpair C -> list token -> Prop) :
  (forall g b ts1 ts2 rest, keyword WHILE ts ts1 -> group (mkDelims [] [DO] []) g ts1 ts2 -> commands g <> [] -> do_form b ts2 rest ->
     Q (LoopWhile, mkGBP g b) rest) ->
  (forall g b ts1 ts2 rest, keyword UNTIL ts ts1 -> group (mkDelims [] [DO] []) g ts1 ts2 -> commands g <> [] -> do_form b ts2 rest ->
     Q (LoopUntil, mkGBP g b) rest) ->
  gives (loop_command B fuel K) ts Q.
Proof.
  intros H1 H2. unfold loop_command. gstep. gstep. gstep. apply word_gives'; [discriminate| |].
  - intros k ts1 Hi Hk. gstep.
    assert (X : forall kind, (forall g b ts2 rest, group (mkDelims [] [DO] []) g ts1 ts2 -> commands g <> [] -> do_form b ts2 rest ->
        Q (kind, mkGBP g b) rest) -> gives (
      guard <- command_group B K (mkDelims [] [DO] []) ;;
      d <- peek_reserved_word fuel [DO] ;;
      match d with
      | Some _ => body <- do_group B fuel K ;; ret (kind, mkGBP guard body)
      | None => q <- getpos ;; throw (IncompleteCmd WHILE p DO q)
      end) ts1 Q).
    { intros kind HQ. gstep. apply command_group_gives; [apply plain_words|]. intros g ts2 Hg Hn. gstep.
      destruct (group_normal _ _ _ _ Hg) as [_ Es].
      apply peek_word_gives; [discriminate| |].
      - intros k' rest _ _. gstep. rewrite Es. apply do_gives. intros b rest' Hb. gstep. eapply HQ; eassumption.
      - intros _. gstep. gstep. gstep. }
    destruct Hi as [<-|[<-|[]]].
    + change (str_eqb WHILE WHILE) with true. gstep. apply X. intros. eapply H1; eassumption.
    + change (str_eqb UNTIL WHILE) with false. change (str_eqb UNTIL UNTIL) with true. gstep. apply X. intros. eapply H2; eassumption.
  - intros _. gstep.
Qed.
Lemma if_loop_gives p n : forall acc ts, gives (if_loop B fuel K p n acc) ts
  (fun f rest => exists conds els, f = mkIF (acc ++ conds) els /\ conditionals conds els ts rest).
Proof.
  induction n as [|n IH]; intros acc ts; [apply gives_fuel|]. cbn [if_loop]. gstep.
  apply command_group_gives; [apply plain_words|]. intros g ts1 Hg Hgn. gstep. apply word_gives'; [discriminate| |intros _; gstep; gstep; gstep].
  intros k ts2 [<-|[]] Hk. gstep. apply command_group_gives; [apply plain_words|]. intros b ts3 Hb Hbn. cbv zeta. gstep.
  apply word_gives'; [discriminate| |intros _; gstep; gstep; gstep]. intros k ts4 Hi Hk2.
  destruct Hi as [<-|[<-|[<-|[]]]].
  - change (str_eqb ELIF ELIF) with true. cbv match. gcall IH. intros f rest (conds & els & -> & Hc).
    exists (mkGBP g b :: conds), els. split; [now rewrite <- app_assoc|]. eapply cd_elif; eassumption.
  - change (str_eqb ELSE ELIF) with false. change (str_eqb ELSE ELSE) with true. cbv match.
    gstep. apply command_group_gives; [apply plain_words|]. intros e ts5 He Hen. gstep.
    apply word_gives'; [discriminate| |intros _; gstep; gstep; gstep]. intros k rest [<-|[]] Hk3. gstep.
    exists [mkGBP g b], (Some e). split; [reflexivity|]. eapply cd_else; eassumption.
  - change (str_eqb FI ELIF) with false. change (str_eqb FI ELSE) with false. change (str_eqb FI FI) with true. cbv match.
    gstep. exists [mkGBP g b], None. split; [reflexivity|]. eapply cd_fi; eassumption.
Qed.
Lemma for_words_skipw ws ts ts0 rest : skipw ts0 = skipw ts -> for_words_form ws ts rest -> for_words_form ws ts0 rest.
Proof.
  intros E H. destruct H.
  - apply fw_end. apply no_word_of_skipw. rewrite E.
    match goal with N : no_word _ _ |- _ => inversion N; subst end.
    + rewrite <- (skipw_idem ts) at 2. apply nw_delimited. now rewrite skipw_idem.
    + rewrite <- (skipw_idem ts) at 2. apply nw_comment. now rewrite skipw_idem.
    + apply nw_backslash. now rewrite skipw_idem.
  - rewrite <- E in *. eapply fw_word; eassumption.
Qed.
Lemma words_gives n : forall acc ts, gives (words_loop B fuel K n acc) ts
  (fun res rest => exists ws, res = acc ++ ws /\ for_words_form ws ts rest).
Proof.
  induction n as [|n IH]; intros acc ts; [apply gives_fuel|]. cbn [words_loop]. gstep. apply word_gives.
  - intros k mid Hk. gcall IH. intros res rest (ws & -> & H). exists (pu_word P k :: ws). split; [now rewrite <- app_assoc|].
    eapply fw_word; [exact Hk|]. eapply for_words_skipw; [|exact H]. now rewrite skipw_idem.
  - intros rest Hn. gstep. exists []. split; [now rewrite app_nil_r|]. now apply fw_end.
Qed.
Lemma for_words_gives p ns ts ts1 (Q : option (list newline_ * list (b_word B) * option newline_) * list newline_ -> list token -> Prop) :
  newlines ns ts ts1 ->
  (forall ws cs rest, for_list ws cs ts rest -> Q (ws, cs) rest) ->
  gives (for_words B fuel K p ns) ts1 Q.
Proof.
  intros Hns H. destruct (newlines_rest _ _ _ Hns) as [Hr Es]. unfold for_words. gstep. apply peek_word_gives; [discriminate| |].
  - intros k r Hi Hk. gstep. rewrite Es. apply word_gives'; [discriminate| |intros _; gstep].
    intros k' ts2 [<-|[]] Hk2. gstep. gcall words_gives. cbn [app]. intros ws ts3 (ws' & -> & Hw). gstep.
    assert (X : forall (semi : bool) ts4, (if semi then ts3 = TSemi :: ts4 else ts3 = ts4 /\ hd_error ts3 <> Some TSemi) ->
       gives (words_comment <- newline fuel ;;
          if negb semi && match words_comment with None => true | Some _ => false end
          then unexpected
          else
            lb <- linebreak fuel ;;
            ret (Some (ns, ws', words_comment), lb) : prog _) ts4 Q).
    { intros semi ts4 Hs. gstep. apply newline_gives. intros wc ts5 Hwc.
      destruct (negb semi && match wc with None => true | Some _ => false end) eqn:En; [gstep|].
      gstep. apply linebreak_gives. intros cs rest Hcs. gstep. apply H. eapply fl_words; try eassumption.
      destruct semi; [now left|]. right. destruct Hs as [-> Hs]. repeat split; auto. intros ->. discriminate. }
    gstep.
    + now apply (X true).
    + now apply (X false).
  - intros Hi. rewrite Es. gstep. gstep. destruct (otoken_eqb_spec (hd_error ts1) (Some TSemi)) as [Eh|Eh].
    + gstep. apply gives_eat. intros us E. gstep. apply linebreak_gives. intros cs rest Hcs. gstep. apply H.
      rewrite E in Hns. eapply fl_semi; eassumption.
    + gstep. apply peek_word_gives; [discriminate| |intros _; gstep; gstep; gstep].
      intros k r _ Hk. gstep. rewrite Es. apply H. apply fl_none; assumption.
Qed.
Lemma do_form_skipw g ts ts0 rest : skipw ts0 = skipw ts -> do_form g ts rest -> do_form g ts0 rest.
Proof. intros E H. destruct H. eapply df_do; try eassumption. eapply keyword_skipw; eassumption. Qed.
Lemma for_gives ts (Q : for_fragments (b_word B) C -> list token -> Prop) :
  (forall v vc ws cs b ts1 ts2 ts3 ts4 rest, keyword FOR ts ts1 -> skipw ts1 = TName v :: ts2 ->
      maybe_newline vc ts2 ts3 -> for_list ws cs ts3 ts4 -> do_form b ts4 rest -> Q (mkFF v vc ws cs b) rest) ->
  gives (for_command B fuel K) ts Q.
Proof.
  intros H. unfold for_command. gstep. gstep. gstep. apply word_gives'; [discriminate| |intros _; gstep].
  intros k ts1 [<-|[]] Hk. gstep. apply gives_skipw. gstep. gstep.
  destruct (skipw ts1) as [|t us] eqn:E1; cbn [hd_error]; [gstep|].
  destruct t; try gstep.
  - gstep. gstep. gstep. gstep.
  - gstep. gstep. gstep. gstep. apply newline_gives. intros vc ts3 Hvc. gstep. apply linebreak_gives. intros ns ts4 Hns.
    gstep. eapply for_words_gives; [exact Hns|]. intros ws cs ts5 Hl. gstep. apply peek_word_gives; [discriminate| |intros _; gstep; gstep; gstep].
    intros k r _ _. gstep. apply do_gives. intros b rest Hb. gstep. eapply H; try eassumption.
    eapply do_form_skipw; [|exact Hb]. now rewrite skipw_idem.
Qed.
Lemma patterns_gives p n : forall acc ts, gives (patterns_loop B fuel K p n acc) ts
  (fun res rest => exists ps, res = acc ++ ps /\ patterns_form ps ts rest).
Proof.
  induction n as [|n IH]; intros acc ts; [apply gives_fuel|]. cbn [patterns_loop]. gstep. apply word_gives; [|intros; gstep].
  intros k mid Hk. gstep. gstep. destruct (skipw mid) as [|t r] eqn:E; cbn [hd_error]; [gstep; gstep; gstep|].
  destruct t; try gstep.
  - gstep. gstep. exists [pu_word P k]. split; [reflexivity|]. eapply pf_last; eassumption.
  - gstep. gcall IH. intros res rest (ps & -> & H). exists (pu_word P k :: ps). split; [now rewrite <- app_assoc|].
    eapply pf_more; eassumption.
Qed.
Lemma arms_gives p n : forall acc ts, gives (arms_loop B fuel K p n acc) ts
  (fun res rest => exists arms, fst res = acc ++ arms /\ no_newline rest /\ skipw rest = rest /\
     (at_keyword [ESAC] rest -> case_arms arms (snd res) ts rest)).
Proof.
  induction n as [|n IH]; intros acc ts; [apply gives_fuel|]. cbn [arms_loop]. gstep. apply linebreak_gives.
  intros pre ts1 Hpre. destruct (newlines_rest _ _ _ Hpre) as [Hr Es]. gstep. apply peek_word_gives; [discriminate| |].
  - intros k r [<-|[]] Hk. rewrite Es. gstep. exists []. split; [cbn; now rewrite app_nil_r|]. split; [exact Hr|]. split; [exact Es|].
    intros Ha. cbn [snd]. now apply ca_end.
  - intros Hne. rewrite Es.
    assert (X : forall ts2, (ts1 = TParenOpen :: ts2 \/ (hd_error ts1 <> Some TParenOpen /\ ts1 = ts2)) -> gives (
          q <- peek ;;
          match q with
          | None => q <- getpos ;; throw (IncompleteCmd CASE p ESAC q)
          | Some _ =>
              patterns <- patterns_loop B fuel K p fuel [] ;;
              pattern_comment <- newline fuel ;;
              body <- k_group K (mkDelims [] [ESAC] [TDSemi]) ;;
              d <- eat_maybe TDSemi ;;
              if d : bool then
                arm_comment <- newline fuel ;;
                arms_loop B fuel K p n
                  (acc ++ [mkCA (mkCP pre patterns pattern_comment)
                                 body arm_comment])
              else
                ret (acc ++ [mkCA (mkCP pre patterns pattern_comment)
                                   body None], [])
          end) ts2 (fun res rest => exists arms, fst res = acc ++ arms /\ no_newline rest /\ skipw rest = rest /\
     (at_keyword [ESAC] rest -> case_arms arms (snd res) ts rest))).
    { intros ts2 Hp. gstep. gstep. destruct (hd_error ts2); [|gstep; gstep; gstep]. gstep. gcall patterns_gives. cbn [app].
      intros ps ts3 (ps' & -> & Hps). gstep. apply newline_gives. intros pc ts4 Hpc. gstep. gcall (KG _ (plain_arm [ESAC])).
      intros b ts5 Hb. destruct (group_normal _ _ _ _ Hb) as [Hr5 Es5]. gstep. gstep.
      - gstep. apply newline_gives. intros ac ts6 Hac. gcall IH. intros [as_ cs] rest (arms & E1 & E2 & E3 & E4).
        cbn [fst snd] in *. exists (mkCA (mkCP pre ps' pc) b ac :: arms). split; [rewrite E1, <- app_assoc; reflexivity|].
        split; [exact E2|]. split; [exact E3|]. intros Ha. eapply ca_arm; try eassumption. now apply E4.
      - gstep. exists [mkCA (mkCP pre ps' pc) b None]. split; [reflexivity|]. split; [exact Hr5|]. split; [exact Es5|].
        cbn [snd]. intros Ha. eapply ca_last; eassumption. }
    gstep. gstep.
    + apply X. now left.
    + apply X. now right.
Qed.
Lemma case_gives ts (Q : case_fragments (b_word B) C -> list token -> Prop) :
  (forall k cs ic arms ac ts1 ts2 ts3 ts4 ts5 ts6 rest, keyword CASE ts ts1 ->
      word_form k (skipw ts1) ts2 -> newlines cs ts2 ts3 -> keyword IN ts3 ts4 ->
      maybe_newline ic ts4 ts5 -> case_arms arms ac ts5 ts6 -> keyword ESAC ts6 rest ->
      Q (mkCF (pu_word P k) cs ic arms ac) rest) ->
  gives (case_command B fuel K) ts Q.
Proof.
  intros H. unfold case_command. gstep. gstep. gstep. apply word_gives'; [discriminate| |intros _; gstep].
  intros kw ts1 [<-|[]] Hk. gstep. apply word_gives; [|intros; gstep]. intros k ts2 Hw. gstep. apply linebreak_gives.
  intros cs ts3 Hcs. gstep. apply word_gives'; [discriminate| |intros _; gstep; gstep; gstep].
  intros kw ts4 [<-|[]] Hin. gstep. apply newline_gives. intros ic ts5 Hic. gstep. gcall arms_gives. cbn [app].
  intros [arms ac] ts6 (arms' & E1 & E2 & E3 & E4). cbn [fst snd] in *. subst arms'. gstep. apply linebreak_gives.
  intros rc ts7 Hrc. rewrite <- E3 in E2. destruct (newlines_nil _ _ _ Hrc E2) as [-> ->]. rewrite E3 in *.
  gstep. apply word_gives'; [discriminate| |intros _; gstep; gstep; gstep]. intros kw rest [<-|[]] He. gstep.
  rewrite app_nil_r. eapply H; try eassumption.
  - eapply newlines_skipw; [|exact Hcs]. now rewrite skipw_idem.
  - apply E4. eapply at_keyword_one; exact He.
Qed.
Lemma brace_gives ts (Q : cgroup C -> list token -> Prop) :
  (forall g us mid rest, skipw ts = TCurlyOpen :: us -> delimited us -> group (mkDelims [TCurlyClose] [] []) g us mid ->
     commands g <> [] -> mid = TCurlyClose :: rest -> delimited rest -> Q g rest) ->
  gives (brace_group B fuel K) ts Q.
Proof.
  intros H. unfold brace_group. gstep. gstep. gstep. apply token_gives; [discriminate|repeat constructor|].
  intros t us [<-|[]] E Hd. gstep. apply command_group_gives; [apply plain_brace|]. intros g mid Hg Hn.
  destruct (group_normal _ _ _ _ Hg) as [_ Es].
  gstep. apply token_res_gives; [discriminate|repeat constructor| |intros; gstep].
  intros t rest [<-|[]] E2 Hd2. gstep. rewrite Es in E2. eapply H; eassumption.
Qed.
Lemma next_type_gives ts (Q : option compound_kw -> list token -> Prop) :
  (hd_error (skipw ts) = Some TParenOpen -> Q (Some KwSubshell) (skipw ts)) ->
  (forall r, skipw ts = TCurlyOpen :: r -> delimited r -> Q (Some KwBrace) (skipw ts)) ->
  (forall k r kw, keyword k (skipw ts) r -> In k [FOR; CASE; IF; WHILE; UNTIL] -> kw_of k = Some kw -> Q (Some kw) (skipw ts)) ->
  (~ at_compound (skipw ts) -> Q None (skipw ts)) ->
  gives (next_compound_command_type B fuel) ts Q.
Proof.
  intros H1 H2 H3 H4. unfold next_compound_command_type. gstep. apply gives_skipw. gstep. gstep.
  destruct (otoken_eqb_spec (hd_error (skipw ts)) (Some TParenOpen)) as [E|E]; [gstep; now apply H1|].
  gstep. apply peek_token_gives; [discriminate|repeat constructor| |].
  - rewrite skipw_idem. intros t r [<-|[]] Et Hd. gstep. eapply H2; eassumption.
  - intros Ht. gstep. rewrite skipw_idem. apply peek_word_gives; [discriminate| |]; rewrite skipw_idem.
    + intros k r Hi Hk. gstep.
      assert (X : exists kw, kw_of k = Some kw).
      { destruct Hi as [<-|[<-|[<-|[<-|[<-|[]]]]]]; eexists; reflexivity. }
      destruct X as (kw & X). change (Q (kw_of k) (skipw ts)). rewrite X. eapply H3; eassumption.
    + intros Hk. gstep. apply H4. intros [Hc|[Hc|Hc]]; [congruence| |contradiction]. now apply Ht.
Qed.
Lemma compound_kw_gives kw ts (Q : b_compound B -> list token -> Prop) : skipw ts = ts ->
  (forall c rest, compound c ts rest -> Q c rest) -> gives (compound_command_kw B fuel K kw) ts Q.
Proof.
  intros Es H. unfold compound_command_kw.
  assert (L : gives ('(k, gb) <- loop_command B fuel K ;;
      io <- redirect_list B fuel K ;; build (o_loop_command B k gb io)) ts Q).
  { gstep. apply loop_gives.
    - intros g b ts1 ts2 ts3 Hk Hg Hn Hb. gstep. gcall redirect_list_gives. intros rs rest Hr.
      eapply gives_build; [apply pu_loop_command_ok|]. apply H. eapply co_while; eassumption.
    - intros g b ts1 ts2 ts3 Hk Hg Hn Hb. gstep. gcall redirect_list_gives. intros rs rest Hr.
      eapply gives_build; [apply pu_loop_command_ok|]. apply H. eapply co_until; eassumption. }
  destruct kw as [[| | | | | |]|]; try exact L; clear L.
  - gstep. apply for_gives. intros v vc ws cs b ts1 ts2 ts3 ts4 ts5 H1 H2 H3 H4 H5. gstep. gcall redirect_list_gives. intros rs rest Hr.
    eapply gives_build; [apply pu_for_command_ok|]. apply H. eapply co_for; eassumption.
  - gstep. apply case_gives. intros k cs ic arms ac ts1 ts2 ts3 ts4 ts5 ts6 ts7 H1 H2 H3 H4 H5 H6 H7. gstep. gcall redirect_list_gives. intros rs rest Hr.
    eapply gives_build; [apply pu_case_command_ok|]. apply H. eapply co_case; eassumption.
  - gstep. unfold if_command. gstep. gstep. gstep. apply word_gives'; [discriminate| |intros _; gstep].
    intros kw ts1 [<-|[]] Hk. gcall if_loop_gives. cbn [app]. intros f ts2 (conds & els & -> & Hc). gstep.
    gcall redirect_list_gives. intros rs rest Hr.
    eapply gives_build; [apply pu_if_command_ok|]. apply H. eapply co_if; eassumption.
  - gstep. apply brace_gives. intros g us mid ts3 H1 H2 H3 H4 H5 H6. gstep. gcall redirect_list_gives. intros rs rest Hr.
    eapply gives_build; [apply pu_brace_group_ok|]. apply H. rewrite Es in H1. subst ts. eapply co_brace; eassumption.
  - gstep. unfold subshell. eapply (subshell_gives B P K KG). intros g us mid -> H1 H2. gstep. gcall redirect_list_gives. intros rs rest Hr.
    eapply gives_build; [apply pu_subshell_ok|]. apply H. eapply co_subshell; try eassumption. now apply H2.
  - gstep.
Qed.
Lemma compound_gives ts (Q : b_compound B -> list token -> Prop) :
  (forall c rest, compound c (skipw ts) rest -> Q c rest) -> gives (compound_command B fuel K) ts Q.
Proof.
  intros H. unfold compound_command. gstep.
  apply next_type_gives; intros; (apply compound_kw_gives; [apply skipw_idem|exact H]).
Qed.

(** ** Function definitions *)
Lemma parens_gives found ts (Q : option (b_compound B) -> list token -> Prop) :
  (forall us rest, ts = TParenOpen :: us -> skipw us = TParenClose :: rest -> Q None rest) ->
  (found = true -> hd_error ts = Some TNewline -> Q None ts) ->
  (forall w us mid rest, found = false -> ts = TWhitespace w :: us -> skipw us = TParenOpen :: mid -> skipw mid = TParenClose :: rest -> Q None rest) ->
  (forall w us, found = true -> ts = TWhitespace w :: us -> hd_error (skipw us) <> Some TParenOpen -> Q None (skipw us)) ->
  (forall w us mid rest, found = true -> ts = TWhitespace w :: us -> skipw us = TParenOpen :: mid -> skipw mid = TParenClose :: rest -> Q None rest) ->
  (forall w us mid g rest, found = true -> ts = TWhitespace w :: us -> skipw us = TParenOpen :: mid ->
     group (mkDelims [] [] [TParenClose]) g mid (TParenClose :: rest) -> (commands g <> [] \/ trailing_comments g <> []) ->
     Q (Some (pu_subshell P g [])) rest) ->
  gives (function_parens B fuel K found) ts Q.
Proof.
  intros H1 H2 H3 H4 H5 H6. unfold function_parens. gstep. gstep.
  destruct (otoken_eqb_spec (hd_error ts) (Some TParenOpen)) as [E|E].
  { gstep. apply gives_eat. intros us ->. gstep. apply gives_skipw. gstep. apply gives_eat. intros rest Er. gstep. eapply H1; [reflexivity|exact Er]. }
  destruct (found && otoken_eqb (hd_error ts) (Some TNewline)) eqn:En.
  { apply andb_true_iff in En as [-> En]. destruct (otoken_eqb_spec (hd_error ts) (Some TNewline)); [|discriminate].
    gstep. now apply H2. }
  gstep. destruct ts as [|t us]; cbn [hd_error]; [gstep|]. destruct t; try gstep. gstep. gstep. gstep. apply gives_skipw.
  destruct found; cbn [negb].
  - gstep. gstep. destruct (otoken_eqb_spec (hd_error (skipw us)) (Some TParenOpen)) as [Ep|Ep].
    + gstep. eapply (subshell_gives B P K KG). intros g mid rest Em Hg _.
      destruct (is_nil (commands g) && is_nil (trailing_comments g)) eqn:Eg.
      * gstep. destruct g as [cs tr]. cbn [commands trailing_comments] in Eg. destruct cs, tr; try discriminate.
        eapply H5; [reflexivity|reflexivity|exact Em|]. inversion Hg; subst.
        match goal with N : newlines [] _ _ |- _ => inversion N; subst end. congruence.
      * gstep. eapply gives_build; [apply pu_subshell_ok|]. gstep. eapply H6; [reflexivity|reflexivity|exact Em|exact Hg|].
        destruct (commands g); [|left; discriminate]. destruct (trailing_comments g); [discriminate|right; discriminate].
    + gstep. eapply H4; [reflexivity|reflexivity|exact Ep].
  - gstep. apply gives_eat. intros mid Em. gstep. apply gives_skipw. gstep. apply gives_eat. intros rest Er. gstep.
    eapply H3; [reflexivity|reflexivity|exact Em|exact Er].
Qed.
Lemma function_body_skipw ns c ts ts0 rest : skipw ts0 = skipw ts -> function_body ns c ts rest -> function_body ns c ts0 rest.
Proof. intros E H. destruct H. eapply fb_body; [|eassumption]. eapply newlines_skipw; eassumption. Qed.
Lemma fn_body_gives (v : str) ts (Q : str * list newline_ * b_compound B -> list token -> Prop) :
  (forall ns c rest, function_body ns c ts rest -> Q (v, ns, c) rest) ->
  gives (lb <- linebreak fuel ;; c <- compound_command B fuel K ;; ret (v, lb, c)) ts Q.
Proof.
  intros H. gstep. apply linebreak_gives. intros ns mid Hns. gstep. apply compound_gives. intros c rest Hc. gstep. apply H.
  destruct (newlines_rest _ _ _ Hns) as [_ Es]. rewrite Es in Hc. eapply fb_body; eassumption.
Qed.
(** The forms of a function definition. *)
Lemma function_cases_gives ts (Q : b_pipeable B -> list token -> Prop) :
  (forall v ns c ts1 ts2 ts3 rest, ~ at_keyword [FUNCTION] ts -> skipw ts = TName v :: ts1 ->
     (ts1 = TParenOpen :: ts2 \/ exists w us, ts1 = TWhitespace w :: us /\ skipw us = TParenOpen :: ts2) ->
     skipw ts2 = TParenClose :: ts3 -> function_body ns c ts3 rest -> Q (pu_function_declaration P v ns c) rest) ->
  (forall v ns c ts0 ts1 ts2 rest, keyword FUNCTION ts ts0 -> skipw ts0 = TName v :: TParenOpen :: ts1 ->
     skipw ts1 = TParenClose :: ts2 -> function_body ns c ts2 rest -> Q (pu_function_declaration P v ns c) rest) ->
  (forall v ns c ts0 ts1 rest, keyword FUNCTION ts ts0 -> skipw ts0 = TName v :: ts1 ->
     (hd_error ts1 = Some TNewline \/ exists w ts2, ts1 = TWhitespace w :: ts2 /\ hd_error (skipw ts2) <> Some TParenOpen) ->
     function_body ns c ts1 rest -> Q (pu_function_declaration P v ns c) rest) ->
  (forall v ns c ts0 w ts1 ts2 ts3 rest, keyword FUNCTION ts ts0 -> skipw ts0 = TName v :: TWhitespace w :: ts1 ->
     skipw ts1 = TParenOpen :: ts2 -> skipw ts2 = TParenClose :: ts3 -> function_body ns c ts3 rest ->
     Q (pu_function_declaration P v ns c) rest) ->
  (forall v g ts0 w ts1 ts2 rest, keyword FUNCTION ts ts0 -> skipw ts0 = TName v :: TWhitespace w :: ts1 ->
     skipw ts1 = TParenOpen :: ts2 -> group (mkDelims [] [] [TParenClose]) g ts2 (TParenClose :: rest) ->
     (commands g <> [] \/ trailing_comments g <> []) ->
     Q (pu_function_declaration P v [] (pu_subshell P g [])) rest) ->
  gives (function_declaration B fuel K) ts Q.
Proof.
  intros H1 H2 H3 H4 H5. unfold function_declaration, function_declaration_internal. gstep. gstep. apply peek_word_gives; [discriminate| |].
  - intros k ts0 [<-|[]] Hk. gstep. gstep. gstep. gstep.
    replace (tl (skipw ts)) with ts0 by (destruct Hk as [? ? E _|? ? E _]; now rewrite E).
    gstep. apply gives_skipw. gstep. gstep. destruct (skipw ts0) as [|t us] eqn:E0; cbn [hd_error]; [gstep|].
    destruct t; try gstep.
    + gstep. gstep. gstep. gstep.
    + gstep. gstep. gstep. gstep. apply parens_gives.
      * intros ts2 ts3 -> E. apply fn_body_gives. intros ns c rest Hb. cbv beta match. eapply gives_build; [apply pu_function_declaration_ok|].
        eapply H2; eassumption.
      * intros _ Hn. apply fn_body_gives. intros ns c rest Hb. cbv beta match. eapply gives_build; [apply pu_function_declaration_ok|].
        eapply H3; try eassumption. now left.
      * discriminate.
      * intros w ts2 _ -> Hp. apply fn_body_gives. intros ns c rest Hb. cbv beta match. eapply gives_build; [apply pu_function_declaration_ok|].
        eapply H3; try eassumption.
        -- right. eauto.
        -- eapply function_body_skipw; [|exact Hb]. cbn. now rewrite skipw_idem.
      * intros w ts2 mid ts3 _ -> E1 E2. apply fn_body_gives. intros ns c rest Hb. cbv beta match. eapply gives_build; [apply pu_function_declaration_ok|].
        eapply H4; eassumption.
      * intros w ts2 mid g rest _ -> E1 Hg Hn. gstep. cbv beta match. eapply gives_build; [apply pu_function_declaration_ok|].
        eapply H5; eassumption.
  - intros Hk. gstep. gstep. gstep. apply gives_skipw. rewrite skipw_idem. gstep. gstep.
    destruct (skipw ts) as [|t us] eqn:E0; cbn [hd_error]; [gstep|].
    destruct t; try gstep.
    + gstep. gstep. gstep. gstep.
    + gstep. gstep. gstep. gstep. apply parens_gives; try discriminate.
    * intros ts2 ts3 -> E. apply fn_body_gives. intros ns c rest Hb. cbv beta match. eapply gives_build; [apply pu_function_declaration_ok|].
      exact (H1 s ns c _ ts2 ts3 rest Hk eq_refl (or_introl eq_refl) E Hb).
    * intros w ts2 mid ts3 _ -> E1 E2. apply fn_body_gives. intros ns c rest Hb. cbv beta match. eapply gives_build; [apply pu_function_declaration_ok|].
      refine (H1 s ns c _ mid ts3 rest Hk eq_refl (or_intror _) E2 Hb). eauto.
Qed.
(** A function definition where a command may stand. *)
Lemma function_gives ts (Q : b_pipeable B -> list token -> Prop) : skipw ts = ts ->
  (~ at_compound ts) -> (at_keyword [FUNCTION] ts \/ at_function ts) ->
  (forall c rest, command_form c ts rest -> Q c rest) -> gives (function_declaration B fuel K) ts Q.
Proof.
  intros Es Hc Ha H. apply function_cases_gives.
  - intros v ns c ts1 ts2 ts3 rest Hk E Hp E2 Hb. rewrite Es in E. apply H. eapply cf_function; try eassumption.
    destruct Hp as [-> |(w & us & -> & Eu)]; [now left|right].
    destruct Ha as [Ha|Ha]; [contradiction|]. subst ts. cbn in Ha. destruct us as [|t us]; [contradiction Ha|]. destruct t; try contradiction Ha.
    cbn in Eu. injection Eu as <-. eauto.
  - intros. apply H. eapply cf_function_parens; eassumption.
  - intros. apply H. eapply cf_function_word; eassumption.
  - intros. apply H. eapply cf_function_word_parens; eassumption.
  - intros. apply H. eapply cf_function_subshell; eassumption.
Qed.
Lemma look_function ts : look function_try ts = true -> at_function ts.
Proof.
  unfold function_try. destruct ts as [|t ts]; [discriminate|]. destruct t; try discriminate. cbn [look hd_error tl].
  destruct ts as [|t ts]; [discriminate|]. cbn [hd_error]. destruct t; try discriminate; cbn [look hd_error tl].
  - intros _. exact I.
  - destruct ts as [|t ts]; [discriminate|]. cbn [hd_error]. intros H.
    destruct (otoken_eqb_spec (Some t) (Some TParenOpen)) as [[= ->]|]; [exact I|discriminate].
Qed.
Lemma look_not_function ts : look function_try ts = false -> ~ at_function ts.
Proof.
  intros H Hf. destruct ts as [|t ts]; [exact Hf|]. destruct t; try exact Hf. destruct ts as [|t ts]; [exact Hf|].
  destruct t; try exact Hf; [discriminate|]. destruct ts as [|t ts]; [exact Hf|]. destruct t; try exact Hf. discriminate.
Qed.
Lemma command_gives ts (Q : b_pipeable B -> list token -> Prop) :
  (forall c rest, command_form c (skipw ts) rest -> Q c rest) -> gives (command B fuel K) ts Q.
Proof.
  intros H. unfold command. gstep.
  assert (X : forall kw, gives (c <- compound_command_kw B fuel K (Some kw) ;; build (o_compound_command_into_pipeable B c)) (skipw ts) Q).
  { intros kw. gstep. apply compound_kw_gives; [apply skipw_idem|]. intros c rest Hc.
    eapply gives_build; [apply pu_into_pipeable_ok|]. apply H. now apply cf_compound. }
  apply next_type_gives; [intros; apply X..|]. intros Hc. gstep.
  unfold maybe_function_declaration. gstep. apply peek_word_gives; [discriminate| |]; rewrite !skipw_idem.
  - intros k r [<-|[]] Hk. gstep. apply function_gives; [apply skipw_idem|exact Hc|left; eapply at_keyword_one; exact Hk|].
    intros c rest Hf. gstep. gstep. now apply H.
  - intros Hk. gstep. gstep. destruct (look function_try (skipw ts)) eqn:Ef.
    + gstep. apply function_gives; [apply skipw_idem|exact Hc|right; now apply look_function|].
      intros c rest Hf. gstep. gstep. now apply H.
    + gstep. apply simple_gives. intros vars args rest Hs Hn. apply H. apply cf_simple; auto. now apply look_not_function.
Qed.

(** ** Lists of commands *)
Lemma pipe_gives n : forall acc ts, gives (pipeline_loop B fuel K n acc) ts
  (fun res rest => exists cs, res = acc ++ cs /\ pipe_form cs ts rest).
Proof.
  induction n as [|n IH]; intros acc ts; [apply gives_fuel|]. cbn [pipeline_loop]. gstep. gstep.
  destruct (otoken_eqb_spec (hd_error ts) (Some TBang)) as [E|E]; [gstep|].
  gstep. apply command_gives. intros c mid Hc. gstep. gstep.
  - gstep. apply linebreak_gives. intros ns mid' Hns. gcall IH. intros res rest (cs & -> & H).
    exists ((ns, c) :: cs). split; [now rewrite <- app_assoc|]. eapply pi_more; eassumption.
  - gstep. exists [([], c)]. split; [reflexivity|]. now apply pi_last.
Qed.
Lemma pipe_nonempty cs ts rest : pipe_form cs ts rest -> cs <> [].
Proof. destruct 1; discriminate. Qed.
Lemma pipeline_gives ts (Q : b_listable B -> list token -> Prop) :
  (forall p rest, pipeline_form p ts rest -> Q p rest) -> gives (pipeline B fuel K) ts Q.
Proof.
  intros H. unfold pipeline. gstep. apply gives_skipw. gstep. apply gives_eat_maybe.
  - intros us E. gstep. gcall pipe_gives. cbn [app]. intros cs rest (cs' & -> & Hc).
    eapply gives_build; [intros b; apply pu_pipeline_ok; eapply pipe_nonempty; exact Hc|]. apply H. eapply pp_bang; eassumption.
  - intros E. gstep. gcall pipe_gives. cbn [app]. intros cs rest (cs' & -> & Hc).
    eapply gives_build; [intros b; apply pu_pipeline_ok; eapply pipe_nonempty; exact Hc|]. apply H. now apply pp_plain.
Qed.
Lemma and_or_gives n : forall acc ts, gives (and_or_loop B fuel K n acc) ts
  (fun res rest => exists l, res = acc ++ l /\ and_or_form l ts rest).
Proof.
  induction n as [|n IH]; intros acc ts; [apply gives_fuel|]. cbn [and_or_loop]. gstep. apply gives_skipw. gstep. gstep.
  assert (E : hd_error (skipw ts) <> Some TAndIf -> hd_error (skipw ts) <> Some TOrIf ->
    gives (ret acc : prog _) (skipw ts) (fun res rest => exists l, res = acc ++ l /\ and_or_form l ts rest)).
  { intros H1 H2. gstep. exists []. split; [now rewrite app_nil_r|]. now apply ao_end. }
  destruct (skipw ts) as [|t us] eqn:Et; cbn [hd_error] in *; [now apply E|].
  destruct t; try (apply E; discriminate); clear E.
  - gstep. gstep. gstep. apply linebreak_gives. intros ns ts2 Hns. gstep. apply pipeline_gives. intros p ts3 Hp. gcall IH.
    intros res rest (l & -> & H). exists ((ns, And p) :: l). split; [now rewrite <- app_assoc|]. eapply ao_and_if; eassumption.
  - gstep. gstep. gstep. apply linebreak_gives. intros ns ts2 Hns. gstep. apply pipeline_gives. intros p ts3 Hp. gcall IH.
    intros res rest (l & -> & H). exists ((ns, Or p) :: l). split; [now rewrite <- app_assoc|]. eapply ao_or_if; eassumption.
Qed.
Lemma and_or_normal l : forall ts rest, and_or_form l ts rest -> skipw rest = rest.
Proof.
  induction l as [|x l IH]; intros ts rest H; inversion H; subst; [apply skipw_idem| |]; eapply IH; eassumption.
Qed.
Lemma list_gives ts (Q : b_list B -> list token -> Prop) :
  (forall l rest, list_form l ts rest -> skipw rest = rest -> Q l rest) -> gives (and_or_list B fuel K) ts Q.
Proof.
  intros H. unfold and_or_list. gstep. apply pipeline_gives. intros p mid Hp. gstep. gcall and_or_gives. cbn [app].
  intros l rest (l' & -> & Hl). eapply gives_build; [apply pu_and_or_list_ok|]. apply H; [eapply lf_list; eassumption|].
  eapply and_or_normal; exact Hl.
Qed.
Lemma complete_gives ns ts (Q : C -> list token -> Prop) :
  (forall c rest, complete_form ns c ts rest -> Q c rest) -> gives (complete_command_with_leading_comments B fuel K ns) ts Q.
Proof.
  intros H. unfold complete_command_with_leading_comments. gstep. apply list_gives. intros l mid Hl Es. gstep. gstep. gstep.
  assert (O : hd_error mid <> Some TSemi -> hd_error mid <> Some TAmp -> gives (n <- newline fuel ;;
         ret (match n with Some _ => SepNewline | None => SepOther end, n) : prog _) mid
         (fun a r => gives (let '(sep, cmd_comment) := a in build (o_complete_command B ns l sep cmd_comment)) r Q)).
  { intros H1 H2. gstep. apply newline_gives. intros nl rest Hn. gstep. cbv match.
    eapply gives_build; [apply pu_complete_command_ok|]. apply H. inversion Hn; subst.
    - eapply cp_newline; eassumption.
    - rewrite Es in *. apply cp_other; auto. }
  destruct mid as [|t mid]; cbn [hd_error] in *; [apply O; discriminate|].
  destruct t; try (apply O; discriminate); clear O.
  - gstep. gstep. gstep. apply newline_gives. intros nl rest Hn. gstep. eapply gives_build; [apply pu_complete_command_ok|].
    apply H. eapply cp_semi; eassumption.
  - gstep. gstep. gstep. apply newline_gives. intros nl rest Hn. gstep. eapply gives_build; [apply pu_complete_command_ok|].
    apply H. eapply cp_amp; eassumption.
Qed.
Lemma found_gives cfg ts (Q : bool -> list token -> Prop) : plain cfg ->
  (at_delim cfg ts -> Q true (skipw ts)) ->
  (forall ts', ~ at_delim cfg ts -> skipw ts' = skipw ts -> (skipw ts = ts -> ts' = ts) -> Q false ts') ->
  gives (found_delim B fuel cfg) ts Q.
Proof.
  intros Hp H1 H2. destruct (at_delim_dec cfg ts Hp) as [D|D].
  - eapply gives_runs; [now apply found_yes|]. now apply H1.
  - destruct (found_no B fuel cfg ts Hp D) as (ts' & E1 & E2 & Hr). eapply gives_runs; [exact Hr|]. now apply H2.
Qed.
Lemma group_loop_gives cfg : plain cfg -> forall n acc ts, gives (command_group_loop B fuel K cfg n acc) ts
  (fun g rest => exists cs, commands g = acc ++ cs /\ group cfg (mkCG cs (trailing_comments g)) ts rest).
Proof.
  intros Hp. induction n as [|n IH]; intros acc ts; [apply gives_fuel|]. cbn [command_group_loop]. gstep. apply found_gives; [exact Hp| |].
  - intros Hd. gstep. exists []. cbn [commands trailing_comments]. split; [now rewrite app_nil_r|].
    destruct (newlines_total ts) as (ns & rest & Hn). destruct (at_delim_newlines _ _ _ _ Hp Hd Hn) as (-> & -> & Hd').
    apply gr_end; [exact Hn|]. right. exact Hd'.
  - intros ts' Hd E _. gstep. apply linebreak_gives. intros ns ts1 Hns.
    assert (Hns' : newlines ns ts ts1) by (eapply newlines_skipw; [symmetry; exact E|exact Hns]). clear Hns.
    destruct (newlines_rest _ _ _ Hns') as [Hr Es]. gstep. apply found_gives; [exact Hp| |].
    + intros Hd1. gstep. gstep. rewrite Es. gstep. exists []. cbn [commands trailing_comments]. split; [now rewrite app_nil_r|].
      apply gr_end; [exact Hns'|]. right. exact Hd1.
    + intros ts2 Hd1 _ E2. rewrite (E2 Es). clear ts2 E2. gstep. gstep. gstep. gstep. destruct ts1 as [|t r]; cbn [hd_error].
      * gstep. exists []. cbn [commands trailing_comments]. split; [now rewrite app_nil_r|]. apply gr_end; [exact Hns'|]. now left.
      * gstep. apply complete_gives. intros c ts3 Hc. gcall IH. intros g rest (cs & Eg & Hg). exists (c :: cs).
        split; [rewrite Eg, <- app_assoc; reflexivity|]. eapply gr_command; try eassumption.
        intros [He|He]; [discriminate|]. now apply Hd1.
Qed.
Lemma group_gives cfg ts : plain cfg -> gives (command_group_internal B fuel K cfg) ts (fun g rest => group cfg g ts rest).
Proof.
  intros Hp. unfold command_group_internal. gcall (group_loop_gives cfg Hp). cbn [app]. intros [cs tr] rest (cs' & E & H).
  cbn [commands trailing_comments] in *. now subst cs'.
Qed.
End SoundCommand.

(** ** All levels of recursion *)
Theorem knots_sound B (P : pure B) fuel n :
  (forall cfg, plain cfg -> forall ts, gives (k_group (knot B fuel n) cfg) ts (fun g rest => @Forms.group B P written_arith cfg g ts rest)) /\
  (forall ts, gives (k_param (knot B fuel n)) ts (fun s rest => @Forms.dollar B P written_arith s ts rest)).
Proof.
  induction n as [|n [IHg IHp]]; cbn [knot k_group k_param].
  - split; intros; apply gives_fuel.
  - split.
    + intros cfg Hp ts. apply group_gives; assumption.
    + intros ts. apply parameter_gives; assumption.
Qed.
