(** * The other public methods accept exactly their grammar

    [Exact.v] has the iterator and the methods for words, redirections, commands and lists.  Here the
    remaining public methods that return something: each returns a value, before the tokens [rest],
    exactly when the tokens it stands before are a written form of that value followed by [rest]. *)
From Coq Require Import String.
From Verif Require Import Base Token Lexer Pos Ast Builder Prog Iter Located IterProofs ParserBase Balanced RunLemmas BaseRun
  Sim BalancedSpec Arith Word Redirect Command DefaultBuilder Entry Api Total Runs Pure Relex ArithSpec HeredocSpec Forms
  BaseForms WordRuns HeredocRuns CommandRuns CompoundRuns FormsRuns FormsTheorems Reserved Gives SoundBase SoundWord SoundCommand SoundScript Exact.
Notation gives := Gives.gives.

Lemma function_look us : at_function us -> look function_try us = true.
Proof.
  intros Hf. unfold at_function in Hf. destruct us as [|t us]; [contradiction|]. destruct t; try contradiction.
  destruct us as [|t us]; [contradiction|]. destruct t; try contradiction; [reflexivity|].
  destruct us as [|t us]; [contradiction|]. destruct t; try contradiction; reflexivity.
Qed.

Section ExactMethods.
Variable B : builder.
Variable P : pure B.
Notation C := (b_cmd B).
Notation dollar := (@Forms.dollar B P written_arith).
Notation word_form := (@Forms.word_form B P written_arith).
Notation redirect_form := (@Forms.redirect_form B P written_arith).
Notation redirects := (@Forms.redirects B P written_arith).
Notation quoted := (@Forms.quoted B P written_arith).
Notation function_body := (@Forms.function_body B P written_arith).
Notation do_form := (@Forms.do_form B P written_arith).
Notation conditionals := (@Forms.conditionals B P written_arith).
Notation for_list := (@Forms.for_list B P written_arith).
Notation case_arms := (@Forms.case_arms B P written_arith).
Notation group := (@Forms.group B P written_arith).

(** ** Forms that occur only where a method is called directly *)

(** A function definition, wherever it stands.  (Where a command is expected [command_form] asks in
    addition that no compound command starts here, and that the parenthesis follows the name after at
    most one blank.) *)
Inductive function_form : b_pipeable B -> list token -> list token -> Prop :=
  | ff_name v ns c ts ts1 ts2 ts3 rest : ~ at_keyword [FUNCTION] ts -> skipw ts = TName v :: ts1 ->
      (ts1 = TParenOpen :: ts2 \/ exists w us, ts1 = TWhitespace w :: us /\ skipw us = TParenOpen :: ts2) ->
      skipw ts2 = TParenClose :: ts3 -> function_body ns c ts3 rest ->
      function_form (pu_function_declaration P v ns c) ts rest
  | ff_parens v ns c ts ts0 ts1 ts2 rest : keyword FUNCTION ts ts0 ->
      skipw ts0 = TName v :: TParenOpen :: ts1 ->
      skipw ts1 = TParenClose :: ts2 -> function_body ns c ts2 rest ->
      function_form (pu_function_declaration P v ns c) ts rest
  | ff_word v ns c ts ts0 ts1 rest : keyword FUNCTION ts ts0 ->
      skipw ts0 = TName v :: ts1 ->
      (hd_error ts1 = Some TNewline \/
       exists w ts2, ts1 = TWhitespace w :: ts2 /\ hd_error (skipw ts2) <> Some TParenOpen) ->
      function_body ns c ts1 rest ->
      function_form (pu_function_declaration P v ns c) ts rest
  | ff_word_parens v ns c ts ts0 w ts1 ts2 ts3 rest : keyword FUNCTION ts ts0 ->
      skipw ts0 = TName v :: TWhitespace w :: ts1 -> skipw ts1 = TParenOpen :: ts2 ->
      skipw ts2 = TParenClose :: ts3 -> function_body ns c ts3 rest ->
      function_form (pu_function_declaration P v ns c) ts rest
  | ff_subshell v g ts ts0 w ts1 ts2 rest : keyword FUNCTION ts ts0 ->
      skipw ts0 = TName v :: TWhitespace w :: ts1 -> skipw ts1 = TParenOpen :: ts2 ->
      group (mkDelims [] [] [TParenClose]) g ts2 (TParenClose :: rest) ->
      (commands g <> [] \/ trailing_comments g <> []) ->
      function_form (pu_function_declaration P v [] (pu_subshell P g [])) ts rest.

Section Methods.
Variables (fuel : nat) (s : token_iter) (b : bst B).
Hypothesis reach : parser_reach B s b.
Hypothesis enough : (List.length (tokens_left s) + 2 < fuel)%nat.
Notation ts := (tokens_left s).
Notation reads := (reads B fuel s b).
Notation returns := (returns B fuel s b).
Notation K := (knot B fuel fuel).
Notation KG := (proj1 (knots_sound B P fuel fuel)).
Notation KP := (proj2 (knots_sound B P fuel fuel)).
Notation FR := (forms_read B P fuel).

Lemma of_runs m a rest : runs (call B m fuel) ts a rest -> reads m a rest.
Proof. intros H. now apply (runs_concrete B m). Qed.
Lemma of_reads m a rest : reads m a rest -> returns m a rest.
Proof. apply reads_returns. Qed.
Lemma sound m (Q : api_result B m -> list token -> Prop) : gives (call B m fuel) ts Q ->
  forall a rest, reads m a rest -> Q a rest.
Proof. intros H a rest HR. apply (sound_of B fuel s b reach m Q H). now apply of_reads. Qed.
Lemma group_runs cfg g us rest : plain cfg -> group cfg g us rest -> runs (k_group K cfg) us g rest.
Proof.
  intros Hp H. apply group_reads; [exact Hp|]. intros n.
  destruct FR as (_ & _ & _ & _ & _ & _ & _ & _ & _ & _ & _ & _ & _ & _ & _ & _ & _ & _ & _ & _ & _ & _ & _ & _ & _ & F). now apply F.
Qed.
Lemma word_runs w us rest : word_form w us rest -> word_run B fuel K w us rest.
Proof. destruct FR as (_ & _ & _ & _ & _ & _ & F & _). intros H. now apply F. Qed.
Lemma do_runs g us rest : do_form g us rest -> do_run B fuel K g us rest.
Proof. destruct FR as (_ & _ & _ & _ & _ & _ & _ & _ & _ & _ & _ & _ & _ & _ & F & _). intros H. now apply F. Qed.

(** ** Words *)
Theorem word_skipping_exact r rest : reads AWord r rest <->
  match r with
  | Some k => exists w mid, k = pu_word P w /\ word_form w (skipw ts) mid /\ rest = skipw mid
  | None => no_word ts rest
  end.
Proof.
  split.
  - intros H. apply of_reads in H. exact (word_sound B P fuel s b reach r rest H).
  - intros H. apply of_runs. cbn [call]. destruct r as [k|].
    + destruct H as (w & mid & -> & Hw & ->). apply (runs_word B P fuel K w (skipw ts)); [now apply word_runs|reflexivity].
    + now apply (runs_word_none B fuel K ts ts).
Qed.
Theorem no_word_exact rest : reads AWordPreserve None rest <-> no_word ts rest.
Proof.
  split.
  - intros H. apply of_reads in H. exact (word_preserve_sound B P fuel s b reach None rest H).
  - intros H. apply of_runs. cbn [call]. unfold p_word_preserve_trailing_whitespace, word_preserve_trailing_whitespace.
    rcall ltac:(apply (runs_no_word B fuel K ts ts); [exact H|reflexivity]). apply runs_ret.
Qed.
Theorem parameter_exact k rest : reads AParameter k rest <->
  exists w, k = pu_word P (KSingle (KSimple w)) /\ dollar w ts rest.
Proof.
  split.
  - intros H. apply of_reads in H. exact (parameter_sound B P fuel s b reach k rest H).
  - intros (w & -> & H). apply of_runs. cbn [call]. unfold p_parameter, parameter.
    destruct FR as (_ & _ & F & _). destruct (F _ _ _ H) as [_ R]. rcall ltac:(apply R). apply runs_build_end, pu_word_ok.
Qed.
Theorem backticked_exact k rest : reads ABackticked k rest <->
  exists g us, k = pu_word P (KSingle (KSimple (KCommandSubst g))) /\ ts = TBacktick :: us ++ TBacktick :: rest /\
    content TBacktick us /\ group no_delims g (unescape us) [].
Proof.
  split.
  - intros H. revert k rest H. apply (sound ABackticked). cbn [call]. unfold p_backticked_command_substitution, backticked_command_substitution, backticked_raw.
    generalize ts. intros ts0. gstep. gstep. gstep. gstep. gstep. gstep. apply backtick_gives. intros body rest i -> Hc Ei. gstep. apply gives_sub. rewrite Ei.
    eapply gives_mono; [apply (KG no_delims plain_nothing)|]. intros g r H. cbv beta. gstep. eapply gives_build; [apply pu_word_ok|].
    exists g, body. rewrite (group_no_delims B P _ _ _ H) in H. auto.
  - intros (g & us & -> & E & Hc & Hg). apply of_runs. cbn [call]. unfold p_backticked_command_substitution, backticked_command_substitution.
    rewrite E. rcall ltac:(apply backticks_run; [exact Hc|apply group_runs; [apply plain_nothing|exact Hg]]). apply runs_build_end, pu_word_ok.
Qed.

(** ** Redirections *)
Theorem redirect_word_exact k rest : reads ARedirect (Some (inr k)) rest <->
  exists w, k = pu_word P w /\ word_form w (skipw ts) rest /\ not_fd (skipw ts) rest.
Proof.
  split.
  - intros H. apply of_reads in H. exact (redirect_sound B P fuel s b reach (Some (inr k)) rest H).
  - intros (w & -> & Hw & Hn). apply of_runs. cbn [call]. apply (redirect_word B P fuel K w ts (skipw ts)); [now apply word_runs|reflexivity|].
    eapply not_fd_word; eassumption.
Qed.
Theorem no_redirect_exact rest : reads ARedirect None rest <-> no_word ts rest /\ no_redirect rest.
Proof.
  split.
  - intros H. apply of_reads in H. exact (redirect_sound B P fuel s b reach None rest H).
  - intros [H1 H2]. apply of_runs. cbn [call]. now apply (redirect_none B fuel K ts ts).
Qed.
Theorem redirect_list_exact rs rest : reads ARedirectList rs rest <-> redirects rs ts rest.
Proof.
  split.
  - intros H. apply of_reads in H. exact (redirect_list_sound B P fuel s b reach rs rest H).
  - intros H. apply of_runs. cbn [call]. apply runs_redirect_list.
    destruct FR as (_ & _ & _ & _ & _ & _ & _ & _ & F & _). now apply F.
Qed.
(** A here-document, at its operator, with a descriptor read before. *)
Theorem redirect_heredoc_exact fd r rest : reads (ARedirectHeredoc fd) r rest <->
  exists op strip us, ts = op :: us /\ here_op op strip /\
    ((exists body, here_document strip true body (skipw us) rest /\
        r = pu_redirect P (RHeredoc fd (pu_word P (KSingle (KSimple (KLiteral (text body))))))) \/
     (exists body ws, here_document strip false body (skipw us) rest /\ quoted None ws body [] /\
        r = pu_redirect P (RHeredoc fd (pu_word P (here_word ws))))).
Proof.
  split.
  - intros H. revert r rest H. apply (sound (ARedirectHeredoc fd)). cbn [call]. apply (heredoc_op_gives B P fuel K KG KP); eauto 12.
  - intros (op & strip & us & E & Ho & H). apply of_runs. cbn [call]. rewrite E.
    destruct H as [(body & Hd & ->)|(body & ws & Hd & Hq & ->)].
    + now apply (redirect_heredoc_run B P fuel K op strip true body fd us (skipw us)).
    + apply (redirect_heredoc_run B P fuel K op strip false body fd us (skipw us)); auto.
      exists ws. split; [reflexivity|]. intros p. destruct FR as (_ & _ & _ & F & _).
      apply (F _ _ _ _ Hq fuel None p fuel []); [reflexivity|now left].
Qed.

(** ** Parts of compound commands *)
Theorem do_group_exact g rest : reads ADoGroup g rest <-> do_form g ts rest.
Proof.
  split.
  - intros H. apply of_reads in H. exact (do_group_sound B P fuel s b reach g rest H).
  - intros H. apply of_runs. now apply (do_runs g ts rest).
Qed.
Theorem brace_group_exact g rest : reads ABraceGroup g rest <->
  exists us, skipw ts = TCurlyOpen :: us /\ delimited us /\ commands g <> [] /\ delimited rest /\
    group (mkDelims [TCurlyClose] [] []) g us (TCurlyClose :: rest).
Proof.
  split.
  - intros H. apply of_reads in H. exact (brace_group_sound B P fuel s b reach g rest H).
  - intros (us & E & Hd & Hn & Hd' & Hg). apply of_runs. cbn [call]. unfold p_brace_group, brace_group. rstep. unfold reserved_token. rstep.
    rcall ltac:(eapply runs_reserved_token; [now left|repeat constructor|exact E|exact Hd]). rstep.
    rcall ltac:(apply runs_command_group; [apply group_runs; [apply plain_brace|exact Hg]|exact Hn]).
    rcall ltac:(eapply runs_reserved_token; [now left|repeat constructor|reflexivity|exact Hd']). apply runs_ret.
Qed.
Theorem subshell_exact g rest : reads ASubshell g rest <->
  exists us, ts = TParenOpen :: us /\ commands g <> [] /\
    group (mkDelims [] [] [TParenClose]) g us (TParenClose :: rest).
Proof.
  split.
  - intros H. apply of_reads in H. exact (subshell_sound B P fuel s b reach g rest H).
  - intros (us & E & Hn & Hg). apply of_runs. cbn [call]. rewrite E.
    apply runs_subshell_internal; [apply group_runs; [apply plain_paren|exact Hg]|now right].
Qed.
Theorem loop_command_exact k g body rest : reads ALoopCommand (k, mkGBP g body) rest <->
  exists ts1 ts2, keyword (match k with LoopWhile => WHILE | LoopUntil => UNTIL end) ts ts1 /\
    group (mkDelims [] [DO] []) g ts1 ts2 /\ commands g <> [] /\ do_form body ts2 rest.
Proof.
  split.
  - intros H. apply of_reads in H. exact (loop_command_sound B P fuel s b reach k g body rest H).
  - intros (ts1 & ts2 & Hk & Hg & Hn & Hb). apply of_runs. cbn [call]. unfold p_loop_command, loop_command. rstep.
    rcall ltac:(eapply runs_reserved_word; [|exact Hk]; destruct k; cbn; auto).
    destruct (do_form_do _ _ _ _ _ Hb) as [r Hdo].
    eapply runs_call with (a := k) (mid := ts1); [destruct k; apply runs_ret|].
    rcall ltac:(apply runs_command_group; [apply group_runs; [apply plain_words|exact Hg]|exact Hn]).
    rcall ltac:(eapply runs_peek_word_yes; [now left|exact Hdo]).
    rcall ltac:(apply (do_runs _ _ _ Hb); apply skipw_idem). apply runs_ret.
Qed.
Theorem if_command_exact conds els rest : reads AIfCommand (mkIF conds els) rest <->
  exists ts1, keyword IF ts ts1 /\ conditionals conds els ts1 rest.
Proof.
  split.
  - intros H. apply of_reads in H. exact (if_command_sound B P fuel s b reach conds els rest H).
  - intros (ts1 & Hk & Hc). apply of_runs. cbn [call]. unfold p_if_command, if_command. rstep.
    rcall ltac:(eapply runs_reserved_word; [now left|exact Hk]).
    destruct FR as (_ & _ & _ & _ & _ & _ & _ & _ & _ & _ & _ & _ & _ & _ & _ & F & _). apply (F _ _ _ _ Hc fuel _ fuel []).
Qed.
Theorem for_command_exact v vc ws cs body rest : reads AForCommand (mkFF v vc ws cs body) rest <->
  exists ts1 ts2 ts3 ts4, keyword FOR ts ts1 /\ skipw ts1 = TName v :: ts2 /\
    maybe_newline vc ts2 ts3 /\ for_list ws cs ts3 ts4 /\ do_form body ts4 rest.
Proof.
  split.
  - intros H. apply of_reads in H. exact (for_command_sound B P fuel s b reach v vc ws cs body rest H).
  - intros (ts1 & ts2 & ts3 & ts4 & Hk & E1 & H2 & H3 & Hb). apply of_runs. cbn [call]. unfold p_for_command, for_command. rstep.
    rcall ltac:(eapply runs_reserved_word; [now left|exact Hk]).
    rstep. rewrite E1. rstep. rstep. rstep. rcall ltac:(apply runs_newline; exact H2).
    destruct FR as (_ & _ & _ & _ & _ & _ & _ & _ & _ & _ & _ & _ & _ & _ & _ & _ & F & _).
    destruct (do_form_do _ _ _ _ _ Hb) as [r Hdo].
    match goal with |- context [for_words B fuel K ?p _] => destruct (F _ _ _ _ H3 fuel (ex_intro _ r Hdo) p) as (ns & mid & N1 & N2) end.
    rcall ltac:(apply runs_linebreak; exact N1). rcall ltac:(exact N2).
    rcall ltac:(eapply runs_peek_word_yes; [now left|exact Hdo]).
    rcall ltac:(apply (do_runs _ _ _ Hb); apply skipw_idem). apply runs_ret.
Qed.
Theorem case_command_exact w cs ic arms ac rest : reads ACaseCommand (mkCF w cs ic arms ac) rest <->
  exists k ts1 ts2 ts3 ts4 ts5 ts6, w = pu_word P k /\ keyword CASE ts ts1 /\
    word_form k (skipw ts1) ts2 /\ newlines cs ts2 ts3 /\ keyword IN ts3 ts4 /\
    maybe_newline ic ts4 ts5 /\ case_arms arms ac ts5 ts6 /\ keyword ESAC ts6 rest.
Proof.
  split.
  - intros H. apply of_reads in H. exact (case_command_sound B P fuel s b reach w cs ic arms ac rest H).
  - intros (k & ts1 & ts2 & ts3 & ts4 & ts5 & ts6 & -> & Hk & Hw & H2 & H3 & H4 & H5 & H6). apply of_runs. cbn [call]. unfold p_case_command, case_command. rstep.
    rcall ltac:(eapply runs_reserved_word; [now left|exact Hk]).
    rcall ltac:(eapply runs_word; [apply word_runs; exact Hw|reflexivity]).
    rcall ltac:(apply runs_linebreak; eapply newlines_skipw; [apply skipw_idem|exact H2]).
    rcall ltac:(eapply runs_reserved_word; [now left|exact H3]).
    rcall ltac:(apply runs_newline; exact H4).
    destruct FR as (_ & _ & _ & _ & _ & _ & _ & _ & _ & _ & _ & _ & _ & _ & _ & _ & _ & _ & F & _).
    rcall ltac:(apply (F _ _ _ _ H5 fuel _ fuel [])).
    rcall ltac:(apply runs_linebreak; eapply (newlines_at_keyword [ESAC]); eexists _, _; split; [now left|exact H6]).
    rcall ltac:(eapply runs_reserved_word; [now left|eapply keyword_skipw; [apply skipw_idem|exact H6]]).
    rewrite app_nil_r. apply runs_ret.
Qed.
(** Lists of commands up to delimiters other than blanks, newlines, [#] and backslashes. *)
Theorem command_group_exact cfg g rest : plain cfg -> reads (ACommandGroup cfg) g rest <->
  group cfg g ts rest /\ commands g <> [].
Proof.
  intros Hp. split.
  - intros H. apply of_reads in H. exact (command_group_sound B P fuel s b reach cfg g rest Hp H).
  - intros [H Hn]. apply of_runs. cbn [call]. apply runs_command_group; [now apply group_runs|exact Hn].
Qed.

(** ** Functions *)
Notation body_rest v body := (match body with
          | Some c => ret (v, [], c)
          | None => lb <- linebreak fuel ;; c <- compound_command B fuel K ;; ret (v, lb, c)
          end) (only parsing).
Lemma function_keyword_runs v ns c us us0 us1 rest body mid : keyword FUNCTION us us0 ->
  skipw us0 = TName v :: us1 -> runs (function_parens B fuel K true) us1 body mid ->
  runs (body_rest v body) mid (v, ns, c) rest ->
  runs (function_declaration B fuel K) us (pu_function_declaration P v ns c) rest.
Proof.
  intros Hk E H1 H2. unfold function_declaration, function_declaration_internal. rstep.
  rcall ltac:(eapply runs_peek_word_yes; [now left|exact Hk]).
  rstep. rstep. rstep. 
  replace (tl (skipw us)) with us0 by (destruct (keyword_rest _ _ _ Hk) as [-> | ->]; reflexivity).
  rstep. rstep. rstep. rewrite E. rstep. rstep. rstep. rstep. rstep. rstep.
  rstep. rcall ltac:(exact H1). rcall ltac:(exact H2). apply runs_build_end, pu_function_declaration_ok.
Qed.
Lemma function_name_runs v ns c us us1 rest body mid : ~ at_keyword [FUNCTION] us -> skipw us = TName v :: us1 ->
  runs (function_parens B fuel K false) us1 body mid ->
  runs (body_rest v body) mid (v, ns, c) rest ->
  runs (function_declaration B fuel K) us (pu_function_declaration P v ns c) rest.
Proof.
  intros Hk E H1 H2. unfold function_declaration, function_declaration_internal. rstep.
  rcall ltac:(eapply runs_peek_word_no; [discriminate|exact Hk]).
  rewrite E. rstep. rstep. rstep. rstep. rstep. rewrite skipw_solid by reflexivity. repeat rstep.
  rcall ltac:(exact H1). rcall ltac:(exact H2). apply runs_build_end, pu_function_declaration_ok.
Qed.
Lemma parens_blanks_parens w us us2 us3 : skipw us = TParenOpen :: us2 -> skipw us2 = TParenClose :: us3 ->
  runs (function_parens B fuel K false) (TWhitespace w :: us) None us3.
Proof.
  intros E0 E. unfold function_parens. rstep.
  change (otoken_eqb (Some (TWhitespace w)) (Some TParenOpen)) with false. cbn [andb]. cbv match.
  rstep. rstep. rstep. rstep. rewrite E0. cbn [negb]. cbv match.
  rstep. rstep. rewrite E. rstep. apply runs_ret.
Qed.
Lemma body_runs v ns c us rest us0 : function_body ns c us rest -> skipw us0 = skipw us ->
  runs (lb <- linebreak fuel ;; c <- compound_command B fuel K ;; ret (v, lb, c)) us0 (v : str, ns, c) rest.
Proof.
  intros H Eq. destruct FR as (_ & _ & _ & _ & _ & _ & _ & _ & _ & _ & _ & _ & F & _).
  eapply (runs_fn_body B fuel K); [exact (F _ _ _ _ H fuel)|exact Eq].
Qed.
Lemma function_runs c us rest : function_form c us rest -> runs (function_declaration B fuel K) us c rest.
Proof.
  intros H. destruct H as [v ns c us us1 us2 us3 rest H2 E1 E2 E3 Hb|v ns c us us0 us1 us2 rest H1 E1 E2 Hb
    |v ns c us us0 us1 rest H1 E1 E2 Hb|v ns c us us0 w us1 us2 us3 rest H1 E1 E2 E3 Hb|v g us us0 w us1 us2 rest H1 E1 E2 Hr Hg].
  - eapply function_name_runs; [exact H2|exact E1| |].
    + destruct E2 as [-> |(w & us4 & -> & E2)]; [apply (parens_parens _ _ _ _ _ _ E3)|apply (parens_blanks_parens _ _ _ _ E2 E3)].
    + eapply body_runs; [exact Hb|reflexivity].
  - eapply function_keyword_runs; [exact H1|exact E1|apply (parens_parens _ _ _ _ _ _ E2)|].
    eapply body_runs; [exact Hb|reflexivity].
  - destruct E2 as [E2|(w & us2 & -> & E2)].
    + eapply function_keyword_runs; [exact H1|exact E1|apply (parens_newline _ _ _ _ E2)|].
      eapply body_runs; [exact Hb|reflexivity].
    + eapply function_keyword_runs; [exact H1|exact E1|apply (parens_word _ _ _ _ _ E2)|].
      eapply body_runs; [exact Hb|]. cbn [skipw]. apply skipw_idem.
  - eapply function_keyword_runs; [exact H1|exact E1| |].
    + eapply (parens_subshell B P); [exact E2|].
      apply group_reads; [apply plain_paren|]. intros n'. apply (group_end_run B fuel (knot B fuel n') _ []).
      * rewrite <- E3. constructor. rewrite E3. split; discriminate.
      * right; left. eexists _, _. split; [reflexivity|now left].
    + cbn [commands trailing_comments is_nil andb]. eapply body_runs; [exact Hb|reflexivity].
  - eapply function_keyword_runs; [exact H1|exact E1| |].
    + eapply (parens_subshell B P); [exact E2|]. apply group_runs; [apply plain_paren|exact Hr].
    + destruct g as [[|c cs] [|t tr]]; cbn [commands trailing_comments is_nil andb]; try apply runs_ret.
      exfalso. cbn in Hg. now destruct Hg.
Qed.
Lemma function_form_skipw c us us' rest : skipw us' = skipw us -> function_form c us rest -> function_form c us' rest.
Proof.
  intros Eq H. destruct H as [v ns c us us1 us2 us3 rest H2 E1 E2 E3 Hb|v ns c us us0 us1 us2 rest H1 E1 E2 Hb
    |v ns c us us0 us1 rest H1 E1 E2 Hb|v ns c us us0 w us1 us2 us3 rest H1 E1 E2 E3 Hb|v g us us0 w us1 us2 rest H1 E1 E2 Hr Hg];
  try (apply (keyword_skipw _ _ us') in H1; [|exact Eq]).
  - eapply ff_name; try eassumption; [|now rewrite Eq]. intros (k & r & Hi & Hk). apply H2. exists k, r. split; [exact Hi|].
    eapply keyword_skipw; [symmetry; exact Eq|exact Hk].
  - eapply ff_parens; eassumption.
  - eapply ff_word; eassumption.
  - eapply ff_word_parens; eassumption.
  - eapply ff_subshell; eassumption.
Qed.
Lemma function_declaration_gives us : gives (function_declaration B fuel K) us (fun c rest => function_form c us rest).
Proof.
  apply (function_cases_gives B P fuel K KG KP).
  - intros. eapply ff_name; eassumption.
  - intros. eapply ff_parens; eassumption.
  - intros. eapply ff_word; eassumption.
  - intros. eapply ff_word_parens; eassumption.
  - intros. eapply ff_subshell; eassumption.
Qed.
Theorem function_exact c rest : reads AFunction c rest <-> function_form c ts rest.
Proof.
  split.
  - intros H. revert c rest H. apply (sound AFunction). cbn [call]. apply function_declaration_gives.
  - intros H. apply of_runs. cbn [call]. now apply function_runs.
Qed.
(** [None]: neither the word [function] nor a name and a parenthesis.  The blanks are gone then (C30). *)
Theorem maybe_function_exact r rest : reads AMaybeFunction r rest <->
  match r with
  | Some c => (at_keyword [FUNCTION] ts \/ at_function (skipw ts)) /\ function_form c ts rest
  | None => ~ at_keyword [FUNCTION] ts /\ ~ at_function (skipw ts) /\ rest = skipw ts
  end.
Proof.
  split.
  - intros H. revert r rest H. apply (sound AMaybeFunction). cbn [call]. unfold p_maybe_function_declaration, maybe_function_declaration.
    gstep. apply peek_word_gives; [discriminate| |].
    + intros k r [<-|[]] Hk. gstep. eapply gives_mono; [apply function_declaration_gives|]. intros c rest Hf. cbv beta. gstep. split.
      * left. eapply at_keyword_one; exact Hk.
      * eapply function_form_skipw; [|exact Hf]. symmetry; apply skipw_idem.
    + intros Hk. gstep. gstep. destruct (look function_try (skipw ts)) eqn:Ef.
      * gstep. eapply gives_mono; [apply function_declaration_gives|]. intros c rest Hf. cbv beta. gstep. split.
        -- right. now apply look_function.
        -- eapply function_form_skipw; [|exact Hf]. symmetry; apply skipw_idem.
      * gstep. repeat split; [exact Hk|now apply look_not_function].
  - intros H. apply of_runs. cbn [call]. unfold p_maybe_function_declaration, maybe_function_declaration. destruct r as [c|].
    + destruct H as [Ho H]. assert (R : runs (function_declaration B fuel K) (skipw ts) c rest).
      { apply function_runs. eapply function_form_skipw; [apply skipw_idem|exact H]. }
      destruct (Reserved.at_keyword_dec [FUNCTION] ts) as [[[k r] [Hi Hk]]|Hk].
      * rcall ltac:(eapply runs_peek_word_yes; [exact Hi|exact Hk]). rcall ltac:(exact R). apply runs_ret.
      * rcall ltac:(eapply runs_peek_word_no; [discriminate|exact Hk]). rstep.
        destruct Ho as [Ho|Ho]; [contradiction|]. rewrite (function_look _ Ho). rcall ltac:(exact R). apply runs_ret.
    + destruct H as (Hk & Hf & ->). rcall ltac:(eapply runs_peek_word_no; [discriminate|exact Hk]). rstep.
      rewrite not_function by exact Hf. apply runs_ret.
Qed.

(** ** Newlines and the end *)
Theorem linebreak_exact ns rest : reads ALinebreak ns rest <-> newlines ns ts rest.
Proof.
  split.
  - intros H. revert ns rest H. apply (sound ALinebreak). cbn [call]. apply linebreak_gives. auto.
  - intros H. apply of_runs. cbn [call]. now apply runs_linebreak.
Qed.
Theorem newline_exact n rest : reads ANewline n rest <-> maybe_newline n ts rest.
Proof.
  split.
  - intros H. revert n rest H. apply (sound ANewline). cbn [call]. apply newline_gives. auto.
  - intros H. apply of_runs. cbn [call]. now apply runs_newline.
Qed.
Theorem skip_whitespace_exact u rest : reads ASkipWhitespace u rest <-> rest = skipw ts.
Proof.
  split.
  - intros H. revert u rest H. apply (sound ASkipWhitespace). cbn [call]. apply gives_skipw. reflexivity.
  - intros ->. apply of_runs. cbn [call]. destruct u. apply runs_skip_end.
Qed.
Theorem end_exact rest : reads ACompleteCommand None rest <-> rest = [] /\ exists ns, newlines ns ts [].
Proof.
  split.
  - intros H. apply of_reads in H. destruct (complete_command_sound B P fuel s b reach None rest H) as (ns & H1 & H2). eauto.
  - intros (-> & ns & H). apply of_runs. cbn [call]. eapply complete_reads_end; [exact P|exact H].
Qed.
End Methods.
End ExactMethods.

(** Each method does return on some source: the statements above are about something. *)
Section Witness.
#[local] Instance some_uni : Uni := fun _ => false.
Definition returns_on (m : api) (src : string) : bool :=
  match run concrete (call default_builder m 100) (ti_new (lex (s_of src))) tt with
  | (OOk _, _, _) => true
  | _ => false
  end.
Lemma returns_on_reads m src : returns_on m src = true ->
  exists a rest, FormsTheorems.reads default_builder 100 (ti_new (lex (s_of src))) tt m a rest.
Proof.
  unfold returns_on. destruct (run concrete (call default_builder m 100) (ti_new (lex (s_of src))) tt) as [[o s'] b'] eqn:E.
  destruct o as [a|e|x|]; try discriminate. intros _. exists a, (tokens_left s'). exists s'. destruct b'. now split.
Qed.
Example words_return : forallb (fun x => returns_on (fst x) (snd x))
  [(AWord, " a$b""c"" d"); (AWordPreserve, "# no word"); (AParameter, "${x:-y}z"); (ABackticked, "`a \`b\``c");
   (ARedirect, "2>f g"); (ARedirectList, "<a >b; c"); (ADoGroup, " do a; done b")]%string = true.
Proof. reflexivity. Qed.
Example compounds_return : forallb (fun x => returns_on (fst x) (snd x))
  [(ABraceGroup, " { a; } b"); (ASubshell, "(a; b) c"); (ALoopCommand, "until a; do b; done | c");
   (AIfCommand, "if a; then b; elif c; then d; else e; fi >f"); (AForCommand, "for v in a b; do c; done");
   (ACaseCommand, "case a in (b|c) d;; e) f;; esac"); (AFunction, " f  ( ) { a; }; b"); (AFunction, "function f (a; b)c");
   (AMaybeFunction, "  f() (a)"); (AMaybeFunction, "  f a"); (ALinebreak, " # a"); (ANewline, " a"); (ASkipWhitespace, "  a");
   (ACompleteCommand, " # end"); (ACommandGroup (mkDelims [TCurlyClose] [DO] []), "a; b; do")]%string = true.
Proof. reflexivity. Qed.
End Witness.
