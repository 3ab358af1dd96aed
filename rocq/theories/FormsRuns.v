(** * The parser reads every written form

    [Forms.v] says, without mentioning the parser, how words, redirections and commands are
    written.  Here: every such written form is read as what was written, whatever the nesting. *)
From Coq Require Import String.
From Verif Require Import Base Token Ast Builder Prog Iter ParserBase Balanced BalancedSpec Arith Word Redirect Command
  RunLemmas Runs Pure Relex ArithSpec ArithRuns Forms BaseForms HeredocSpec WordRuns HeredocRuns CommandRuns CompoundRuns.

Scheme frag_mind := Minimality for frag Sort Prop
  with expansion_mind := Minimality for expansion Sort Prop
  with dollar_mind := Minimality for dollar Sort Prop
  with quoted_mind := Minimality for quoted Sort Prop
  with frags_mind := Minimality for frags Sort Prop
  with operand_mind := Minimality for operand Sort Prop
  with word_form_mind := Minimality for word_form Sort Prop
  with redirect_form_mind := Minimality for redirect_form Sort Prop
  with redirects_mind := Minimality for redirects Sort Prop
  with arguments_mind := Minimality for arguments Sort Prop
  with simple_mind := Minimality for simple Sort Prop
  with command_form_mind := Minimality for command_form Sort Prop
  with function_body_mind := Minimality for function_body Sort Prop
  with compound_mind := Minimality for compound Sort Prop
  with do_form_mind := Minimality for do_form Sort Prop
  with conditionals_mind := Minimality for conditionals Sort Prop
  with for_list_mind := Minimality for for_list Sort Prop
  with for_words_form_mind := Minimality for for_words_form Sort Prop
  with case_arms_mind := Minimality for case_arms Sort Prop
  with patterns_form_mind := Minimality for patterns_form Sort Prop
  with pipe_form_mind := Minimality for pipe_form Sort Prop
  with pipeline_form_mind := Minimality for pipeline_form Sort Prop
  with and_or_form_mind := Minimality for and_or_form Sort Prop
  with list_form_mind := Minimality for list_form Sort Prop
  with complete_form_mind := Minimality for complete_form Sort Prop
  with group_mind := Minimality for group Sort Prop.
Combined Scheme forms_mind from frag_mind, expansion_mind, dollar_mind, quoted_mind, frags_mind,
  operand_mind, word_form_mind, redirect_form_mind, redirects_mind, arguments_mind, simple_mind,
  command_form_mind, function_body_mind, compound_mind, do_form_mind, conditionals_mind, for_list_mind,
  for_words_form_mind, case_arms_mind, patterns_form_mind, pipe_form_mind, pipeline_form_mind,
  and_or_form_mind, list_form_mind, complete_form_mind, group_mind.

Lemma plain_nothing : plain no_delims.
Proof. split; constructor. Qed.
Lemma plain_words ks : plain (mkDelims [] ks []).
Proof. split; constructor. Qed.
Lemma plain_paren : plain (mkDelims [] [] [TParenClose]).
Proof. split; repeat constructor; discriminate. Qed.
Lemma plain_brace : plain (mkDelims [TCurlyClose] [] []).
Proof. split; repeat constructor; discriminate. Qed.
Lemma plain_arm ks : plain (mkDelims [] ks [TDSemi]).
Proof. split; repeat constructor; discriminate. Qed.

Section FormsRuns.
Variable B : builder.
Variable P : pure B.
Variable fuel : nat.
Notation K n := (knot B fuel n).
Notation C := (b_cmd B).

Definition frag_reads (w : wk C) (ts rest : list token) : Prop :=
  forall n stop m words ws r, not_stop stop ts ->
    (forall m, runs (word_loop fuel (K n) stop m (words ++ [w])) rest ws r) ->
    runs (word_loop fuel (K n) stop m words) ts ws r.
Definition expansion_reads (s : swk C) (ts rest : list token) : Prop :=
  forall n, expands fuel (K n) s ts rest.
Definition dollar_reads (s : swk C) (ts rest : list token) : Prop :=
  (hd_error ts = Some TDollar \/ exists p, hd_error ts = Some (TParamPositional p)) /\
  forall n, runs (parameter_raw fuel (K n)) ts s rest.
Definition quoted_reads (close : option token) (ws : list (swk C)) (ts rest : list token) : Prop :=
  forall n delim p m words, option_map snd delim = close -> close = None \/ close = Some TDoubleQuote ->
    runs (word_interp_loop fuel (K n) delim p m words []) ts (words ++ ws) (tl rest).
Definition frags_reads (stop : option token) (ws : list (wk C)) (ts rest : list token) : Prop :=
  stop <> Some TBackslash ->
  forall n m words, runs (word_loop fuel (K n) stop m words) ts (words ++ ws) rest.

Lemma frags_start stop w ws ts rest : frags B P stop (w :: ws) ts rest -> word_start ts.
Proof. intros H. inversion H; subst. eapply frag_word_start; eassumption. Qed.
Lemma frags_not_dash stop w ws ts rest : frags B P stop (w :: ws) ts rest -> maybe_number w ->
  hd_error ts <> Some TDash.
Proof.
  intros H Hm E. inversion H as [| |? ? ? ? ? ? Hf|]; subst. destruct ts as [|t ts]; [discriminate|].
  injection E as ->.
  inversion Hf as [| | | | |? ? ? He]; subst.
  - cbn in Hm. inversion Hm as [|? ? Hd]; subst. lia.
  - match goal with H : glob_token _ _ |- _ => inversion H end.
  - inversion He as [|? ? ? Hd]; subst. inversion Hd.
Qed.
Lemma fd_not_assignment fd ts op ts' : fd_form fd ts (op :: ts') -> redirect_token op = true -> ~ at_assignment ts.
Proof.
  intros H Ho Ha.
  assert (X : forall d n r, Forall (fun t => literal_token t = true) d -> number (text d) n ->
     hd_error r <> Some TEquals -> ~ at_assignment (d ++ r)).
  { intros d n r Hd Hn Hr Hx. pose proof (number_chars _ _ Hn) as [N1 N2]. destruct d as [|t d]; [now apply N1|].
    destruct t; try exact Hx. destruct d as [|t2 d]; cbn [app at_assignment] in Hx.
    - destruct r as [|t2 r]; [exact Hx|]. destruct t2; try exact Hx. now apply Hr.
    - destruct t2; try exact Hx. rewrite text_cons in N2. apply Forall_app in N2 as [_ N2].
      rewrite text_cons in N2. inversion N2 as [|? ? Hc]; subst. lia. }
  inversion H; subst.
  - destruct op; try exact Ha. discriminate.
  - eapply X; [eassumption|eassumption| |exact Ha]. cbn. destruct op; (discriminate || congruence).
  - eapply X; [eassumption|eassumption| |exact Ha]. discriminate.
Qed.
Lemma redirect_form_not_assignment r ts rest : redirect_form B P r ts rest -> ~ at_assignment ts.
Proof.
  intros H. inversion H as [? ? ? ? ? ? ? Hf Ho| ? ? ? ? ? ? ? ? ? Hf Ho|? ? ? ? ? ? Hf Ho|? ? ? ? ? ? ? Hf Ho|? ? ? ? ? ? ? ? Hf Ho]; subst;
  (eapply fd_not_assignment; [exact Hf|]); destruct Ho; reflexivity.
Qed.
Lemma group_reads cfg g ts rest : plain cfg -> (forall n, group_run B fuel (K n) cfg g ts rest) ->
  forall n, runs (k_group (K n) cfg) ts g rest.
Proof.
  intros Hp H [|n]; [apply runs_fuel|]. cbn [knot k_group]. unfold command_group_internal.
  destruct g as [cs tr]. apply (H n Hp fuel []).
Qed.
Lemma do_form_do g ts rest : do_form B P g ts rest -> exists r, keyword DO ts r.
Proof. intros H. inversion H; subst. eauto. Qed.

(** The whole grammar at once. *)
Theorem forms_read :
  (forall w ts rest, frag B P w ts rest -> frag_reads w ts rest) /\
  (forall s ts rest, expansion B P s ts rest -> expansion_reads s ts rest) /\
  (forall s ts rest, dollar B P s ts rest -> dollar_reads s ts rest) /\
  (forall c ws ts rest, quoted B P c ws ts rest -> quoted_reads c ws ts rest) /\
  (forall stop ws ts rest, frags B P stop ws ts rest -> frags_reads stop ws ts rest) /\
  (forall ws ts rest, operand B P ws ts rest -> forall n, operand_run fuel (K n) ws ts rest) /\
  (forall k ts rest, word_form B P k ts rest -> forall n, word_run B fuel (K n) k ts rest) /\
  (forall r ts rest, redirect_form B P r ts rest -> forall n, redirect_run B fuel (K n) r ts rest) /\
  (forall rs ts rest, redirects B P rs ts rest -> forall n, redirects_run B fuel (K n) rs ts rest) /\
  (forall args ts rest, arguments B P args ts rest -> forall n, arguments_run B fuel (K n) args ts rest) /\
  (forall vars args ts rest, simple B P vars args ts rest -> forall n, simple_run B fuel (K n) vars args ts rest) /\
  (forall c ts rest, command_form B P c ts rest -> forall n, command_run B fuel (K n) c ts rest) /\
  (forall ns c ts rest, function_body B P ns c ts rest -> forall n, body_run B fuel (K n) ns c ts rest) /\
  (forall c ts rest, compound B P c ts rest -> forall n, compound_run B fuel (K n) c ts rest) /\
  (forall g ts rest, do_form B P g ts rest -> forall n, do_run B fuel (K n) g ts rest) /\
  (forall conds els ts rest, conditionals B P conds els ts rest -> forall n, conditionals_run B fuel (K n) conds els ts rest) /\
  (forall ws cs ts rest, for_list B P ws cs ts rest -> forall n, for_run B fuel (K n) ws cs ts rest) /\
  (forall ws ts rest, for_words_form B P ws ts rest -> forall n, words_run B fuel (K n) ws ts rest) /\
  (forall arms cs ts rest, case_arms B P arms cs ts rest -> forall n, arms_run B fuel (K n) arms cs ts rest) /\
  (forall ps ts rest, patterns_form B P ps ts rest -> forall n, patterns_run B fuel (K n) ps ts rest) /\
  (forall cs ts rest, pipe_form B P cs ts rest -> forall n, pipe_run B fuel (K n) cs ts rest) /\
  (forall p ts rest, pipeline_form B P p ts rest -> forall n, pipeline_run B fuel (K n) p ts rest) /\
  (forall l ts rest, and_or_form B P l ts rest -> forall n, and_or_run B fuel (K n) l ts rest) /\
  (forall l ts rest, list_form B P l ts rest -> forall n, list_run B fuel (K n) l ts rest) /\
  (forall ns c ts rest, complete_form B P ns c ts rest -> forall n, complete_run B fuel (K n) ns c ts rest) /\
  (forall cfg g ts rest, group B P cfg g ts rest -> forall n, group_run B fuel (K n) cfg g ts rest).
Proof.
  apply (forms_mind B P written_arith frag_reads expansion_reads dollar_reads quoted_reads frags_reads); unfold frag_reads.
  - (* fr_literal *) intros t rest Ht n stop m words ws r Hs H. destruct m; [apply runs_fuel|]. now apply loop_literal.
  - intros t s rest Ht n stop m words ws r Hs H. destruct m; [apply runs_fuel|]. now apply (loop_glob _ _ _ _ _ _ s).
  - intros t rest Ht n stop m words ws r Hs H. destruct m; [apply runs_fuel|]. now apply loop_escape.
  - intros ts rest Ht n stop m words ws r Hs H. destruct m; [apply runs_fuel|]. now apply loop_single.
  - intros qs ts rest _ IH n stop m words ws r Hs H. destruct m; [apply runs_fuel|].
    eapply loop_double; [exact Hs| |apply H].
    intros p. apply (IH n (Some (TDoubleQuote, TDoubleQuote)) p fuel []); auto.
  - intros s ts rest _ IH n stop m words ws r Hs H. destruct m; [apply runs_fuel|].
    eapply loop_expansion; [apply IH|exact Hs|apply H].
  - (* ex_backticks *) intros g ts rest Hc _ IH n. left. split; [reflexivity|].
    apply backticks_run; [exact Hc|]. apply group_reads; [apply plain_nothing|exact IH].
  - intros s ts rest _ [Hh IH] n. right. split; [exact Hh|]. destruct n; [apply runs_fuel|]. apply IH.
  - (* do_lone *) intros rest H. split; [now left|]. intros n. now apply param_lone.
  - intros p rest. split; [right; eexists; reflexivity|]. intros n. apply param_positional.
  - intros p t rest H. split; [now left|]. intros n. now apply param_param.
  - intros p t rest H. split; [now left|]. intros n. now apply param_braces.
  - intros p t rest H. split; [now left|]. intros n. now apply param_length.
  - intros p t colon op mk ws ts rest H1 H2 _ IH H3. split; [now left|]. intros n. now apply param_subst.
  - intros p t ws ts rest H1 _ IH H3. split; [now left|]. intros n. now apply param_suffix.
  - intros p t ws ts rest H1 _ IH. split; [now left|]. intros n. now apply param_suffixes.
  - intros p t ws ts rest H1 _ IH H3 H4. split; [now left|]. intros n. now apply param_prefix.
  - intros p t ws ts rest H1 _ IH. split; [now left|]. intros n. now apply param_prefixes.
  - intros e ts mid mid' rest H1 H2 H3. split; [now left|]. intros n. now apply (param_arith _ _ _ _ _ mid').
  - intros mid mid' rest H2 H3. split; [now left|]. intros n. now apply (param_arith_empty _ _ _ mid').
  - intros g ts rest _ IH H. split; [now left|]. intros n. apply param_command; [|exact H].
    apply group_reads; [apply plain_paren|exact IH].
  - (* do_colon *) intros p t rest H. split; [now left|]. intros n. now apply param_colon.
  - (* qu_nil *) intros close rest H n delim p m words Hd _. rewrite app_nil_r. apply interp_close. now rewrite Hd.
  - intros close ts ws mid rest H1 H2 H3 _ IH n delim p m words Hd Hc. subst close.
    apply interp_run; auto. intros m'. cbn [app]. replace (words ++ KLiteral (text ts) :: ws) with ((words ++ [KLiteral (text ts)]) ++ ws) by (now rewrite <- app_assoc). now apply IH.
  - intros close t ws ts rest H1 _ IH n delim p m words Hd Hc. destruct m; [apply runs_fuel|]. subst close.
    apply interp_escape; auto.
    replace (words ++ KEscaped (as_str t) :: ws) with ((words ++ [KEscaped (as_str t)]) ++ ws) by (now rewrite <- app_assoc). now apply IH.
  - intros close s ts mid ws rest _ IH1 _ IH2 n delim p m words Hd Hc. destruct m; [apply runs_fuel|]. subst close.
    eapply interp_expansion; [apply IH1|exact Hc|].
    replace (words ++ s :: ws) with ((words ++ [s]) ++ ws) by (now rewrite <- app_assoc). now apply IH2.
  - (* qu_empty *) intros close ts ws mid rest H1 H2 H3 _ IH n delim p m words Hd Hc. subst close.
    apply interp_empty_run; auto.
  - (* fs_end *) intros stop rest H Hs n m words. rewrite app_nil_r. now apply loop_end.
  - intros stop rest Hs n m words. rewrite app_nil_r. now apply loop_escaped_newline.
  - intros stop w ts mid ws rest _ IH1 H _ IH2 Hs n m words.
    apply IH1; [exact H|]. intros m'.
    replace (words ++ w :: ws) with ((words ++ [w]) ++ ws) by (now rewrite <- app_assoc). now apply IH2.
  - (* fs_backslash *) intros stop Hs n m words. rewrite app_nil_r. now apply loop_backslash.
  - (* op_end *) intros rest n. apply operand_end.
  - intros t ws ts rest H _ IH n. now apply operand_delimiter.
  - intros ws ts rest _ IH n. now apply operand_escaped_newline.
  - intros w ws ts mid ws' rest Hf IH1 H _ IH2 n.
    apply (operand_frags _ _ _ _ _ mid); auto; [eapply frags_start; exact Hf| |].
    + inversion Hf as [| |? ? ? ? ? ? ? Hns|]; subst. now apply Hns.
    + intros m words. now apply IH1.
  - (* wf_word *) intros w ws k ts rest Hf IH H Hk n.
    eapply word_run_frags; [eapply frags_start; exact Hf|exact H| |exact Hk]. intros m words. now apply IH.
  - (* rf_file *) intros fd op mk k ts ts' rest H1 H2 _ IH n ts0 E.
    eapply redirect_start; [exact H1|destruct H2; reflexivity| |exact E]. apply redirect_op_file; [exact H2|apply IH].
  - intros fd op mk w ws k ts ts' rest H1 H2 Hf IH Hm Hk n ts0 E.
    assert (Hd : hd_error (skipw ts') <> Some TDash).
    { eapply frags_not_dash; [exact Hf|]. now inversion Hm. }
    eapply redirect_start; [exact H1|destruct H2; reflexivity| |exact E].
    eapply redirect_op_dup; [exact H2| |exact Hm|exact Hk|exact Hd].
    eapply word_run_frags; [eapply frags_start; exact Hf| | |exact Hk].
    + intros Hp. inversion Hf as [| |? ? ? ? ? ? Hfr|]; subst. destruct (skipw ts') as [|t r]; [discriminate|]. injection Hp as ->.
      inversion Hm as [|? ? Hm1]; subst. inversion Hfr as [| | | | |? ? ? He]; subst.
      * cbn in Hm1. inversion Hm1 as [|? ? Hd1]; subst. lia.
      * match goal with H : glob_token _ _ |- _ => inversion H end.
      * inversion He as [|? ? ? Hd1]; subst. inversion Hd1.
    + intros m words. now apply IH.
  - intros fd op mk ts ts' rest H1 H2 H3 H4 n ts0 E.
    eapply redirect_start; [exact H1|destruct H2; reflexivity| |exact E]. now apply redirect_op_close.
  - intros fd op strip body ts ts' rest H1 H2 H3 n ts0 E.
    eapply redirect_start_here; [exact H1|exact H2| |exact E].
    eapply redirect_heredoc_run; [exact H2|reflexivity|exact H3|]. reflexivity.
  - intros fd op strip body ws ts ts' rest H1 H2 H3 _ IH n ts0 E.
    eapply redirect_start_here; [exact H1|exact H2| |exact E].
    eapply redirect_heredoc_run; [exact H2|reflexivity|exact H3|]. exists ws. split; [reflexivity|]. intros p.
    apply (IH n None p fuel []); [reflexivity|now left].
  - (* re_end *) intros ts rest H1 H2 n. now apply redirects_end.
  - intros r ts mid rs rest _ IH1 _ IH2 n. now apply (redirects_more _ _ _ _ _ mid).
  - (* ag_end *) intros ts rest H1 H2 n. now apply arguments_end.
  - intros r ts mid args rest _ IH1 _ IH2 n. now apply (arguments_redirect _ _ _ _ _ mid).
  - intros k ts mid args rest Hw IH1 Hn _ IH2 n. apply (arguments_word _ _ _ _ _ _ mid); auto. eapply not_fd_word; eauto.
  - (* si_end *) intros ts rest H1 H2 n. now apply simple_end.
  - intros r ts mid vars args rest Hr IH1 _ IH2 n. apply (simple_redirect _ _ _ _ _ mid); auto.
    eapply redirect_form_not_assignment; exact Hr.
  - intros v k ts mid mid' vars args rest H Hb _ IH1 _ IH2 n. now apply (simple_assign _ _ _ _ _ _ _ mid mid').
  - intros v ts mid mid' vars args rest H1 H2 _ IH n. now apply (simple_assign_empty _ _ _ _ _ mid mid').
  - intros k ts mid args rest Hw IH1 Hn Ha _ IH2 n. apply (simple_exec _ _ _ _ _ _ mid); auto. eapply not_fd_word; eauto.
  - (* cf_simple *) intros vars args ts rest _ IH H1 H2 H3 H4 n. now apply command_simple.
  - intros c ts rest _ IH n. now apply command_compound.
  - intros v ns c ts ts1 ts2 ts3 rest H1 H2 E1 E2 E3 _ IH n.
    apply command_function_name; auto.
    + subst ts. destruct E2 as [-> |(w & ->)]; exact I.
    + destruct (IH n) as (mid & Hn & Hc).
      eapply function_name; [exact H2|exact E1| |].
      * destruct E2 as [-> |(w & ->)]; [apply (parens_parens _ _ _ _ _ _ E3)|apply (parens_blank_parens _ _ _ _ _ _ E3)].
      * eapply runs_fn_body; [apply IH|reflexivity].
  - intros v ns c ts ts0 ts1 ts2 rest H1 E1 E2 _ IH n. eapply command_function_keyword; [exact H1|].
    eapply function_keyword; [exact H1|exact E1|apply (parens_parens _ _ _ _ _ _ E2)|].
    eapply runs_fn_body; [apply IH|reflexivity].
  - intros v ns c ts ts0 ts1 rest H1 E1 E2 _ IH n. eapply command_function_keyword; [exact H1|].
    destruct E2 as [E2|(w & ts2 & -> & E2)].
    + eapply function_keyword; [exact H1|exact E1|apply (parens_newline _ _ _ _ E2)|].
      eapply runs_fn_body; [apply IH|reflexivity].
    + eapply function_keyword; [exact H1|exact E1|apply (parens_word _ _ _ _ _ E2)|].
      eapply runs_fn_body; [apply IH|]. cbn [skipw]. apply skipw_idem.
  - intros v ns c ts ts0 w ts1 ts2 ts3 rest H1 E1 E2 E3 _ IH n. eapply command_function_keyword; [exact H1|].
    eapply function_keyword; [exact H1|exact E1| |].
    + eapply (parens_subshell B P); [exact E2|].
      apply group_reads; [apply plain_paren|]. intros n'. apply (group_end_run B fuel (K n') _ []).
      * rewrite <- E3. constructor. rewrite E3. split; discriminate.
      * right; left. eexists _, _. split; [reflexivity|now left].
    + cbn [commands trailing_comments is_nil andb]. eapply runs_fn_body; [apply IH|reflexivity].
  - intros v g ts ts0 w ts1 ts2 rest H1 E1 E2 _ IH Hg n. eapply command_function_keyword; [exact H1|].
    eapply function_keyword; [exact H1|exact E1| |].
    + eapply (parens_subshell B P); [exact E2|]. apply group_reads; [apply plain_paren|exact IH].
    + destruct g as [[|c cs] [|t tr]]; cbn [commands trailing_comments is_nil andb]; try apply runs_ret.
      exfalso. cbn in Hg. now destruct Hg.
  - (* fb_body *) intros ns c ts mid rest H _ IH n. exists mid. split; [exact H|apply IH].
  - (* co_brace *) intros g ts mid mid' rs rest H1 _ IH1 H2 E1 E2 _ IH2 n.
    apply (compound_brace _ _ _ _ _ _ mid mid'); auto. apply group_reads; [apply plain_brace|exact IH1].
  - intros g ts mid rs rest _ IH1 H2 _ IH2 n.
    apply (compound_subshell _ _ _ _ _ _ mid); auto. apply group_reads; [apply plain_paren|exact IH1].
  - intros g b ts ts1 ts2 ts3 rs rest H1 _ IH1 H2 Hd IH2 _ IH3 n.
    apply (compound_loop _ _ _ _ WHILE _ _ _ _ ts1 ts2 ts3); auto.
    + apply group_reads; [apply plain_words|exact IH1].
    + eapply do_form_do; exact Hd.
  - intros g b ts ts1 ts2 ts3 rs rest H1 _ IH1 H2 Hd IH2 _ IH3 n.
    apply (compound_loop _ _ _ _ UNTIL _ _ _ _ ts1 ts2 ts3); auto.
    + apply group_reads; [apply plain_words|exact IH1].
    + eapply do_form_do; exact Hd.
  - intros conds els ts ts1 ts2 rs rest H1 _ IH1 _ IH2 n. now apply (compound_if _ _ _ _ _ _ _ ts1 ts2).
  - intros v vc ws cs b ts ts1 ts2 ts3 ts4 ts5 rs rest H1 E1 H2 _ IH1 Hd IH2 _ IH3 n.
    apply (compound_for _ _ _ _ _ _ _ _ _ _ ts1 ts2 ts3 ts4 ts5); auto. eapply do_form_do; exact Hd.
  - intros k cs ic arms ac ts ts1 ts2 ts3 ts4 ts5 ts6 ts7 rs rest H1 _ IH1 H2 H3 H4 _ IH2 H5 _ IH3 n.
    now apply (compound_case _ _ _ _ _ _ _ _ _ _ ts1 ts2 ts3 ts4 ts5 ts6 ts7).
  - (* df_do *) intros g ts ts1 ts2 rest H1 _ IH H2 H3 n. apply (do_do _ _ _ _ _ ts1 ts2); auto.
    apply group_reads; [apply plain_words|exact IH].
  - (* cd_fi *) intros g b ts ts1 ts2 ts3 rest _ IH1 H1 H2 _ IH2 H3 H4 n.
    apply (conditionals_fi _ _ _ _ _ _ ts1 ts2 ts3); auto; apply group_reads; auto; apply plain_words.
  - intros g b e ts ts1 ts2 ts3 ts4 ts5 rest _ IH1 H1 H2 _ IH2 H3 H4 _ IH3 H5 H6 n.
    apply (conditionals_else _ _ _ _ _ _ _ ts1 ts2 ts3 ts4 ts5); auto; apply group_reads; auto; apply plain_words.
  - intros g b conds els ts ts1 ts2 ts3 ts4 rest _ IH1 H1 H2 _ IH2 H3 H4 _ IH3 n.
    apply (conditionals_elif _ _ _ _ _ _ _ _ ts1 ts2 ts3 ts4); auto; apply group_reads; auto; apply plain_words.
  - (* fl_words *) intros ns ws wc cs ts ts1 ts2 ts3 ts4 ts5 rest H1 H2 _ IH H3 H4 H5 n.
    now apply (for_list_words _ _ _ _ _ _ _ _ ts1 ts2 ts3 ts4 ts5).
  - intros ns cs ts ts1 rest H1 H2 n. now apply (for_list_semi _ _ _ ns _ _ ts1).
  - intros ns ts rest H1 H2 H3 n. now apply for_list_none.
  - (* fw_end *) intros ts rest H n. now apply words_end.
  - intros k ts mid ws rest _ IH1 _ IH2 n. now apply (words_word _ _ _ _ _ _ mid).
  - (* ca_end *) intros cs ts rest H1 H2 n. now apply arms_end.
  - intros pre ps pc b ac arms cs ts ts1 ts2 ts3 ts4 ts5 ts6 rest H1 H2 H3 _ IH1 H4 _ IH2 H5 _ IH3 n.
    apply (arms_arm _ _ _ _ _ _ _ _ _ _ _ ts1 ts2 ts3 ts4 ts5 ts6); auto. apply group_reads; auto. apply plain_arm.
  - intros pre ps pc b ts ts1 ts2 ts3 ts4 rest H1 H2 H3 _ IH1 H4 _ IH2 H5 n.
    apply (arms_last _ _ _ _ _ _ _ _ ts1 ts2 ts3 ts4); auto. apply group_reads; auto. apply plain_arm.
  - (* pf_last *) intros k ts mid rest _ IH H n. now apply (patterns_last _ _ _ _ _ _ mid).
  - intros k ts mid mid' ps rest _ IH1 H _ IH2 n. now apply (patterns_more _ _ _ _ _ _ mid mid').
  - (* pi_last *) intros c ts rest _ IH H1 H2 n. now apply pipe_last.
  - intros c ns cs ts mid mid' rest _ IH1 H1 H2 _ IH2 n. now apply (pipe_more _ _ _ _ _ _ _ mid mid').
  - (* pp_plain *) intros cs ts rest H _ IH n. now apply pipeline_plain.
  - intros cs ts mid rest H _ IH n. now apply (pipeline_bang _ _ _ _ _ _ mid).
  - (* ao_end *) intros ts H1 H2 n. now apply and_or_end.
  - intros p ns l ts ts1 ts2 ts3 rest H1 H2 _ IH1 _ IH2 n. now apply (and_or_and _ _ _ _ _ _ _ ts1 ts2 ts3).
  - intros p ns l ts ts1 ts2 ts3 rest H1 H2 _ IH1 _ IH2 n. now apply (and_or_or _ _ _ _ _ _ _ ts1 ts2 ts3).
  - (* lf_list *) intros p l ts mid rest _ IH1 _ IH2 n. now apply (list_list _ _ _ _ _ _ _ mid).
  - (* cp_semi *) intros ns l nl ts mid rest _ IH H n. now apply (complete_semi _ _ _ _ _ _ _ _ mid).
  - intros ns l nl ts mid rest _ IH H n. now apply (complete_amp _ _ _ _ _ _ _ _ mid).
  - intros ns l nl ts mid rest _ IH H n. apply (complete_other B P fuel (K n) ns l (Some nl) ts mid); auto.
    + intros E. destruct mid as [|t mid]; [discriminate|]. injection E as ->. inversion H; subst; cbn in *; discriminate.
    + intros E. destruct mid as [|t mid]; [discriminate|]. injection E as ->. inversion H; subst; cbn in *; discriminate.
    + now constructor.
  - intros ns l ts rest _ IH H1 H2 H3 H4 n. apply (complete_other B P fuel (K n) ns l None ts rest); auto.
    rewrite <- H4 at 2. apply mn_none. now rewrite H4.
  - (* gr_end *) intros cfg ns ts rest H1 H2 n. now apply group_end_run.
  - intros cfg ns c cs tr ts ts1 ts2 rest H1 H2 _ IH1 _ IH2 n. now apply (group_command_run _ _ _ _ ns _ _ _ _ ts1 ts2).
Qed.
End FormsRuns.
