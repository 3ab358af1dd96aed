(** * What is parsed was written

    The converse of [FormsTheorems.v]: whenever a public method of the parser succeeds, the tokens
    it has read are a written form ([Forms.v]) of the value it returns; and whenever the iterator
    reaches its end without an error, the whole input was a written script of exactly the commands
    it has yielded.  So nothing outside the grammar of [Forms.v] is accepted, and with the converse
    ([script_read]) the parser accepts exactly that grammar. *)
From Coq Require Import String.
From Verif Require Import Base Token Lexer Pos Ast Builder Prog Iter Located IterProofs ParserBase Balanced RunLemmas BaseRun
  Sim BalancedSpec Arith Word Redirect Command DefaultBuilder Entry Api Total Runs Pure Relex ArithSpec HeredocSpec Forms
  BaseForms WordRuns HeredocRuns CommandRuns CompoundRuns FormsRuns FormsTheorems Reserved Gives SoundBase SoundWord SoundCommand.
Notation gives := Gives.gives.

Section Sound.
Variable B : builder.
Variable P : pure B.
Notation C := (b_cmd B).
Notation dollar := (@Forms.dollar B P written_arith).
Notation expansion := (@Forms.expansion B P written_arith).
Notation word_form := (@Forms.word_form B P written_arith).
Notation redirect_form := (@Forms.redirect_form B P written_arith).
Notation redirects := (@Forms.redirects B P written_arith).
Notation simple := (@Forms.simple B P written_arith).
Notation command_form := (@Forms.command_form B P written_arith).
Notation compound := (@Forms.compound B P written_arith).
Notation do_form := (@Forms.do_form B P written_arith).
Notation conditionals := (@Forms.conditionals B P written_arith).
Notation for_list := (@Forms.for_list B P written_arith).
Notation case_arms := (@Forms.case_arms B P written_arith).
Notation pipeline_form := (@Forms.pipeline_form B P written_arith).
Notation list_form := (@Forms.list_form B P written_arith).
Notation complete_form := (@Forms.complete_form B P written_arith).
Notation group := (@Forms.group B P written_arith).

Section Methods.
Variables (fuel : nat) (s : token_iter) (b : bst B).
Hypothesis reach : parser_reach B s b.
Notation ts := (tokens_left s).
Definition returns (m : api) (a : api_result B m) (rest : list token) : Prop :=
  exists s' b', run concrete (call B m fuel) s b = (OOk a, s', b') /\ tokens_left s' = rest.
Lemma sound_of m (Q : api_result B m -> list token -> Prop) : gives (call B m fuel) ts Q ->
  forall a rest, returns m a rest -> Q a rest.
Proof. intros H a rest (s' & b' & E & <-). exact (gives_concrete B m fuel s b Q reach H a s' b' E). Qed.

Notation KG := (proj1 (knots_sound B P fuel fuel)).
Notation KP := (proj2 (knots_sound B P fuel fuel)).
Notation K := (knot B fuel fuel).


(** Words: with [None], there was no word. *)
Theorem word_preserve_sound r rest : returns AWordPreserve r rest ->
  match r with
  | Some k => exists w, k = pu_word P w /\ word_form w (skipw ts) rest
  | None => no_word ts rest
  end.
Proof.
  intros H. revert r rest H. apply (sound_of AWordPreserve). cbn [call]. unfold p_word_preserve_trailing_whitespace, word_preserve_trailing_whitespace.
  gstep. apply (SoundWord.word_raw_gives B P fuel K KG KP).
  - intros k rest Hk. gstep. eapply gives_build; [apply pu_word_ok|]. gstep. eauto.
  - intros rest Hn. gstep. exact Hn.
Qed.
Theorem word_sound r rest : returns AWord r rest ->
  match r with
  | Some k => exists w mid, k = pu_word P w /\ word_form w (skipw ts) mid /\ rest = skipw mid
  | None => no_word ts rest
  end.
Proof.
  intros H. revert r rest H. apply (sound_of AWord). cbn [call]. apply (SoundCommand.word_gives B P fuel K KG KP); eauto 6.
Qed.
Theorem parameter_sound k rest : returns AParameter k rest ->
  exists w, k = pu_word P (KSingle (KSimple w)) /\ dollar w ts rest.
Proof.
  intros H. revert k rest H. apply (sound_of AParameter). cbn [call]. unfold p_parameter, parameter. gstep.
  eapply gives_mono; [apply (parameter_gives B P fuel K KG KP)|]. intros w rest Hw. cbv beta.
  eapply gives_build; [apply pu_word_ok|]. eauto.
Qed.
Theorem backticked_sound k rest : returns ABackticked k rest ->
  exists w, k = pu_word P (KSingle (KSimple w)) /\ expansion w ts rest.
Proof.
  intros H. revert k rest H. apply (sound_of ABackticked). cbn [call]. unfold p_backticked_command_substitution, backticked_command_substitution. gstep.
  eapply gives_mono; [apply (backticked_gives B P fuel K KG)|]. intros w rest Hw. cbv beta.
  eapply gives_build; [apply pu_word_ok|]. eauto.
Qed.

(** Redirections: a redirection, a word that is not its descriptor, or neither. *)
Theorem redirect_sound r rest : returns ARedirect r rest ->
  match r with
  | Some (inl r) => redirect_form r (skipw ts) rest
  | Some (inr k) => exists w, k = pu_word P w /\ word_form w (skipw ts) rest /\ not_fd (skipw ts) rest
  | None => no_word ts rest /\ no_redirect rest
  end.
Proof.
  intros H. revert r rest H. apply (sound_of ARedirect). cbn [call]. apply (redirect_gives B P fuel K KG KP); eauto.
Qed.
Theorem redirect_list_sound rs rest : returns ARedirectList rs rest -> redirects rs ts rest.
Proof. intros H. revert rs rest H. apply (sound_of ARedirectList). apply (redirect_list_gives B P fuel K KG KP). Qed.

(** Commands. *)
Theorem simple_command_sound c rest : returns ASimpleCommand c rest ->
  exists vars args, c = pu_simple_command P vars args /\ simple vars args ts rest /\ (vars <> [] \/ args <> []).
Proof.
  intros H. revert c rest H. apply (sound_of ASimpleCommand). cbn [call]. apply (simple_gives B P fuel K KG KP). eauto 6.
Qed.
Theorem do_group_sound g rest : returns ADoGroup g rest -> do_form g ts rest.
Proof. intros H. revert g rest H. apply (sound_of ADoGroup). apply (do_gives B P fuel K KG). auto. Qed.
Theorem brace_group_sound g rest : returns ABraceGroup g rest ->
  exists us, skipw ts = TCurlyOpen :: us /\ delimited us /\ commands g <> [] /\ delimited rest /\
    group (mkDelims [TCurlyClose] [] []) g us (TCurlyClose :: rest).
Proof.
  intros H. revert g rest H. apply (sound_of ABraceGroup). apply (brace_gives B P fuel K KG).
  intros g us mid rest E Hd Hg Hn -> Hd'. eauto 10.
Qed.
Theorem subshell_sound g rest : returns ASubshell g rest ->
  exists us, ts = TParenOpen :: us /\ commands g <> [] /\
    group (mkDelims [] [] [TParenClose]) g us (TParenClose :: rest).
Proof.
  intros H. revert g rest H. apply (sound_of ASubshell). apply (subshell_gives B P K KG). eauto 10.
Qed.
Theorem loop_command_sound k g body rest : returns ALoopCommand (k, mkGBP g body) rest ->
  exists ts1 ts2, keyword (match k with LoopWhile => WHILE | LoopUntil => UNTIL end) ts ts1 /\
    group (mkDelims [] [DO] []) g ts1 ts2 /\ commands g <> [] /\ do_form body ts2 rest.
Proof.
  intros H. assert (X : forall a rest, returns ALoopCommand a rest ->
    let '(k, mkGBP g body) := a in exists ts1 ts2, keyword (match k with LoopWhile => WHILE | LoopUntil => UNTIL end) ts ts1 /\
    group (mkDelims [] [DO] []) g ts1 ts2 /\ commands g <> [] /\ do_form body ts2 rest).
  { apply (sound_of ALoopCommand). cbn [call]. apply (SoundCommand.loop_gives B P fuel K KG); eauto 10. }
  exact (X _ _ H).
Qed.
Theorem if_command_sound conds els rest : returns AIfCommand (mkIF conds els) rest ->
  exists ts1, keyword IF ts ts1 /\ conditionals conds els ts1 rest.
Proof.
  intros H. assert (X : forall a rest, returns AIfCommand a rest ->
    let '(mkIF conds els) := a in exists ts1, keyword IF ts ts1 /\ conditionals conds els ts1 rest).
  { apply (sound_of AIfCommand). cbn [call]. unfold p_if_command, if_command. gstep. gstep. gstep.
    apply (SoundBase.word_gives fuel); [discriminate| |intros _; gstep]. intros kw ts1 [<-|[]] Hk.
    eapply gives_mono; [apply (if_loop_gives B P fuel K KG)|]. cbn [app]. intros f ts2 (conds' & els' & -> & Hc). eauto. }
  exact (X _ _ H).
Qed.
Theorem for_command_sound v vc ws cs body rest : returns AForCommand (mkFF v vc ws cs body) rest ->
  exists ts1 ts2 ts3 ts4, keyword FOR ts ts1 /\ skipw ts1 = TName v :: ts2 /\
    maybe_newline vc ts2 ts3 /\ for_list ws cs ts3 ts4 /\ do_form body ts4 rest.
Proof.
  intros H. assert (X : forall a rest, returns AForCommand a rest ->
    let '(mkFF v vc ws cs body) := a in exists ts1 ts2 ts3 ts4, keyword FOR ts ts1 /\ skipw ts1 = TName v :: ts2 /\
    maybe_newline vc ts2 ts3 /\ for_list ws cs ts3 ts4 /\ do_form body ts4 rest).
  { apply (sound_of AForCommand). cbn [call]. apply (for_gives B P fuel K KG KP). eauto 10. }
  exact (X _ _ H).
Qed.
Theorem case_command_sound w cs ic arms ac rest : returns ACaseCommand (mkCF w cs ic arms ac) rest ->
  exists k ts1 ts2 ts3 ts4 ts5 ts6, w = pu_word P k /\ keyword CASE ts ts1 /\
    word_form k (skipw ts1) ts2 /\ newlines cs ts2 ts3 /\ keyword IN ts3 ts4 /\
    maybe_newline ic ts4 ts5 /\ case_arms arms ac ts5 ts6 /\ keyword ESAC ts6 rest.
Proof.
  intros H. assert (X : forall a rest, returns ACaseCommand a rest ->
    let '(mkCF w cs ic arms ac) := a in exists k ts1 ts2 ts3 ts4 ts5 ts6, w = pu_word P k /\ keyword CASE ts ts1 /\
    word_form k (skipw ts1) ts2 /\ newlines cs ts2 ts3 /\ keyword IN ts3 ts4 /\
    maybe_newline ic ts4 ts5 /\ case_arms arms ac ts5 ts6 /\ keyword ESAC ts6 rest).
  { apply (sound_of ACaseCommand). cbn [call]. apply (case_gives B P fuel K KG KP). intros. eauto 20. }
  exact (X _ _ H).
Qed.
Theorem compound_command_sound c rest : returns ACompoundCommand c rest -> compound c (skipw ts) rest.
Proof. intros H. revert c rest H. apply (sound_of ACompoundCommand). apply (compound_gives B P fuel K KG KP). auto. Qed.
Theorem command_sound c rest : returns ACommand c rest -> command_form c (skipw ts) rest.
Proof. intros H. revert c rest H. apply (sound_of ACommand). apply (command_gives B P fuel K KG KP). auto. Qed.
Theorem pipeline_sound p rest : returns APipeline p rest -> pipeline_form p ts rest.
Proof. intros H. revert p rest H. apply (sound_of APipeline). apply (pipeline_gives B P fuel K KG KP). auto. Qed.
Theorem and_or_list_sound l rest : returns AAndOrList l rest -> list_form l ts rest.
Proof. intros H. revert l rest H. apply (sound_of AAndOrList). apply (list_gives B P fuel K KG KP). auto. Qed.
Theorem complete_command_sound r rest : returns ACompleteCommand r rest ->
  match r with
  | Some c => exists ns mid, newlines ns ts mid /\ mid <> [] /\ complete_form ns c mid rest
  | None => exists ns, newlines ns ts [] /\ rest = []
  end.
Proof.
  intros H. revert r rest H. apply (sound_of ACompleteCommand). cbn [call]. unfold p_complete_command, complete_command.
  gstep. apply linebreak_gives. intros ns mid Hn. gstep. gstep. destruct mid as [|t mid]; cbn [hd_error].
  - destruct (is_nil ns); [gstep; eauto|]. gstep. eapply gives_build; [apply (pu_comments_ok _ P)|]. gstep. eauto.
  - gstep. apply (complete_gives B P fuel K KG KP). intros c rest Hc. gstep. exists ns, (t :: mid).
    split; [exact Hn|]. split; [discriminate|exact Hc].
Qed.
(** Lists of commands up to delimiters other than blanks, newlines, [#] and backslashes. *)
Theorem command_group_sound cfg g rest : plain cfg -> returns (ACommandGroup cfg) g rest ->
  group cfg g ts rest /\ commands g <> [].
Proof.
  intros Hp H. revert g rest H. apply (sound_of (ACommandGroup cfg)). cbn [call].
  apply (command_group_gives B P K KG); auto.
Qed.
End Methods.

(** ** Scripts *)
Definition accepted_script (g : cgroup C) (ts : list token) : Prop := group no_delims g ts [].

Lemma script_sound_at fuel st cs st' : yields B fuel st cs st' -> parser_iter_next concrete B fuel st' = (None, None) ->
  forall s b, st = Some (s, b) -> parser_reach B s b ->
  exists tr, accepted_script (mkCG cs tr) (tokens_left s).
Proof.
  intros Y N. induction Y as [st|st c st1 cs st2 E _ IH]; intros s b -> Hr.
  - unfold parser_iter_next in N.
    destruct (run concrete (p_complete_command B fuel) s b) as [[o s'] b'] eqn:E.
    destruct o as [[c|]|e|x|]; try discriminate.
    destruct (complete_command_sound fuel s b Hr None (tokens_left s')) as (ns & Hn & _).
    { exists s', b'. split; [exact E|reflexivity]. }
    exists ns. apply gr_end; [exact Hn|]. now left.
  - unfold parser_iter_next in E.
    destruct (run concrete (p_complete_command B fuel) s b) as [[o s'] b'] eqn:ER.
    destruct o as [[c'|]|e|x|]; try discriminate. injection E as -> <-.
    destruct (complete_command_sound fuel s b Hr (Some c) (tokens_left s')) as (ns & mid & Hn & Hne & Hc).
    { exists s', b'. split; [exact ER|reflexivity]. }
    assert (Hr1 : parser_reach B s' b') by (eapply pr_call; [apply (call_entry B ACompleteCommand)|exact Hr|exact ER]).
    destruct (IH N s' b' eq_refl Hr1) as (tr & Ht). exists tr. eapply gr_command; [exact Hn| |exact Hc|exact Ht].
    intros He. apply Hne. now apply no_delims_end.
Qed.

(** C37: if the iterator over [ts] yields [cs] and then ends without an error, then [ts] is a
    written script with exactly the commands [cs]. *)
(* A run that meets the hypotheses is in the proof of [Exact.script_exact_witness]. *)
Theorem script_sound fuel ts b cs st : yields B fuel (parser_iter_new B ts b) cs st ->
  parser_iter_next concrete B fuel st = (None, None) ->
  exists g, accepted_script g ts /\ commands g = cs.
Proof.
  intros Y N. destruct (script_sound_at fuel _ cs st Y N (ti_new ts) b eq_refl (pr_new _ _ _)) as (tr & H).
  now exists (mkCG cs tr).
Qed.
End Sound.
