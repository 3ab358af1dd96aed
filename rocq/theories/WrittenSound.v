(** * C51: nothing of the source is lost

    Whatever stands in an accepted source was told to the builder, but for what the rules of [spells]
    ([Written.v]) allow to be left out. *)
From Coq Require Import String.
From Verif Require Import Base Token Pos Lexer LexSpec LexTheorems Ast Builder Prog Iter Located IterProofs RunLemmas ParserBase Balanced BalancedSpec
  BalancedProofs BalancedTotal Wp Arith Word WpWord Redirect Command DefaultBuilder Entry EntryWp Total Api Runs Pure Relex ArithSpec HeredocSpec Forms BaseForms CompoundRuns FormsRuns FormsTheorems
  SoundScript Exact ExactMethods Join Written.

Definition tracer_pure : pure tracer.
Proof.
  refine (mkPure tracer t_complete_command t_and_or_list t_pipeline t_simple_command
    t_brace_group t_subshell t_loop_command t_if_command t_for_command t_case_command
    (fun c => c) t_function_declaration told_word told_redirect
    _ _ _ _ _ _ _ _ _ _ _ _ _ _ _); reflexivity.
Defined.
Notation TB := tracer.
Notation TP := tracer_pure.

Lemma spells_skipw l ts : spells l (skipw ts) -> spells l ts.
Proof.
  remember (List.length ts) as n eqn:Hn. assert (H : (List.length ts <= n)%nat) by lia. clear Hn. revert ts H.
  induction n as [|n IH]; intros ts H; [destruct ts; [auto|cbn in H; lia]|].
  destruct ts as [|t ts]; [auto|]. cbn in H. destruct t; try (intros A; exact A).
  - destruct ts as [|u ts]; [auto|]. destruct u; try (intros A; exact A). cbn in H. cbn [skipw]. intros A. apply sp_escaped_newline, IH; [lia|exact A].
  - cbn [skipw]. intros A. apply sp_blank, IH; [lia|exact A].
Qed.
Lemma spells_skipw_to l ts us : skipw ts = us -> spells l us -> spells l ts.
Proof. intros <-. apply spells_skipw. Qed.
Lemma chars_app a b : chars (a ++ b) = chars a ++ chars b.
Proof. apply map_app. Qed.
Lemma spells_text us l ts : spells l ts -> spells (chars (text us) ++ l) (us ++ ts).
Proof.
  intros H. induction us as [|t us IH]; [exact H|]. change (text (t :: us)) with (as_str t ++ text us).
  rewrite chars_app, <- app_assoc. cbn [app]. now apply sp_token.
Qed.
Lemma spells_tok t s l ts : as_str t = s -> spells l ts -> spells (chars s ++ l) (t :: ts).
Proof. intros <-. apply sp_token. Qed.
Lemma spells_none s l ts : spells l ts -> spells ([Opt s] ++ l) ts.
Proof. apply sp_none. Qed.
Lemma spells_some t s l ts : as_str t = s -> spells l ts -> spells ([Opt s] ++ l) (t :: ts).
Proof. intros <-. apply sp_some. Qed.

Lemma spells_newline n ts rest l : newline_form n ts rest -> spells l rest -> spells (nl n ++ l) ts.
Proof.
  intros H S0. inversion H; subst; eapply spells_skipw_to; try eassumption.
  - now apply (sp_token TNewline).
  - cbn [nl]. rewrite <- app_assoc. apply (spells_text (TPound :: c)). now apply sp_eol.
  - cbn [nl]. rewrite <- app_assoc. rewrite <- (app_nil_r (TPound :: c)) at 2. apply (spells_text (TPound :: c)). now apply sp_eol_end.
Qed.
Lemma spells_maybe n ts rest l : maybe_newline n ts rest -> spells l rest -> spells (nlo n ++ l) ts.
Proof.
  intros H S0. inversion H; subst; [eapply spells_newline; eassumption|now apply spells_skipw].
Qed.
Lemma spells_newlines ns ts rest l : newlines ns ts rest -> spells l rest -> spells (nls ns ++ l) ts.
Proof.
  induction 1; intros S0; [now apply spells_skipw|]. unfold nls in *. cbn [map concat]. rewrite <- app_assoc. eapply spells_newline; [eassumption|auto].
Qed.
Lemma spells_no_word ts rest l : no_word ts rest -> spells l rest -> spells l ts.
Proof.
  intros H S0. inversion H; subst; try (now apply spells_skipw). eapply spells_skipw_to; [eassumption|]. now apply sp_last_backslash.
Qed.
Lemma spells_no_value ts rest l : no_value ts rest -> spells l rest -> spells l ts.
Proof. intros H S0. inversion H; subst; [exact S0|eapply spells_no_word; eassumption]. Qed.
Lemma spells_keyword k ts rest l : keyword k ts rest -> spells l rest -> spells (chars k ++ l) ts.
Proof. intros H S0. inversion H; subst; (eapply spells_skipw_to; [eassumption|]); now apply spells_tok. Qed.
Lemma spells_keyword_opt k ts rest l : keyword k ts rest -> spells l rest -> spells ([Opt k] ++ l) ts.
Proof. intros H S0. inversion H; subst; (eapply spells_skipw_to; [eassumption|]); now apply spells_some. Qed.
Lemma spells_fd fd ts rest l : fd_form fd ts rest -> spells l rest -> spells (told_fd fd ++ l) ts.
Proof.
  intros H S0. inversion H; subst; cbn [told_fd app]; [exact S0|now apply sp_number|]. apply sp_number; [assumption|]. now apply sp_escaped_newline.
Qed.

Definition told_simples (l : list (swk items)) : items := concat (map told_simple l).
Definition told_frags (l : list (wk items)) : items := concat (map told_frag l).
Lemma told_double l : told_frag (KDoubleQuoted l) = chars [34%N] ++ told_simples l ++ chars [34%N].
Proof. cbn [told_frag]. f_equal. f_equal. induction l as [|s l IH]; [reflexivity|]. unfold told_simples in *. cbn [map concat]. now rewrite IH. Qed.
Lemma told_concat l : told_word (KConcat l) = told_frags l.
Proof. cbn [told_word]. induction l as [|s l IH]; [reflexivity|]. unfold told_frags in *. cbn [map concat]. now rewrite IH. Qed.
Lemma told_word_some ws k : word_of ws = Some k -> told_word k = told_frags ws.
Proof.
  destruct ws as [|w [|w' ws]]; cbn [word_of]; intros E; inversion E; subst; [|apply told_concat].
  unfold told_frags. cbn. now rewrite app_nil_r.
Qed.
Lemma told_word_of ws : match word_of ws with Some w => told_word w | None => [] end = told_frags ws.
Proof. destruct (word_of ws) eqn:E; [now apply told_word_some|]. destruct ws as [|w [|]]; [reflexivity|discriminate|discriminate]. Qed.
Lemma told_here_word ws : told_word (here_word ws) = told_simples ws.
Proof.
  destruct ws as [|w [|w' ws]]; cbn [here_word]; [reflexivity|unfold told_simples; cbn; now rewrite app_nil_r|].
  rewrite told_concat. unfold told_frags, told_simples. rewrite map_map. reflexivity.
Qed.
Lemma told_braces_eq p op ws : told_braces told_word p op (word_of ws) =
  chars (s_of "$") ++ chars (s_of "{") ++ [Pname p] ++ op ++ told_frags ws ++ chars (s_of "}").
Proof. unfold told_braces. rewrite told_word_of. reflexivity. Qed.
Lemma sep_by_cons sep x l : l <> [] -> sep_by sep (x :: l) = x ++ sep ++ sep_by sep l.
Proof. destruct l; [congruence|reflexivity]. Qed.
Lemma told_pipe_cons ns c l : l <> [] -> told_pipe ((ns, c) :: l) = c ++ chars (s_of "|") ++ nls ns ++ told_pipe l.
Proof. destruct l; [congruence|reflexivity]. Qed.

Ltac norm := repeat rewrite <- app_assoc.
Ltac tok := apply spells_tok; [reflexivity|].

Theorem forms_spells :
  (forall w ts rest, frag TB TP w ts rest -> forall l, spells l rest -> spells (told_frag w ++ l) ts) /\
  (forall s ts rest, expansion TB TP s ts rest -> forall l, spells l rest -> spells (told_simple s ++ l) ts) /\
  (forall s ts rest, dollar TB TP s ts rest -> forall l, spells l rest -> spells (told_simple s ++ l) ts) /\
  (forall close ws ts rest, quoted TB TP close ws ts rest -> forall l, spells l rest -> spells (told_simples ws ++ l) ts) /\
  (forall stop ws ts rest, frags TB TP stop ws ts rest -> forall l, spells l rest -> spells (told_frags ws ++ l) ts) /\
  (forall ws ts rest, operand TB TP ws ts rest -> forall l, spells l rest -> spells (told_frags ws ++ l) ts) /\
  (forall k ts rest, word_form TB TP k ts rest -> forall l, spells l rest -> spells (told_word k ++ l) ts) /\
  (forall r ts rest, redirect_form TB TP r ts rest -> forall l, spells l rest -> spells (r ++ l) ts) /\
  (forall rs ts rest, redirects TB TP rs ts rest -> forall l, spells l rest -> spells (concat rs ++ l) ts) /\
  (forall args ts rest, arguments TB TP args ts rest -> forall l, spells l rest -> spells (concat (map told_arg args) ++ l) ts) /\
  (forall vars args ts rest, simple TB TP vars args ts rest -> forall l, spells l rest ->
     spells (concat (map told_env vars) ++ concat (map told_arg args) ++ l) ts) /\
  (forall c ts rest, command_form TB TP c ts rest -> forall l, spells l rest -> spells (c ++ l) ts) /\
  (forall ns c ts rest, function_body TB TP ns c ts rest -> forall l, spells l rest -> spells (nls ns ++ c ++ l) ts) /\
  (forall c ts rest, compound TB TP c ts rest -> forall l, spells l rest -> spells (c ++ l) ts) /\
  (forall g ts rest, do_form TB TP g ts rest -> forall l, spells l rest -> spells (told_do g ++ l) ts) /\
  (forall conds els ts rest, conditionals TB TP conds els ts rest -> conds <> [] /\ forall l, spells l rest ->
     spells (sep_by (chars (s_of "elif")) (map told_guard conds) ++ told_else els ++ chars (s_of "fi") ++ l) ts) /\
  (forall ws cs ts rest, for_list TB TP ws cs ts rest -> forall l, spells l rest -> spells (told_for_words ws ++ nls cs ++ l) ts) /\
  (forall ws ts rest, for_words_form TB TP ws ts rest -> forall l, spells l rest -> spells (concat ws ++ l) ts) /\
  (forall arms cs ts rest, case_arms TB TP arms cs ts rest -> forall l, spells l rest -> spells (concat (map told_arm arms) ++ nls cs ++ l) ts) /\
  (forall ps ts rest, patterns_form TB TP ps ts rest -> ps <> [] /\ forall l, spells l rest ->
     spells (sep_by (chars (s_of "|")) ps ++ chars (s_of ")") ++ l) ts) /\
  (forall cs ts rest, pipe_form TB TP cs ts rest -> cs <> [] /\ forall l, spells l rest -> spells (told_pipe cs ++ l) ts) /\
  (forall p ts rest, pipeline_form TB TP p ts rest -> forall l, spells l rest -> spells (p ++ l) ts) /\
  (forall x ts rest, and_or_form TB TP x ts rest -> forall l, spells l rest -> spells (concat (map told_and_or x) ++ l) ts) /\
  (forall p ts rest, list_form TB TP p ts rest -> forall l, spells l rest -> spells (p ++ l) ts) /\
  (forall ns c ts rest, complete_form TB TP ns c ts rest -> forall l ts0, newlines ns ts0 ts -> spells l rest -> spells (c ++ l) ts0) /\
  (forall cfg g ts rest, group TB TP cfg g ts rest -> forall l, spells l rest -> spells (told_group g ++ l) ts).
Proof.
  apply (forms_mind TB TP written_arith).
  - (* fr_literal *) intros t rest _ l H. now apply sp_token.
  - intros t s rest Hg l H. inversion Hg; subst; now apply spells_tok.
  - intros t rest _ l H. change (told_frag (KSimple (KEscaped (as_str t)))) with (chars ([92%N] ++ as_str t)). rewrite chars_app. norm. tok. now apply sp_token.
  - intros ts rest _ l H. cbn [told_frag]. rewrite !chars_app. norm. tok. apply spells_text. now tok.
  - intros ws ts rest _ IH l H. rewrite told_double. norm. tok. apply IH. now tok.
  - intros s ts rest _ IH. exact IH.
  - (* ex_backticks *) intros g ts rest _ _ IH l H. apply sp_backquotes; [|exact H]. rewrite <- (app_nil_r (told_group g)). apply IH, sp_nil.
  - intros s ts rest _ IH. exact IH.
  - (* do_lone *) intros rest _ l H. now tok.
  - intros p rest l H. now apply sp_positional.
  - intros p t rest Hp l H. now apply sp_param.
  - intros p t rest Hp l H. now apply sp_braces.
  - intros p t rest Hp l H. change (told_simple (KSubst (KSLen p))) with (chars (s_of "$") ++ chars (s_of "{") ++ chars (s_of "#") ++ [Pname p] ++ chars (s_of "}")). norm.
    do 3 tok. apply sp_pname; [exact Hp|]. now tok.
  - (* do_subst *) intros p t colon op mk ws ts rest H1 H2 _ IH H3 l H.
    assert (E : told_simple (KSubst (mk p (word_of ws))) = told_braces told_word p (chars ((if colon then s_of ":" else []) ++ as_str op)) (word_of ws)) by (inversion H2; subst; reflexivity).
    rewrite E, told_braces_eq, chars_app. norm. do 2 tok. apply sp_pname; [exact H1|]. destruct colon; cbn [chars map app]; [tok|]; apply sp_token, IH; now tok.
  - intros p t ws ts rest H1 _ IH _ l H. cbn [told_simple told_subst]. rewrite told_braces_eq. norm. do 2 tok. apply sp_pname; [exact H1|]. tok. apply IH. now tok.
  - intros p t ws ts rest H1 _ IH l H. cbn [told_simple told_subst]. rewrite told_braces_eq. norm. do 2 tok. apply sp_pname; [exact H1|]. change (s_of "%%") with (s_of "%" ++ s_of "%"). rewrite chars_app. norm. do 2 tok. apply IH. now tok.
  - intros p t ws ts rest H1 _ IH _ _ l H. cbn [told_simple told_subst]. rewrite told_braces_eq. norm. do 2 tok. apply sp_pname; [exact H1|]. tok. apply IH. now tok.
  - intros p t ws ts rest H1 _ IH l H. cbn [told_simple told_subst]. rewrite told_braces_eq. norm. do 2 tok. apply sp_pname; [exact H1|]. change (s_of "##") with (s_of "#" ++ s_of "#"). rewrite chars_app. norm. do 2 tok. apply IH. now tok.
  - (* do_arith *) intros e ts mid mid' rest H1 H2 H3 l H.
    change (told_simple (KSubst (KSArith (Some e)))) with (chars (s_of "$") ++ chars (s_of "(") ++ chars (s_of "(") ++ [Arith e] ++ chars (s_of ")") ++ chars (s_of ")")). norm.
    do 3 tok. apply sp_arith; [exact H1|]. eapply spells_skipw_to; [exact H2|]. tok. eapply spells_skipw_to; [exact H3|]. now tok.
  - intros mid mid' rest H2 H3 l H.
    change (told_simple (KSubst (KSArith None))) with (chars (s_of "$") ++ chars (s_of "(") ++ chars (s_of "(") ++ chars (s_of ")") ++ chars (s_of ")")). norm.
    do 3 tok. eapply spells_skipw_to; [exact H2|]. tok. eapply spells_skipw_to; [exact H3|]. now tok.
  - intros g ts rest _ IH _ l H. apply sp_parens. apply IH. now tok.
  - (* do_colon *) intros p t rest Hp l H. now apply sp_braces_colon.
  - (* qu_nil *) intros close rest _ l H. exact H.
  - intros close ts ws mid rest _ _ _ _ IH l H. unfold told_simples. cbn [map concat told_simple]. norm. apply spells_text. now apply IH.
  - intros close t ws ts rest _ _ IH l H. unfold told_simples. cbn [map concat told_simple]. rewrite chars_app. norm. tok. apply sp_token. now apply IH.
  - intros close s ts mid ws rest _ IH1 _ IH2 l H. unfold told_simples. cbn [map concat]. norm. apply IH1. now apply IH2.
  - intros close ts ws mid rest _ E _ _ IH l H. specialize (IH _ H). apply (spells_text ts) in IH. rewrite E in IH. exact IH.
  - (* fs_end *) intros stop rest _ l H. exact H.
  - intros stop rest l H. now apply sp_escaped_newline.
  - intros stop w ts mid ws rest _ IH1 _ _ IH2 l H. unfold told_frags. cbn [map concat]. norm. apply IH1. now apply IH2.
  - intros stop l H. now apply sp_last_backslash.
  - (* op_end *) intros rest l H. exact H.
  - intros t ws ts rest _ _ IH l H. unfold told_frags. cbn [map concat]. norm. apply sp_token. now apply IH.
  - intros ws ts rest _ IH l H. unfold told_frags. cbn [map concat]. change (told_frag (KSimple (KEscaped (as_str TNewline)))) with (chars [92%N] ++ chars (as_str TNewline)). norm. do 2 tok. now apply IH.
  - intros w ws ts mid ws' rest _ IH1 _ _ IH2 l H. unfold told_frags. rewrite map_app, concat_app. norm. apply IH1. now apply IH2.
  - (* wf_word *) intros w ws k ts rest _ IH _ Hk l H. rewrite (told_word_some _ _ Hk). now apply IH.
  - (* rf_file *) intros fd op mk k ts ts' rest Hf Ho _ IH l H.
    assert (E : pu_redirect TP (mk fd (pu_word TP k)) = told_fd fd ++ chars (as_str op) ++ told_word k) by (inversion Ho; subst; reflexivity).
    rewrite E. norm. eapply spells_fd; [exact Hf|]. apply sp_token. apply spells_skipw. now apply IH.
  - intros fd op mk w ws k ts ts' rest Hf Ho _ IH _ Hk l H.
    assert (E : pu_redirect TP (mk fd (pu_word TP k)) = told_fd fd ++ chars (as_str op) ++ told_word k) by (inversion Ho; subst; reflexivity).
    rewrite E, (told_word_some _ _ Hk). norm. eapply spells_fd; [exact Hf|]. apply sp_token. apply spells_skipw. now apply IH.
  - intros fd op mk ts ts' rest Hf Ho Hs _ l H.
    assert (E : forall w, pu_redirect TP (mk fd w) = told_fd fd ++ chars (as_str op) ++ w) by (intros w; inversion Ho; subst; reflexivity).
    rewrite E. norm. eapply spells_fd; [exact Hf|]. apply sp_token. eapply spells_skipw_to; [exact Hs|]. now apply spells_tok.
  - (* rf_here_quoted *) intros fd op strip body ts ts' rest Hf Ho Hh l H.
    change (pu_redirect TP (RHeredoc fd (pu_word TP (KSingle (KSimple (KLiteral (text body))))))) with (told_fd fd ++ [Here (chars (text body))]). norm.
    eapply spells_fd; [exact Hf|]. eapply sp_here; eassumption.
  - intros fd op strip body ws ts ts' rest Hf Ho Hh _ IH l H.
    change (pu_redirect TP (RHeredoc fd (pu_word TP (here_word ws)))) with (told_fd fd ++ [Here (told_word (here_word ws))]). rewrite told_here_word. norm.
    eapply spells_fd; [exact Hf|]. eapply sp_here_unquoted; try eassumption. rewrite <- (app_nil_r (told_simples ws)). apply IH, sp_nil.
  - (* redirects *) intros ts rest Hw _ l H. eapply spells_no_word; eassumption.
  - intros r ts mid rs rest _ IH1 _ IH2 l H. cbn [concat]. norm. apply spells_skipw, IH1. now apply IH2.
  - (* arguments *) intros ts rest Hw _ l H. eapply spells_no_word; eassumption.
  - intros r ts mid args rest _ IH1 _ IH2 l H. cbn [map concat told_arg]. norm. apply spells_skipw, IH1. now apply IH2.
  - intros k ts mid args rest _ IH1 _ _ IH2 l H. cbn [map concat told_arg]. norm. apply spells_skipw, IH1. now apply IH2.
  - (* simple *) intros ts rest Hw _ l H. eapply spells_no_word; eassumption.
  - intros r ts mid vars args rest _ IH1 _ IH2 l H. cbn [map concat told_env]. norm. apply spells_skipw, IH1. now apply IH2.
  - intros v k ts mid mid' vars args rest Hs _ _ IH1 _ IH2 l H. cbn [map concat told_env]. rewrite chars_app. norm. eapply spells_skipw_to; [exact Hs|]. do 2 tok. apply spells_skipw, IH1. now apply IH2.
  - intros v ts mid mid' vars args rest Hs Hv _ IH2 l H. cbn [map concat told_env]. rewrite chars_app. norm. eapply spells_skipw_to; [exact Hs|]. do 2 tok. eapply spells_no_value; [exact Hv|]. now apply IH2.
  - intros k ts mid args rest _ IH1 _ _ _ IH2 l H. cbn [map concat told_arg app]. norm. apply spells_skipw, IH1. now apply IH2.
  - (* command_form *) intros vars args ts rest _ IH _ _ _ _ l H. change (pu_simple_command TP vars args) with (t_simple_command vars args). unfold t_simple_command. norm. now apply IH.
  - intros c ts rest _ IH l H. now apply IH.
  - intros v ns c ts ts1 ts2 ts3 rest _ _ -> Hp Hc _ IH l H. change (pu_function_declaration TP v ns c) with ([Opt (s_of "function")] ++ chars v ++ ([Opt (s_of "(")] ++ [Opt (s_of ")")]) ++ nls ns ++ c). norm.
    apply spells_none. tok. destruct Hp as [->|(w & ->)]; [|apply sp_blank].
    all: apply spells_some; [reflexivity|]; eapply spells_skipw_to; [exact Hc|]; apply spells_some; [reflexivity|]; now apply IH.
  - intros v ns c ts ts0 ts1 ts2 rest Hk Hs Hc _ IH l H. change (pu_function_declaration TP v ns c) with ([Opt (s_of "function")] ++ chars v ++ ([Opt (s_of "(")] ++ [Opt (s_of ")")]) ++ nls ns ++ c). norm.
    eapply spells_keyword_opt; [exact Hk|]. eapply spells_skipw_to; [exact Hs|]. tok. apply spells_some; [reflexivity|]. eapply spells_skipw_to; [exact Hc|]. apply spells_some; [reflexivity|]. now apply IH.
  - intros v ns c ts ts0 ts1 rest Hk Hs _ _ IH l H. change (pu_function_declaration TP v ns c) with ([Opt (s_of "function")] ++ chars v ++ ([Opt (s_of "(")] ++ [Opt (s_of ")")]) ++ nls ns ++ c). norm.
    eapply spells_keyword_opt; [exact Hk|]. eapply spells_skipw_to; [exact Hs|]. tok. do 2 apply spells_none. now apply IH.
  - intros v ns c ts ts0 w ts1 ts2 ts3 rest Hk Hs Hs1 Hs2 _ IH l H. change (pu_function_declaration TP v ns c) with ([Opt (s_of "function")] ++ chars v ++ ([Opt (s_of "(")] ++ [Opt (s_of ")")]) ++ nls ns ++ c). norm.
    eapply spells_keyword_opt; [exact Hk|]. eapply spells_skipw_to; [exact Hs|]. tok. apply sp_blank. eapply spells_skipw_to; [exact Hs1|]. apply spells_some; [reflexivity|].
    eapply spells_skipw_to; [exact Hs2|]. apply spells_some; [reflexivity|]. now apply IH.
  - intros v g ts ts0 w ts1 ts2 rest Hk Hs Hs1 _ IH _ l H.
    change (pu_function_declaration TP v [] (pu_subshell TP g [])) with ([Opt (s_of "function")] ++ chars v ++ ([Opt (s_of "(")] ++ [Opt (s_of ")")]) ++ chars (s_of "(") ++ told_group g ++ chars (s_of ")") ++ []). rewrite app_nil_r. norm.
    eapply spells_keyword_opt; [exact Hk|]. eapply spells_skipw_to; [exact Hs|]. tok. do 2 apply spells_none. apply sp_blank. eapply spells_skipw_to; [exact Hs1|]. tok. apply IH. now tok.
  - (* function_body *) intros ns c ts mid rest Hn _ IH l H. eapply spells_newlines; [exact Hn|]. now apply IH.
  - (* co_brace *) intros g ts mid mid' rs rest _ _ IH1 _ -> _ _ IH2 l H. change (pu_brace_group TP g rs) with (t_brace_group g rs). unfold t_brace_group. norm. tok. apply IH1. tok. now apply IH2.
  - intros g ts mid rs rest _ IH1 _ _ IH2 l H. change (pu_subshell TP g rs) with (t_subshell g rs). unfold t_subshell. norm. tok. apply IH1. tok. now apply IH2.
  - intros g b ts ts1 ts2 ts3 rs rest Hk _ IH1 _ _ IH2 _ IH3 l H. change (pu_loop_command TP LoopWhile (mkGBP g b) rs) with (t_loop_command LoopWhile (mkGBP g b) rs). unfold t_loop_command. cbn [gguard gbody]. norm.
    eapply spells_keyword; [exact Hk|]. apply IH1, IH2. now apply IH3.
  - intros g b ts ts1 ts2 ts3 rs rest Hk _ IH1 _ _ IH2 _ IH3 l H. change (pu_loop_command TP LoopUntil (mkGBP g b) rs) with (t_loop_command LoopUntil (mkGBP g b) rs). unfold t_loop_command. cbn [gguard gbody]. norm.
    eapply spells_keyword; [exact Hk|]. apply IH1, IH2. now apply IH3.
  - (* co_if *) intros conds els ts ts1 ts2 rs rest Hk _ [_ IH1] _ IH2 l H. change (pu_if_command TP (mkIF conds els) rs) with (t_if_command (mkIF conds els) rs). unfold t_if_command. cbn [Ast.conditionals else_branch]. norm.
    eapply spells_keyword; [exact Hk|]. apply IH1. now apply IH2.
  - (* co_for *) intros v vc ws cs b ts ts1 ts2 ts3 ts4 ts5 rs rest Hk Hs Hm _ IH1 _ IH2 _ IH3 l H.
    change (pu_for_command TP (mkFF v vc ws cs b) rs) with (t_for_command (mkFF v vc ws cs b) rs). unfold t_for_command. cbn [ff_var ff_var_comment ff_words ff_pre_body_comments ff_body]. rewrite chars_app. norm.
    eapply spells_keyword; [exact Hk|]. eapply spells_skipw_to; [exact Hs|]. tok. eapply spells_maybe; [exact Hm|]. apply IH1, IH2. now apply IH3.
  - (* co_case *) intros k cs ic arms ac ts ts1 ts2 ts3 ts4 ts5 ts6 ts7 rs rest Hk _ IH1 Hn Hi Hm _ IH2 He _ IH3 l H.
    change (pu_case_command TP (mkCF (pu_word TP k) cs ic arms ac) rs) with (t_case_command (mkCF (told_word k) cs ic arms ac) rs). unfold t_case_command. cbn [cf_word cf_post_word_comments cf_in_comment cf_arms cf_post_arms_comments]. norm.
    eapply spells_keyword; [exact Hk|]. apply spells_skipw, IH1. eapply spells_newlines; [exact Hn|]. eapply spells_keyword; [exact Hi|]. eapply spells_maybe; [exact Hm|].
    apply IH2. eapply spells_keyword; [exact He|]. now apply IH3.
  - (* do_form *) intros g ts ts1 ts2 rest Hk _ IH _ Hd l H. unfold told_do. norm. eapply spells_keyword; [exact Hk|]. apply IH. eapply spells_keyword; [exact Hd|exact H].
  - (* conditionals *) intros g b ts ts1 ts2 ts3 rest _ IH1 _ Hk1 _ IH2 _ Hk2. split; [discriminate|]. intros l H. cbn [map sep_by told_else app]. unfold told_guard. cbn [gguard gbody]. norm.
    apply IH1. eapply spells_keyword; [exact Hk1|]. apply IH2. eapply spells_keyword; [exact Hk2|exact H].
  - intros g b e ts ts1 ts2 ts3 ts4 ts5 rest _ IH1 _ Hk1 _ IH2 _ Hk2 _ IH3 _ Hk3. split; [discriminate|]. intros l H. cbn [map sep_by told_else]. unfold told_guard. cbn [gguard gbody]. norm.
    apply IH1. eapply spells_keyword; [exact Hk1|]. apply IH2. eapply spells_keyword; [exact Hk2|]. apply IH3. eapply spells_keyword; [exact Hk3|exact H].
  - intros g b conds els ts ts1 ts2 ts3 ts4 rest _ IH1 _ Hk1 _ IH2 _ Hk2 _ [Hne IH3]. split; [discriminate|]. intros l H. cbn [map]. rewrite sep_by_cons by (destruct conds; [congruence|discriminate]).
    unfold told_guard at 1. cbn [gguard gbody]. norm. apply IH1. eapply spells_keyword; [exact Hk1|]. apply IH2. eapply spells_keyword; [exact Hk2|]. now apply IH3.
  - (* for_list *) intros ns ws wc cs ts ts1 ts2 ts3 ts4 ts5 rest Hn Hk _ IH Hs Hm Hc l H. cbn [told_for_words]. norm.
    eapply spells_newlines; [exact Hn|]. eapply spells_keyword; [exact Hk|]. apply IH. destruct Hs as [->|[-> _]]; [apply spells_some; [reflexivity|]|apply spells_none]; eapply spells_maybe; try exact Hm; eapply spells_newlines; eassumption.
  - intros ns cs ts ts1 rest Hn Hc l H. cbn [told_for_words app]. eapply sp_for_semi; [exact Hn|]. eapply spells_newlines; eassumption.
  - intros ns ts rest Hn _ _ l H. cbn [told_for_words app]. apply sp_for. eapply spells_newlines; eassumption.
  - (* for words *) intros ts rest Hw l H. eapply spells_no_word; eassumption.
  - intros k ts mid ws rest _ IH1 _ IH2 l H. cbn [concat]. norm. apply spells_skipw, IH1. now apply IH2.
  - (* case_arms *) intros cs ts rest Hn _ l H. cbn [map concat app]. eapply spells_newlines; eassumption.
  - intros pre ps pc b ac arms cs ts ts1 ts2 ts3 ts4 ts5 ts6 rest Hn _ Hp _ [_ IH1] Hm _ IH2 Ha _ IH3 l H. cbn [map concat]. unfold told_arm at 1. cbn [arm_patterns arm_body arm_comment pattern_alternatives pre_pattern_comments pattern_comment]. norm.
    eapply spells_newlines; [exact Hn|]. assert (spells (sep_by (chars (s_of "|")) ps ++ chars (s_of ")") ++ nlo pc ++ told_group b ++ [Opt (s_of ";;")] ++ nlo ac ++ concat (map told_arm arms) ++ nls cs ++ l) ts2).
    { apply IH1. eapply spells_maybe; [exact Hm|]. apply IH2. apply spells_some; [reflexivity|]. eapply spells_maybe; [exact Ha|]. now apply IH3. }
    destruct Hp as [->|[_ ->]]; [apply spells_some; [reflexivity|]|apply spells_none]; assumption.
  - intros pre ps pc b ts ts1 ts2 ts3 ts4 rest Hn _ Hp _ [_ IH1] Hm _ IH2 _ l H. cbn [map concat]. rewrite app_nil_r. unfold told_arm. cbn [arm_patterns arm_body arm_comment pattern_alternatives pre_pattern_comments pattern_comment nlo]. norm.
    eapply spells_newlines; [exact Hn|]. assert (spells (sep_by (chars (s_of "|")) ps ++ chars (s_of ")") ++ nlo pc ++ told_group b ++ [Opt (s_of ";;")] ++ l) ts2).
    { apply IH1. eapply spells_maybe; [exact Hm|]. apply IH2. now apply spells_none. }
    destruct Hp as [->|[_ ->]]; [apply spells_some; [reflexivity|]|apply spells_none]; assumption.
  - (* patterns *) intros k ts mid rest _ IH Hs. split; [discriminate|]. intros l H. cbn [sep_by]. apply spells_skipw, IH. eapply spells_skipw_to; [exact Hs|]. now tok.
  - intros k ts mid mid' ps rest _ IH1 Hs _ [Hne IH2]. split; [discriminate|]. intros l H. rewrite sep_by_cons by exact Hne. norm. apply spells_skipw, IH1. eapply spells_skipw_to; [exact Hs|]. tok. now apply IH2.
  - (* pipe *) intros c ts rest _ IH _ _. split; [discriminate|]. intros l H. cbn [told_pipe nls map concat]. rewrite app_nil_r. apply spells_skipw. now apply IH.
  - intros c ns cs ts mid mid' rest _ IH1 _ Hn _ [Hne IH2]. split; [discriminate|]. intros l H. rewrite told_pipe_cons by exact Hne. norm. apply spells_skipw, IH1. tok. eapply spells_newlines; [exact Hn|]. now apply IH2.
  - (* pipeline *) intros cs ts rest _ _ [_ IH] l H. apply spells_skipw. now apply IH.
  - intros cs ts mid rest Hs _ [_ IH] l H. eapply spells_skipw_to; [exact Hs|]. change (pu_pipeline TP true cs) with (chars (s_of "!") ++ told_pipe cs). norm. tok. now apply IH.
  - (* and_or *) intros ts _ _ l H. now apply spells_skipw.
  - intros p ns x ts ts1 ts2 ts3 rest Hs Hn _ IH1 _ IH2 l H. cbn [map concat told_and_or]. norm. eapply spells_skipw_to; [exact Hs|]. tok. eapply spells_newlines; [exact Hn|]. apply IH1. now apply IH2.
  - intros p ns x ts ts1 ts2 ts3 rest Hs Hn _ IH1 _ IH2 l H. cbn [map concat told_and_or]. norm. eapply spells_skipw_to; [exact Hs|]. tok. eapply spells_newlines; [exact Hn|]. apply IH1. now apply IH2.
  - intros p x ts mid rest _ IH1 _ IH2 l H. change (pu_and_or_list TP p x) with (p ++ concat (map told_and_or x)). norm. apply IH1. now apply IH2.
  - (* complete *) intros ns p n ts mid rest _ IH Hm l ts0 Hn H. change (pu_complete_command TP ns p SepSemi n) with (nls ns ++ p ++ chars (s_of ";") ++ nlo n). norm.
    eapply spells_newlines; [exact Hn|]. apply IH. tok. eapply spells_maybe; eassumption.
  - intros ns p n ts mid rest _ IH Hm l ts0 Hn H. change (pu_complete_command TP ns p SepAmp n) with (nls ns ++ p ++ chars (s_of "&") ++ nlo n). norm.
    eapply spells_newlines; [exact Hn|]. apply IH. tok. eapply spells_maybe; eassumption.
  - intros ns p n ts mid rest _ IH Hm l ts0 Hn H. change (pu_complete_command TP ns p SepNewline (Some n)) with (nls ns ++ p ++ nl n). norm.
    eapply spells_newlines; [exact Hn|]. apply IH. eapply spells_newline; eassumption.
  - intros ns p ts rest _ IH _ _ _ _ l ts0 Hn H. change (pu_complete_command TP ns p SepOther None) with (nls ns ++ p ++ []). rewrite app_nil_r. norm.
    eapply spells_newlines; [exact Hn|]. now apply IH.
  - (* group *) intros cfg ns ts rest Hn _ l H. unfold told_group. cbn [commands trailing_comments concat app]. eapply spells_newlines; eassumption.
  - intros cfg ns c cs tr ts ts1 ts2 rest Hn _ _ IH1 _ IH2 l H. unfold told_group in *. cbn [commands trailing_comments concat] in *. norm. eapply IH1; [exact Hn|]. specialize (IH2 _ H). rewrite <- app_assoc in IH2. exact IH2.
Qed.

(** ** The claim *)
(** One command: it was told all that stands before the rest. *)
Theorem command_told fuel s b c s' b' : parser_reach TB s b ->
  run concrete (p_complete_command TB fuel) s b = (OOk (Some c), s', b') ->
  forall l, spells l (tokens_left s') -> spells (c ++ l) (tokens_left s).
Proof.
  intros Hr E l H. destruct (complete_command_sound TB TP fuel s b Hr (Some c) (tokens_left s')) as (ns & mid & Hn & _ & Hc).
  { exists s', b'. split; [exact E|reflexivity]. }
  destruct forms_spells as (_ & T). do 23 apply proj2 in T. apply proj1 in T. eapply T; eassumption.
Qed.

(** What follows the last command. *)
Lemma script_told_at fuel st cs st' : yields TB fuel st cs st' -> parser_iter_next concrete TB fuel st' = (None, None) ->
  forall s b, st = Some (s, b) -> parser_reach TB s b ->
  exists s' b' ns, st' = Some (s', b') /\ newlines ns (tokens_left s') [] /\ spells (concat cs ++ nls ns) (tokens_left s).
Proof.
  intros Y N. induction Y as [st|st c st1 cs st2 E _ IH]; intros s b -> Hr.
  - unfold parser_iter_next in N.
    destruct (run concrete (p_complete_command TB fuel) s b) as [[o s'] b'] eqn:E.
    destruct o as [[c|]|e|x|]; try discriminate.
    destruct (complete_command_sound TB TP fuel s b Hr None (tokens_left s')) as (ns & Hn & _).
    { exists s', b'. split; [exact E|reflexivity]. }
    exists s, b, ns. repeat split; auto. cbn [concat app]. rewrite <- (app_nil_r (nls ns)). eapply spells_newlines; [exact Hn|apply sp_nil].
  - unfold parser_iter_next in E.
    destruct (run concrete (p_complete_command TB fuel) s b) as [[o s'] b'] eqn:ER.
    destruct o as [[c'|]|e|x|]; try discriminate. injection E as -> <-.
    assert (Hr1 : parser_reach TB s' b') by (eapply pr_call; [apply (call_entry TB ACompleteCommand)|exact Hr|exact ER]).
    destruct (IH N s' b' eq_refl Hr1) as (s2 & b2 & ns & E2 & Hn & Hs). exists s2, b2, ns. split; [exact E2|]. split; [exact Hn|].
    cbn [concat]. rewrite <- app_assoc. eapply command_told; eassumption.
Qed.

(** A whole script: its tokens are a way to write the commands, and then the comments and newlines [ns]
    at which the iterator has stopped. *)
Theorem source_told fuel ts b cs st : yields TB fuel (parser_iter_new TB ts b) cs st ->
  parser_iter_next concrete TB fuel st = (None, None) ->
  exists s' b' ns, st = Some (s', b') /\ newlines ns (tokens_left s') [] /\ spells (concat cs ++ nls ns) ts.
Proof. intros Y N. exact (script_told_at fuel _ cs st Y N (ti_new ts) b eq_refl (pr_new _ _ _)). Qed.

(** These, too, are told, by every call at the end of the input and to every builder. *)
Theorem end_told B fuel s b ns : parser_reach B s b -> (List.length (tokens_left s) + 2 < fuel)%nat ->
  newlines ns (tokens_left s) [] -> ns <> [] ->
  exists s', run concrete (p_complete_command B fuel) s b =
    (match fst (o_comments B ns b) with inl _ => OOk None | inr e => OErr (Custom e) end, s', snd (o_comments B ns b)).
Proof.
  intros HR Hf Hn Hne.
  pose proof (parser_terminates B _ _ fuel s b (call_entry B ACompleteCommand) HR Hf) as Ht.
  pose proof (run_transfer (p_complete_command B fuel) s b (parser_reach_good _ _ _ HR)) as T.
  change (call B ACompleteCommand fuel) with (p_complete_command B fuel) in Ht.
  destruct (run concrete (p_complete_command B fuel) s b) as [[o s'] b'] eqn:E. exists s'. destruct T as [T G']. specialize (Ht _ _ _ E).
  pose proof (runs_linebreak (BS := bst B) (BE := b_err B) fuel ns (tokens_left s) [] Hn (toks (abs s)) (end_pos (abs s)) b (tokens_left_abs s)) as R.
  replace (mkL (toks (abs s)) (end_pos (abs s))) with (abs s) in R by now destruct (abs s).
  change (lrun (p_complete_command B fuel) (abs s) b = (o, abs s', b')) in T. unfold p_complete_command, complete_command in T. rewrite lrun_bind in T.
  destruct (lrun (linebreak fuel) (abs s) b) as [[o1 l1] b1]. destruct o1 as [ns1|e|x|]; try contradiction.
  - destruct R as (-> & -> & R & _). rewrite lrun_bind, lrun_peek in T. unfold l_hd in T. rewrite R in T. cbn [hd_error] in T.
    destruct ns as [|n ns]; [congruence|]. cbn [is_nil] in T. rewrite lrun_bind, lrun_build in T.
    destruct (o_comments B (n :: ns) b) as [[u|e] b2]; cbn [fst snd]; [rewrite lrun_ret in T|]; inversion T; subst; reflexivity.
  - exfalso. apply Ht. symmetry. exact (f_equal (fun x => fst (fst x)) T).
Qed.

Section Source.
Context `{Uni}.
(** In terms of the source: its tokens, which together are the source itself, are a way to write what
    was told.  Missing for the full claim: the comments before the semicolon of [for x ; do] ([comment_is_lost]). *)
Theorem source_reaches_builder_partial s fuel cs : parses_to TB fuel (lex s) tt cs ->
  text (lex s) = s /\ exists ns, spells (concat cs ++ nls ns) (lex s).
Proof.
  intros (st & Y & N). split; [rewrite <- concat_tokens_text; apply lex_lossless|].
  destruct (source_told _ _ _ _ _ Y N) as (_ & _ & ns & _ & _ & Hs). now exists ns.
Qed.
End Source.

(** ** How much this says *)
(** Where only characters are told, none but blanks, newlines and backslashes may be missing. *)
Definition solid_char (c : char) : bool := negb (existsb (N.eqb c) [9%N; 10%N; 13%N; 32%N; 92%N]).
Definition solid (s : str) : str := filter solid_char s.
Lemma solid_app a b : solid (a ++ b) = solid a ++ solid b.
Proof. apply filter_app. Qed.
Lemma chars_inj a : forall b l, chars b = chars a ++ l -> exists c, l = chars c /\ b = a ++ c.
Proof.
  induction a as [|x a IH]; intros b l E; [exists b; auto|]. destruct b as [|y b]; [discriminate|]. cbn in E. injection E as <- E.
  apply IH in E as (c & -> & ->). now exists c.
Qed.
Theorem only_blanks_missing s ts : spells (chars s) ts -> (forall w, In (TWhitespace w) ts -> solid w = []) ->
  solid s = solid (text ts).
Proof.
  intros H. remember (chars s) as l eqn:E. revert s E.
  induction H; intros s0 E W; try (destruct s0; discriminate E).
  - destruct s0; [reflexivity|discriminate].
  - symmetry in E. apply chars_inj in E as (c & -> & ->). change (text (t :: ts)) with (as_str t ++ text ts). rewrite !solid_app. f_equal. apply IHspells; [reflexivity|]. intros w Hw. apply W. now right.
  - change (text (TWhitespace w :: ts)) with (w ++ text ts). rewrite solid_app, (W w (or_introl eq_refl)). apply IHspells; [exact E|]. intros w' Hw. apply W. now right.
  - change (text (TBackslash :: TNewline :: ts)) with ([92%N] ++ [10%N] ++ text ts). rewrite !solid_app. apply IHspells; [exact E|]. intros w' Hw. apply W. now do 2 right.
  - rewrite (IHspells _ E) by (intros w []). reflexivity.
Qed.

(** ** Witnesses *)
Lemma tracer_steps n fuel ts cs : (List.length ts + 2 < fuel)%nat ->
  iterate TB fuel n (parser_iter_new TB ts tt) [] = Some (cs, None) -> parses_to TB fuel ts tt cs.
Proof.
  intros Hf E. destruct (yields_steps TB fuel n ts tt) as [H|(cs' & r & st & st' & H & Y & N & _)]; rewrite E in H; [discriminate|].
  injection H as <- <-. exists st. destruct (iterator_complete TB fuel ts tt cs st Y Hf None st' N) as [-> _]. auto.
Qed.
Section Examples.
#[local] Instance some_uni : Uni := fun _ => false.
Definition nl_ : str := [10%N].
Definition told_sample : str :=
  s_of "for i in a'b' $x # c" ++ nl_ ++ s_of "do cat <<E 07>f | g" ++ nl_ ++ s_of "k `h` ${y:-z}" ++ nl_ ++ s_of "E" ++ nl_ ++ s_of "done & # d".
Example told_witness : parses_to TB 100 (lex told_sample) tt
  [chars (s_of "foriina'b'") ++ [Par (PmVar (s_of "x")); Opt (s_of ";")] ++ chars (s_of "# c") ++ [Eol] ++ chars (s_of "docat") ++
   [Here (chars (s_of "k ") ++ [Sub (chars (s_of "h"))] ++ chars (s_of " ${") ++ [Pname (PmVar (s_of "y"))] ++ chars (s_of ":-z}" ++ nl_)); Num 7] ++
   chars (s_of ">f|g" ++ nl_ ++ s_of "done&# d") ++ [Eol]].
Proof. apply (tracer_steps 5); [apply enough; vm_compute; reflexivity|]. vm_compute. reflexivity. Qed.
(** Nothing may be left out of this. *)
Example told_strict : ~ spells (chars (s_of "ab")) (lex (s_of "a b c")).
Proof. intros H. apply only_blanks_missing in H; [discriminate H|]. vm_compute. intros w [E|[E|[E|[E|[E|[]]]]]]; inversion E; reflexivity. Qed.
Example told_strict_accepts : exists cs, parses_to TB 100 (lex (s_of "a b c")) tt cs /\ concat cs = chars (s_of "abc").
Proof. eexists. split; [apply (tracer_steps 5); [apply enough; vm_compute; reflexivity|]; vm_compute; reflexivity|reflexivity]. Qed.

(** The exception for [for] is used: this comment is told to no builder. *)
Definition lost_comment : str := s_of "for x" ++ nl_ ++ s_of "# lost" ++ nl_ ++ s_of "; do a; done".
Example comment_is_lost : parses_to TB 100 (lex lost_comment) tt
  [chars (s_of "forx" ++ nl_) ++ [ForSep] ++ chars (s_of "doa;done")].
Proof. apply (tracer_steps 5); [apply enough; vm_compute; reflexivity|]. vm_compute. reflexivity. Qed.
(** The trailing comments of a source. *)
Example end_told_witness : exists s1, run concrete (p_complete_command TB 100) (ti_new (lex (s_of "# a" ++ nl_ ++ s_of " # b"))) tt = (OOk None, s1, tt) /\
  newlines [Newline (Some (s_of "# a")); Newline (Some (s_of "# b"))] (lex (s_of "# a" ++ nl_ ++ s_of " # b")) [].
Proof.
  eexists. split; [vm_compute; reflexivity|].
  eapply ns_cons; [apply (nf_comment _ [TWhitespace (s_of " "); TName (s_of "a")]); [reflexivity|intros [E|[E|[]]]; discriminate E]|].
  eapply ns_cons; [apply (nf_comment_end _ [TWhitespace (s_of " "); TName (s_of "b")]); [reflexivity|intros [E|[E|[]]]; discriminate E]|].
  apply (ns_nil []). split; discriminate.
Qed.
End Examples.
