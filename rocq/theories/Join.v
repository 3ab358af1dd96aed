(** * C42: scripts can be put one after the other

    The forms of [Forms.v] do not depend on what follows a newline: tokens that are a form up to the
    end of the input, or up to some rest, are still one when a newline and anything else follows.
    Here-documents are the exception (an unterminated one takes everything that follows), and so is
    a lone backslash at the end (it escapes the newline). *)
From Coq Require Import String.
From Verif Require Import Base Token Lexer LexSpec LexTheorems Ast Builder Prog Iter Located ParserBase Balanced BalancedSpec
  Arith Word Redirect Command DefaultBuilder Entry Total Api Runs Pure Relex ArithSpec HeredocSpec Forms BaseForms CompoundRuns FormsRuns FormsTheorems
  SoundScript Exact ExactMethods Seams Quotes LexJoin.

(** No here-document operator, and no backslash at the end. *)
Definition joinable (ts : list token) : Prop :=
  ~ In TDLess ts /\ ~ In TDLessDash ts /\ (forall us, ts <> us ++ [TBackslash]).

Lemma joinable_app us ts : joinable (us ++ ts) -> joinable ts.
Proof.
  intros (H1 & H2 & H3). repeat split; intros H.
  - apply H1, in_or_app; now right.
  - apply H2, in_or_app; now right.
  - intros ->. apply (H3 (us ++ H)). now rewrite <- app_assoc.
Qed.
Lemma joinable_cons t ts : joinable (t :: ts) -> joinable ts.
Proof. apply (joinable_app [t]). Qed.
Lemma joinable_nil : joinable [].
Proof. repeat split; intros; [intros []|intros []|]. destruct us; discriminate. Qed.
Lemma joinable_skipw ts : joinable ts -> joinable (skipw ts).
Proof. intros H. destruct (skipw_decomp ts) as (w & _ & E). rewrite E in H. now apply joinable_app in H. Qed.
Lemma joinable_skipw_cons ts t r : joinable ts -> skipw ts = t :: r -> joinable r.
Proof. intros H E. apply joinable_skipw in H. rewrite E in H. now apply joinable_cons in H. Qed.


Lemma skipw_length ts : (List.length (skipw ts) <= List.length ts)%nat.
Proof. destruct (skipw_decomp ts) as (w & _ & E). rewrite E at 2. rewrite app_length. lia. Qed.
Lemma skipw_fixed_ws w ts : skipw (TWhitespace w :: ts) <> TWhitespace w :: ts.
Proof. cbn. intros E. pose proof (skipw_length ts) as H. rewrite E in H. cbn in H. lia. Qed.
Lemma skipw_fixed_esc ts : skipw (TBackslash :: TNewline :: ts) <> TBackslash :: TNewline :: ts.
Proof. cbn. intros E. pose proof (skipw_length ts) as H. rewrite E in H. cbn in H. lia. Qed.

Section Join.
(** What follows is a newline, a semicolon, an ampersand or a closing parenthesis, and anything. *)
Definition separator (t : token) : Prop := t = TNewline \/ t = TSemi \/ t = TAmp \/ t = TParenClose.
Variable sep : token.
Hypothesis sep_ok : separator sep.
Variable ext' : list token.
Notation ext := (sep :: ext').
Ltac by_sep := unfold separator in *; intuition (subst; try discriminate; auto).

Lemma skipw_join ts : joinable ts -> skipw (ts ++ ext) = skipw ts ++ ext.
Proof.
  intros Hg. destruct (skipw_decomp ts) as (w & Hw & E).
  pose proof (joinable_skipw _ Hg) as Hj. pose proof (skipw_idem ts) as Hi.
  rewrite E at 1. rewrite <- app_assoc, skipw_blank by exact Hw.
  destruct (skipw ts) as [|t u]; [destruct sep_ok as [-> |[-> |[-> | ->]]]; reflexivity|].
  destruct t; try reflexivity.
  - destruct u as [|t2 u]; [exfalso; destruct Hj as (_ & _ & Hj); now apply (Hj [])|].
    destruct t2; try reflexivity. exfalso; exact (skipw_fixed_esc _ Hi).
  - exfalso. exact (skipw_fixed_ws _ _ Hi).
Qed.
Lemma skipw_join_cons ts t r : joinable ts -> skipw ts = t :: r -> skipw (ts ++ ext) = t :: r ++ ext.
Proof. intros Hg E. rewrite skipw_join, E by exact Hg. reflexivity. Qed.
Lemma hd_join_sep ts t : t <> sep -> hd_error ts <> Some t -> hd_error (ts ++ ext) <> Some t.
Proof. intros H1 H2 E. destruct ts; cbn in *; congruence. Qed.
Lemma hd_join ts t : match t with TNewline | TSemi | TAmp | TParenClose => False | _ => True end -> hd_error ts <> Some t -> hd_error (ts ++ ext) <> Some t.
Proof. intros H1. apply hd_join_sep. intros ->. destruct sep_ok as [-> |[-> |[-> | ->]]]; exact H1. Qed.
Lemma hd_join_in ts t : ts <> [] -> hd_error ts <> Some t -> hd_error (ts ++ ext) <> Some t.
Proof. intros H1 H2 E. destruct ts; cbn in *; congruence. Qed.
Lemma hd_join_ws ts : (forall w, hd_error ts <> Some (TWhitespace w)) -> forall w, hd_error (ts ++ ext) <> Some (TWhitespace w).
Proof. intros H w. apply hd_join; [exact I|apply H]. Qed.

Lemma newline_form_join n ts rest : joinable ts -> newline_form n ts rest -> rest <> [] ->
  joinable rest /\ newline_form n (ts ++ ext) (rest ++ ext).
Proof.
  intros Hg H Hr. inversion H; subst.
  - split; [eapply joinable_skipw_cons; eassumption|]. apply nf_newline. now apply skipw_join_cons.
  - split.
    + apply (joinable_skipw_cons _ _ _ Hg) in H0. now apply joinable_app, joinable_cons in H0.
    + apply nf_comment; [|assumption]. erewrite skipw_join_cons by eassumption. now rewrite <- app_assoc.
  - now destruct Hr.
Qed.
Lemma no_newline_join ts : ts <> [] -> no_newline ts -> no_newline (ts ++ ext).
Proof. destruct ts; [congruence|intros _ H; exact H]. Qed.
Lemma maybe_newline_join n ts rest : joinable ts -> maybe_newline n ts rest -> rest <> [] ->
  joinable rest /\ maybe_newline n (ts ++ ext) (rest ++ ext).
Proof.
  intros Hg H Hr. inversion H; subst.
  - destruct (newline_form_join _ _ _ Hg H0 Hr). split; [assumption|now constructor].
  - split; [now apply joinable_skipw|]. rewrite <- skipw_join by exact Hg. constructor. rewrite skipw_join by exact Hg.
    now apply no_newline_join.
Qed.
Lemma newlines_join ns ts rest : newlines ns ts rest -> joinable ts -> rest <> [] ->
  joinable rest /\ newlines ns (ts ++ ext) (rest ++ ext).
Proof.
  induction 1 as [ts Hn|n ts mid ns rest Hn Hns IH]; intros Hg Hr.
  - split; [now apply joinable_skipw|]. rewrite <- skipw_join by exact Hg. constructor. rewrite skipw_join by exact Hg.
    now apply no_newline_join.
  - assert (Hm : mid <> []). { intros ->. apply Hr. inversion Hns as [|? ? ? ? ? Hf]; subst; [reflexivity|]. inversion Hf; discriminate. }
    destruct (newline_form_join _ _ _ Hg Hn Hm) as [G F]. destruct (IH G Hr) as [G' F'].
    split; [exact G'|]. econstructor; eassumption.
Qed.
Lemma newlines_nil ns rest : newlines ns [] rest -> rest = [].
Proof. intros H. inversion H as [|? ? ? ? ? Hf]; subst; [reflexivity|]. inversion Hf; discriminate. Qed.
Lemma maybe_newline_nil n rest : maybe_newline n [] rest -> rest = [].
Proof. intros H. inversion H as [? ? ? Hf|]; subst; [|reflexivity]. inversion Hf; discriminate. Qed.

Lemma delimited_join ts : delimited ts -> delimited (ts ++ ext).
Proof. destruct ts; [destruct sep_ok as [-> |[-> |[-> | ->]]]; reflexivity|exact (fun H => H)]. Qed.
Lemma delimited_unjoin ts : delimited (ts ++ ext) -> delimited ts.
Proof. destruct ts; [constructor|exact (fun H => H)]. Qed.
Lemma no_redirect_join ts : no_redirect ts -> no_redirect (ts ++ ext).
Proof. destruct ts; [destruct sep_ok as [-> |[-> |[-> | ->]]]; reflexivity|exact (fun H => H)]. Qed.
Lemma no_word_join ts rest : joinable ts -> no_word ts rest -> joinable rest /\ no_word (ts ++ ext) (rest ++ ext).
Proof.
  intros Hg H. inversion H; subst.
  - split; [now apply joinable_skipw|]. rewrite <- skipw_join by exact Hg. apply nw_delimited. rewrite skipw_join by exact Hg.
    now apply delimited_join.
  - split; [now apply joinable_skipw|]. rewrite <- skipw_join by exact Hg. apply nw_comment. rewrite skipw_join by exact Hg.
    destruct (skipw ts); [discriminate|assumption].
  - exfalso. apply joinable_skipw in Hg. rewrite H0 in Hg. destruct Hg as (_ & _ & Hg). now apply (Hg []).
Qed.
Lemma no_value_join ts rest : joinable ts -> no_value ts rest -> joinable rest /\ no_value (ts ++ ext) (rest ++ ext).
Proof.
  intros Hg H. inversion H; subst.
  - split; [exact Hg|]. apply (nv_blank w (ts0 ++ ext)).
  - destruct (no_word_join _ _ Hg H1). split; [assumption|]. apply nv_none; [now apply hd_join_ws|assumption].
Qed.
Lemma keyword_join k ts rest : joinable ts -> keyword k ts rest -> joinable rest /\ keyword k (ts ++ ext) (rest ++ ext).
Proof.
  intros Hg H. inversion H; subst; (split; [eapply joinable_skipw_cons; eassumption|]).
  - apply kw_name; [now apply skipw_join_cons|now apply delimited_join].
  - apply kw_literal; [now apply skipw_join_cons|now apply delimited_join].
Qed.
Lemma keyword_unjoin k ts rest : joinable ts -> keyword k (ts ++ ext) rest -> exists r, keyword k ts r.
Proof.
  intros Hg H. inversion H as [? ? Hk Hd|? ? Hk Hd]; subst; rewrite skipw_join in Hk by exact Hg;
  (destruct (skipw ts) as [|t r] eqn:E; [exfalso; injection Hk as E1 E2; destruct sep_ok as [X|[X|[X|X]]]; rewrite X in E1; discriminate|]); injection Hk as -> <-; exists r.
  - apply kw_name; [exact E|now apply delimited_unjoin].
  - apply kw_literal; [exact E|now apply delimited_unjoin].
Qed.
Lemma at_keyword_join ks ts : joinable ts -> at_keyword ks ts -> at_keyword ks (ts ++ ext).
Proof. intros Hg (k & r & Hi & Hk). destruct (keyword_join _ _ _ Hg Hk). exists k. eexists. eauto. Qed.
Lemma at_keyword_unjoin ks ts : joinable ts -> at_keyword ks (ts ++ ext) -> at_keyword ks ts.
Proof. intros Hg (k & r & Hi & Hk). destruct (keyword_unjoin _ _ _ Hg Hk) as [r' ?]. exists k, r'. eauto. Qed.
Lemma at_token_join ks ts : joinable ts -> at_token ks ts -> at_token ks (ts ++ ext).
Proof.
  intros Hg (k & r & Hi & Hk & Hd). exists k, (r ++ ext). split; [exact Hi|]. split; [now apply skipw_join_cons|now apply delimited_join].
Qed.
Lemma at_token_unjoin ks ts : joinable ts -> ~ In sep ks -> at_token ks (ts ++ ext) -> at_token ks ts.
Proof.
  intros Hg Hn (k & r & Hi & Hk & Hd). rewrite skipw_join in Hk by exact Hg.
  destruct (skipw ts) as [|t u] eqn:E; [injection Hk as <- <-; contradiction|]. injection Hk as -> <-.
  exists k, u. split; [exact Hi|]. split; [exact E|now apply delimited_unjoin].
Qed.
Lemma at_compound_unjoin ts : joinable ts -> at_compound (ts ++ ext) -> at_compound ts.
Proof.
  intros Hg [H|[H|H]].
  - left. destruct ts; [exfalso; injection H as E; destruct sep_ok as [X|[X|[X|X]]]; rewrite X in E; discriminate|exact H].
  - right; left. apply at_token_unjoin; [exact Hg| |exact H]. intros [E|[]]. destruct sep_ok as [X|[X|[X|X]]]; rewrite X in E; discriminate.
  - right; right. now apply at_keyword_unjoin.
Qed.
Lemma at_function_unjoin ts : at_function (ts ++ ext) -> at_function ts.
Proof.
  destruct ts as [|t ts]; [destruct sep_ok as [-> |[-> |[-> | ->]]]; intros []|]. cbn [app at_function]. destruct t; try (intros []; fail).
  destruct ts as [|t ts]; [destruct sep_ok as [-> |[-> |[-> | ->]]]; intros []|]. cbn [app]. destruct t; try (intros []; fail); [auto|].
  destruct ts as [|t ts]; [destruct sep_ok as [-> |[-> |[-> | ->]]]; intros []|]. cbn [app]. destruct t; auto.
Qed.
Lemma at_assignment_unjoin ts : at_assignment (ts ++ ext) -> at_assignment ts.
Proof.
  destruct ts as [|t ts]; [destruct sep_ok as [-> |[-> |[-> | ->]]]; intros []|]. cbn [app at_assignment]. destruct t; try (intros []; fail).
  destruct ts as [|t ts]; [destruct sep_ok as [-> |[-> |[-> | ->]]]; intros []|]. cbn [app]. destruct t; auto.
Qed.
Lemma fd_form_join fd ts rest : fd_form fd ts rest -> fd_form fd (ts ++ ext) (rest ++ ext).
Proof. intros H. inversion H; subst; [constructor| |]; rewrite <- app_assoc; [now constructor|now apply fd_some_newline]. Qed.
Lemma fd_form_suffix fd ts rest : fd_form fd ts rest -> exists us, ts = us ++ rest.
Proof. intros H. inversion H; subst; [now exists []|eauto|]. exists (d ++ [TBackslash; TNewline]). now rewrite <- app_assoc. Qed.
Lemma not_fd_join ts rest : not_fd ts rest -> not_fd (ts ++ ext) (rest ++ ext).
Proof.
  destruct rest as [|t rest]; [destruct sep_ok as [-> |[-> |[-> | ->]]]; discriminate|]. cbn [app not_fd]. intros H Ht n Hf. apply (H Ht n).
  inversion Hf as [|d n' ts' F1 F2 F3|d n' ts' F1 F2 F3]; subst;
  match goal with X : _ = ts ++ _ |- _ => rename X into E end.
  - change (d ++ t :: rest ++ ext) with (d ++ (t :: rest) ++ ext) in E. rewrite app_assoc in E. apply app_inv_tail in E. subst. now constructor.
  - change (d ++ TBackslash :: TNewline :: t :: rest ++ ext) with (d ++ (TBackslash :: TNewline :: t :: rest) ++ ext) in E.
    rewrite app_assoc in E. apply app_inv_tail in E. subst. now apply fd_some_newline.
Qed.
Lemma group_end_join cfg ts : joinable ts -> ts <> [] -> group_end cfg ts -> group_end cfg (ts ++ ext).
Proof.
  intros Hg Hn [H|[(t & r & -> & Hi)|[H|H]]]; [contradiction| | |].
  - right; left. exists t, (r ++ ext). auto.
  - right; right; left. now apply at_keyword_join.
  - right; right; right. now apply at_token_join.
Qed.
Lemma group_end_unjoin cfg ts : joinable ts -> ~ In sep (reserved_tokens cfg) -> ts <> [] ->
  group_end cfg (ts ++ ext) -> group_end cfg ts.
Proof.
  intros Hg Hc Hn [H|[(t & r & E & Hi)|[H|H]]].
  - destruct ts; discriminate.
  - right; left. destruct ts as [|t' ts]; [contradiction|]. injection E as -> <-. exists t, ts. auto.
  - right; right; left. now apply at_keyword_unjoin.
  - right; right; right. now apply at_token_unjoin.
Qed.
Lemma quoted_run_join close ts rest : quoted_run close ts rest -> quoted_run close ts (rest ++ ext).
Proof.
  induction 1; [constructor|now constructor|]. eapply qr_backslash; [|eassumption|assumption].
  rewrite app_assoc. destruct (ts ++ rest); [discriminate|assumption].
Qed.
Lemma run_ends_join close ts : ts <> [] -> run_ends close ts -> run_ends close (ts ++ ext).
Proof. destruct ts as [|t [|t2 ts]]; [congruence| |]; intros _ H; destruct t; try exact H. destruct H. Qed.

Variable B : builder.
Variable P : pure B.
Notation C := (b_cmd B).

(** No command is written with nothing. *)
Lemma frags_nil stop w ws rest : ~ frags B P stop (w :: ws) [] rest.
Proof.
  intros H. inversion H as [| |? ? ? ? ? ? Hf|]; subst. inversion Hf as [| | | | |? ? ? He]; subst.
  inversion He as [|? ? ? Hd]; subst. inversion Hd.
Qed.
Lemma word_form_nil k rest : ~ word_form B P k [] rest.
Proof. intros H. inversion H; subst. now apply frags_nil in H0. Qed.
Lemma fd_form_nil fd t rest : ~ fd_form fd [] (t :: rest).
Proof. intros H. inversion H; subst; match goal with X : _ = [] |- _ => now apply app_eq_nil in X as [_ X] end. Qed.
Lemma redirect_form_nil r rest : ~ redirect_form B P r [] rest.
Proof. intros H. inversion H; subst; eapply fd_form_nil; eassumption. Qed.
Lemma keyword_nil k rest : ~ keyword k [] rest.
Proof. intros H. inversion H; discriminate. Qed.
Lemma at_keyword_nil ks : ~ at_keyword ks [].
Proof. intros (k & r & _ & H). now apply keyword_nil in H. Qed.
Lemma simple_nil vars args rest : simple B P vars args [] rest -> vars = [] /\ args = [].
Proof.
  intros H. inversion H; subst; auto; exfalso; cbn [skipw] in *.
  - eapply redirect_form_nil; eassumption.
  - discriminate.
  - discriminate.
  - eapply word_form_nil; eassumption.
Qed.
Lemma compound_nil c rest : ~ compound B P c [] rest.
Proof. intros H. inversion H; subst; eapply keyword_nil; eassumption. Qed.
Lemma command_form_nil c rest : ~ command_form B P c [] rest.
Proof.
  intros H. inversion H; subst; try discriminate; try (eapply keyword_nil; eassumption).
  - apply simple_nil in H0 as [-> ->]. now destruct H1.
  - eapply compound_nil; eassumption.
Qed.
Lemma do_form_nil g rest : ~ do_form B P g [] rest.
Proof. intros H. inversion H; subst. eapply keyword_nil; eassumption. Qed.
Lemma pipe_form_nil cs rest : ~ pipe_form B P cs [] rest.
Proof. intros H. inversion H; subst; eapply command_form_nil; eassumption. Qed.
Lemma pipeline_form_nil p rest : ~ pipeline_form B P p [] rest.
Proof. intros H. inversion H; subst; [eapply pipe_form_nil; eassumption|discriminate]. Qed.
Lemma list_form_nil l rest : ~ list_form B P l [] rest.
Proof. intros H. inversion H; subst. eapply pipeline_form_nil; eassumption. Qed.
Lemma complete_form_nil ns c rest : ~ complete_form B P ns c [] rest.
Proof. intros H. inversion H; subst; eapply list_form_nil; eassumption. Qed.
Lemma group_nil cfg g rest : group B P cfg g [] rest -> rest = [].
Proof.
  intros H. inversion H as [? ? ? ? Hn|? ? ? ? ? ? ? ? ? Hn Hg]; subst; apply newlines_nil in Hn; [exact Hn|].
  subst. exfalso. apply Hg. now left.
Qed.
Lemma patterns_nil ps rest : ~ patterns_form B P ps [] rest.
Proof. intros H. inversion H; subst; eapply word_form_nil; eassumption. Qed.
Lemma case_arms_nil arms cs rest : ~ case_arms B P arms cs [] rest.
Proof.
  intros H. inversion H as [? ? ? Hn|? ? ? ? ? ? ? ? ? ? ? ? ? ? ? Hn ? Ho Hp|? ? ? ? ? ? ? ? ? ? Hn ? Ho Hp]; subst;
  apply newlines_nil in Hn; subst.
  - eapply at_keyword_nil; eassumption.
  - destruct Ho as [|[_ <-]]; [discriminate|]. eapply patterns_nil; eassumption.
  - destruct Ho as [|[_ <-]]; [discriminate|]. eapply patterns_nil; eassumption.
Qed.
Lemma conditionals_nil conds els rest : ~ conditionals B P conds els [] rest.
Proof.
  intros H. inversion H; subst;
  match goal with X : group _ _ _ _ [] _ |- _ => apply group_nil in X end; subst; eapply keyword_nil; eassumption.
Qed.
Lemma for_list_nil ws cs rest : for_list B P ws cs [] rest -> rest = [].
Proof.
  intros H. inversion H; subst;
  match goal with X : newlines _ [] _ |- _ => apply newlines_nil in X end; subst.
  - exfalso. eapply keyword_nil; eassumption.
  - discriminate.
  - reflexivity.
Qed.
Lemma quoted_nil c ws rest : c <> None -> ~ quoted B P c ws [] rest.
Proof.
  intros Hc H. remember [] as ts eqn:E. induction H; subst; try discriminate.
  - now apply Hc.
  - apply app_eq_nil in E as [-> ->]. now apply IHquoted.
  - inversion H; subst. inversion H1.
  - apply app_eq_nil in E as [-> ->]. now apply IHquoted.
Qed.

(** The extension of each form. *)
Notation J F := (fun ts rest => joinable ts -> joinable rest /\ F (ts ++ ext) (rest ++ ext)).
Notation J' F := (fun ts rest => joinable ts -> rest <> [] -> joinable rest /\ F (ts ++ ext) (rest ++ ext)).

Theorem forms_join :
  (forall w ts rest, frag B P w ts rest -> J (frag B P w) ts rest) /\
  (forall s ts rest, expansion B P s ts rest -> J (expansion B P s) ts rest) /\
  (forall s ts rest, dollar B P s ts rest -> J (dollar B P s) ts rest) /\
  (forall c ws ts rest, quoted B P c ws ts rest -> c <> None -> J (quoted B P c ws) ts rest) /\
  (forall stop ws ts rest, frags B P stop ws ts rest -> J (frags B P stop ws) ts rest) /\
  (forall ws ts rest, operand B P ws ts rest -> J (operand B P ws) ts rest) /\
  (forall k ts rest, word_form B P k ts rest -> J (word_form B P k) ts rest) /\
  (forall r ts rest, redirect_form B P r ts rest -> J (redirect_form B P r) ts rest) /\
  (forall rs ts rest, redirects B P rs ts rest -> J (redirects B P rs) ts rest) /\
  (forall args ts rest, arguments B P args ts rest -> J (arguments B P args) ts rest) /\
  (forall vars args ts rest, simple B P vars args ts rest -> J (simple B P vars args) ts rest) /\
  (forall c ts rest, command_form B P c ts rest -> J (command_form B P c) ts rest) /\
  (forall ns c ts rest, function_body B P ns c ts rest -> J (function_body B P ns c) ts rest) /\
  (forall c ts rest, compound B P c ts rest -> J (compound B P c) ts rest) /\
  (forall g ts rest, do_form B P g ts rest -> J (do_form B P g) ts rest) /\
  (forall conds els ts rest, conditionals B P conds els ts rest -> J (conditionals B P conds els) ts rest) /\
  (forall ws cs ts rest, for_list B P ws cs ts rest -> J' (for_list B P ws cs) ts rest) /\
  (forall ws ts rest, for_words_form B P ws ts rest -> J (for_words_form B P ws) ts rest) /\
  (forall arms cs ts rest, case_arms B P arms cs ts rest -> J' (case_arms B P arms cs) ts rest) /\
  (forall ps ts rest, patterns_form B P ps ts rest -> J (patterns_form B P ps) ts rest) /\
  (forall cs ts rest, pipe_form B P cs ts rest -> J (pipe_form B P cs) ts rest) /\
  (forall p ts rest, pipeline_form B P p ts rest -> J (pipeline_form B P p) ts rest) /\
  (forall l ts rest, and_or_form B P l ts rest -> J (and_or_form B P l) ts rest) /\
  (forall l ts rest, list_form B P l ts rest -> J (list_form B P l) ts rest) /\
  (forall ns c ts rest, complete_form B P ns c ts rest -> J' (complete_form B P ns c) ts rest) /\
  (forall cfg g ts rest, group B P cfg g ts rest -> ~ In sep (reserved_tokens cfg) -> J' (group B P cfg g) ts rest).
Proof.
  apply (forms_mind B P written_arith); cbv beta.
  - (* fr_literal *) intros t rest Ht G. apply joinable_cons in G. split; [exact G|]. cbn [app]. now constructor.
  - intros t s rest Ht G. apply joinable_cons in G. split; [exact G|]. cbn [app]. now constructor.
  - intros t rest Ht G. apply joinable_cons, joinable_cons in G. split; [exact G|]. cbn [app]. now constructor.
  - intros ts rest Ht G. apply joinable_cons, joinable_app, joinable_cons in G. split; [exact G|]. cbn [app]. rewrite <- app_assoc. cbn [app]. now constructor.
  - intros ws ts rest _ IH G. apply joinable_cons in G. destruct (IH ltac:(discriminate) G) as [G1 F].
    apply joinable_cons in G1. split; [exact G1|]. cbn [app]. now constructor.
  - intros s ts rest _ IH G. destruct (IH G) as [G1 F]. split; [exact G1|]. now constructor.
  - (* ex_backticks *) intros g ts rest Hc Hg _ G. apply joinable_cons, joinable_app, joinable_cons in G. split; [exact G|]. cbn [app]. rewrite <- app_assoc. cbn [app]. now constructor.
  - intros s ts rest _ IH G. destruct (IH G) as [G1 F]. split; [exact G1|]. now constructor.
  - (* do_lone *) intros rest H G. apply joinable_cons in G. split; [exact G|]. cbn [app]. constructor. destruct rest; [destruct sep_ok as [-> |[-> |[-> | ->]]]; exact I|exact H].
  - intros p rest G. apply joinable_cons in G. split; [exact G|]. cbn [app]. now constructor.
  - intros p t rest H G. apply joinable_cons, joinable_cons in G. split; [exact G|]. cbn [app]. now constructor.
  - intros p t rest H G. do 4 apply joinable_cons in G. split; [exact G|]. cbn [app]. now constructor.
  - intros p t rest H G. do 5 apply joinable_cons in G. split; [exact G|]. cbn [app]. now constructor.
  - intros p t colon op mk ws ts rest H1 H2 _ IH H3 G. do 3 apply joinable_cons in G. apply joinable_app, joinable_cons in G.
    destruct (IH G) as [G1 F]. apply joinable_cons in G1. split; [exact G1|]. cbn [app]. rewrite <- app_assoc. cbn [app]. now constructor.
  - intros p t ws ts rest H1 Ho IH H3 G. do 4 apply joinable_cons in G. destruct (IH G) as [G1 F]. apply joinable_cons in G1.
    split; [exact G1|]. cbn [app]. constructor; auto. now apply hd_join.
  - intros p t ws ts rest H1 Ho IH G. do 5 apply joinable_cons in G. destruct (IH G) as [G1 F]. apply joinable_cons in G1.
    split; [exact G1|]. cbn [app]. constructor; auto.
  - intros p t ws ts rest H1 Ho IH H3 H4 G. do 4 apply joinable_cons in G. destruct (IH G) as [G1 F]. apply joinable_cons in G1.
    split; [exact G1|]. cbn [app]. constructor; auto. now apply hd_join.
  - intros p t ws ts rest H1 Ho IH G. do 5 apply joinable_cons in G. destruct (IH G) as [G1 F]. apply joinable_cons in G1.
    split; [exact G1|]. cbn [app]. constructor; auto.
  - (* do_arith *) intros e ts mid mid' rest H1 H2 H3 G. do 3 apply joinable_cons in G. apply joinable_app in G.
    pose proof (joinable_skipw_cons _ _ _ G H2) as G1. pose proof (joinable_skipw_cons _ _ _ G1 H3) as G2. split; [exact G2|].
    cbn [app]. rewrite <- app_assoc. eapply do_arith; [exact H1|apply skipw_join_cons; eassumption|now apply skipw_join_cons].
  - intros mid mid' rest H2 H3 G. do 3 apply joinable_cons in G.
    pose proof (joinable_skipw_cons _ _ _ G H2) as G1. pose proof (joinable_skipw_cons _ _ _ G1 H3) as G2. split; [exact G2|].
    cbn [app]. eapply do_arith_empty; [apply skipw_join_cons; eassumption|now apply skipw_join_cons].
  - intros g ts rest _ IH H G. do 2 apply joinable_cons in G. destruct (IH (fun x => x) G ltac:(discriminate)) as [G1 F]. apply joinable_cons in G1.
    split; [exact G1|]. cbn [app]. constructor; [exact F|]. now apply hd_join.
  - intros p t rest H G. do 5 apply joinable_cons in G. split; [exact G|]. cbn [app]. now constructor.
  - (* qu_nil *) intros close rest H Hc G. split; [exact G|]. constructor. destruct rest; [now destruct Hc|exact H].
  - intros close ts ws mid rest H1 H2 H3 Hq IH Hc G. apply joinable_app in G. destruct (IH Hc G) as [G1 F]. split; [exact G1|].
    rewrite <- app_assoc. apply qu_text; auto; [now apply quoted_run_join|]. apply run_ends_join; [|exact H3].
    intros ->. now apply quoted_nil in Hq.
  - intros close t ws ts rest H1 _ IH Hc G. do 2 apply joinable_cons in G. destruct (IH Hc G) as [G1 F]. split; [exact G1|].
    cbn [app]. now constructor.
  - intros close s ts mid ws rest _ IH1 _ IH2 Hc G. destruct (IH1 G) as [G1 F1]. destruct (IH2 Hc G1) as [G2 F2]. split; [exact G2|].
    eapply qu_expansion; eassumption.
  - intros close ts ws mid rest H1 H2 H3 Hq IH Hc G. apply joinable_app in G. destruct (IH Hc G) as [G1 F]. split; [exact G1|].
    rewrite <- app_assoc. apply qu_empty; auto; [now apply quoted_run_join|]. apply run_ends_join; [|exact H3].
    intros ->. now apply quoted_nil in Hq.
  - (* fs_end *) intros stop rest H G. split; [exact G|]. constructor. destruct H as [H|[H1 H2]]; [left; now apply delimited_join|right].
    split; [exact H1|]. destruct rest; [now destruct H1|exact H2].
  - intros stop rest G. do 2 apply joinable_cons in G. split; [exact G|]. cbn [app]. constructor.
  - intros stop w ts mid ws rest Hf IH1 H _ IH2 G. destruct (IH1 G) as [G1 F1]. destruct (IH2 G1) as [G2 F2]. split; [exact G2|].
    eapply fs_frag; [exact F1| |exact F2]. intros Hs. destruct ts as [|t ts]; [|exact (H Hs)].
    exfalso. inversion Hf as [| | | | |? ? ? He]; subst. inversion He as [|? ? ? Hd]; subst. inversion Hd.
  - intros stop G. exfalso. destruct G as (_ & _ & G). now apply (G []).
  - (* op_end *) intros rest G. split; [exact G|]. cbn [app]. constructor.
  - intros t ws ts rest H _ IH G. apply joinable_cons in G. destruct (IH G) as [G1 F]. split; [exact G1|]. cbn [app]. now constructor.
  - intros ws ts rest _ IH G. do 2 apply joinable_cons in G. destruct (IH G) as [G1 F]. split; [exact G1|]. cbn [app]. now constructor.
  - intros w ws ts mid ws' rest Hf IH1 H _ IH2 G. destruct (IH1 G) as [G1 F1]. destruct (IH2 G1) as [G2 F2]. split; [exact G2|].
    eapply op_frags; [exact F1| |exact F2]. now apply hd_join.
  - (* wf_word *) intros w ws k ts rest Hf IH H Hk G. destruct (IH G) as [G1 F]. split; [exact G1|]. econstructor; [exact F| |exact Hk]. now apply hd_join.
  - (* rf_file *) intros fd op mk k ts ts' rest H1 H2 _ IH G. destruct (fd_form_suffix _ _ _ H1) as [us ->]. 
    pose proof (joinable_cons _ _ (joinable_app _ _ G)) as G1. destruct (IH (joinable_skipw _ G1)) as [G2 F]. split; [exact G2|].
    eapply rf_file; [exact (fd_form_join _ _ _ H1)|exact H2|]. now rewrite skipw_join.
  - intros fd op mk w ws k ts ts' rest H1 H2 _ IH Hm Hk G. destruct (fd_form_suffix _ _ _ H1) as [us ->]. 
    pose proof (joinable_cons _ _ (joinable_app _ _ G)) as G1. destruct (IH (joinable_skipw _ G1)) as [G2 F]. split; [exact G2|].
    eapply rf_dup; [exact (fd_form_join _ _ _ H1)|exact H2| |exact Hm|exact Hk]. now rewrite skipw_join.
  - intros fd op mk ts ts' rest H1 H2 H3 H4 G. destruct (fd_form_suffix _ _ _ H1) as [us ->]. 
    pose proof (joinable_cons _ _ (joinable_app _ _ G)) as G1. pose proof (joinable_skipw_cons _ _ _ G1 H3) as G2. split; [exact G2|].
    eapply rf_close; [exact (fd_form_join _ _ _ H1)|exact H2|now apply skipw_join_cons|now apply delimited_join].
  - intros fd op strip body ts ts' rest H1 H2 H3 (G1 & G2 & _). exfalso. destruct (fd_form_suffix _ _ _ H1) as [us ->].
    inversion H2; subst; [apply G1|apply G2]; apply in_or_app; right; now left.
  - intros fd op strip body ws ts ts' rest H1 H2 H3 _ _ (G1 & G2 & _). exfalso. destruct (fd_form_suffix _ _ _ H1) as [us ->].
    inversion H2; subst; [apply G1|apply G2]; apply in_or_app; right; now left.
  - (* re_end *) intros ts rest H1 H2 G. destruct (no_word_join _ _ G H1) as [G1 F]. split; [exact G1|]. constructor; [exact F|]. now apply no_redirect_join.
  - intros r ts mid rs rest _ IH1 _ IH2 G. destruct (IH1 (joinable_skipw _ G)) as [G1 F1]. destruct (IH2 G1) as [G2 F2]. split; [exact G2|].
    econstructor; [|exact F2]. now rewrite skipw_join.
  - (* ag_end *) intros ts rest H1 H2 G. destruct (no_word_join _ _ G H1) as [G1 F]. split; [exact G1|]. constructor; [exact F|]. now apply no_redirect_join.
  - intros r ts mid args rest _ IH1 _ IH2 G. destruct (IH1 (joinable_skipw _ G)) as [G1 F1]. destruct (IH2 G1) as [G2 F2]. split; [exact G2|].
    econstructor; [|exact F2]. now rewrite skipw_join.
  - intros k ts mid args rest Hw IH1 Hn _ IH2 G. destruct (IH1 (joinable_skipw _ G)) as [G1 F1]. destruct (IH2 G1) as [G2 F2]. split; [exact G2|].
    eapply ag_word; [rewrite skipw_join by exact G; exact F1| |exact F2]. rewrite skipw_join by exact G. now apply not_fd_join.
  - (* si_end *) intros ts rest H1 H2 G. destruct (no_word_join _ _ G H1) as [G1 F]. split; [exact G1|]. constructor; [exact F|]. now apply no_redirect_join.
  - intros r ts mid vars args rest Hr IH1 _ IH2 G. destruct (IH1 (joinable_skipw _ G)) as [G1 F1]. destruct (IH2 G1) as [G2 F2]. split; [exact G2|].
    econstructor; [|exact F2]. now rewrite skipw_join.
  - intros v k ts mid mid' vars args rest H Hb _ IH1 _ IH2 G. pose proof (joinable_cons _ _ (joinable_skipw_cons _ _ _ G H)) as G0.
    destruct (IH1 (joinable_skipw _ G0)) as [G1 F1]. destruct (IH2 G1) as [G2 F2]. split; [exact G2|].
    eapply si_assign; [exact (skipw_join_cons _ _ _ G H)|now apply hd_join_ws| |exact F2]. now rewrite skipw_join.
  - intros v ts mid mid' vars args rest H H2 _ IH G. pose proof (joinable_cons _ _ (joinable_skipw_cons _ _ _ G H)) as G0.
    destruct (no_value_join _ _ G0 H2) as [G1 F1]. destruct (IH G1) as [G2 F2]. split; [exact G2|].
    eapply si_assign_empty; [exact (skipw_join_cons _ _ _ G H)|exact F1|exact F2].
  - intros k ts mid args rest Hw IH1 Hn Ha _ IH2 G. destruct (IH1 (joinable_skipw _ G)) as [G1 F1]. destruct (IH2 G1) as [G2 F2]. split; [exact G2|].
    eapply si_command; [rewrite skipw_join by exact G; exact F1| | |exact F2]; rewrite skipw_join by exact G; [now apply not_fd_join|].
    intros H. now apply Ha, at_assignment_unjoin.
  - (* cf_simple *) intros vars args ts rest _ IH H1 H2 H3 H4 G. destruct (IH G) as [G1 F]. split; [exact G1|]. constructor; auto.
    + intros H. now apply H2, at_compound_unjoin.
    + intros H. now apply H3, at_function_unjoin.
    + intros H. now apply H4, at_keyword_unjoin.
  - intros c ts rest _ IH G. destruct (IH G) as [G1 F]. split; [exact G1|]. now constructor.
  - intros v ns c ts ts1 ts2 ts3 rest H1 H2 E1 E2 E3 _ IH G.
    assert (G2 : joinable ts2). { subst ts. apply joinable_cons in G. destruct E2 as [-> |(w & ->)]; [now apply joinable_cons in G|now do 2 apply joinable_cons in G]. }
    pose proof (joinable_skipw_cons _ _ _ G2 E3) as G3. destruct (IH G3) as [G4 F]. split; [exact G4|].
    eapply (cf_function B P v ns c _ (ts1 ++ ext) (ts2 ++ ext) (ts3 ++ ext)); [| | | | |exact F].
    + intros H. now apply H1, at_compound_unjoin.
    + intros H. now apply H2, at_keyword_unjoin.
    + now subst ts.
    + destruct E2 as [-> |(w & ->)]; [now left|right; now exists w].
    + now apply skipw_join_cons.
  - intros v ns c ts ts0 ts1 ts2 rest H1 E1 E2 _ IH G. destruct (keyword_join _ _ _ G H1) as [G0 K].
    pose proof (joinable_cons _ _ (joinable_skipw_cons _ _ _ G0 E1)) as G1. pose proof (joinable_skipw_cons _ _ _ G1 E2) as G2.
    destruct (IH G2) as [G3 F]. split; [exact G3|].
    eapply cf_function_parens; [exact K|exact (skipw_join_cons _ _ _ G0 E1)|exact (skipw_join_cons _ _ _ G1 E2)|exact F].
  - intros v ns c ts ts0 ts1 rest H1 E1 E2 _ IH G. destruct (keyword_join _ _ _ G H1) as [G0 K].
    pose proof (joinable_skipw_cons _ _ _ G0 E1) as G1. destruct (IH G1) as [G2 F]. split; [exact G2|].
    eapply cf_function_word; [exact K|exact (skipw_join_cons _ _ _ G0 E1)| |exact F].
    destruct E2 as [E2|(w & ts2 & -> & E2)].
    + left. destruct ts1; [discriminate|exact E2].
    + right. exists w, (ts2 ++ ext). split; [reflexivity|]. apply joinable_cons in G1. rewrite skipw_join by exact G1. now apply hd_join.
  - intros v ns c ts ts0 w ts1 ts2 ts3 rest H1 E1 E2 E3 _ IH G. destruct (keyword_join _ _ _ G H1) as [G0 K].
    pose proof (joinable_cons _ _ (joinable_skipw_cons _ _ _ G0 E1)) as G1. pose proof (joinable_skipw_cons _ _ _ G1 E2) as G2.
    pose proof (joinable_skipw_cons _ _ _ G2 E3) as G3. destruct (IH G3) as [G4 F]. split; [exact G4|].
    eapply cf_function_word_parens; [exact K|exact (skipw_join_cons _ _ _ G0 E1)|exact (skipw_join_cons _ _ _ G1 E2)|exact (skipw_join_cons _ _ _ G2 E3)|exact F].
  - intros v g ts ts0 w ts1 ts2 rest H1 E1 E2 _ IH Hg G. destruct (keyword_join _ _ _ G H1) as [G0 K].
    pose proof (joinable_cons _ _ (joinable_skipw_cons _ _ _ G0 E1)) as G1. pose proof (joinable_skipw_cons _ _ _ G1 E2) as G2.
    destruct (IH (fun x => x) G2 ltac:(discriminate)) as [G3 F]. apply joinable_cons in G3. split; [exact G3|].
    eapply cf_function_subshell; [exact K|exact (skipw_join_cons _ _ _ G0 E1)|exact (skipw_join_cons _ _ _ G1 E2)|exact F|exact Hg].
  - (* fb_body *) intros ns c ts mid rest H Hc IH G. destruct (newlines_join _ _ _ H G) as [G1 N]. { intros ->. now apply compound_nil in Hc. }
    destruct (IH G1) as [G2 F]. split; [exact G2|]. econstructor; eassumption.
  - (* co_brace *) intros g ts mid mid' rs rest H1 _ IH1 H2 E1 E2 _ IH2 G. apply joinable_cons in G. subst mid.
    destruct (IH1 ltac:(intros [E|[]]; destruct sep_ok as [X|[X|[X|X]]]; rewrite X in E; discriminate) G ltac:(discriminate)) as [G1 F1]. pose proof (joinable_cons _ _ G1) as G2.
    destruct (IH2 G2) as [G3 F2]. split; [exact G3|]. cbn [app].
    eapply co_brace; [now apply delimited_join|exact F1|exact H2|reflexivity|now apply delimited_join|exact F2].
  - intros g ts mid rs rest _ IH1 H2 _ IH2 G. apply joinable_cons in G.
    destruct (IH1 (fun x => x) G ltac:(discriminate)) as [G1 F1]. pose proof (joinable_cons _ _ G1) as G2.
    destruct (IH2 G2) as [G3 F2]. split; [exact G3|]. cbn [app]. eapply co_subshell; [exact F1|exact H2|exact F2].
  - intros g b ts ts1 ts2 ts3 rs rest H1 _ IH1 H2 Hd IH2 _ IH3 G. destruct (keyword_join _ _ _ G H1) as [G0 K].
    destruct (IH1 (fun x => x) G0) as [G1 F1]. { intros ->. now apply do_form_nil in Hd. }
    destruct (IH2 G1) as [G2 F2]. destruct (IH3 G2) as [G3 F3]. split; [exact G3|]. eapply co_while; eassumption.
  - intros g b ts ts1 ts2 ts3 rs rest H1 _ IH1 H2 Hd IH2 _ IH3 G. destruct (keyword_join _ _ _ G H1) as [G0 K].
    destruct (IH1 (fun x => x) G0) as [G1 F1]. { intros ->. now apply do_form_nil in Hd. }
    destruct (IH2 G1) as [G2 F2]. destruct (IH3 G2) as [G3 F3]. split; [exact G3|]. eapply co_until; eassumption.
  - intros conds els ts ts1 ts2 rs rest H1 _ IH1 _ IH2 G. destruct (keyword_join _ _ _ G H1) as [G0 K].
    destruct (IH1 G0) as [G1 F1]. destruct (IH2 G1) as [G2 F2]. split; [exact G2|]. eapply co_if; eassumption.
  - intros v vc ws cs b ts ts1 ts2 ts3 ts4 ts5 rs rest H1 E1 H2 Hl IH1 Hd IH2 _ IH3 G. destruct (keyword_join _ _ _ G H1) as [G0 K].
    pose proof (joinable_skipw_cons _ _ _ G0 E1) as G1.
    assert (N4 : ts4 <> []). { intros ->. now apply do_form_nil in Hd. }
    assert (N3 : ts3 <> []). { intros ->. apply for_list_nil in Hl. contradiction. }
    destruct (maybe_newline_join _ _ _ G1 H2 N3) as [G2 M]. destruct (IH1 G2 N4) as [G3 F1].
    destruct (IH2 G3) as [G4 F2]. destruct (IH3 G4) as [G5 F3]. split; [exact G5|].
    eapply co_for; [exact K|exact (skipw_join_cons _ _ _ G0 E1)|exact M|exact F1|exact F2|exact F3].
  - intros k cs ic arms ac ts ts1 ts2 ts3 ts4 ts5 ts6 ts7 rs rest H1 _ IH1 H2 H3 H4 Ha IH2 H5 _ IH3 G. destruct (keyword_join _ _ _ G H1) as [G1 K].
    destruct (IH1 (joinable_skipw _ G1)) as [G2 F1]. destruct (newlines_join _ _ _ H2 G2) as [G3 N]. { intros ->. now apply keyword_nil in H3. }
    destruct (keyword_join _ _ _ G3 H3) as [G4 K2].
    destruct (maybe_newline_join _ _ _ G4 H4) as [G5 M]. { intros ->. now apply case_arms_nil in Ha. }
    destruct (IH2 G5) as [G6 F2]. { intros ->. now apply keyword_nil in H5. }
    destruct (keyword_join _ _ _ G6 H5) as [G7 K3]. destruct (IH3 G7) as [G8 F3]. split; [exact G8|].
    eapply co_case; [exact K| |exact N|exact K2|exact M|exact F2|exact K3|exact F3]. now rewrite skipw_join.
  - (* df_do *) intros g ts ts1 ts2 rest H1 _ IH H2 H3 G. destruct (keyword_join _ _ _ G H1) as [G0 K].
    destruct (IH (fun x => x) G0) as [G1 F]. { intros ->. now apply keyword_nil in H3. }
    destruct (keyword_join _ _ _ G1 H3) as [G2 K2]. split; [exact G2|]. econstructor; eassumption.
  - (* cd_fi *) intros g b ts ts1 ts2 ts3 rest _ IH1 H1 H2 _ IH2 H3 H4 G.
    destruct (IH1 (fun x => x) G) as [G1 F1]. { intros ->. now apply keyword_nil in H2. }
    destruct (keyword_join _ _ _ G1 H2) as [G2 K2]. destruct (IH2 (fun x => x) G2) as [G3 F2]. { intros ->. now apply keyword_nil in H4. }
    destruct (keyword_join _ _ _ G3 H4) as [G4 K4]. split; [exact G4|]. eapply cd_fi; eassumption.
  - intros g b e ts ts1 ts2 ts3 ts4 ts5 rest _ IH1 H1 H2 _ IH2 H3 H4 _ IH3 H5 H6 G.
    destruct (IH1 (fun x => x) G) as [G1 F1]. { intros ->. now apply keyword_nil in H2. }
    destruct (keyword_join _ _ _ G1 H2) as [G2 K2]. destruct (IH2 (fun x => x) G2) as [G3 F2]. { intros ->. now apply keyword_nil in H4. }
    destruct (keyword_join _ _ _ G3 H4) as [G4 K4]. destruct (IH3 (fun x => x) G4) as [G5 F3]. { intros ->. now apply keyword_nil in H6. }
    destruct (keyword_join _ _ _ G5 H6) as [G6 K6]. split; [exact G6|]. eapply cd_else; eassumption.
  - intros g b conds els ts ts1 ts2 ts3 ts4 rest _ IH1 H1 H2 _ IH2 H3 H4 _ IH3 G.
    destruct (IH1 (fun x => x) G) as [G1 F1]. { intros ->. now apply keyword_nil in H2. }
    destruct (keyword_join _ _ _ G1 H2) as [G2 K2]. destruct (IH2 (fun x => x) G2) as [G3 F2]. { intros ->. now apply keyword_nil in H4. }
    destruct (keyword_join _ _ _ G3 H4) as [G4 K4]. destruct (IH3 G4) as [G5 F3]. split; [exact G5|]. eapply cd_elif; eassumption.
  - (* fl_words *) intros ns ws wc cs ts ts1 ts2 ts3 ts4 ts5 rest H1 H2 _ IH H3 H4 H5 G Hr.
    destruct (newlines_join _ _ _ H1 G) as [G1 N1]. { intros ->. now apply keyword_nil in H2. }
    destruct (keyword_join _ _ _ G1 H2) as [G2 K2]. destruct (IH G2) as [G3 F].
    assert (G4 : joinable ts4). { destruct H3 as [-> |[<- _]]; [now apply joinable_cons in G3|exact G3]. }
    destruct (maybe_newline_join _ _ _ G4 H4) as [G5 M]. { intros ->. now apply newlines_nil in H5. }
    destruct (newlines_join _ _ _ H5 G5 Hr) as [G6 N2]. split; [exact G6|].
    eapply fl_words; [exact N1|exact K2|exact F| |exact M|exact N2].
    destruct H3 as [-> |(<- & H3 & H3')]; [now left|right]. split; [reflexivity|]. split; [apply hd_join_in; [|exact H3]; intros ->; apply maybe_newline_nil in H4; subst; apply newlines_nil in H5; contradiction|exact H3'].
  - intros ns cs ts ts1 rest H1 H2 G Hr. destruct (newlines_join _ _ _ H1 G ltac:(discriminate)) as [G1 N1]. apply joinable_cons in G1.
    destruct (newlines_join _ _ _ H2 G1 Hr) as [G2 N2]. split; [exact G2|]. eapply fl_semi; eassumption.
  - intros ns ts rest H1 H2 H3 G Hr. destruct (newlines_join _ _ _ H1 G Hr) as [G1 N1]. split; [exact G1|]. eapply fl_none; [exact N1| |now apply hd_join_in].
    intros H. now apply H2, at_keyword_unjoin.
  - (* fw_end *) intros ts rest H G. destruct (no_word_join _ _ G H) as [G1 F]. split; [exact G1|]. now constructor.
  - intros k ts mid ws rest _ IH1 _ IH2 G. destruct (IH1 (joinable_skipw _ G)) as [G1 F1]. destruct (IH2 G1) as [G2 F2]. split; [exact G2|].
    econstructor; [|exact F2]. now rewrite skipw_join.
  - (* ca_end *) intros cs ts rest H1 H2 G Hr. destruct (newlines_join _ _ _ H1 G Hr) as [G1 N1]. split; [exact G1|].
    constructor; [exact N1|now apply at_keyword_join].
  - intros pre ps pc b ac arms cs ts ts1 ts2 ts3 ts4 ts5 ts6 rest H1 H2 H3 Hp IH1 H4 Hgr IH2 H5 Ha IH3 G Hr.
    assert (N2 : ts2 <> []). { intros ->. now apply patterns_nil in Hp. }
    assert (N1 : ts1 <> []). { destruct H3 as [-> |[_ ->]]; [discriminate|exact N2]. }
    destruct (newlines_join _ _ _ H1 G N1) as [G1 L1].
    assert (G2 : joinable ts2). { destruct H3 as [-> |[_ <-]]; [now apply joinable_cons in G1|exact G1]. }
    destruct (IH1 G2) as [G3 F1].
    destruct (maybe_newline_join _ _ _ G3 H4) as [G4 M1]. { intros ->. now apply group_nil in Hgr. }
    destruct (IH2 (fun x => x) G4 ltac:(discriminate)) as [G5 F2]. apply joinable_cons in G5.
    destruct (maybe_newline_join _ _ _ G5 H5) as [G6 M2]. { intros ->. now apply case_arms_nil in Ha. }
    destruct (IH3 G6 Hr) as [G7 F3]. split; [exact G7|].
    eapply ca_arm; [exact L1| | |exact F1|exact M1|exact F2|exact M2|exact F3].
    + intros H. now apply H2, at_keyword_unjoin.
    + destruct H3 as [-> |[H3 ->]]; [now left|right]. split; [now apply hd_join|reflexivity].
  - intros pre ps pc b ts ts1 ts2 ts3 ts4 rest H1 H2 H3 Hp IH1 H4 Hg IH2 H5 G Hr.
    assert (N2 : ts2 <> []). { intros ->. now apply patterns_nil in Hp. }
    assert (N1 : ts1 <> []). { destruct H3 as [-> |[_ ->]]; [discriminate|exact N2]. }
    destruct (newlines_join _ _ _ H1 G N1) as [G1 L1].
    assert (G2 : joinable ts2). { destruct H3 as [-> |[_ <-]]; [now apply joinable_cons in G1|exact G1]. }
    destruct (IH1 G2) as [G3 F1].
    destruct (maybe_newline_join _ _ _ G3 H4) as [G4 M1]. { intros ->. apply group_nil in Hg. contradiction. }
    destruct (IH2 (fun x => x) G4 Hr) as [G5 F2]. split; [exact G5|].
    eapply ca_last; [exact L1| | |exact F1|exact M1|exact F2|now apply at_keyword_join].
    + intros H. now apply H2, at_keyword_unjoin.
    + destruct H3 as [-> |[H3 ->]]; [now left|right]. split; [now apply hd_join|reflexivity].
  - (* pf_last *) intros k ts mid rest _ IH H G. destruct (IH (joinable_skipw _ G)) as [G1 F]. split; [eapply joinable_skipw_cons; eassumption|].
    eapply pf_last; [rewrite skipw_join by exact G; exact F|now apply skipw_join_cons].
  - intros k ts mid mid' ps rest _ IH1 H _ IH2 G. destruct (IH1 (joinable_skipw _ G)) as [G1 F1].
    pose proof (joinable_skipw_cons _ _ _ G1 H) as G2. destruct (IH2 G2) as [G3 F2]. split; [exact G3|].
    eapply pf_more; [rewrite skipw_join by exact G; exact F1|exact (skipw_join_cons _ _ _ G1 H)|exact F2].
  - (* pi_last *) intros c ts rest _ IH H1 H2 G. destruct (IH (joinable_skipw _ G)) as [G1 F]. split; [exact G1|].
    apply pi_last; [now rewrite skipw_join|now apply hd_join|now apply hd_join].
  - intros c ns cs ts mid mid' rest _ IH1 H1 H2 Hp IH2 G. destruct (IH1 (joinable_skipw _ G)) as [G1 F1]. apply joinable_cons in G1.
    destruct (newlines_join _ _ _ H2 G1) as [G2 N]. { intros ->. now apply pipe_form_nil in Hp. }
    destruct (IH2 G2) as [G3 F2]. split; [exact G3|].
    eapply pi_more; [rewrite skipw_join by exact G; exact F1|now apply hd_join|exact N|exact F2].
  - (* pp_plain *) intros cs ts rest H _ IH G. destruct (IH (joinable_skipw _ G)) as [G1 F]. split; [exact G1|].
    constructor; rewrite skipw_join by exact G; [now apply hd_join|exact F].
  - intros cs ts mid rest H _ IH G. destruct (IH (joinable_skipw_cons _ _ _ G H)) as [G1 F]. split; [exact G1|].
    eapply pp_bang; [exact (skipw_join_cons _ _ _ G H)|exact F].
  - (* ao_end *) intros ts H1 H2 G. split; [now apply joinable_skipw|]. rewrite <- skipw_join by exact G.
    constructor; rewrite skipw_join by exact G; now apply hd_join.
  - intros p ns l ts ts1 ts2 ts3 rest H1 H2 Hp IH1 _ IH2 G. pose proof (joinable_skipw_cons _ _ _ G H1) as G1.
    destruct (newlines_join _ _ _ H2 G1) as [G2 N]. { intros ->. now apply pipeline_form_nil in Hp. }
    destruct (IH1 G2) as [G3 F1]. destruct (IH2 G3) as [G4 F2]. split; [exact G4|].
    eapply ao_and_if; [exact (skipw_join_cons _ _ _ G H1)|exact N|exact F1|exact F2].
  - intros p ns l ts ts1 ts2 ts3 rest H1 H2 Hp IH1 _ IH2 G. pose proof (joinable_skipw_cons _ _ _ G H1) as G1.
    destruct (newlines_join _ _ _ H2 G1) as [G2 N]. { intros ->. now apply pipeline_form_nil in Hp. }
    destruct (IH1 G2) as [G3 F1]. destruct (IH2 G3) as [G4 F2]. split; [exact G4|].
    eapply ao_or_if; [exact (skipw_join_cons _ _ _ G H1)|exact N|exact F1|exact F2].
  - (* lf_list *) intros p l ts mid rest _ IH1 _ IH2 G. destruct (IH1 G) as [G1 F1]. destruct (IH2 G1) as [G2 F2]. split; [exact G2|]. econstructor; eassumption.
  - (* cp_semi *) intros ns l nl ts mid rest _ IH H G Hr. destruct (IH G) as [G1 F]. apply joinable_cons in G1.
    destruct (maybe_newline_join _ _ _ G1 H Hr) as [G2 M]. split; [exact G2|]. eapply cp_semi; [exact F|exact M].
  - intros ns l nl ts mid rest _ IH H G Hr. destruct (IH G) as [G1 F]. apply joinable_cons in G1.
    destruct (maybe_newline_join _ _ _ G1 H Hr) as [G2 M]. split; [exact G2|]. eapply cp_amp; [exact F|exact M].
  - intros ns l nl ts mid rest _ IH H G Hr. destruct (IH G) as [G1 F].
    destruct (newline_form_join _ _ _ G1 H Hr) as [G2 M]. split; [exact G2|]. eapply cp_newline; [exact F|exact M].
  - intros ns l ts rest _ IH H1 H2 H3 H4 G Hr. destruct (IH G) as [G1 F]. split; [exact G1|]. apply cp_other; [exact F|now apply hd_join_in|now apply hd_join_in| |].
    + now apply no_newline_join.
    + rewrite skipw_join by exact G1. now rewrite H4.
  - (* gr_end *) intros cfg ns ts rest H1 H2 Hc G Hr. destruct (newlines_join _ _ _ H1 G Hr) as [G1 N]. split; [exact G1|].
    constructor; [exact N|now apply group_end_join].
  - intros cfg ns c cs tr ts ts1 ts2 rest H1 H2 Hcf IH1 Hg IH2 Hc G Hr.
    assert (N1 : ts1 <> []). { intros ->. now apply complete_form_nil in Hcf. }
    assert (N2 : ts2 <> []). { intros ->. now apply group_nil in Hg. }
    destruct (newlines_join _ _ _ H1 G N1) as [G1 N]. destruct (IH1 G1 N2) as [G2 F1]. destruct (IH2 Hc G2 Hr) as [G3 F2]. split; [exact G3|].
    eapply gr_command; [exact N| |exact F1|exact F2]. intros H. apply H2. now apply group_end_unjoin.
Qed.
End Join.

(** ** Newlines and commands are read in one way only *)
Notation DB := default_builder.
Notation DP := default_pure.
Lemma newline_sep : separator TNewline.
Proof. now left. Qed.
Lemma semi_sep : separator TSemi.
Proof. right; now left. Qed.
Lemma amp_sep : separator TAmp.
Proof. right; right; now left. Qed.
Lemma close_sep : separator TParenClose.
Proof. right; right; now right. Qed.
#[local] Hint Resolve newline_sep : core.
Lemma reads_det m a a' rest rest' fuel s : reads DB fuel s tt m a rest -> reads DB fuel s tt m a' rest' -> a = a' /\ rest = rest'.
Proof. intros (s1 & E1 & H1) (s2 & E2 & H2). rewrite E1 in E2. injection E2 as -> ->. split; congruence. Qed.
Lemma left_new ts : tokens_left (ti_new ts) = ts.
Proof. reflexivity. Qed.
Lemma newlines_det ns ns' ts rest rest' : newlines ns ts rest -> newlines ns' ts rest' -> ns = ns' /\ rest = rest'.
Proof.
  intros H H'. set (fuel := (List.length ts + 3)%nat).
  assert (Hf : (List.length (tokens_left (ti_new ts)) + 2 < fuel)%nat) by (rewrite left_new; unfold fuel; lia).
  apply (reads_det ALinebreak _ _ _ _ fuel (ti_new ts));
  apply (linebreak_exact DB fuel (ti_new ts) tt (pr_new _ _ _) Hf); rewrite left_new; assumption.
Qed.
Lemma newlines_total ts : exists ns rest, newlines ns ts rest.
Proof.
  remember (List.length ts) as n eqn:En. revert ts En. induction n as [n IH] using (well_founded_induction Wf_nat.lt_wf).
  intros ts ->. pose proof (skipw_length ts) as L. destruct (skipw ts) as [|t r] eqn:E.
  - exists [], (skipw ts). constructor. rewrite E. split; discriminate.
  - cbn in L. assert (D : t = TNewline \/ t = TPound \/ no_newline (t :: r)).
    { destruct t; auto; right; right; split; discriminate. }
    destruct D as [-> |[-> |D]].
    + destruct (IH (List.length r) ltac:(lia) r eq_refl) as (ns & rest & H). exists (Newline None :: ns), rest.
      eapply ns_cons; [apply nf_newline; exact E|exact H].
    + assert (S : (exists c r', r = c ++ TNewline :: r' /\ ~ In TNewline c) \/ ~ In TNewline r).
      { clear. induction r as [|t r IH]; [right; intros []|].
        destruct (token_eqb_spec t TNewline) as [-> |Hn]; [left; exists [], r; split; [reflexivity|intros []]|].
        destruct IH as [(c & r' & -> & Hc)|Hc].
        - left. exists (t :: c), r'. split; [reflexivity|]. intros [H|H]; [now apply Hn|now apply Hc].
        - right. intros [H|H]; [now apply Hn|now apply Hc]. }
      destruct S as [(c & r' & -> & Hc)|Hc].
      * rewrite app_length in L. cbn in L. destruct (IH (List.length r') ltac:(lia) r' eq_refl) as (ns & rest & H).
        eexists (_ :: ns), rest. eapply ns_cons; [apply (nf_comment _ c); [exact E|exact Hc]|exact H].
      * eexists [_], []. eapply ns_cons; [apply (nf_comment_end _ r); [exact E|exact Hc]|]. apply (ns_nil []). split; discriminate.
    + exists [], (skipw ts). constructor. now rewrite E.
Qed.
(** The tokens [ts] start, after newlines, with the command [c], and continue with [rest]. *)
Definition first_command (c : tlcmd) (ts rest : list token) : Prop :=
  exists ns mid, newlines ns ts mid /\ mid <> [] /\ complete_form DB DP ns c mid rest.
Lemma first_command_det c c' ts rest rest' : first_command c ts rest -> first_command c' ts rest' -> c = c' /\ rest = rest'.
Proof.
  intros H H'. set (fuel := (List.length ts + 3)%nat).
  assert (Hf : (List.length (tokens_left (ti_new ts)) + 2 < fuel)%nat) by (rewrite left_new; unfold fuel; lia).
  destruct (reads_det ACompleteCommand (Some c) (Some c') rest rest' fuel (ti_new ts)) as [E1 E2].
  - apply (complete_command_exact DB DP fuel (ti_new ts) tt (pr_new _ _ _) Hf). rewrite left_new. exact H.
  - apply (complete_command_exact DB DP fuel (ti_new ts) tt (pr_new _ _ _) Hf). rewrite left_new. exact H'.
  - split; [congruence|exact E2].
Qed.
(** The default builder drops the newlines and comments. *)
Lemma complete_form_ns ns ns' c ts rest : complete_form DB DP ns c ts rest -> complete_form DB DP ns' c ts rest.
Proof.
  intros H. inversion H; subst.
  - exact (cp_semi DB DP ns' l nl ts mid rest H0 H1).
  - exact (cp_amp DB DP ns' l nl ts mid rest H0 H1).
  - exact (cp_newline DB DP ns' l nl ts mid rest H0 H1).
  - exact (cp_other DB DP ns' l ts rest H0 H1 H2 H3 H4).
Qed.
(** A script is empty or a command followed by a script. *)
Lemma script_cases cs ts : (exists g, script DB DP g ts /\ commands g = cs) <->
  (cs = [] /\ exists ns, newlines ns ts []) \/
  (exists c cs' rest g, cs = c :: cs' /\ first_command c ts rest /\ script DB DP g rest /\ commands g = cs').
Proof.
  split.
  - intros (g & Hg & <-). inversion Hg as [? ns ? ? Hn He|? ns c cs' tr ? ts1 ts2 ? Hn He Hc Hr]; subst.
    + left. cbn. eauto.
    + right. exists c, cs', ts2, (mkCG cs' tr). cbn. split; [reflexivity|]. split; [|auto].
      exists ns, ts1. split; [exact Hn|]. split; [|exact Hc]. intros ->. apply He. now left.
  - intros [[-> (ns & H)]|(c & cs' & rest & [cs0 tr] & -> & (ns & mid & H1 & H2 & H3) & H4 & <-)].
    + exists (mkCG [] ns). split; [|reflexivity]. constructor; [exact H|now left].
    + exists (mkCG (c :: cs0) tr). split; [|reflexivity]. eapply gr_command; [exact H1| |exact H3|exact H4].
      intros [E|[(t & r & _ & [])|[(k & r & [] & _)|(t & r & [] & _)]]]. contradiction.
Qed.
(** Newlines before a script. *)
Lemma script_after_newlines cs ts ts' : (forall ns r, newlines ns ts r -> exists ns', newlines ns' ts' r) ->
  (exists g, script DB DP g ts' /\ commands g = cs) <-> (exists g, script DB DP g ts /\ commands g = cs).
Proof.
  intros H.
  assert (N : forall r, (exists ns, newlines ns ts r) <-> exists ns, newlines ns ts' r).
  { intros r. split; [intros (ns & Hn); eauto|]. intros (ns' & Hn').
    destruct (newlines_total ts) as (ns & r' & Hn). destruct (H _ _ Hn) as (ns2 & Hn2).
    destruct (newlines_det _ _ _ _ _ Hn' Hn2) as [_ ->]. eauto. }
  assert (F : forall c rest, first_command c ts rest <-> first_command c ts' rest).
  { intros c rest. split; intros (ns & mid & H1 & H2 & H3).
    - destruct (proj1 (N mid) (ex_intro _ ns H1)) as (ns' & H1'). exists ns', mid. split; [exact H1'|]. split; [exact H2|]. eapply complete_form_ns; exact H3.
    - destruct (proj2 (N mid) (ex_intro _ ns H1)) as (ns' & H1'). exists ns', mid. split; [exact H1'|]. split; [exact H2|]. eapply complete_form_ns; exact H3. }
  rewrite !script_cases. rewrite N. split.
  - intros [L|(c & cs' & rest & g & E1 & E2 & E3)]; [now left|right]. exists c, cs', rest, g. split; [exact E1|]. split; [now apply F|exact E3].
  - intros [L|(c & cs' & rest & g & E1 & E2 & E3)]; [now left|right]. exists c, cs', rest, g. split; [exact E1|]. split; [now apply F|exact E3].
Qed.
Lemma newlines_end_join ns ts ts' ns' r : newlines ns ts [] -> joinable ts -> newlines ns' ts' r ->
  exists ns'', newlines ns'' (ts ++ TNewline :: ts') r.
Proof.
  intros H. remember [] as e eqn:Ee. revert Ee. induction H as [ts Hn|n ts mid ns rest Hn Hns IH]; intros Ee Hj H'.
  - exists (Newline None :: ns'). econstructor; [|exact H']. apply nf_newline. rewrite skipw_join by (exact newline_sep || exact Hj). now rewrite Ee.
  - subst rest. inversion Hn as [? ? E|? c ? E Hc|? c E Hc]; subst.
    + destruct (IH eq_refl (joinable_skipw_cons _ _ _ Hj E) H') as (ns'' & F). eexists (_ :: ns''). econstructor; [|exact F].
      apply nf_newline. now apply skipw_join_cons.
    + pose proof (joinable_skipw_cons _ _ _ Hj E) as J. apply joinable_app, joinable_cons in J.
      destruct (IH eq_refl J H') as (ns'' & F). eexists (_ :: ns''). econstructor; [|exact F].
      apply (nf_comment _ c); [|exact Hc]. erewrite skipw_join_cons by (exact newline_sep || eassumption). now rewrite <- app_assoc.
    + exists (Newline (Some (text (TPound :: c))) :: ns'). econstructor; [|exact H'].
      apply (nf_comment _ c); [|exact Hc]. now erewrite skipw_join_cons by (exact newline_sep || eassumption).
Qed.
(** What the last command leaves when another script follows. *)
Lemma complete_form_end_join ns c ts ts' : complete_form DB DP ns c ts [] -> joinable ts ->
  exists r, complete_form DB DP ns c (ts ++ TNewline :: ts') r /\ (r = ts' \/ r = TNewline :: ts').
Proof.
  assert (N : forall nl mid, newline_form nl mid [] -> joinable mid -> exists nl' r, newline_form nl' (mid ++ TNewline :: ts') r /\ (r = ts' \/ r = TNewline :: ts')).
  { intros nl mid Hn Hj. inversion Hn as [? ? E|? cc ? E Hc|? cc E Hc]; subst.
    - eexists _, (TNewline :: ts'). split; [|now right]. apply nf_newline. now erewrite skipw_join_cons by (exact newline_sep || eassumption).
    - eexists _, (TNewline :: ts'). split; [|now right]. apply (nf_comment _ cc); [|exact Hc]. erewrite skipw_join_cons by (exact newline_sep || eassumption). now rewrite <- app_assoc.
    - eexists _, ts'. split; [|now left]. apply (nf_comment _ cc); [|exact Hc]. now erewrite skipw_join_cons by (exact newline_sep || eassumption). }
  assert (M : forall nl mid, maybe_newline nl mid [] -> joinable mid -> exists nl' r, maybe_newline nl' (mid ++ TNewline :: ts') r /\ (r = ts' \/ r = TNewline :: ts')).
  { intros nl mid H Hj. inversion H as [n ? ? Hn|? Hn E1 E2]; subst.
    - destruct (N _ _ Hn Hj) as (nl' & r & Hr & D). eexists _, r. split; [apply mn_some; exact Hr|exact D].
    - eexists _, ts'. split; [|now left]. apply mn_some. apply nf_newline. rewrite skipw_join by (exact newline_sep || exact Hj).
      replace (skipw mid) with (@nil token) by congruence. reflexivity. }
  assert (L : forall l ts rest, list_form DB DP l ts rest -> joinable ts ->
      joinable rest /\ list_form DB DP l (ts ++ TNewline :: ts') (rest ++ TNewline :: ts')).
  { intros l ts0 rest H. exact (proj1 (proj2 (proj2 (proj2 (proj2 (proj2 (proj2 (proj2 (proj2 (proj2 (proj2 (proj2 (proj2 (proj2 (proj2
      (proj2 (proj2 (proj2 (proj2 (proj2 (proj2 (proj2 (proj2 (proj2 (forms_join TNewline newline_sep ts' DB DP)))))))))))))))))))))))) l ts0 rest H). }
  intros H Hj. inversion H as [? l nl ? mid ? Hl Hm|? l nl ? mid ? Hl Hm|? l nl ? mid ? Hl Hm|? l ? ? Hl]; subst; destruct (L _ _ _ Hl Hj) as [G F].
  - destruct (M _ _ Hm (joinable_cons _ _ G)) as (nl' & r & Hr & D). exists r. split; [|exact D]. exact (cp_semi DB DP ns l nl' _ _ _ F Hr).
  - destruct (M _ _ Hm (joinable_cons _ _ G)) as (nl' & r & Hr & D). exists r. split; [|exact D]. exact (cp_amp DB DP ns l nl' _ _ _ F Hr).
  - destruct (N _ _ Hm G) as (nl' & r & Hr & D). exists r. split; [|exact D]. exact (cp_newline DB DP ns l nl' _ _ _ F Hr).
  - exists ts'. split; [|now left]. exact (cp_newline DB DP ns l (Newline None) _ _ _ F (nf_newline (TNewline :: ts') ts' eq_refl)).
Qed.

(** ** Scripts *)
Lemma group_join cfg g1 ts1 rest : group DB DP cfg g1 ts1 rest -> cfg = no_delims -> rest = [] -> joinable ts1 -> forall ts2 cs,
  (exists g, script DB DP g (ts1 ++ TNewline :: ts2) /\ commands g = cs) <->
  (exists g2, script DB DP g2 ts2 /\ cs = commands g1 ++ commands g2).
Proof.
  induction 1 as [cfg ns ts rest Hn He|cfg ns c cs1 tr ts t1 t2 rest Hn He Hc Hg IH]; intros -> -> Hj ts2 cs.
  - rewrite (script_after_newlines cs ts2 (ts ++ TNewline :: ts2)); [cbn [commands app]; split; intros (g & A & B); exists g; auto|].
    intros ns' r. now apply (newlines_end_join ns).
  - assert (N1 : t1 <> []). { intros ->. now apply complete_form_nil in Hc. }
    destruct (newlines_join TNewline newline_sep ts2 _ _ _ Hn Hj N1) as [J1 Hn'].
    (* the first command of the whole *)
    assert (F : exists r, first_command c (ts ++ TNewline :: ts2) r /\ forall cs,
      (exists g, script DB DP g r /\ commands g = cs) <-> (exists g2, script DB DP g2 ts2 /\ cs = cs1 ++ commands g2)).
    { assert (D : t2 = [] \/ t2 <> []) by (destruct t2; [now left|right; discriminate]). destruct D as [-> |N2].
      - assert (cs1 = []) as ->.
        { inversion Hg as [|? ? ? ? ? ? ? ? ? X Y]; subst; [reflexivity|]. apply newlines_nil in X. subst. exfalso. apply Y. now left. }
        destruct (complete_form_end_join _ _ _ ts2 Hc J1) as (r & Hr & D). exists r. split.
        + exists ns, (t1 ++ TNewline :: ts2). split; [exact Hn'|]. split; [now destruct t1|exact Hr].
        + intros cs0. destruct D as [-> | ->].
          * split; intros (g & A & B); exists g; auto.
          * rewrite (script_after_newlines cs0 ts2); [split; intros (g & A & B); exists g; auto|].
            intros ns' r' X. exists (Newline None :: ns'). eapply ns_cons; [apply nf_newline; reflexivity|exact X].
      - destruct (forms_join TNewline newline_sep ts2 DB DP) as (_ & _ & _ & _ & _ & _ & _ & _ & _ & _ & _ & _ & _ & _ & _ & _ & _ & _ & _ & _ & _ & _ & _ & _ & FC & _).
        destruct (FC _ _ _ _ Hc J1 N2) as [J2 Hc']. exists (t2 ++ TNewline :: ts2). split; [|intros cs0; exact (IH eq_refl eq_refl J2 ts2 cs0)].
        exists ns, (t1 ++ TNewline :: ts2). split; [exact Hn'|]. split; [now destruct t1|exact Hc']. }
    destruct F as (r & F & R). rewrite script_cases. cbn [commands]. split.
    + intros [[-> (ns' & X)]|(c' & cs' & r' & g & -> & F' & G & <-)].
      * exfalso. destruct (newlines_det _ _ _ _ _ X Hn') as [_ E]. destruct t1; discriminate.
      * destruct (first_command_det _ _ _ _ _ F F') as [<- <-].
        destruct (proj1 (R (commands g)) (ex_intro _ g (conj G eq_refl))) as (g2 & A & E). exists g2. split; [exact A|]. cbn [app]. now rewrite E.
    + intros (g2 & A & ->). right. destruct (proj2 (R _) (ex_intro _ g2 (conj A eq_refl))) as (g & G & E).
      exists c, (cs1 ++ commands g2), r, g. auto.
Qed.

(** C42: a newline separates scripts.  If [ts1] parses, then [ts1], a newline and [ts2] together
    parse exactly if [ts2] does, and give the commands of [ts1] followed by those of [ts2]. *)
Theorem script_join fuel ts1 ts2 cs1 cs : (List.length (ts1 ++ TNewline :: ts2) + 2 < fuel)%nat -> joinable ts1 ->
  parses_to DB fuel ts1 tt cs1 ->
  parses_to DB fuel (ts1 ++ TNewline :: ts2) tt cs <-> exists cs2, parses_to DB fuel ts2 tt cs2 /\ cs = cs1 ++ cs2.
Proof.
  intros Hf Hj H1. pose proof Hf as Hf'. rewrite app_length in Hf'. cbn [List.length] in Hf'.
  apply (script_exact DB DP) in H1 as (g1 & G1 & <-); [|lia].
  rewrite (script_exact DB DP) by exact Hf. rewrite (group_join _ _ _ _ G1 eq_refl eq_refl Hj). split.
  - intros (g2 & G2 & ->). exists (commands g2). split; [|reflexivity]. apply (script_exact DB DP); [lia|]. eauto.
  - intros (cs2 & H2 & ->). apply (script_exact DB DP) in H2 as (g2 & G2 & <-); [|lia]. eauto.
Qed.

(** The same for source text. *)
Section Source.
Context {U : Uni}.
Local Open Scope N_scope.
Lemma newline_operator t a b : operator t -> as_str t = a ++ 10 :: b -> a = [] /\ b = [].
Proof.
  intros Ho E. assert (t = TNewline) as ->.
  { assert (Hi : In 10 (as_str t)) by (rewrite E; apply in_or_app; right; now left). clear E.
    destruct t; try destruct Ho; try reflexivity; exfalso; try (destruct p); cbn in Hi;
    repeat (destruct Hi as [Hi|Hi]; [discriminate Hi|]); exact Hi. }
  destruct a as [|x a]; [injection E as <-; auto|]. injection E as _ E. now destruct a.
Qed.
Lemma Lexes_newline s2 ts2 : Lexes s2 ts2 -> Lexes (10 :: s2) (TNewline :: ts2).
Proof.
  intros H. apply (Lex_operator TNewline s2 ts2 I); [|exact H]. intros t' s' Ho E.
  destruct (as_str t') as [|x y] eqn:Et; [cbn; lia|]. cbn in E. injection E as <- _.
  destruct (newline_operator t' [] y Ho Et) as [_ ->]. cbn. lia.
Qed.
Lemma stops_newline (Q : char -> Prop) s s2 : ~ Q 10 -> stops Q s -> stops Q (s ++ 10 :: s2).
Proof. intros Hq Hs c s' E. destruct s as [|x s]; cbn in E; injection E as <- _; [exact Hq|now apply (Hs x s)]. Qed.
Lemma not_blank_newline : ~ LexSpec.blank 10.
Proof. intros [_ H]. now apply H. Qed.
Lemma not_ordinary_newline : ~ ordinary 10.
Proof. intros [H _]. discriminate. Qed.
Lemma Lexes_join s1 ts1 s2 ts2 : Lexes s1 ts1 -> Lexes s2 ts2 ->
  Lexes (s1 ++ 10 :: s2) (ts1 ++ TNewline :: ts2).
Proof.
  intros H H2. induction H as [|t s ts Ho Hm H IH|b s ts Hb Hf Hs H IH|c w s ts Hc Hf Hs H IH|c w s ts Hc Hn Hf Hs H IH| |c t s ts Hc _ H IH];
  cbn [app]; rewrite <- ?app_assoc.
  - now apply Lexes_newline.
  - apply Lex_operator; [exact Ho| |exact IH]. intros t' s' Ho' E.
    destruct (Compare_dec.le_lt_dec (List.length (as_str t')) (List.length (as_str t))) as [L|L]; [exact L|exfalso].
    destruct (app_eq_app _ _ _ _ E) as (x & [[E1 E2]|[E1 E2]]).
    + rewrite E1, app_length in L. lia.
    + destruct (app_eq_app _ _ _ _ E2) as (y & [[E3 E4]|[E3 E4]]).
      * (* x is a prefix of s *) specialize (Hm t' y Ho'). rewrite E3, E1, <- app_assoc in Hm. specialize (Hm eq_refl). rewrite E1 in L. lia.
      * destruct y as [|z y]; [rewrite app_nil_r in E3; subst x; specialize (Hm t' [] Ho'); rewrite E1, app_nil_r in Hm; specialize (Hm eq_refl); rewrite E1 in L; lia|].
        cbn in E4. injection E4 as <- _. rewrite E3, app_assoc in E1. destruct (newline_operator t' _ _ Ho' E1) as [E5 _].
        apply app_eq_nil in E5 as [E5 _]. destruct (operator_nonempty t Ho) as (? & ? & E6). congruence.
  - apply Lex_blanks; auto. apply stops_newline; [apply not_blank_newline|exact Hs].
  - apply Lex_name; auto. apply stops_newline; [|exact Hs]. intros [X _]. now apply not_ordinary_newline.
  - apply Lex_literal; auto. apply stops_newline; [apply not_ordinary_newline|exact Hs].
  - apply Lex_backslash; [|exact H2]. apply (Lexes_newline [] []). apply Lex_end.
  - now apply Lex_backslash.
Qed.
(** The source has no [<<] and does not end with a backslash. *)
Definition joinable_source (s : str) : Prop :=
  (forall a b, s <> a ++ 60 :: 60 :: b) /\ (forall a, s <> a ++ [backslash]).
Lemma joinable_source_lex s : joinable_source s -> joinable (lex s).
Proof.
  intros [H1 H2]. pose proof (lex_lossless s) as L.
  repeat split.
  - intros Hi. apply in_split in Hi as (a & b & E). rewrite E, concat_tokens_app in L. now apply (H1 (concat_tokens a) (concat_tokens b)).
  - intros Hi. apply in_split in Hi as (a & b & E). rewrite E, concat_tokens_app in L. now apply (H1 (concat_tokens a) (45 :: concat_tokens b)).
  - intros us E. rewrite E, concat_tokens_app in L. now apply (H2 (concat_tokens us)).
Qed.
Theorem script_join_source fuel (s1 s2 : str) cs1 cs : (List.length (s1 ++ 10%N :: s2) + 2 < fuel)%nat -> joinable_source s1 ->
  parses_to DB fuel (lex s1) tt cs1 ->
  parses_to DB fuel (lex (s1 ++ 10 :: s2)) tt cs <-> exists cs2, parses_to DB fuel (lex s2) tt cs2 /\ cs = cs1 ++ cs2.
Proof.
  intros Hf Hj H1. apply joinable_source_lex in Hj.
  assert (E : lex (s1 ++ 10 :: s2) = lex s1 ++ TNewline :: lex s2).
  { apply lex_maximal_munch. apply Lexes_join; apply lex_Lexes. }
  rewrite E. apply script_join; [|exact Hj|exact H1].
  rewrite app_length in *. cbn [List.length] in *. pose proof (lex_length s1). pose proof (lex_length s2). lia.
Qed.
End Source.

(** ** Witnesses *)
Section Witness.
#[local] Instance some_uni : Uni := fun _ => false.
Lemma parses_steps n fuel ts cs : (List.length ts + 2 < fuel)%nat ->
  iterate DB fuel n (parser_iter_new DB ts tt) [] = Some (cs, None) -> parses_to DB fuel ts tt cs.
Proof.
  intros Hf E. destruct (yields_steps DB fuel n ts tt) as [H|(cs' & r & st & st' & H & Y & N & _)]; rewrite E in H; [discriminate|].
  injection H as <- <-. exists st. destruct (iterator_complete DB fuel ts tt cs st Y Hf None st' N) as [-> _]. auto.
Qed.
Definition word_cmd (w : string) : redirect_or_cmd_word d_redirect tlword := DCmdWord (TLWord (WSingle (WSimple (WLiteral (s_of w))))).
Definition cmd_of (ws : list string) : tlcmd :=
  TLCmd (CList (mkAOL (LSingle (PSimple (mkSC [] (map word_cmd ws)))) [])).
Definition part1 : str := s_of "for x in a b; do c 'd'; done & # e".
Definition part2 : str := s_of "f g".
Lemma enough (ts : list token) : (Nat.ltb (List.length ts + 2) 100 = true) -> (List.length ts + 2 < 100)%nat.
Proof. apply PeanoNat.Nat.ltb_lt. Qed.
(** The hypotheses hold of a script of several kinds of command. *)
Example script_join_witness : joinable (lex part1) /\ joinable_source part1 /\
  (exists c, parses_to DB 100 (lex part1) tt [c]) /\ parses_to DB 100 (lex part2) tt [cmd_of ["f"; "g"]%string].
Proof.
  assert (J : joinable_source part1).
  { split.
    - intros a b E. assert (H : In 60%N part1) by (rewrite E; apply in_or_app; right; now left).
      vm_compute in H. repeat (destruct H as [H|H]; [discriminate|]). exact H.
    - intros a E. assert (H : In backslash part1) by (rewrite E; apply in_or_app; right; now left).
      vm_compute in H. repeat (destruct H as [H|H]; [discriminate|]). exact H. }
  split; [now apply joinable_source_lex|]. split; [exact J|]. split.
  - eexists. apply (parses_steps 5); [apply enough; vm_compute; reflexivity|]. vm_compute. reflexivity.
  - apply (parses_steps 5); [apply enough; vm_compute; reflexivity|]. vm_compute. reflexivity.
Qed.
(** Both hypotheses are needed: an unterminated here-document takes the second script, and a
    backslash at the end joins the lines. *)
Definition here1 : str := s_of "cat <<EOF".
Example join_needs_no_heredoc : exists c, parses_to DB 100 (lex here1) tt [c] /\
  exists c', parses_to DB 100 (lex (here1 ++ 10%N :: part2)) tt [c'].
Proof.
  eexists. split.
  - apply (parses_steps 5); [apply enough; vm_compute; reflexivity|]. vm_compute. reflexivity.
  - eexists. apply (parses_steps 5); [apply enough; vm_compute; reflexivity|]. vm_compute. reflexivity.
Qed.
Definition back1 : str := s_of "a \".
Example join_needs_no_backslash : parses_to DB 100 (lex back1) tt [cmd_of ["a"]%string] /\
  parses_to DB 100 (lex (back1 ++ 10%N :: part2)) tt [cmd_of ["a"; "f"; "g"]%string].
Proof.
  split.
  - apply (parses_steps 5); [apply enough; vm_compute; reflexivity|]. vm_compute. reflexivity.
  - apply (parses_steps 5); [apply enough; vm_compute; reflexivity|]. vm_compute. reflexivity.
Qed.
End Witness.
