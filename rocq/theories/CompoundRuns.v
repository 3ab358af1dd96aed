(** * The parser reads the forms of compound commands, pipelines and lists *)
From Coq Require Import String.
From Verif Require Import Base Token Pos Ast Builder Prog Located RunLemmas ParserBase Balanced Arith Word
  Redirect Command Sim BalancedSpec Runs Pure Relex ArithSpec ArithRuns Forms BaseForms WordRuns CommandRuns.

Ltac rcall t := eapply runs_call; [t|]; cbv beta match.

Section CompoundRuns.
Variable B : builder.
Variable P : pure B.
Variable fuel : nat.
Variable K : knots (bst B) (b_err B) (b_cmd B).
Notation C := (b_cmd B).
Notation prog := (prog (bst B) (b_err B)).

Lemma runs_command_group cfg g ts rest : runs (k_group K cfg) ts g rest -> commands g <> [] ->
  runs (command_group B K cfg) ts g rest.
Proof.
  intros H Hn. unfold command_group. rcall ltac:(exact H).
  destruct (commands g) eqn:E; [congruence|]. apply runs_ret.
Qed.

(** *** do ... done *)
Definition do_run (g : cgroup C) (ts rest : list token) : Prop :=
  forall ts0, skipw ts0 = skipw ts -> runs (do_group B fuel K) ts0 g rest.
Lemma do_do g ts ts1 ts2 rest : keyword DO ts ts1 -> runs (k_group K (mkDelims [] [DONE] [])) ts1 g ts2 ->
  commands g <> [] -> keyword DONE ts2 rest -> do_run g ts rest.
Proof.
  intros H1 H2 Hn H3 ts0 E. unfold do_group. rstep.
  rcall ltac:(eapply runs_reserved_word; [now left|eapply keyword_skipw; [exact E|exact H1]]).
  rcall ltac:(apply runs_command_group; [exact H2|exact Hn]).
  rcall ltac:(eapply runs_reserved_word; [now left|exact H3]). apply runs_ret.
Qed.

(** *** Which compound command follows *)
Definition next_run (kw : option compound_kw) (ts : list token) : Prop :=
  forall ts0, skipw ts0 = skipw ts -> runs (next_compound_command_type B fuel) ts0 kw (skipw ts).
Lemma next_subshell ts : next_run (Some KwSubshell) (TParenOpen :: ts).
Proof.
  intros ts0 E. unfold next_compound_command_type. rstep. rewrite E, skipw_solid by reflexivity. rstep.
  apply runs_ret.
Qed.
Lemma next_brace ts : delimited ts -> next_run (Some KwBrace) (TCurlyOpen :: ts).
Proof.
  intros Hd ts0 E. unfold next_compound_command_type. rstep. rewrite E, skipw_solid by reflexivity. rstep.
  change (otoken_eqb (Some TCurlyOpen) (Some TParenOpen)) with false. cbv match.
  rcall ltac:(eapply runs_peek_token_yes; [now left|repeat constructor|reflexivity|exact Hd]).
  apply runs_ret.
Qed.
Definition kw_of (k : str) : option compound_kw :=
  if str_eqb k FOR then Some KwFor
  else if str_eqb k CASE then Some KwCase
  else if str_eqb k IF then Some KwIf
  else if str_eqb k WHILE then Some KwWhile
  else if str_eqb k UNTIL then Some KwUntil
  else None.
Lemma next_word k ts rest : keyword k ts rest -> In k [FOR; CASE; IF; WHILE; UNTIL] ->
  next_run (kw_of k) ts.
Proof.
  intros Hk Hi ts0 E. unfold next_compound_command_type. rstep. rewrite E. rstep.
  assert (Hh : hd_error (skipw ts) = Some (TName k) \/ hd_error (skipw ts) = Some (TLiteral k))
    by (destruct Hk as [? ? H|? ? H]; rewrite H; auto).
  replace (otoken_eqb (hd_error (skipw ts)) (Some TParenOpen)) with false by (destruct Hh as [-> | ->]; reflexivity).
  rcall ltac:(eapply runs_peek_token_no; [discriminate|repeat constructor|]).
  { intros (t & r & [<-|[]] & E1 & _). rewrite skipw_idem in E1. rewrite E1 in Hh. destruct Hh; discriminate. }
  rcall ltac:(eapply runs_peek_word_yes; [exact Hi|eapply keyword_skipw; [|exact Hk]; rewrite !skipw_idem; reflexivity]).
  rewrite !skipw_idem. apply runs_ret.
Qed.
Lemma next_none ts : skipw ts = ts -> ~ at_compound ts -> next_run None ts.
Proof.
  intros Es Hn ts0 E. rewrite Es in *. unfold next_compound_command_type. rstep. rewrite E. rstep.
  destruct (otoken_eqb_spec (hd_error ts) (Some TParenOpen)) as [Ep|Ep]; [exfalso; apply Hn; now left|].
  rcall ltac:(eapply runs_peek_token_no; [discriminate|repeat constructor|]).
  { intros H. apply Hn. right. now left. }
  rcall ltac:(eapply runs_peek_word_no; [discriminate|]).
  { rewrite Es. intros H. apply Hn. right. now right. }
  rewrite Es, Es. apply runs_ret.
Qed.
Lemma function_not_compound ts rest : keyword FUNCTION ts rest -> skipw ts = ts -> ~ at_compound ts.
Proof.
  intros Hk Es.
  assert (Hh : hd_error (skipw ts) = Some (TName FUNCTION) \/ hd_error (skipw ts) = Some (TLiteral FUNCTION))
    by (destruct Hk as [? ? H|? ? H]; rewrite H; auto).
  intros [H|[(t & r & [<-|[]] & H & _)|(k & r & Hi & H)]].
  - rewrite Es, H in Hh. destruct Hh; discriminate.
  - rewrite H in Hh. destruct Hh; discriminate.
  - destruct H as [? ? H|? ? H]; rewrite H in Hh; cbn in Hh; destruct Hh as [Hh|Hh]; try discriminate;
    injection Hh as ->; cbn in Hi; repeat (destruct Hi as [Hi|Hi]; [discriminate|]); destruct Hi.
Qed.

(** *** Compound commands *)
Definition compound_run (c : b_compound B) (ts rest : list token) : Prop :=
  exists kw, next_run (Some kw) ts /\ runs (compound_command_kw B fuel K (Some kw)) (skipw ts) c rest.
Lemma runs_compound_command c ts rest ts0 : compound_run c ts rest -> skipw ts0 = skipw ts ->
  runs (compound_command B fuel K) ts0 c rest.
Proof. intros (kw & H1 & H2) E. unfold compound_command. rcall ltac:(apply H1; exact E). exact H2. Qed.

Lemma runs_redirect_list rs ts rest : redirects_run B fuel K rs ts rest -> runs (redirect_list B fuel K) ts rs rest.
Proof. intros H. exact (H fuel [] ts eq_refl). Qed.

Lemma compound_brace g ts mid mid' rs rest : delimited ts ->
  runs (k_group K (mkDelims [TCurlyClose] [] [])) ts g mid -> commands g <> [] ->
  mid = TCurlyClose :: mid' -> delimited mid' -> redirects_run B fuel K rs mid' rest ->
  compound_run (pu_brace_group P g rs) (TCurlyOpen :: ts) rest.
Proof.
  intros Hd H Hn -> Hd' Hr. exists KwBrace. split; [now apply next_brace|].
  rewrite skipw_solid by reflexivity. cbn [compound_command_kw]. unfold brace_group. rstep. rstep. rstep.
  unfold reserved_token. rstep.
  rcall ltac:(eapply runs_reserved_token; [now left|repeat constructor|reflexivity|exact Hd]). rstep. rstep.
  rcall ltac:(apply runs_command_group; [exact H|exact Hn]). rstep.
  rcall ltac:(eapply runs_reserved_token; [now left|repeat constructor|reflexivity|exact Hd']). rstep.
  rcall ltac:(apply runs_redirect_list; exact Hr). apply runs_build_end, pu_brace_group_ok.
Qed.
Lemma compound_subshell g ts mid rs rest :
  runs (k_group K (mkDelims [] [] [TParenClose])) ts g (TParenClose :: mid) -> commands g <> [] ->
  redirects_run B fuel K rs mid rest ->
  compound_run (pu_subshell P g rs) (TParenOpen :: ts) rest.
Proof.
  intros H Hn Hr. exists KwSubshell. split; [apply next_subshell|].
  rewrite skipw_solid by reflexivity. cbn [compound_command_kw]. unfold subshell.
  rcall ltac:(apply runs_subshell_internal; [exact H|now right]).
  rcall ltac:(apply runs_redirect_list; exact Hr). apply runs_build_end, pu_subshell_ok.
Qed.
Lemma compound_loop k kind g b ts ts1 ts2 ts3 rs rest : keyword k ts ts1 ->
  (k = WHILE /\ kind = LoopWhile \/ k = UNTIL /\ kind = LoopUntil) ->
  runs (k_group K (mkDelims [] [DO] [])) ts1 g ts2 -> commands g <> [] ->
  (exists r, keyword DO ts2 r) ->
  do_run b ts2 ts3 -> redirects_run B fuel K rs ts3 rest ->
  compound_run (pu_loop_command P kind (mkGBP g b) rs) ts rest.
Proof.
  intros Hk Hkind Hg Hn [r Hdo] Hb Hr.
  assert (Hi : In k [FOR; CASE; IF; WHILE; UNTIL]) by (destruct Hkind as [[-> _]|[-> _]]; cbn; auto 8).
  assert (Hi2 : In k [WHILE; UNTIL]) by (destruct Hkind as [[-> _]|[-> _]]; cbn; auto 8).
  assert (X : runs (loop_command B fuel K) (skipw ts) (kind, mkGBP g b) ts3).
  { unfold loop_command. rstep.
    rcall ltac:(eapply runs_reserved_word; [exact Hi2|eapply keyword_skipw; [apply skipw_idem|exact Hk]]).
    assert (Y : runs (if str_eqb k WHILE then ret LoopWhile else if str_eqb k UNTIL then ret LoopUntil else panic PS_loop_kw : prog _)
        ts1 kind ts1) by (destruct Hkind as [[-> ->]|[-> ->]]; apply runs_ret).
    rcall ltac:(exact Y). rcall ltac:(apply runs_command_group; [exact Hg|exact Hn]).
    rcall ltac:(eapply runs_peek_word_yes; [now left|exact Hdo]).
    rcall ltac:(apply Hb; apply skipw_idem). apply runs_ret. }
  exists (match kind with LoopWhile => KwWhile | LoopUntil => KwUntil end). split.
  - pose proof (next_word k ts ts1 Hk Hi) as Y. destruct Hkind as [[-> ->]|[-> ->]]; exact Y.
  - destruct Hkind as [[_ ->]|[_ ->]]; cbn [compound_command_kw]; rcall ltac:(exact X);
    rcall ltac:(apply runs_redirect_list; exact Hr); apply runs_build_end, pu_loop_command_ok.
Qed.

Definition conditionals_run (conds : list (gbpair C)) (els : option (cgroup C)) (ts rest : list token) : Prop :=
  forall p n acc, runs (if_loop B fuel K p n acc) ts (mkIF (acc ++ conds) els) rest.
Lemma conditionals_fi g b ts ts1 ts2 ts3 rest :
  runs (k_group K (mkDelims [] [THEN] [])) ts g ts1 -> commands g <> [] -> keyword THEN ts1 ts2 ->
  runs (k_group K (mkDelims [] [ELIF; ELSE; FI] [])) ts2 b ts3 -> commands b <> [] -> keyword FI ts3 rest ->
  conditionals_run [mkGBP g b] None ts rest.
Proof.
  intros H1 Hn1 H2 H3 Hn3 H4 p n acc. destruct n; [apply runs_fuel|]. cbn [if_loop].
  rcall ltac:(apply runs_command_group; [exact H1|exact Hn1]).
  rcall ltac:(eapply runs_reserved_word; [now left|exact H2]).
  rcall ltac:(apply runs_command_group; [exact H3|exact Hn3]). cbv zeta.
  rcall ltac:(eapply runs_reserved_word; [|exact H4]; cbn; auto). apply runs_ret.
Qed.
Lemma conditionals_else g b e ts ts1 ts2 ts3 ts4 ts5 rest :
  runs (k_group K (mkDelims [] [THEN] [])) ts g ts1 -> commands g <> [] -> keyword THEN ts1 ts2 ->
  runs (k_group K (mkDelims [] [ELIF; ELSE; FI] [])) ts2 b ts3 -> commands b <> [] -> keyword ELSE ts3 ts4 ->
  runs (k_group K (mkDelims [] [FI] [])) ts4 e ts5 -> commands e <> [] -> keyword FI ts5 rest ->
  conditionals_run [mkGBP g b] (Some e) ts rest.
Proof.
  intros H1 Hn1 H2 H3 Hn3 H4 H5 Hn5 H6 p n acc. destruct n; [apply runs_fuel|]. cbn [if_loop].
  rcall ltac:(apply runs_command_group; [exact H1|exact Hn1]).
  rcall ltac:(eapply runs_reserved_word; [now left|exact H2]).
  rcall ltac:(apply runs_command_group; [exact H3|exact Hn3]). cbv zeta.
  rcall ltac:(eapply runs_reserved_word; [|exact H4]; cbn; auto).
  change (str_eqb ELSE ELIF) with false. change (str_eqb ELSE ELSE) with true. cbv match.
  rcall ltac:(apply runs_command_group; [exact H5|exact Hn5]).
  rcall ltac:(eapply runs_reserved_word; [now left|exact H6]). apply runs_ret.
Qed.
Lemma conditionals_elif g b conds els ts ts1 ts2 ts3 ts4 rest :
  runs (k_group K (mkDelims [] [THEN] [])) ts g ts1 -> commands g <> [] -> keyword THEN ts1 ts2 ->
  runs (k_group K (mkDelims [] [ELIF; ELSE; FI] [])) ts2 b ts3 -> commands b <> [] -> keyword ELIF ts3 ts4 ->
  conditionals_run conds els ts4 rest ->
  conditionals_run (mkGBP g b :: conds) els ts rest.
Proof.
  intros H1 Hn1 H2 H3 Hn3 H4 H5 p n acc. destruct n; [apply runs_fuel|]. cbn [if_loop].
  rcall ltac:(apply runs_command_group; [exact H1|exact Hn1]).
  rcall ltac:(eapply runs_reserved_word; [now left|exact H2]).
  rcall ltac:(apply runs_command_group; [exact H3|exact Hn3]). cbv zeta.
  rcall ltac:(eapply runs_reserved_word; [|exact H4]; cbn; auto).
  change (str_eqb ELIF ELIF) with true. cbv match.
  replace (acc ++ mkGBP g b :: conds) with ((acc ++ [mkGBP g b]) ++ conds) by (now rewrite <- app_assoc).
  apply H5.
Qed.
Lemma compound_if conds els ts ts1 ts2 rs rest : keyword IF ts ts1 -> conditionals_run conds els ts1 ts2 ->
  redirects_run B fuel K rs ts2 rest ->
  compound_run (pu_if_command P (mkIF conds els) rs) ts rest.
Proof.
  intros Hk Hc Hr. exists KwIf. split; [apply (next_word IF ts ts1 Hk); cbn; auto|].
  cbn [compound_command_kw]. unfold if_command. rstep. rstep. rstep.
  rcall ltac:(eapply runs_reserved_word; [now left|eapply keyword_skipw; [apply skipw_idem|exact Hk]]).
  rcall ltac:(apply (Hc _ fuel [])). rcall ltac:(apply runs_redirect_list; exact Hr).
  apply runs_build_end, pu_if_command_ok.
Qed.

(** *** for *)
Definition words_run (ws : list (b_word B)) (ts rest : list token) : Prop :=
  forall n acc ts0, skipw ts0 = skipw ts -> runs (words_loop B fuel K n acc) ts0 (acc ++ ws) rest.
Lemma words_end ts rest : no_word ts rest -> words_run [] ts rest.
Proof.
  intros H n acc ts0 E. destruct n; [apply runs_fuel|]. cbn [words_loop].
  rcall ltac:(eapply runs_word_none; [exact H|exact E]). rewrite app_nil_r. apply runs_ret.
Qed.
Lemma words_word k ts mid ws rest : word_run B fuel K k (skipw ts) mid -> words_run ws mid rest ->
  words_run (pu_word P k :: ws) ts rest.
Proof.
  intros H1 H2 n acc ts0 E. destruct n; [apply runs_fuel|]. cbn [words_loop].
  rcall ltac:(eapply runs_word; [exact H1|exact E]).
  match goal with |- runs _ _ (acc ++ ?x :: ws) _ =>
    replace (acc ++ x :: ws) with ((acc ++ [x]) ++ ws) by (now rewrite <- app_assoc) end.
  apply H2. apply skipw_idem.
Qed.
Definition for_run (ws : option (list newline_ * list (b_word B) * option newline_)) (cs : list newline_)
    (ts rest : list token) : Prop :=
  (exists r, keyword DO rest r) ->
  forall p, exists ns mid, newlines ns ts mid /\ runs (for_words B fuel K p ns) mid (ws, cs) rest.
Lemma for_list_words ns ws wc cs ts ts1 ts2 ts3 ts4 ts5 rest : newlines ns ts ts1 -> keyword IN ts1 ts2 ->
  words_run ws ts2 ts3 ->
  (ts3 = TSemi :: ts4 \/ (ts3 = ts4 /\ hd_error ts3 <> Some TSemi /\ wc <> None)) ->
  maybe_newline wc ts4 ts5 -> newlines cs ts5 rest ->
  for_run (Some (ns, ws, wc)) cs ts rest.
Proof.
  intros H1 Hk Hw Hs H4 H5 _ p. exists ns, ts1. split; [exact H1|]. unfold for_words.
  rcall ltac:(eapply runs_peek_word_yes; [now left|exact Hk]).
  rcall ltac:(eapply runs_reserved_word; [now left|eapply keyword_skipw; [apply skipw_idem|exact Hk]]).
  rcall ltac:(apply (Hw fuel []); reflexivity).
  assert (X : forall s : bool, negb s && match wc with None => true | Some _ => false end = false ->
    runs (words_comment <- newline fuel ;;
          (if negb s && match words_comment with None => true | Some _ => false end
          then unexpected
          else
            lb <- linebreak fuel ;;
            ret (Some (ns, ws, words_comment), lb) : prog _)) ts4 (Some (ns, ws, wc), cs) rest).
  { intros s E. rcall ltac:(apply runs_newline; exact H4). rewrite E.
    rcall ltac:(apply runs_linebreak; exact H5). apply runs_ret. }
  destruct Hs as [-> |(-> & Hn & Hc)].
  - apply runs_eat_maybe_yes. apply X. reflexivity.
  - apply runs_eat_maybe_no; [exact Hn|]. apply X. destruct wc; [reflexivity|congruence].
Qed.
Lemma not_keyword_tok ks t ts r : skipw ts = t :: r -> (match t with TName _ | TLiteral _ => false | _ => true end) = true ->
  ~ at_keyword ks ts.
Proof. intros E H (k & r' & _ & Hk). destruct Hk as [? ? Hk|? ? Hk]; rewrite E in Hk; injection Hk as -> _; discriminate. Qed.
Lemma for_list_semi ns cs ts ts1 rest : newlines ns ts (TSemi :: ts1) -> newlines cs ts1 rest ->
  for_run None cs ts rest.
Proof.
  intros H1 H2 _ p. exists ns, (TSemi :: ts1). split; [exact H1|]. unfold for_words.
  rcall ltac:(eapply runs_peek_word_no; [discriminate|eapply not_keyword_tok; reflexivity]).
  rewrite skipw_solid by reflexivity. rstep. change (otoken_eqb (Some TSemi) (Some TSemi)) with true. cbv match. rstep.
  rcall ltac:(apply runs_linebreak; exact H2). apply runs_ret.
Qed.
Lemma for_list_none ns ts rest : newlines ns ts rest -> ~ at_keyword [IN] rest -> hd_error rest <> Some TSemi ->
  for_run None ns ts rest.
Proof.
  intros H1 Hi Hs [r Hdo] p. exists ns, rest. split; [exact H1|]. unfold for_words.
  destruct (newlines_rest _ _ _ H1) as [_ E].
  rcall ltac:(eapply runs_peek_word_no; [discriminate|exact Hi]). rewrite E. rstep.
  destruct (otoken_eqb_spec (hd_error rest) (Some TSemi)); [contradiction|].
  rcall ltac:(eapply runs_peek_word_yes; [now left|exact Hdo]). rewrite E. apply runs_ret.
Qed.
Lemma compound_for v vc ws cs b ts ts1 ts2 ts3 ts4 ts5 rs rest : keyword FOR ts ts1 -> skipw ts1 = TName v :: ts2 ->
  maybe_newline vc ts2 ts3 -> for_run ws cs ts3 ts4 -> (exists r, keyword DO ts4 r) -> do_run b ts4 ts5 ->
  redirects_run B fuel K rs ts5 rest ->
  compound_run (pu_for_command P (mkFF v vc ws cs b) rs) ts rest.
Proof.
  intros Hk E1 H2 H3 Hdo Hb Hr. exists KwFor. split; [apply (next_word FOR ts ts1 Hk); cbn; auto|].
  cbn [compound_command_kw].
  assert (X : runs (for_command B fuel K) (skipw ts) (mkFF v vc ws cs b) ts5).
  { unfold for_command. rstep.
    rcall ltac:(eapply runs_reserved_word; [now left|eapply keyword_skipw; [apply skipw_idem|exact Hk]]).
    rstep. rewrite E1. rstep. rstep. rstep. rcall ltac:(apply runs_newline; exact H2).
    match goal with |- context [for_words B fuel K ?p _] => destruct (H3 Hdo p) as (ns & mid & N1 & N2) end.
    rcall ltac:(apply runs_linebreak; exact N1). rcall ltac:(exact N2).
    destruct Hdo as [r Hdo].
    rcall ltac:(eapply runs_peek_word_yes; [now left|exact Hdo]).
    rcall ltac:(apply Hb; apply skipw_idem). apply runs_ret. }
  rcall ltac:(exact X). rcall ltac:(apply runs_redirect_list; exact Hr). apply runs_build_end, pu_for_command_ok.
Qed.

(** *** case *)
Definition patterns_run (ps : list (b_word B)) (ts rest : list token) : Prop :=
  ts <> [] /\ forall p n acc, runs (patterns_loop B fuel K p n acc) ts (acc ++ ps) rest.
Lemma word_run_nonempty k ts rest : word_run B fuel K k (skipw ts) rest -> ts <> [].
Proof. intros [H _] ->. exact H. Qed.
Lemma patterns_last k ts mid rest : word_run B fuel K k (skipw ts) mid -> skipw mid = TParenClose :: rest ->
  patterns_run [pu_word P k] ts rest.
Proof.
  intros H E. split; [eapply word_run_nonempty; exact H|]. intros p n acc. destruct n; [apply runs_fuel|].
  cbn [patterns_loop]. rcall ltac:(eapply runs_word; [exact H|reflexivity]). rewrite E. rstep. rstep. apply runs_ret.
Qed.
Lemma patterns_more k ts mid mid' ps rest : word_run B fuel K k (skipw ts) mid -> skipw mid = TPipe :: mid' ->
  patterns_run ps mid' rest -> patterns_run (pu_word P k :: ps) ts rest.
Proof.
  intros H E [_ H2]. split; [eapply word_run_nonempty; exact H|]. intros p n acc. destruct n; [apply runs_fuel|].
  cbn [patterns_loop]. rcall ltac:(eapply runs_word; [exact H|reflexivity]). rewrite E. rstep. rstep.
  match goal with |- runs _ _ (acc ++ ?x :: ps) _ =>
    replace (acc ++ x :: ps) with ((acc ++ [x]) ++ ps) by (now rewrite <- app_assoc) end. apply H2.
Qed.
Definition arms_run (arms : list (case_arm (b_word B) C)) (cs : list newline_) (ts rest : list token) : Prop :=
  forall p n acc, runs (arms_loop B fuel K p n acc) ts (acc ++ arms, cs) rest.
Lemma arms_end cs ts rest : newlines cs ts rest -> at_keyword [ESAC] rest -> arms_run [] cs ts rest.
Proof.
  intros H (k & r & Hi & Hk) p n acc. destruct n; [apply runs_fuel|]. cbn [arms_loop].
  destruct (newlines_rest _ _ _ H) as [_ E].
  rcall ltac:(apply runs_linebreak; exact H). rcall ltac:(eapply runs_peek_word_yes; [exact Hi|exact Hk]).
  rewrite E, app_nil_r. apply runs_ret.
Qed.
Lemma arms_start {D} (f : list (b_word B) -> prog D) ps p ts1 ts2 ts3 x rest :
  (ts1 = TParenOpen :: ts2 \/ (hd_error ts1 <> Some TParenOpen /\ ts1 = ts2)) ->
  patterns_run ps ts2 ts3 -> runs (f ps) ts3 x rest ->
  runs (eat_maybe TParenOpen ;;
        q <- peek ;;
        match q with
        | None => q <- getpos ;; throw (IncompleteCmd CASE p ESAC q)
        | Some _ => patterns <- patterns_loop B fuel K p fuel [] ;; f patterns
        end) ts1 x rest.
Proof.
  intros Hp [Hn H] Hf.
  assert (X : runs (q <- peek ;;
        match q with
        | None => q <- getpos ;; throw (IncompleteCmd CASE p ESAC q)
        | Some _ => patterns <- patterns_loop B fuel K p fuel [] ;; f patterns
        end) ts2 x rest).
  { rstep. destruct ts2 as [|t ts2]; [congruence|]. cbn [hd_error]. rcall ltac:(apply H). exact Hf. }
  destruct Hp as [-> |[Hp ->]].
  - apply runs_eat_maybe_yes. exact X.
  - apply runs_eat_maybe_no; [exact Hp|]. exact X.
Qed.
Lemma arms_arm pre ps pc b ac arms cs ts ts1 ts2 ts3 ts4 ts5 ts6 rest :
  newlines pre ts ts1 -> ~ at_keyword [ESAC] ts1 ->
  (ts1 = TParenOpen :: ts2 \/ (hd_error ts1 <> Some TParenOpen /\ ts1 = ts2)) ->
  patterns_run ps ts2 ts3 -> maybe_newline pc ts3 ts4 ->
  runs (k_group K (mkDelims [] [ESAC] [TDSemi])) ts4 b (TDSemi :: ts5) ->
  maybe_newline ac ts5 ts6 -> arms_run arms cs ts6 rest ->
  arms_run (mkCA (mkCP pre ps pc) b ac :: arms) cs ts rest.
Proof.
  intros H1 He Hp H2 H3 H4 H5 H6 p n acc. destruct n; [apply runs_fuel|]. cbn [arms_loop].
  destruct (newlines_rest _ _ _ H1) as [_ E].
  rcall ltac:(apply runs_linebreak; exact H1). rcall ltac:(eapply runs_peek_word_no; [discriminate|exact He]).
  rewrite E. eapply arms_start; [exact Hp|exact H2|].
  rcall ltac:(apply runs_newline; exact H3). rcall ltac:(exact H4). rstep.
  rcall ltac:(apply runs_newline; exact H5).
  match goal with |- runs _ _ (acc ++ ?x :: arms, _) _ =>
    replace (acc ++ x :: arms) with ((acc ++ [x]) ++ arms) by (now rewrite <- app_assoc) end. apply H6.
Qed.
Lemma arms_last pre ps pc b ts ts1 ts2 ts3 ts4 rest :
  newlines pre ts ts1 -> ~ at_keyword [ESAC] ts1 ->
  (ts1 = TParenOpen :: ts2 \/ (hd_error ts1 <> Some TParenOpen /\ ts1 = ts2)) ->
  patterns_run ps ts2 ts3 -> maybe_newline pc ts3 ts4 ->
  runs (k_group K (mkDelims [] [ESAC] [TDSemi])) ts4 b rest -> at_keyword [ESAC] rest ->
  arms_run [mkCA (mkCP pre ps pc) b None] [] ts rest.
Proof.
  intros H1 He Hp H2 H3 H4 H5 p n acc. destruct n; [apply runs_fuel|]. cbn [arms_loop].
  destruct (newlines_rest _ _ _ H1) as [_ E].
  rcall ltac:(apply runs_linebreak; exact H1). rcall ltac:(eapply runs_peek_word_no; [discriminate|exact He]).
  rewrite E. eapply arms_start; [exact Hp|exact H2|].
  rcall ltac:(apply runs_newline; exact H3). rcall ltac:(exact H4). apply runs_eat_maybe_no; [|apply runs_ret].
  intros X. destruct rest as [|t rest]; [discriminate|]. injection X as ->.
  revert H5. eapply not_keyword_tok; reflexivity.
Qed.
Lemma newlines_at_keyword ks ts : at_keyword ks ts -> newlines [] ts (skipw ts).
Proof.
  intros (k & r & _ & H). constructor. destruct H as [? ? H|? ? H]; rewrite H; split; discriminate.
Qed.
Lemma compound_case k cs ic arms ac ts ts1 ts2 ts3 ts4 ts5 ts6 ts7 rs rest : keyword CASE ts ts1 ->
  word_run B fuel K k (skipw ts1) ts2 -> newlines cs ts2 ts3 -> keyword IN ts3 ts4 ->
  maybe_newline ic ts4 ts5 -> arms_run arms ac ts5 ts6 -> keyword ESAC ts6 ts7 -> redirects_run B fuel K rs ts7 rest ->
  compound_run (pu_case_command P (mkCF (pu_word P k) cs ic arms ac) rs) ts rest.
Proof.
  intros Hk Hw H2 H3 H4 H5 H6 Hr. exists KwCase. split; [apply (next_word CASE ts ts1 Hk); cbn; auto|].
  cbn [compound_command_kw].
  assert (X : runs (case_command B fuel K) (skipw ts) (mkCF (pu_word P k) cs ic arms ac) ts7).
  { unfold case_command. rstep.
    rcall ltac:(eapply runs_reserved_word; [now left|eapply keyword_skipw; [apply skipw_idem|exact Hk]]).
    rcall ltac:(eapply runs_word; [exact Hw|reflexivity]).
    rcall ltac:(apply runs_linebreak; eapply newlines_skipw; [apply skipw_idem|exact H2]).
    rcall ltac:(eapply runs_reserved_word; [now left|exact H3]).
    rcall ltac:(apply runs_newline; exact H4). rcall ltac:(apply (H5 _ fuel [])).
    rcall ltac:(apply runs_linebreak; eapply (newlines_at_keyword [ESAC]); eexists _, _; split; [now left|exact H6]).
    rcall ltac:(eapply runs_reserved_word; [now left|eapply keyword_skipw; [apply skipw_idem|exact H6]]).
    rewrite app_nil_r. apply runs_ret. }
  rcall ltac:(exact X). rcall ltac:(apply runs_redirect_list; exact Hr). apply runs_build_end, pu_case_command_ok.
Qed.

(** *** Functions *)
Definition body_run (ns : list newline_) (c : b_compound B) (ts rest : list token) : Prop :=
  exists mid, newlines ns ts mid /\ compound_run c mid rest.
Lemma runs_fn_body ns c ts rest ts0 : body_run ns c ts rest -> skipw ts0 = skipw ts ->
  forall v : str, runs (lb <- linebreak fuel ;; c <- compound_command B fuel K ;; ret (v, lb, c)) ts0 (v, ns, c) rest.
Proof.
  intros (mid & H1 & H2) E v. rcall ltac:(apply runs_linebreak; eapply newlines_skipw; [exact E|exact H1]).
  rcall ltac:(eapply runs_compound_command; [exact H2|reflexivity]). apply runs_ret.
Qed.
(** [function name ...] *)
Lemma function_keyword v ns c ts ts0 ts1 rest body mid : keyword FUNCTION ts ts0 ->
  skipw ts0 = TName v :: ts1 ->
  runs (function_parens B fuel K true) ts1 body mid ->
  runs (match body with
          | Some c => ret (v, [], c)
          | None =>
              lb <- linebreak fuel ;;
              c <- compound_command B fuel K ;;
              ret (v, lb, c)
          end) mid (v, ns, c) rest ->
  runs (function_declaration B fuel K) (skipw ts) (pu_function_declaration P v ns c) rest.
Proof.
  intros Hk E H1 H2. unfold function_declaration, function_declaration_internal. rstep.
  rcall ltac:(eapply runs_peek_word_yes; [now left|eapply keyword_skipw; [apply skipw_idem|exact Hk]]).
  rewrite skipw_idem. rstep. rstep. rstep. 
  replace (tl (skipw ts)) with ts0 by (destruct (keyword_rest _ _ _ Hk) as [-> | ->]; reflexivity).
  rstep. rstep. rstep. rewrite E. rstep. rstep. rstep. rstep. rstep. rstep.
  rstep. rcall ltac:(exact H1). rcall ltac:(exact H2). apply runs_build_end, pu_function_declaration_ok.
Qed.
(** [name ...] *)
Lemma function_name v ns c ts ts1 rest body mid : ~ at_keyword [FUNCTION] ts -> ts = TName v :: ts1 ->
  runs (function_parens B fuel K false) ts1 body mid ->
  runs (match body with
          | Some c => ret (v, [], c)
          | None =>
              lb <- linebreak fuel ;;
              c <- compound_command B fuel K ;;
              ret (v, lb, c)
          end) mid (v, ns, c) rest ->
  runs (function_declaration B fuel K) ts (pu_function_declaration P v ns c) rest.
Proof.
  intros Hk -> H1 H2. unfold function_declaration, function_declaration_internal. rstep.
  rcall ltac:(eapply runs_peek_word_no; [discriminate|exact Hk]).
  rewrite skipw_solid by reflexivity. rstep. rstep. 
  rstep. rstep. rstep. rewrite skipw_solid by reflexivity. repeat rstep.
  rcall ltac:(exact H1). rcall ltac:(exact H2). apply runs_build_end, pu_function_declaration_ok.
Qed.
Lemma parens_parens found ts2 ts3 : skipw ts2 = TParenClose :: ts3 ->
  runs (function_parens B fuel K found) (TParenOpen :: ts2) None ts3.
Proof.
  intros E. unfold function_parens. rstep. change (otoken_eqb (Some TParenOpen) (Some TParenOpen)) with true. cbv match.
  rstep. rstep. rewrite E. rstep. apply runs_ret.
Qed.
Lemma parens_blank_parens w ts2 ts3 : skipw ts2 = TParenClose :: ts3 ->
  runs (function_parens B fuel K false) (TWhitespace w :: TParenOpen :: ts2) None ts3.
Proof.
  intros E. unfold function_parens. rstep.
  change (otoken_eqb (Some (TWhitespace w)) (Some TParenOpen)) with false. cbn [andb]. cbv match.
  rstep. rstep. rstep. rstep. rewrite skipw_solid by reflexivity. cbn [negb]. cbv match.
  rstep. rstep. rewrite E. rstep. apply runs_ret.
Qed.
Lemma parens_newline ts1 : hd_error ts1 = Some TNewline -> runs (function_parens B fuel K true) ts1 None ts1.
Proof.
  intros E. unfold function_parens. rstep. rewrite E.
  change (otoken_eqb (Some TNewline) (Some TParenOpen)) with false.
  change (true && otoken_eqb (Some TNewline) (Some TNewline)) with true. cbv match. apply runs_ret.
Qed.
Lemma parens_word w ts2 : hd_error (skipw ts2) <> Some TParenOpen ->
  runs (function_parens B fuel K true) (TWhitespace w :: ts2) None (skipw ts2).
Proof.
  intros E. unfold function_parens. rstep.
  change (otoken_eqb (Some (TWhitespace w)) (Some TParenOpen)) with false.
  change (true && otoken_eqb (Some (TWhitespace w)) (Some TNewline)) with false. cbv match.
  rstep. rstep. rstep. rstep. cbn [negb]. cbv match. rstep.
  destruct (otoken_eqb_spec (hd_error (skipw ts2)) (Some TParenOpen)); [contradiction|]. apply runs_ret.
Qed.
Lemma parens_subshell w ts1 ts2 g rest : skipw ts1 = TParenOpen :: ts2 ->
  runs (k_group K (mkDelims [] [] [TParenClose])) ts2 g (TParenClose :: rest) ->
  runs (function_parens B fuel K true) (TWhitespace w :: ts1)
    (if is_nil (commands g) && is_nil (trailing_comments g) then None else Some (pu_subshell P g [])) rest.
Proof.
  intros E H. unfold function_parens. rstep.
  change (otoken_eqb (Some (TWhitespace w)) (Some TParenOpen)) with false.
  change (true && otoken_eqb (Some (TWhitespace w)) (Some TNewline)) with false. cbv match.
  rstep. rstep. rstep. rstep. rewrite E. cbn [negb]. cbv match. rstep.
  change (otoken_eqb (Some TParenOpen) (Some TParenOpen)) with true. cbv match.
  rcall ltac:(apply runs_subshell_internal; [exact H|now left]).
  destruct (is_nil (commands g) && is_nil (trailing_comments g)); [apply runs_ret|].
  eapply runs_build; [apply pu_subshell_ok|apply runs_ret].
Qed.

(** *** Commands *)
Definition command_run (c : b_pipeable B) (ts rest : list token) : Prop :=
  skipw ts = ts -> forall ts0, skipw ts0 = ts -> runs (command B fuel K) ts0 c rest.
Lemma command_compound c ts rest : compound_run c ts rest -> command_run (pu_into_pipeable P c) ts rest.
Proof.
  intros (kw & H1 & H2) Es ts0 E. unfold command. rcall ltac:(apply H1; now rewrite Es).
  rcall ltac:(exact H2). apply runs_build_end, pu_into_pipeable_ok.
Qed.
Lemma not_function ts : ~ at_function ts -> look function_try ts = false.
Proof.
  intros H. unfold function_try. destruct ts as [|t ts]; [reflexivity|]. destruct t; try reflexivity.
  cbn [look hd_error tl]. destruct ts as [|t ts]; [reflexivity|]. cbn in H. destruct t; try reflexivity.
  - exfalso. now apply H.
  - cbn [look hd_error tl]. destruct ts as [|t ts]; [reflexivity|]. destruct t; try reflexivity. exfalso. now apply H.
Qed.
Lemma command_simple vars args ts rest : simple_run B fuel K vars args ts rest -> (vars <> [] \/ args <> []) ->
  ~ at_compound ts -> ~ at_function ts -> ~ at_keyword [FUNCTION] ts ->
  command_run (pu_simple_command P vars args) ts rest.
Proof.
  intros H Hn Hc Hf Hk Es ts0 E. unfold command. rcall ltac:(apply (next_none ts Es Hc); now rewrite Es).
  unfold maybe_function_declaration. rstep. rcall ltac:(apply runs_peek_word_no; [discriminate|]).
  { rewrite Es. exact Hk. }
  rewrite Es, Es. rstep. rstep. rewrite not_function by exact Hf. rstep.
  eapply runs_simple_command; [exact H|reflexivity|exact Hn].
Qed.
Lemma command_function_keyword ts ts1 c rest : keyword FUNCTION ts ts1 ->
  runs (function_declaration B fuel K) (skipw ts) c rest -> command_run c ts rest.
Proof.
  intros Hk H Es ts0 E. unfold command.
  rcall ltac:(apply (next_none ts Es (function_not_compound _ _ Hk Es)); now rewrite Es).
  unfold maybe_function_declaration. rstep.
  rcall ltac:(eapply runs_peek_word_yes; [now left|eapply keyword_skipw; [apply skipw_idem|exact Hk]]).
  rewrite skipw_idem. rstep. rcall ltac:(exact H). rstep. apply runs_ret.
Qed.
Lemma command_function_name ts c rest : ~ at_compound ts -> ~ at_keyword [FUNCTION] ts -> at_function ts ->
  runs (function_declaration B fuel K) ts c rest -> command_run c ts rest.
Proof.
  intros Hc Hk Hf H Es ts0 E. unfold command. rcall ltac:(apply (next_none ts Es Hc); now rewrite Es).
  unfold maybe_function_declaration. rstep. rcall ltac:(apply runs_peek_word_no; [discriminate|]).
  { rewrite Es. exact Hk. }
  rewrite Es, Es. rstep. rstep. replace (look function_try ts) with true.
  - rstep. rcall ltac:(exact H). rstep. apply runs_ret.
  - unfold at_function in Hf. destruct ts as [|t ts]; [contradiction|]. destruct t; try contradiction.
    destruct ts as [|t ts]; [contradiction|]. destruct t; try contradiction; [reflexivity|].
    destruct ts as [|t ts]; [contradiction|]. destruct t; try contradiction; reflexivity.
Qed.

(** *** Pipelines and lists *)
Definition pipe_run (cs : list (list newline_ * b_pipeable B)) (ts rest : list token) : Prop :=
  cs <> [] /\ forall n acc, runs (pipeline_loop B fuel K n acc) ts (acc ++ cs) rest.
Lemma pipe_last c ts rest : command_run c (skipw ts) rest -> hd_error ts <> Some TBang ->
  hd_error rest <> Some TPipe -> pipe_run [([], c)] ts rest.
Proof.
  intros H Hb Hp. split; [discriminate|]. intros n acc. destruct n; [apply runs_fuel|]. cbn [pipeline_loop]. rstep.
  destruct (otoken_eqb_spec (hd_error ts) (Some TBang)); [contradiction|].
  rcall ltac:(apply H; [apply skipw_idem|reflexivity]). apply runs_eat_maybe_no; [exact Hp|]. apply runs_ret.
Qed.
Lemma pipe_more c ns cs ts mid mid' rest : command_run c (skipw ts) (TPipe :: mid) -> hd_error ts <> Some TBang ->
  newlines ns mid mid' -> pipe_run cs mid' rest -> pipe_run ((ns, c) :: cs) ts rest.
Proof.
  intros H Hb Hn [_ H2]. split; [discriminate|]. intros n acc. destruct n; [apply runs_fuel|]. cbn [pipeline_loop]. rstep.
  destruct (otoken_eqb_spec (hd_error ts) (Some TBang)); [contradiction|].
  rcall ltac:(apply H; [apply skipw_idem|reflexivity]). rstep. rcall ltac:(apply runs_linebreak; exact Hn).
  match goal with |- runs _ _ (acc ++ ?x :: cs) _ =>
    replace (acc ++ x :: cs) with ((acc ++ [x]) ++ cs) by (now rewrite <- app_assoc) end. apply H2.
Qed.
Definition pipeline_run (p : b_listable B) (ts rest : list token) : Prop :=
  forall ts0, skipw ts0 = skipw ts -> runs (pipeline B fuel K) ts0 p rest.
Lemma pipeline_plain cs ts rest : hd_error (skipw ts) <> Some TBang -> pipe_run cs (skipw ts) rest ->
  pipeline_run (pu_pipeline P false cs) ts rest.
Proof.
  intros Hb [Hn H] ts0 E. unfold pipeline. rstep. rewrite E. apply runs_eat_maybe_no; [exact Hb|].
  rcall ltac:(apply (H fuel [])). apply runs_build_end. intros b. now apply pu_pipeline_ok.
Qed.
Lemma pipeline_bang cs ts mid rest : skipw ts = TBang :: mid -> pipe_run cs mid rest ->
  pipeline_run (pu_pipeline P true cs) ts rest.
Proof.
  intros Hb [Hn H] ts0 E. unfold pipeline. rstep. rewrite E, Hb. rstep.
  rcall ltac:(apply (H fuel [])). apply runs_build_end. intros b. now apply pu_pipeline_ok.
Qed.
Definition and_or_run (l : list (list newline_ * and_or (b_listable B))) (ts rest : list token) : Prop :=
  forall n acc, runs (and_or_loop B fuel K n acc) ts (acc ++ l) rest.
Lemma and_or_end ts : hd_error (skipw ts) <> Some TAndIf -> hd_error (skipw ts) <> Some TOrIf ->
  and_or_run [] ts (skipw ts).
Proof.
  intros H1 H2 n acc. destruct n; [apply runs_fuel|]. cbn [and_or_loop]. rstep. rstep. rewrite app_nil_r.
  destruct (skipw ts) as [|t r]; [apply runs_ret|]. cbn in *. destruct t; try apply runs_ret; congruence.
Qed.
Lemma and_or_and p ns l ts ts1 ts2 ts3 rest : skipw ts = TAndIf :: ts1 -> newlines ns ts1 ts2 ->
  pipeline_run p ts2 ts3 -> and_or_run l ts3 rest -> and_or_run ((ns, And p) :: l) ts rest.
Proof.
  intros E H1 H2 H3 n acc. destruct n; [apply runs_fuel|]. cbn [and_or_loop]. rstep. rewrite E. rstep. rstep.
  rcall ltac:(apply runs_linebreak; exact H1). rcall ltac:(apply H2; reflexivity).
  match goal with |- runs _ _ (acc ++ ?x :: l) _ =>
    replace (acc ++ x :: l) with ((acc ++ [x]) ++ l) by (now rewrite <- app_assoc) end. apply H3.
Qed.
Lemma and_or_or p ns l ts ts1 ts2 ts3 rest : skipw ts = TOrIf :: ts1 -> newlines ns ts1 ts2 ->
  pipeline_run p ts2 ts3 -> and_or_run l ts3 rest -> and_or_run ((ns, Or p) :: l) ts rest.
Proof.
  intros E H1 H2 H3 n acc. destruct n; [apply runs_fuel|]. cbn [and_or_loop]. rstep. rewrite E. rstep. rstep.
  rcall ltac:(apply runs_linebreak; exact H1). rcall ltac:(apply H2; reflexivity).
  match goal with |- runs _ _ (acc ++ ?x :: l) _ =>
    replace (acc ++ x :: l) with ((acc ++ [x]) ++ l) by (now rewrite <- app_assoc) end. apply H3.
Qed.
Definition list_run (l : b_list B) (ts rest : list token) : Prop := runs (and_or_list B fuel K) ts l rest.
Lemma list_list p l ts mid rest : pipeline_run p ts mid -> and_or_run l mid rest ->
  list_run (pu_and_or_list P p l) ts rest.
Proof.
  intros H1 H2. unfold list_run, and_or_list. rcall ltac:(apply H1; reflexivity). rcall ltac:(apply (H2 fuel [])).
  apply runs_build_end, pu_and_or_list_ok.
Qed.
Definition complete_run (ns : list newline_) (c : C) (ts rest : list token) : Prop :=
  runs (complete_command_with_leading_comments B fuel K ns) ts c rest.
Lemma complete_semi ns l nl ts mid rest : list_run l ts (TSemi :: mid) -> maybe_newline nl mid rest ->
  complete_run ns (pu_complete_command P ns l SepSemi nl) ts rest.
Proof.
  intros H1 H2. unfold complete_run, complete_command_with_leading_comments. rcall ltac:(exact H1). rstep. rstep. rstep. rstep.
  rcall ltac:(apply runs_newline; exact H2). rstep. apply runs_build_end, pu_complete_command_ok.
Qed.
Lemma complete_amp ns l nl ts mid rest : list_run l ts (TAmp :: mid) -> maybe_newline nl mid rest ->
  complete_run ns (pu_complete_command P ns l SepAmp nl) ts rest.
Proof.
  intros H1 H2. unfold complete_run, complete_command_with_leading_comments. rcall ltac:(exact H1). rstep. rstep. rstep. rstep.
  rcall ltac:(apply runs_newline; exact H2). rstep. apply runs_build_end, pu_complete_command_ok.
Qed.
Lemma complete_other ns l nl ts mid rest : list_run l ts mid ->
  hd_error mid <> Some TSemi -> hd_error mid <> Some TAmp -> maybe_newline nl mid rest ->
  complete_run ns (pu_complete_command P ns l (match nl with Some _ => SepNewline | None => SepOther end) nl) ts rest.
Proof.
  intros H1 Hs Ha H2. unfold complete_run, complete_command_with_leading_comments. rcall ltac:(exact H1). rstep.
  assert (X : forall D (f : sep_kind * option newline_ -> prog D) x r, 
    runs (f (match nl with Some _ => SepNewline | None => SepOther end, nl)) rest x r ->
    runs (q <- (n <- newline fuel ;; ret (match n with Some _ => SepNewline | None => SepOther end, n)) ;; f q) mid x r).
  { intros D f x r H. rstep. rcall ltac:(apply runs_newline; exact H2). rstep. exact H. }
  assert (Y : runs (build (o_complete_command B ns l (match nl with Some _ => SepNewline | None => SepOther end) nl))
     rest (pu_complete_command P ns l (match nl with Some _ => SepNewline | None => SepOther end) nl) rest)
    by apply runs_build_end, pu_complete_command_ok.
  destruct mid as [|t mid]; [apply X; exact Y|]. cbn in Hs, Ha.
  destruct t; try (apply X; exact Y); congruence.
Qed.

(** *** Groups *)
Definition plain_token (t : token) : Prop := solid t = true /\ t <> TNewline /\ t <> TPound.
Definition plain (cfg : delimiters) : Prop :=
  Forall plain_token (reserved_tokens cfg) /\ Forall plain_token (exact_tokens cfg).
Lemma plain_solid l : Forall plain_token l -> Forall (fun t => solid t = true) l.
Proof. apply Forall_impl. now intros t [H _]. Qed.
Lemma found_exact cfg t ts : In t (exact_tokens cfg) -> runs (found_delim B fuel cfg) (t :: ts) true (t :: ts).
Proof.
  intros H. unfold found_delim. destruct (exact_tokens cfg) as [|x xs] eqn:E; [contradiction|]. rstep. rstep. rstep.
  replace (existsb _ _) with true.
  - apply runs_ret.
  - symmetry. apply existsb_exists. exists t. split; [exact H|]. cbn. apply token_eqb_refl.
Qed.
Definition at_delim (cfg : delimiters) (ts : list token) : Prop :=
  (exists t rest, ts = t :: rest /\ In t (exact_tokens cfg)) \/
  at_keyword (reserved_words cfg) ts \/ at_token (reserved_tokens cfg) ts.
Lemma found_no cfg ts : plain cfg -> ~ at_delim cfg ts ->
  exists ts', skipw ts' = skipw ts /\ (skipw ts = ts -> ts' = ts) /\ runs (found_delim B fuel cfg) ts false ts'.
Proof.
  intros [Hp _] Hn. unfold found_delim.
  assert (X : forall D (f : bool -> prog D) x r, runs (f false) ts x r -> 
     runs (found_exact <- (match exact_tokens cfg with
                  | [] => ret false
                  | ts => p <- peek ;; ret (existsb (fun t => otoken_eqb (Some t) p) ts)
                  end) ;; f found_exact) ts x r).
  { intros D f x r H. destruct (exact_tokens cfg) as [|y ys] eqn:E; [exact H|]. rstep. rstep. rstep.
    replace (existsb _ _) with false; [exact H|]. symmetry. apply not_true_iff_false. intros He.
    apply existsb_exists in He as (t & Hi & Ht). apply Hn. left.
    destruct (otoken_eqb_spec (Some t) (hd_error ts)) as [Eh|]; [|discriminate].
    destruct ts as [|t' ts]; [discriminate|]. injection Eh as <-. exists t, ts. split; [reflexivity|]. now rewrite E. }
  assert (Y : exists ts1, skipw ts1 = skipw ts /\ (skipw ts = ts -> ts1 = ts) /\ runs (peek_reserved_word fuel (reserved_words cfg) : prog _) ts None ts1).
  { destruct (reserved_words cfg) as [|w ws] eqn:E.
    - exists ts. split; [reflexivity|]. split; [reflexivity|]. apply runs_ret.
    - exists (skipw ts). split; [apply skipw_idem|]. split; [auto|]. apply runs_peek_word_no; [discriminate|].
      intros H. apply Hn. right; left. now rewrite E. }
  destruct Y as (ts1 & E1 & E1' & Y).
  assert (Z : exists ts2, skipw ts2 = skipw ts /\ (skipw ts = ts -> ts2 = ts) /\ runs (peek_reserved_token fuel (reserved_tokens cfg) : prog _) ts1 None ts2).
  { destruct (reserved_tokens cfg) as [|w ws] eqn:E.
    - exists ts1. split; [exact E1|]. split; [exact E1'|]. apply runs_ret.
    - exists (skipw ts1). split; [now rewrite skipw_idem|]. split; [intros; congruence|].
      apply runs_peek_token_no; [discriminate|now apply plain_solid|].
      intros H. apply Hn. right; right. rewrite E. eapply at_token_skipw; [|exact H]. now rewrite E1. }
  destruct Z as (ts2 & E2 & E2' & Z). exists ts2. split; [exact E2|]. split; [exact E2'|].
  apply X. rcall ltac:(exact Y). rcall ltac:(exact Z). apply runs_ret.
Qed.
Lemma at_keyword_dec ks ts : at_keyword ks ts \/ ~ at_keyword ks ts.
Proof.
  destruct (look (reserved_word_try (ks)) (skipw ts)) as [k|] eqn:E.
    - left. unfold reserved_word_try in E. destruct (skipw ts) as [|t r] eqn:Es; [discriminate|]. cbn [look hd_error tl] in E.
      destruct (match r with [] => true | d :: _ => is_word_delimiter d end) eqn:Ed.
      + assert (Dr : delimited r) by (destruct r; [exact I|exact Ed]).
        assert (F : exists s, (t = TName s \/ t = TLiteral s) /\ In s (ks)).
        { assert (E' : match t with TName kw | TLiteral kw => find (fun w => str_eqb w kw) (ks) | _ => None end = Some k).
          { destruct r as [|t2 r]; cbn in E, Ed; [|rewrite Ed in E]; exact E. }
          destruct t; try discriminate; exists s; (split; [auto|]);
          apply find_some in E' as [E1 E2]; (destruct (str_eqb_spec k s); [now subst|discriminate]). }
        destruct F as (s & [-> | ->] & Hi); exists s, r; split; auto; [now apply kw_name|now apply kw_literal].
      + destruct r as [|t2 r]; [discriminate|]. cbn in E. rewrite Ed in E. discriminate.
    - right. intros (k & r & Hi & Hk). rewrite (look_rw_yes _ _ _ _ Hi Hk) in E. discriminate.
Qed.
Lemma found_yes cfg ts : plain cfg -> at_delim cfg ts ->
  runs (found_delim B fuel cfg) ts true (skipw ts).
Proof.
  intros [Hp Hp2] H. destruct (in_dec token_dec (hd TNewline ts) (exact_tokens cfg)) as [Hi|Hi].
  { destruct ts as [|t ts].
    - (* no token: cannot be at a delimiter *)
      exfalso. destruct H as [(t & r & E & _)|[(k & r & _ & Hk)|(t & r & _ & E & _)]].
      + discriminate E.
      + inversion Hk as [? ? Hk2|? ? Hk2]; discriminate Hk2.
      + discriminate E.
    - cbn in Hi. rewrite skipw_solid by (now apply (proj1 (Forall_forall _ _) Hp2)). now apply found_exact. }
  unfold found_delim.
  assert (X : forall D (f : bool -> prog D) x r, runs (f false) ts x r -> 
     runs (found_exact <- (match exact_tokens cfg with
                  | [] => ret false
                  | ts => p <- peek ;; ret (existsb (fun t => otoken_eqb (Some t) p) ts)
                  end) ;; f found_exact) ts x r).
  { intros D f x r Hf. destruct (exact_tokens cfg) as [|y ys] eqn:E; [exact Hf|]. rstep. rstep. rstep.
    replace (existsb _ _) with false; [exact Hf|]. symmetry. apply not_true_iff_false. intros He.
    apply existsb_exists in He as (t & Hi' & Ht). 
    destruct (otoken_eqb_spec (Some t) (hd_error ts)) as [Eh|]; [|discriminate].
    destruct ts as [|t' ts]; [discriminate|]. injection Eh as <-. now apply Hi. }
  pose proof (at_keyword_dec (reserved_words cfg) ts) as D.
  destruct D as [D|D].
  - destruct D as (k & r & Hk1 & Hk2). apply X.
    rcall ltac:(eapply runs_peek_word_yes; [exact Hk1|exact Hk2]). apply runs_ret.
  - destruct H as [(t & r & -> & H)|[H|(t & r & Hi' & E & Hd)]]; [contradiction|contradiction|].
    apply X.
    assert (Y : exists ts1, skipw ts1 = skipw ts /\ runs (peek_reserved_word fuel (reserved_words cfg) : prog _) ts None ts1).
    { destruct (reserved_words cfg) as [|w ws] eqn:Ew.
      - exists ts. split; [reflexivity|]. apply runs_ret.
      - exists (skipw ts). split; [apply skipw_idem|]. apply runs_peek_word_no; [discriminate|exact D]. }
    destruct Y as (ts1 & E1 & Y). rcall ltac:(exact Y). 
    rcall ltac:(eapply runs_peek_token_yes; [exact Hi'|now apply plain_solid|rewrite E1; exact E|exact Hd]).
    rewrite E. apply runs_ret.
Qed.
Definition group_run (cfg : delimiters) (g : cgroup C) (ts rest : list token) : Prop :=
  plain cfg -> forall n cmds, 
    runs (command_group_loop B fuel K cfg n cmds) ts (mkCG (cmds ++ commands g) (trailing_comments g)) rest.
(** A delimiter is no newline and is not skipped. *)
Lemma at_delim_newlines cfg ns ts rest : plain cfg -> at_delim cfg ts -> newlines ns ts rest ->
  ns = [] /\ rest = skipw ts /\ at_delim cfg (skipw ts).
Proof.
  intros [Hp1 Hp2] H Hn.
  assert (Hs : no_newline (skipw ts) /\ at_delim cfg (skipw ts)).
  { destruct H as [(t & r & -> & Hi)|[H|H]].
    - pose proof (proj1 (Forall_forall _ _) Hp2 t Hi) as (T1 & T2 & T3). rewrite skipw_solid by exact T1.
      split; [|left; eauto]. split; cbn; congruence.
    - split; [|right; left; eapply at_keyword_skipw; [apply skipw_idem|exact H]].
      destruct H as (k & r & _ & Hk). destruct Hk as [? ? E|? ? E]; rewrite E; split; discriminate.
    - split; [|right; right; eapply at_token_skipw; [apply skipw_idem|exact H]].
      destruct H as (t & r & Hi & E & _). pose proof (proj1 (Forall_forall _ _) Hp1 t Hi) as (T1 & T2 & T3).
      rewrite E. split; cbn; congruence. }
  destruct (newlines_nil _ _ _ Hn (proj1 Hs)) as [-> ->]. repeat split. apply Hs.
Qed.
Lemma at_delim_dec cfg ts : plain cfg -> at_delim cfg ts \/ ~ at_delim cfg ts.
Proof.
  (* decided by the look-ahead itself *)
  intros [Hp _].
  assert (D1 : (exists t rest, ts = t :: rest /\ In t (exact_tokens cfg)) \/ ~ (exists t rest, ts = t :: rest /\ In t (exact_tokens cfg))).
  { destruct ts as [|t ts]; [right; intros (? & ? & ? & _); discriminate|].
    destruct (in_dec token_dec t (exact_tokens cfg)); [left; eauto|right; intros (? & ? & E & ?); injection E as -> ->; contradiction]. }
  pose proof (at_keyword_dec (reserved_words cfg) ts) as D2.
  assert (D3 : at_token (reserved_tokens cfg) ts \/ ~ at_token (reserved_tokens cfg) ts).
  { unfold at_token. destruct (skipw ts) as [|t r]; [right; intros (? & ? & _ & ? & _); discriminate|].
    destruct (in_dec token_dec t (reserved_tokens cfg)); [|right; intros (? & ? & ? & E & _); injection E as -> ->; contradiction].
    destruct (match r with [] => true | d :: _ => is_word_delimiter d end) eqn:Ed.
    - left. exists t, r. repeat split; auto. destruct r; [exact I|exact Ed].
    - right. intros (? & ? & ? & E & Hd). injection E as -> ->. destruct x0; cbn in *; congruence. }
  unfold at_delim. tauto.
Qed.
Lemma group_end_run cfg ns ts rest : newlines ns ts rest -> group_end cfg rest -> group_run cfg (mkCG [] ns) ts rest.
Proof.
  intros Hn He Hp n cmds. cbn [commands trailing_comments]. rewrite app_nil_r.
  destruct n; [apply runs_fuel|]. cbn [command_group_loop].
  destruct (newlines_rest _ _ _ Hn) as [Hr Es].
  destruct (at_delim_dec cfg ts Hp) as [D|D].
  - destruct (at_delim_newlines _ _ _ _ Hp D Hn) as (-> & -> & _).
    rcall ltac:(apply (found_yes cfg ts Hp D)). apply runs_ret.
  - destruct (found_no cfg ts Hp D) as (ts' & E' & _ & F). rcall ltac:(exact F).
    rcall ltac:(apply runs_linebreak; eapply newlines_skipw; [exact E'|exact Hn]).
    destruct (at_delim_dec cfg rest Hp) as [D2|D2].
    + pose proof (found_yes cfg rest Hp D2) as F2. rewrite Es in F2. rcall ltac:(exact F2). rstep. apply runs_ret.
    + destruct (found_no cfg rest Hp D2) as (ts2 & _ & E2 & F2). rewrite (E2 Es) in F2. rcall ltac:(exact F2).
      destruct He as [-> |He]; [|contradiction]. rstep. rstep. rstep. apply runs_ret.
Qed.
Lemma group_command_run cfg ns c cs tr ts ts1 ts2 rest : newlines ns ts ts1 -> ~ group_end cfg ts1 ->
  complete_run ns c ts1 ts2 -> group_run cfg (mkCG cs tr) ts2 rest ->
  group_run cfg (mkCG (c :: cs) tr) ts rest.
Proof.
  intros Hn He Hc Hg Hp n cmds. cbn [commands trailing_comments] in *.
  destruct n; [apply runs_fuel|]. cbn [command_group_loop].
  destruct (newlines_rest _ _ _ Hn) as [Hr Es].
  assert (He1 : ~ at_delim cfg ts1) by (intros H; apply He; now right).
  assert (D : ~ at_delim cfg ts).
  { intros D. destruct (at_delim_newlines _ _ _ _ Hp D Hn) as (_ & -> & D'). contradiction. }
  destruct (found_no cfg ts Hp D) as (ts' & E' & _ & F). rcall ltac:(exact F).
  rcall ltac:(apply runs_linebreak; eapply newlines_skipw; [exact E'|exact Hn]).
  destruct (found_no cfg ts1 Hp He1) as (ts3 & _ & E2 & F2). rewrite (E2 Es) in F2. rcall ltac:(exact F2).
  rstep. rstep. destruct ts1 as [|t ts1]; [exfalso; apply He; now left|]. cbn [hd_error]. rstep.
  rcall ltac:(exact Hc).
  replace (cmds ++ c :: cs) with ((cmds ++ [c]) ++ cs) by (now rewrite <- app_assoc). apply (Hg Hp).
Qed.
End CompoundRuns.
