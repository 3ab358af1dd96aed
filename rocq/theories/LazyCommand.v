(** * Reading ahead: redirections, commands and every public method (C47) *)
From Verif Require Import Base Token Pos Ast Builder Prog Iter Located IterProofs RunLemmas ParserBase Balanced
  Arith Word Redirect Command Lazy LazyWord.

Lemma calm_assignment : calm assignment_try.
Proof. unfold assignment_try. calm_tac. Qed.
Lemma calm_function : calm function_try.
Proof. unfold function_try. calm_tac. Qed.

Section Rules.
Context {BS BE : Type}.
Notation prog := (prog BS BE).
Notation lz := (@lz BS BE _).
Lemma lz_peek_loose : lz Loose peek (fun a c' => match a with
  | Some t => t <> TNewline /\ plain_token t /\ c' = Head t \/ t = TNewline /\ c' = AtNL
  | None => c' = Neat end).
Proof. eapply lz_mono; [apply lz_peek|]. intros [t|] c' H; exists c'; (split; [apply le_refl|]); cbn in H; tauto. Qed.
(** What a calm look-ahead finds at a newline. *)
Lemma lz_look_nl {A} (m : mp A) : calm m -> lz AtNL (multipeek m) (fun r c => (exists ts, r = look m (TNewline :: ts)) /\ c = AtNL).
Proof.
  intros Hm s b Hs. pose proof (lz_multipeek_nl (BS := BS) (BE := BE) _ Hm s b Hs) as G.
  destruct (run_multipeek_look (BS := BS) (BE := BE) m s b) as (s' & E & _). rewrite E in *.
  destruct G as (c & -> & G). exists AtNL. split; [split; [|reflexivity]|exact G].
  destruct (holds_strip _ _ Hs) as (l & _ & [F1 _] & ->). destruct l as [|u l]; [discriminate|]. injection F1 as ->.
  eexists. reflexivity.
Qed.
Lemma loose_eat_maybe t : t <> TNewline ->
  lz Loose (eat_maybe t) (fun r c => c = Neat \/ (r = false /\ c = AtNL)).
Proof.
  intros Ht. apply lz_cases.
  - eapply lz_mono; [apply neat_eat_maybe|]. intros a c ->. exists Neat. auto with lazy.
  - unfold eat_maybe. lz_step. destruct (otoken_eqb _ _) eqn:E.
    + exfalso. cbn in E. destruct (token_eqb_spec TNewline t); congruence.
    + eapply lz_ret; [apply le_refl|auto].
Qed.
Lemma lz_build_rel {A} (f : BS -> (A + BE) * BS) c :
  lz c (build f) (fun a c' => c' = c /\ exists b b', f b = (inl a, b')).
Proof. intros s b Hs. cbn. destruct (f b) as [[a|e] b'] eqn:E; [|exact I]. exists c. eauto. Qed.
End Rules.
Ltac lz_stepl :=
  lazymatch goal with
  | |- Lazy.lz Loose (bind peek _) _ =>
      eapply lz_bind; [apply lz_peek_loose|];
      let t := fresh "t" in let c := fresh "c" in let H := fresh "Hp" in let N := fresh "N" in
      intros [t|] c H; [destruct H as [(N & H & ->) | [-> ->]]|subst c]; lz_red
  | |- _ => lz_step
  end.

Section Commands.
Variable B : builder.
Notation BS := (bst B). Notation BE := (b_err B).
Notation prog := (prog BS BE).
Notation lz := (@lz BS BE _).
Notation neat p := (lz Neat p QN).
Variable fuel : nat.
Variable K : knots BS BE (b_cmd B).
Hypothesis HK : k_neat K.
Let h1 := kn_group _ HK. Let h1' := kn_group_neat _ HK. Let h2 := kn_param _ HK.
Let h3 := neat_word_raw fuel K HK.
Let h4 := neat_backticked_raw fuel K.
Let h5 := neat_parameter_raw fuel K HK.
Let h6 := neat_subshell_internal K HK.
Let h7 := nl_word_raw fuel K.
Hint Resolve h1 h1' h2 h3 h4 h5 h6 h7 : lazy.

Lemma neat_word_ptw : neat (word_preserve_trailing_whitespace B fuel K).
Proof. unfold word_preserve_trailing_whitespace. repeat lz_step. Qed.
Hint Resolve neat_word_ptw : lazy.
Lemma neat_word : neat (word B fuel K).
Proof. unfold word. repeat lz_step. Qed.
Hint Resolve neat_word : lazy.
Lemma nl_word : lz AtNL (word B fuel K) (fun r c => r = None /\ c = AtNL).
Proof.
  unfold word, word_preserve_trailing_whitespace. eapply (lz_bind _ _ _ (fun r c => r = None /\ c = AtNL)).
  - eapply lz_bind; [apply h7|]. intros a c [-> ->]. eapply lz_ret; [apply le_refl|auto].
  - intros a c [-> ->]. lz_step. eapply lz_ret; [apply le_refl|auto].
Qed.
Lemma loose_word : lz Loose (word B fuel K) QM.
Proof.
  apply lz_cases.
  - eapply lz_mono; [apply neat_word|]. intros a c ->. exists Neat. split; [apply le_refl|now left].
  - eapply lz_mono; [apply nl_word|]. intros a c [-> ->]. exists Loose. split; [constructor|right; auto].
Qed.
Hint Resolve loose_word : lazy.
Lemma neat_bcs : neat (backticked_command_substitution B fuel K).
Proof. unfold backticked_command_substitution. repeat lz_step. Qed.
Lemma neat_parameter : neat (parameter B fuel K).
Proof. unfold parameter. repeat lz_step. Qed.
Lemma neat_get_path : neat (get_path B fuel K).
Proof. unfold get_path. repeat lz_step. Qed.
Lemma neat_get_dup_path : neat (get_dup_path B fuel K).
Proof.
  unfold get_dup_path. lz_step.
  eapply (lz_bind _ _ _ QN); [repeat lz_step|]. intros pth cc ->. repeat lz_step.
Qed.
Hint Resolve neat_get_path neat_get_dup_path : lazy.
Lemma neat_redirect_op op fd : neat (redirect_op B fuel K op fd).
Proof.
  unfold redirect_op. lz_step.
  eapply (lz_bind _ _ _ QN); [repeat lz_step|]. intros r cc ->. repeat lz_step.
Qed.
Hint Resolve neat_redirect_op : lazy.
Lemma neat_redirect_after fd w : neat (redirect_after B fuel K fd w).
Proof.
  unfold redirect_after. lz_step.
  - destruct Hp as [N1 N2]. destruct t; try solve [repeat lz_step]; congruence.
  - repeat lz_step.
Qed.
Hint Resolve neat_redirect_after : lazy.
Lemma neat_redirect : neat (redirect B fuel K).
Proof. unfold redirect. repeat lz_step. Qed.
Hint Resolve neat_redirect : lazy.
Lemma nl_redirect : lz AtNL (redirect B fuel K) (fun r c => r = None /\ c = AtNL).
Proof.
  unfold redirect. eapply lz_bind; [apply h7|]. intros a c [-> ->]. unfold redirect_after. lz_step. eapply lz_ret; [apply le_refl|auto].
Qed.
Lemma neat_redirect_list : neat (redirect_list B fuel K).
Proof.
  unfold redirect_list. assert (L : forall n acc, neat (redirect_list_loop B fuel K n acc)); [|apply L].
  intros n. induction n as [|n IH]; intros acc; [apply lz_fuel|]. cbn [redirect_list_loop]. repeat lz_step.
Qed.
Hint Resolve neat_redirect_list : lazy.

Lemma neat_vars_loop : forall n vars, neat (simple_vars_loop B fuel K n vars).
Proof.
  intros n. induction n as [|n IH]; intros vars; [apply lz_fuel|]. cbn [simple_vars_loop]. lz_step.
  lz_look calm_assignment. destruct x.
  - lz_step; [|apply lz_panic]. destruct t; try apply lz_panic. lz_step.
    + lz_step.
      * eapply (lz_bind _ _ _ QN); [repeat lz_step|]. intros v cc ->. repeat lz_step.
      * eapply (lz_bind _ _ _ QN); [repeat lz_step|]. intros v cc ->. repeat lz_step.
    + lz_step.
      * eapply (lz_bind _ _ _ QN); [repeat lz_step|]. intros v cc ->. repeat lz_step.
      * eapply (lz_bind _ _ _ QN); [repeat lz_step|]. intros v cc ->. repeat lz_step.
  - repeat lz_step.
Qed.
Hint Resolve neat_vars_loop : lazy.
Lemma neat_args_loop : forall n args, neat (simple_args_loop B fuel K n args).
Proof.
  intros n. induction n as [|n IH]; intros args; [apply lz_fuel|]. cbn [simple_args_loop]. repeat lz_step.
Qed.
Hint Resolve neat_args_loop : lazy.
Lemma neat_simple_command : neat (simple_command B fuel K).
Proof. unfold simple_command. repeat lz_step. Qed.
(** A newline is no command. *)
Lemma nl_simple_command : lz AtNL (simple_command B fuel K) (fun _ _ => False).
Proof.
  unfold simple_command.
  eapply (lz_bind _ _ _ (fun r c => r = ([], None) /\ c = AtNL)).
  - generalize fuel at 2 as n. intros [|n]; [apply lz_fuel|]. cbn [simple_vars_loop]. lz_step.
    eapply lz_bind; [apply lz_look_nl, calm_assignment|]. intros x c [[ts ->] ->]. cbn.
    eapply lz_bind; [apply nl_redirect|]. intros r c [-> ->]. eapply lz_ret; [apply le_refl|auto].
  - intros r c [-> ->]. eapply (lz_bind _ _ _ (fun r c => r = [] /\ c = AtNL)).
    + generalize fuel at 2 as n. intros [|n]; [apply lz_fuel|]. cbn [simple_args_loop].
      eapply lz_bind; [apply nl_redirect|]. intros r c [-> ->]. eapply lz_ret; [apply le_refl|auto].
    + intros a c [-> ->]. cbn. apply lz_unexpected.
Qed.
Lemma loose_simple_command : lz Loose (simple_command B fuel K) QN.
Proof.
  apply lz_cases; [apply neat_simple_command|]. eapply lz_mono; [apply nl_simple_command|]. intros ? ? [].
Qed.
Hint Resolve neat_simple_command loose_simple_command : lazy.
Lemma neat_command_group cfg : newline_free cfg -> neat (command_group B K cfg).
Proof. intros Hn. unfold command_group. repeat lz_step. Qed.
Hint Resolve neat_command_group : lazy.
Lemma neat_do_group : neat (do_group B fuel K).
Proof. unfold do_group. repeat lz_step. Qed.
Hint Resolve neat_do_group : lazy.
Lemma neat_brace_group : neat (brace_group B fuel K).
Proof.
  unfold brace_group. do 3 lz_step.
  eapply lz_bind; [apply neat_reserved_token_res; auto with lazy|]. intros r cc ->. repeat lz_step.
Qed.
Hint Resolve neat_brace_group : lazy.
Lemma neat_subshell : neat (subshell B K).
Proof. unfold subshell. repeat lz_step. Qed.
Hint Resolve neat_subshell : lazy.
Lemma neat_next_type : lz Neat (next_compound_command_type B fuel) QM.
Proof.
  unfold next_compound_command_type.
  assert (R : forall (x : option str) c, QM x c -> forall (f : option str -> option compound_kw), f None = None -> lz c (ret (f x)) QM).
  { intros x c [->|[-> ->]] f Hf; [eapply lz_ret; [apply le_refl|now left]|]. rewrite Hf. eapply lz_ret; [apply le_refl|right; auto]. }
  assert (G : neat (peek_reserved_token fuel [TCurlyOpen] : prog _)) by auto with lazy.
  lz_step. lz_step.
  - destruct (otoken_eqb _ _); [eapply lz_ret; [constructor|now left]|].
    eapply lz_bind; [eapply lz_le; [exact G|constructor]|]. intros cc c -> . destruct cc; [eapply lz_ret; [apply le_refl|now left]|].
    eapply lz_bind; [apply neat_peek_reserved_word|]. intros x c Hx. apply (R x c Hx (fun w => match w with Some w => _ | None => None end)). reflexivity.
  - cbn [otoken_eqb]. eapply lz_bind; [exact G|]. intros cc c -> . destruct cc; [eapply lz_ret; [apply le_refl|now left]|].
    eapply lz_bind; [apply neat_peek_reserved_word|]. intros x c Hx. apply (R x c Hx (fun w => match w with Some w => _ | None => None end)). reflexivity.
Qed.
Lemma nl_next_type : lz AtNL (next_compound_command_type B fuel) (fun r c => r = None /\ c = AtNL).
Proof.
  unfold next_compound_command_type. do 2 lz_step. cbn [otoken_eqb token_eqb].
  eapply lz_bind; [apply nl_peek_reserved_token; auto with lazy|]. intros cc c [-> ->].
  eapply lz_bind; [apply nl_peek_reserved_word|]. intros cc c [-> ->]. eapply lz_ret; [apply le_refl|auto].
Qed.
Lemma loose_next_type : lz Loose (next_compound_command_type B fuel) QM.
Proof.
  apply lz_cases; [apply neat_next_type|]. eapply lz_mono; [apply nl_next_type|]. intros a c [-> ->]. exists Loose. split; [constructor|right; auto].
Qed.
Hint Resolve neat_next_type loose_next_type : lazy.
Lemma neat_loop_command : neat (loop_command B fuel K).
Proof.
  unfold loop_command. do 2 lz_step; [|lz_step].
  destruct a; [|lz_step].
  eapply (lz_bind _ _ _ QN); [repeat lz_step|]. intros k cc ->. repeat lz_step.
Qed.
Lemma neat_if_command : neat (if_command B fuel K).
Proof.
  assert (L : forall p n conds, neat (if_loop B fuel K p n conds)).
  { intros p n. induction n as [|n IH]; intros conds; [apply lz_fuel|]. cbn [if_loop]. repeat lz_step. }
  unfold if_command. repeat lz_step.
Qed.
Lemma neat_words_loop : forall n acc, neat (words_loop B fuel K n acc).
Proof.
  intros n. induction n as [|n IH]; intros acc; [apply lz_fuel|]. cbn [words_loop]. repeat lz_step.
Qed.
Hint Resolve neat_words_loop : lazy.
Lemma neat_for_words p cs : neat (for_words B fuel K p cs).
Proof. unfold for_words. repeat lz_stepl. eapply (lz_bind _ _ _ (fun _ _ => False)); [|intros ? ? []]. unfold eat. lz_step. apply lz_unexpected. Qed.
Hint Resolve neat_for_words : lazy.
Lemma neat_for_command : neat (for_command B fuel K).
Proof. unfold for_command. repeat lz_step. Qed.
Lemma loose_patterns : forall p n acc, lz Loose (patterns_loop B fuel K p n acc) QN.
Proof.
  intros p n. induction n as [|n IH]; intros acc; [apply lz_fuel|]. cbn [patterns_loop].
  assert (IH' : forall acc, neat (patterns_loop B fuel K p n acc)) by (intros; eapply lz_le; [apply IH|constructor]).
  repeat lz_stepl.
Qed.
Hint Resolve loose_patterns : lazy.
Lemma neat_patterns : forall p n acc, neat (patterns_loop B fuel K p n acc).
Proof. intros. eapply lz_le; [apply loose_patterns|constructor]. Qed.
Hint Resolve neat_patterns : lazy.
Lemma neat_arms : forall p n arms, neat (arms_loop B fuel K p n arms).
Proof.
  intros p n. induction n as [|n IH]; intros arms; [apply lz_fuel|]. cbn [arms_loop]. lz_step.
  assert (R : forall cs acc, neat (
     patterns <- patterns_loop B fuel K p fuel [] ;;
     pattern_comment <- newline fuel ;;
     body <- k_group K (mkDelims [] [ESAC] [TDSemi]) ;;
     d <- eat_maybe TDSemi ;;
     if d : bool then
       arm_comment <- newline fuel ;;
       arms_loop B fuel K p n (acc ++ [mkCA (mkCP cs patterns pattern_comment) body arm_comment])
     else ret (acc ++ [mkCA (mkCP cs patterns pattern_comment) body None], []))) by (intros; repeat lz_step).
  eapply lz_bind; [apply neat_peek_reserved_word|]. intros e c [-> | [-> ->]].
  - destruct e; [lz_step|]. lz_step. lz_step; [|repeat lz_step]. eapply lz_le; [apply R|constructor].
  - eapply lz_bind; [apply loose_eat_maybe; discriminate|]. intros d c [->|[-> ->]].
    + lz_step; [|repeat lz_step]. eapply lz_le; [apply R|constructor].
    + lz_step. eapply lz_le; [|apply le_atnl]. eapply lz_bind; [apply loose_patterns|]. intros pt c ->. repeat lz_step.
Qed.
Hint Resolve neat_arms : lazy.
Lemma neat_case_command : neat (case_command B fuel K).
Proof. unfold case_command. repeat lz_step. Qed.
Hint Resolve neat_loop_command neat_if_command neat_for_command neat_case_command : lazy.
Lemma neat_compound_kw kw : neat (compound_command_kw B fuel K kw).
Proof. unfold compound_command_kw. repeat lz_step. Qed.
Hint Resolve neat_compound_kw : lazy.
Lemma neat_compound : neat (compound_command B fuel K).
Proof. unfold compound_command. lz_step; [apply neat_compound_kw|]. cbn. apply lz_unexpected. Qed.
Hint Resolve neat_compound : lazy.
Lemma neat_function_parens b : neat (function_parens B fuel K b).
Proof.
  unfold function_parens. lz_step.
  - destruct (otoken_eqb _ _); [repeat lz_step|]. destruct (_ && _); [repeat lz_step|].
    eapply (lz_bind _ _ _ QN); [repeat lz_step|]. intros v cc ->. repeat lz_step.
  - destruct (otoken_eqb _ _); [repeat lz_step|]. destruct (_ && _); [repeat lz_step|].
    eapply (lz_bind _ _ _ QN); [repeat lz_step|]. intros v cc ->. repeat lz_step.
Qed.
Hint Resolve neat_function_parens : lazy.
Lemma neat_function_internal : neat (function_declaration_internal B fuel K).
Proof.
  unfold function_declaration_internal. eapply lz_bind; [apply neat_peek_reserved_word|]. intros r c [->|[-> ->]].
  - eapply (lz_bind _ _ _ QN); [repeat lz_step|]. intros v cc ->. repeat lz_step.
  - cbv beta iota. change (bind (ret false) ?f) with (f false). cbv beta. lz_step; repeat lz_step.
Qed.
Hint Resolve neat_function_internal : lazy.
Lemma neat_function : neat (function_declaration B fuel K).
Proof. unfold function_declaration. repeat lz_step. Qed.
Hint Resolve neat_function : lazy.
Lemma loose_maybe_function : lz Loose (maybe_function_declaration B fuel K) QM.
Proof.
  unfold maybe_function_declaration.
  assert (S1 : forall c, c = Neat \/ c = Loose -> lz c (
      is_fn <- multipeek function_try ;;
      if is_fn : bool then f <- function_declaration B fuel K ;; ret (Some f) else ret None) QM).
  { intros c Hc. assert (G : lz Loose (
      is_fn <- multipeek function_try ;;
      if is_fn : bool then f <- function_declaration B fuel K ;; ret (Some f) else ret None) QM).
    { apply lz_cases.
      - lz_look calm_function. destruct x; [lz_step; eapply lz_ret; [apply le_refl|now left]|eapply lz_ret; [apply le_refl|now left]].
      - eapply lz_bind; [apply lz_look_nl, calm_function|]. intros x c' [[ts ->] ->]. cbn. eapply lz_ret; [apply le_atnl|right; auto]. }
    destruct Hc as [->| ->]; [eapply lz_le; [exact G|constructor]|exact G]. }
  eapply lz_bind; [apply loose_peek_reserved_word|]. intros r c [->|[-> ->]].
  - destruct r; [lz_step; eapply lz_ret; [apply le_refl|now left]|]. apply S1; auto.
  - apply S1; auto.
Qed.
Hint Resolve loose_maybe_function : lazy.
Lemma loose_command : lz Loose (command B fuel K) QN.
Proof.
  unfold command. eapply lz_bind; [apply loose_next_type|]. intros kw c [->|[-> ->]].
  - destruct kw; [repeat lz_step|]. eapply lz_le; [|apply le_neat]. eapply lz_bind; [apply loose_maybe_function|]. intros f c [->|[-> ->]].
    + destruct f; repeat lz_step.
    + apply loose_simple_command.
  - eapply lz_bind; [apply loose_maybe_function|]. intros f c [->|[-> ->]].
    + destruct f; repeat lz_step.
    + apply loose_simple_command.
Qed.
Hint Resolve loose_command : lazy.
Lemma loose_pipeline_loop : forall n cmds, lz Loose (pipeline_loop B fuel K n cmds) QN.
Proof.
  intros n. induction n as [|n IH]; intros cmds; [apply lz_fuel|]. cbn [pipeline_loop].
  assert (IH' : forall acc, neat (pipeline_loop B fuel K n acc)) by (intros; eapply lz_le; [apply IH|constructor]).
  assert (R : forall c, le c Loose -> lz c (
     cmd <- command B fuel K ;; pipe <- eat_maybe TPipe ;;
     if pipe : bool then lb <- linebreak fuel ;; pipeline_loop B fuel K n (cmds ++ [(lb, cmd)])
     else ret (cmds ++ [([], cmd)])) QN).
  { intros c Hc. eapply lz_le; [|exact Hc]. repeat lz_step. }
  lz_stepl; (destruct (otoken_eqb _ _); [apply lz_unexpected|apply R; constructor]).
Qed.
Lemma loose_pipeline : lz Loose (pipeline B fuel K) QN.
Proof.
  unfold pipeline.
  assert (R : forall bang : bool, lz Loose (cmds <- pipeline_loop B fuel K fuel [] ;; build (o_pipeline B bang cmds)) QN).
  { intros bang. eapply lz_bind; [apply loose_pipeline_loop|]. intros cs c ->. repeat lz_step. }
  assert (E : lz Loose (bang <- eat_maybe TBang ;; cmds <- pipeline_loop B fuel K fuel [] ;; build (o_pipeline B bang cmds)) QN).
  { eapply lz_bind; [apply loose_eat_maybe; discriminate|]. intros d c [->|[-> ->]]; (eapply lz_le; [apply R|constructor]). }
  eapply lz_bind; [apply loose_skip_whitespace|]. intros u c [->| ->]; (eapply lz_le; [exact E|constructor]).
Qed.
Hint Resolve loose_pipeline : lazy.
Lemma neat_pipeline : neat (pipeline B fuel K).
Proof. eapply lz_le; [apply loose_pipeline|constructor]. Qed.
Hint Resolve neat_pipeline : lazy.
Lemma loose_and_or_list : lz Loose (and_or_list B fuel K) QN.
Proof.
  assert (L : forall n rest, neat (and_or_loop B fuel K n rest)).
  { intros n. induction n as [|n IH]; intros rest; [apply lz_fuel|]. cbn [and_or_loop]. repeat lz_step. }
  unfold and_or_list. repeat lz_step.
Qed.
Hint Resolve loose_and_or_list : lazy.
(** If the builder is told of a newline after the command, nothing beyond that newline has been taken. *)
Definition ccQ (pre : list newline_) (cmd : b_cmd B) (c : ahead) : Prop :=
  exists l sep nl b b', o_complete_command B pre l sep nl b = (inl cmd, b') /\
    c = match nl with Some _ => Clear | None => Neat end.
Lemma loose_complete_lc pre : lz Loose (complete_command_with_leading_comments B fuel K pre) (ccQ pre).
Proof.
  unfold complete_command_with_leading_comments. eapply lz_bind; [apply loose_and_or_list|]. intros l c ->.
  assert (F : forall (r : sep_kind * option newline_) c, nlQ (snd r) c ->
     lz c (let '(sep, nl) := r in build (o_complete_command B pre l sep nl)) (ccQ pre)).
  { intros [sp nl] c H. cbn in H. eapply lz_mono; [apply lz_build_rel|]. intros a c' [-> (b & b' & E)].
    exists c. split; [apply le_refl|]. exists l, sp, nl, b, b'. split; [exact E|]. destruct nl; exact H. }
  lz_step.
  - eapply (lz_bind _ _ _ (fun r c => nlQ (snd r) c)); [|apply F].
    assert (M : forall f : option newline_ -> sep_kind, lz Neat (n <- newline fuel ;; ret (f n, n)) (fun r c => nlQ (snd r) c)).
    { intros f. eapply lz_bind; [apply newline_clear|]. intros n c Hn. eapply lz_ret; [apply le_refl|]. exact Hn. }
    destruct t; first [ lz_step; apply (M (fun _ => _)) | eapply lz_le; [apply (M (fun n => match n with Some _ => _ | None => _ end))|apply le_head] ].
  - eapply (lz_bind _ _ _ (fun r c => nlQ (snd r) c)); [|apply F].
    eapply lz_bind; [apply newline_clear|]. intros n c Hn. eapply lz_ret; [apply le_refl|]. exact Hn.
Qed.
Lemma loose_complete_lc_neat pre : lz Loose (complete_command_with_leading_comments B fuel K pre) QN.
Proof.
  eapply lz_mono; [apply loose_complete_lc|]. intros a c (l & sp & nl & b & b' & _ & ->). exists Neat. destruct nl; auto with lazy.
Qed.
Hint Resolve loose_complete_lc_neat : lazy.
(** Likewise for [complete_command]; when it finds no command, the source has ended. *)
Definition completeQ (r : option (b_cmd B)) (c : ahead) : Prop :=
  match r with Some cmd => exists pre, ccQ pre cmd c | None => c = Neat end.
Lemma neat_complete : lz Neat (complete_command B fuel K) completeQ.
Proof.
  unfold complete_command. lz_step. lz_step.
  - eapply lz_le; [|apply le_head]. eapply lz_le; [|apply le_neat].
    eapply lz_bind; [apply loose_complete_lc|]. intros x c Hx. eapply lz_ret; [apply le_refl|]. eexists. exact Hx.
  - destruct (is_nil _); [eapply lz_ret; [apply le_refl|reflexivity]|]. lz_step. eapply lz_ret; [apply le_refl|reflexivity].
Qed.
Definition delimQ (r : bool) (c : ahead) : Prop := match r with true => c = Neat | false => c = Loose end.
Lemma loose_found_delim cfg : newline_free cfg -> lz Loose (found_delim B fuel cfg) delimQ.
Proof.
  intros [Hn1 Hn2]. unfold found_delim.
  eapply (lz_bind _ _ _ delimQ).
  - destruct (exact_tokens cfg) as [|x xs] eqn:E; [eapply lz_ret; [apply le_refl|reflexivity]|].
    lz_stepl.
    + destruct (existsb _ _); [eapply lz_ret; [constructor|reflexivity]|eapply lz_ret; [constructor|reflexivity]].
    + replace (existsb _ _) with false; [eapply lz_ret; [constructor|reflexivity]|].
      symmetry. apply not_true_iff_false. rewrite existsb_exists. intros (u & Hu & Eu). cbn in Eu.
      destruct (token_eqb_spec u TNewline) as [->|]; [contradiction|discriminate].
    + destruct (existsb _ _); [eapply lz_ret; [constructor|reflexivity]|eapply lz_ret; [constructor|reflexivity]].
  - intros f c Hf. destruct f; cbn in Hf; subst; [eapply lz_ret; [apply le_refl|reflexivity]|].
    eapply lz_bind; [apply loose_peek_reserved_word|]. intros w c [->|[-> ->]].
    + destruct w; [eapply lz_ret; [apply le_refl|reflexivity]|].
      eapply lz_bind; [apply neat_peek_reserved_token; exact Hn1|]. intros t c ->.
      destruct t; eapply lz_ret; try constructor; reflexivity.
    + eapply lz_bind; [apply loose_peek_reserved_token; exact Hn1|]. intros t c [->|[-> ->]].
      * destruct t; eapply lz_ret; try constructor; reflexivity.
      * eapply lz_ret; [constructor|reflexivity].
Qed.
Lemma loose_group cfg : newline_free cfg -> lz Loose (command_group_internal B fuel K cfg) QN.
Proof.
  intros Hn. unfold command_group_internal.
  assert (L : forall n cmds, lz Loose (command_group_loop B fuel K cfg n cmds) QN); [|apply L].
  intros n. induction n as [|n IH]; intros cmds; [apply lz_fuel|]. cbn [command_group_loop].
  assert (IH' : forall acc, neat (command_group_loop B fuel K cfg n acc)) by (intros; eapply lz_le; [apply IH|constructor]).
  eapply lz_bind; [apply loose_found_delim; exact Hn|]. intros d c Hd. destruct d; cbn in Hd; subst; [lz_step|].
  lz_step. eapply lz_bind; [eapply lz_le; [apply loose_found_delim; exact Hn|constructor]|]. intros d c Hd.
  eapply (lz_bind _ _ _ delimQ).
  - destruct d; cbn in Hd; subst; [eapply lz_ret; [apply le_refl|reflexivity]|].
    lz_stepl; (eapply lz_ret; [constructor|reflexivity]).
  - intros st c' Hst. destruct st; cbn in Hst; subst; repeat lz_step.
Qed.
End Commands.
Lemma neat_knot B fuel : forall n, k_neat (knot B fuel n).
Proof.
  intros n. induction n as [|n IH]; cbn [knot]; constructor; cbn [k_group k_param]; intros; try apply lz_fuel.
  - now apply loose_group.
  - now apply neat_parameter_raw.
Qed.
