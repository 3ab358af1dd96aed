(** * How much a call does: commands *)
From Coq Require Import String.
From Verif Require Import Base Token Pos Ast Builder Prog Iter Located IterProofs RunLemmas ParserBase Balanced BalancedSpec BalancedTotal Wp
  Total Arith Word Redirect Command Work WorkBase WorkBal WorkArith WorkWord WorkRedirect.
Local Open Scope Z_scope.
#[local] Opaque cost Work.spec.

Section Command.
Variable B : builder.
Notation prog := (prog (bst B) (b_err B)).
Variables N P : Z.
Hypothesis HN : 0 <= N.
Hypothesis HP : 5000 + 100 * N <= P.
Notation spec := (spec N P).
Variable fuel : nat.
Hypothesis Hfuel : N + 2 < Z.of_nat fuel.
Variable K : knots (bst B) (b_err B) (b_cmd B).
Hypothesis HK : k_ok N P K.
Ltac wleaf0 :=
  lazymatch goal with
  | |- Work.spec _ _ _ _ (eat _) => apply s_eat
  | |- Work.spec _ _ _ _ (eat_maybe _) => apply s_eat_maybe
  | |- Work.spec _ _ _ _ (skip_whitespace _) => apply s_skip_whitespace
  | |- Work.spec _ _ _ _ (newline _) => apply s_newline
  | |- Work.spec _ _ _ _ (linebreak _) => apply s_linebreak
  | |- Work.spec _ _ _ _ (peek_reserved_token _ _) => apply s_prt
  | |- Work.spec _ _ _ _ (peek_reserved_word _ _) => apply s_prw
  | |- Work.spec _ _ _ _ (reserved_token _ _) => apply s_rt
  | |- Work.spec _ _ _ _ (reserved_token_res _ _) => apply s_rtr
  | |- Work.spec _ _ _ _ (reserved_word _ _) => apply s_rw
  | |- Work.spec _ _ _ _ (word _ _ _) => apply s_word
  | |- Work.spec _ _ _ _ (redirect _ _ _) => apply s_redirect
  | |- Work.spec _ _ _ _ (redirect_list _ _ _) => apply s_redirect_list
  | |- Work.spec _ _ _ _ (k_group _ _) => eapply kg
  | |- Work.spec _ _ _ _ (subshell_internal _ _) => apply s_subshell
  | |- _ => whyp
  end; first [exact HK | lia | idtac].
Ltac wleaf ::= wleaf0.
Definition pt {X} (ws : list X) : Z := match ws with [] => 0 | _ => 450 end.
Lemma pt_snoc {X} (ws : list X) w : pt (ws ++ [w]) = 450.
Proof. destruct ws; reflexivity. Qed.
Lemma pt_range {X} (ws : list X) : 0 <= pt ws <= 450.
Proof. destruct ws; cbn; lia. Qed.
Definition g_vars (vars : list (redirect_or_env_var (b_redirect B) str (b_word B)))
  (x : list (redirect_or_env_var (b_redirect B) str (b_word B)) * option (b_word B)) : Z :=
  pt (fst x) + match snd x with Some _ => 450 | None => 0 end - pt vars - 100.
Ltac wred ::= cbv beta iota delta [g_red g_bword].
Lemma s_word0 : spec 60 (fun _ => -60) (word B fuel K).
Proof. wspec. apply c_eta. eapply c_spec; [wleaf|lia|]. intros [w|] l1 H1; wk. Qed.
Lemma s_value (p : option token) : spec 60 (fun _ => -60) (match p with Some (TWhitespace _) => ret None | _ => word B fuel K end).
Proof. destruct p as [t|]; [destruct t|]; try exact s_word0. wspec. wk. Qed.
Ltac snoc := repeat match goal with |- cost _ _ _ _ (simple_vars_loop _ _ _ _ ?v) _ => eapply c_end; [whyp|lia|intros; cbv beta; unfold g_vars; rewrite pt_snoc; lia]
  | |- cost _ _ _ _ (simple_args_loop _ _ _ _ ?v) _ => eapply c_end; [whyp|lia|intros; cbv beta; rewrite pt_snoc; lia]
  | |- cost _ _ _ _ (bind (match _ with _ => _ end) _) _ => eapply c_spec; [apply s_value|lia|intros ? ? ?; wred]
  | _ => wk1 end.
Lemma s_vars_loop : forall n vars, spec 100 (g_vars vars) (simple_vars_loop B fuel K n vars).
Proof.
  induction n as [|n IH]; intros vars; wspec; cbn [simple_vars_loop]; [wk|]; pose proof (pt_range vars); snoc.
  all: unfold g_vars; cbn [fst snd]; lia.
Qed.
Lemma s_args_loop : forall n args, spec 90 (fun args' => pt args' - pt args - 90) (simple_args_loop B fuel K n args).
Proof.
  induction n as [|n IH]; intros args; wspec; cbn [simple_args_loop]; [wk|]; pose proof (pt_range args); snoc.
Qed.
Lemma s_simple : spec 200 (fun _ => 250) (simple_command B fuel K).
Proof.
  wspec. unfold simple_command. eapply c_spec; [apply s_vars_loop|lia|]. intros [vars exec] l1 H1. unfold g_vars. cbn [fst snd pt].
  pose proof (pt_range vars).
  eapply c_spec; [apply s_args_loop|destruct exec; lia|]. intros args l2 H2. cbv beta. pose proof (pt_range args).
  assert (Hv : pt vars = if is_nil vars then 0 else 450) by (destruct vars; reflexivity).
  assert (Ha : pt args = if is_nil args then 0 else 450) by (destruct args; reflexivity).
  rewrite Hv, Ha. destruct exec; cbn [pt]; destruct (is_nil vars), (is_nil args); cbn [andb]; wk.
Qed.
Ltac wred ::= cbv beta iota delta [g_red g_bword g_rw g_rtr g_newline].
Lemma s_group cfg : spec 510 (fun _ => -500) (command_group B K cfg).
Proof. wspec. unfold command_group. wk. Qed.
Lemma s_do_group : spec 20 (fun _ => 1000) (do_group B fuel K).
Proof. wspec. unfold do_group. pose proof s_group. wk. Qed.
Lemma s_brace : spec 40 (fun _ => 1000) (brace_group B fuel K).
Proof. wspec. unfold brace_group. pose proof s_group. wk. Qed.
Lemma s_type : spec 40 (fun _ => -40) (next_compound_command_type B fuel).
Proof. wspec. unfold next_compound_command_type. wk. Qed.
Lemma s_loop : spec 20 (fun _ => 1000) (loop_command B fuel K).
Proof. wspec. unfold loop_command. pose proof s_group. pose proof s_do_group. wk. Qed.
Lemma s_if_loop p : forall n conds, spec 600 (fun _ => -600) (if_loop B fuel K p n conds).
Proof. pose proof s_group. induction n as [|n IH]; intros conds; wspec; cbn [if_loop]; wk. Qed.
Lemma s_if : spec 20 (fun _ => 1000) (if_command B fuel K).
Proof. wspec. unfold if_command. pose proof s_if_loop. wk. Qed.
Lemma s_words_loop : forall n acc, spec 60 (fun _ => -60) (words_loop B fuel K n acc).
Proof. induction n as [|n IH]; intros acc; wspec; cbn [words_loop]; wk. Qed.
Lemma s_for_words p c : spec 120 (fun _ => -120) (for_words B fuel K p c).
Proof. wspec. unfold for_words. pose proof s_words_loop. wk. Qed.
Lemma s_for : spec 20 (fun _ => 1000) (for_command B fuel K).
Proof. wspec. unfold for_command. pose proof s_for_words. pose proof s_do_group. wk. Qed.
Lemma s_patterns p : forall n acc, spec 60 (fun _ => 0) (patterns_loop B fuel K p n acc).
Proof. induction n as [|n IH]; intros acc; wspec; cbn [patterns_loop]; wk. Qed.
Lemma s_arms p : forall n arms, spec 700 (fun _ => -700) (arms_loop B fuel K p n arms).
Proof. pose proof s_patterns. induction n as [|n IH]; intros arms; wspec; cbn [arms_loop]; wk. Qed.
Lemma s_case : spec 20 (fun _ => 1000) (case_command B fuel K).
Proof. wspec. unfold case_command. pose proof s_arms. wk. Qed.
Lemma s_kw kw : spec 40 (fun _ => 800) (compound_command_kw B fuel K kw).
Proof.
  wspec. unfold compound_command_kw. pose proof s_if. pose proof s_loop. pose proof s_for. pose proof s_case. pose proof s_brace.
  unfold subshell. wk. Unshelve. all: exact 0%nat.
Qed.
Lemma s_compound : spec 80 (fun _ => 700) (compound_command B fuel K).
Proof. wspec. unfold compound_command. pose proof s_type. pose proof s_kw. wk. Qed.
Lemma s_parens b : spec 60 (fun _ => -60) (function_parens B fuel K b).
Proof. wspec. unfold function_parens. wk. Unshelve. all: exact 0%nat. Qed.
Lemma s_fn_internal : spec 60 (fun _ => 1000) (function_declaration_internal B fuel K).
Proof. wspec. unfold function_declaration_internal. pose proof s_parens. pose proof s_compound. wk. Qed.
Lemma s_fn : spec 60 (fun _ => 900) (function_declaration B fuel K).
Proof. wspec. unfold function_declaration. pose proof s_fn_internal. wk. Qed.
Definition g_mfn (x : option (b_pipeable B)) : Z := match x with Some _ => 800 | None => -20 end.
Ltac wred ::= cbv beta iota delta [g_red g_bword g_rw g_rtr g_newline g_mfn].
Lemma s_mfn : spec 80 g_mfn (maybe_function_declaration B fuel K).
Proof. wspec. unfold maybe_function_declaration. pose proof s_fn. wk. Qed.
Lemma s_command : spec 280 (fun _ => 180) (command B fuel K).
Proof. wspec. unfold command. pose proof s_type. pose proof s_kw. pose proof s_mfn. pose proof s_simple. wk. Qed.
Lemma s_pipeline_loop : forall n cmds, spec 290 (fun _ => 170) (pipeline_loop B fuel K n cmds).
Proof. pose proof s_command. induction n as [|n IH]; intros cmds; wspec; cbn [pipeline_loop]; wk. Qed.
Lemma s_pipeline : spec 300 (fun _ => 160) (pipeline B fuel K).
Proof. wspec. unfold pipeline. pose proof s_pipeline_loop. wk. Qed.
Lemma s_and_or_loop : forall n rest, spec 10 (fun _ => -10) (and_or_loop B fuel K n rest).
Proof. pose proof s_pipeline. induction n as [|n IH]; intros rest; wspec; cbn [and_or_loop]; wk. Qed.
Lemma s_and_or : spec 310 (fun _ => 140) (and_or_list B fuel K).
Proof. wspec. unfold and_or_list. pose proof s_pipeline. pose proof s_and_or_loop. wk. Qed.
Lemma s_leading c : spec 320 (fun _ => 120) (complete_command_with_leading_comments B fuel K c).
Proof. wspec. unfold complete_command_with_leading_comments. pose proof s_and_or. wk. Qed.
Definition g_complete (o : option (b_cmd B)) : Z := match o with Some _ => 100 | None => -20 end.
Ltac wred ::= cbv beta iota delta [g_red g_bword g_rw g_rtr g_newline g_mfn g_complete].
Lemma s_complete : spec 340 g_complete (complete_command B fuel K).
Proof. wspec. unfold complete_command. pose proof s_leading. wk. Qed.
Lemma s_found cfg : spec 40 (fun _ => -30) (found_delim B fuel cfg).
Proof. wspec. unfold found_delim. wk. Qed.
Lemma s_group_loop cfg : forall n cmds, spec 450 (fun _ => -80) (command_group_loop B fuel K cfg n cmds).
Proof. pose proof s_found. pose proof s_leading. induction n as [|n IH]; intros cmds; wspec; cbn [command_group_loop]; wk. Qed.
End Command.

Section Knot.
Variable B : builder.
Variables N P : Z.
Hypothesis HN : 0 <= N.
Hypothesis HP : 5000 + 100 * N <= P.
Variable fuel : nat.
Hypothesis Hfuel : N + 2 < Z.of_nat fuel.
Lemma k_knot : forall n, k_ok N P (knot B fuel n).
Proof.
  induction n as [|n IH]; unfold k_ok; cbn [knot k_group k_param].
  - split; [intros cfg|]; wspec; wk.
  - split; [intros cfg|].
    + eapply s_weak; [apply s_group_loop; try exact IH; lia|lia|lia].
    + apply s_parameter; try exact IH; lia.
Qed.
End Knot.
