(** * Errors that more input cannot repair: redirections, commands and every public method *)
From Verif Require Import Base Token Pos Ast Builder Prog Located RunLemmas ParserBase BaseRun Balanced
  Arith Word Redirect Command Stable StableWord.

Lemma insens_assignment : insensitive (fun _ => True) assignment_try.
Proof. insens. destruct t; try reflexivity; second H; reflexivity. Qed.
Lemma insens_function : insensitive (fun _ => True) function_try.
Proof. insens. destruct t; try reflexivity; second H. destruct u; try reflexivity. second Hw. reflexivity. Qed.

Section Commands.
Variable B : builder.
Notation BS := (bst B). Notation BE := (b_err B).
Notation prog := (prog BS BE).
Notation steady p := (forall c, @stable BS BE _ c p always).
Notation stab := (@stable BS BE _).
Variable fuel : nat.
Variable K : knots BS BE (b_cmd B).
Hypothesis HK : k_steady K.
Let h1 := ks_group _ HK. Let h2 := ks_param _ HK.
Let h3 := steady_word_raw fuel K HK.
Let h4 := stable_backticked_raw fuel K.
Let h5 := steady_parameter_raw fuel K HK.
Let h6 := steady_subshell_internal K HK.
Hint Resolve h1 h2 h3 h4 h5 h6 : stable.
Hint Extern 1 (_ <> Ended) => discriminate : stable.

Lemma steady_word_ptw : steady (word_preserve_trailing_whitespace B fuel K).
Proof. unfold word_preserve_trailing_whitespace. repeat st_step. Qed.
Hint Resolve steady_word_ptw : stable.
Lemma steady_word : steady (word B fuel K).
Proof. unfold word. repeat st_step. Qed.
Hint Resolve steady_word : stable.
Lemma stable_bcs c : c <> Ended -> stab c (backticked_command_substitution B fuel K) always.
Proof. intros Hc. unfold backticked_command_substitution. repeat st_step. Qed.
Lemma steady_parameter : steady (parameter B fuel K).
Proof. unfold parameter. repeat st_step. Qed.
Lemma steady_get_path : steady (get_path B fuel K).
Proof. unfold get_path. repeat st_step. Qed.
Lemma steady_get_dup_path : steady (get_dup_path B fuel K).
Proof.
  intros c. unfold get_dup_path. st_step.
  eapply (stable_bind _ _ _ always); [repeat st_step|]. intros pth cc _. repeat st_step.
Qed.
Hint Resolve steady_get_path steady_get_dup_path : stable.
Lemma steady_redirect_op op fd : steady (redirect_op B fuel K op fd).
Proof.
  intros c. unfold redirect_op. st_step.
  eapply (stable_bind _ _ _ always); [repeat st_step|]. intros r cc _. repeat st_step.
Qed.
Hint Resolve steady_redirect_op : stable.
Lemma steady_redirect_after fd w : steady (redirect_after B fuel K fd w).
Proof.
  intros c. unfold redirect_after. st_step.
  - assert (N : t <> TDLess /\ t <> TDLessDash) by exact H.
    destruct t; try solve [repeat st_step]; destruct N; congruence.
  - repeat st_step.
Qed.
Hint Resolve steady_redirect_after : stable.
Lemma steady_redirect : steady (redirect B fuel K).
Proof. unfold redirect. repeat st_step. Qed.
Hint Resolve steady_redirect : stable.
Lemma steady_redirect_list : steady (redirect_list B fuel K).
Proof.
  unfold redirect_list. assert (L : forall n acc, steady (redirect_list_loop B fuel K n acc)); [|apply L].
  intros n. induction n as [|n IH]; intros acc c; [apply stable_fuel|]. cbn [redirect_list_loop]. repeat st_step.
Qed.
Hint Resolve steady_redirect_list : stable.

Lemma steady_vars_loop : forall n vars, steady (simple_vars_loop B fuel K n vars).
Proof.
  intros n. induction n as [|n IH]; intros vars c; [apply stable_fuel|]. cbn [simple_vars_loop]. st_step.
  st_look insens_assignment. destruct x.
  - st_step; [|apply stable_panic]. destruct t; try apply stable_panic. st_step.
    + st_step.
      * eapply (stable_bind _ _ _ always); [repeat st_step|]. intros v cc _. repeat st_step.
      * eapply (stable_bind _ _ _ always); [repeat st_step|]. intros v cc _. repeat st_step.
    + st_step. eapply (stable_bind _ _ _ always); [repeat st_step|]. intros v cc _. repeat st_step.
  - repeat st_step.
Qed.
Hint Resolve steady_vars_loop : stable.
Lemma steady_args_loop : forall n args, steady (simple_args_loop B fuel K n args).
Proof.
  intros n. induction n as [|n IH]; intros args c; [apply stable_fuel|]. cbn [simple_args_loop]. repeat st_step.
Qed.
Hint Resolve steady_args_loop : stable.
Lemma steady_simple_command : steady (simple_command B fuel K).
Proof. unfold simple_command. repeat st_step. Qed.
Hint Resolve steady_simple_command : stable.
Lemma steady_command_group cfg : ~ In TNewline (reserved_tokens cfg) -> steady (command_group B K cfg).
Proof. intros Hn c. unfold command_group. repeat st_step. Qed.
Hint Resolve steady_command_group : stable.
Lemma steady_do_group : steady (do_group B fuel K).
Proof. unfold do_group. repeat st_step. Qed.
Hint Resolve steady_do_group : stable.
Lemma steady_brace_group : steady (brace_group B fuel K).
Proof.
  intros c. unfold brace_group. do 3 st_step.
  eapply stable_bind; [apply stable_reserved_token_res; auto with stable|]. intros r cc _. repeat st_step.
Qed.
Hint Resolve steady_brace_group : stable.
Lemma steady_subshell : steady (subshell B K).
Proof. unfold subshell. repeat st_step. Qed.
Hint Resolve steady_subshell : stable.
Lemma steady_next_type : steady (next_compound_command_type B fuel).
Proof. unfold next_compound_command_type. repeat st_step. Qed.
Hint Resolve steady_next_type : stable.
Lemma steady_loop_command : steady (loop_command B fuel K).
Proof.
  intros c. unfold loop_command. do 2 st_step. destruct a; [|st_step].
  eapply (stable_bind _ _ _ always); [repeat st_step|]. intros k cc _. repeat st_step.
Qed.
Lemma steady_if_command : steady (if_command B fuel K).
Proof.
  assert (L : forall p n conds, steady (if_loop B fuel K p n conds)).
  { intros p n. induction n as [|n IH]; intros conds c; [apply stable_fuel|]. cbn [if_loop]. repeat st_step. }
  unfold if_command. repeat st_step.
Qed.
Lemma steady_words_loop : forall n acc, steady (words_loop B fuel K n acc).
Proof.
  intros n. induction n as [|n IH]; intros acc c; [apply stable_fuel|]. cbn [words_loop]. repeat st_step.
Qed.
Hint Resolve steady_words_loop : stable.
Lemma steady_for_words p cs : steady (for_words B fuel K p cs).
Proof. unfold for_words. repeat st_step. Qed.
Hint Resolve steady_for_words : stable.
Lemma steady_for_command : steady (for_command B fuel K).
Proof. unfold for_command. repeat st_step. Qed.
Lemma steady_patterns : forall p n acc, steady (patterns_loop B fuel K p n acc).
Proof.
  intros p n. induction n as [|n IH]; intros acc c; [apply stable_fuel|]. cbn [patterns_loop]. repeat st_step.
Qed.
Hint Resolve steady_patterns : stable.
Lemma steady_arms : forall p n arms, steady (arms_loop B fuel K p n arms).
Proof.
  intros p n. induction n as [|n IH]; intros arms c; [apply stable_fuel|]. cbn [arms_loop]. repeat st_step.
Qed.
Hint Resolve steady_arms : stable.
Lemma steady_case_command : steady (case_command B fuel K).
Proof. unfold case_command. repeat st_step. Qed.
Hint Resolve steady_loop_command steady_if_command steady_for_command steady_case_command : stable.
Lemma steady_compound_kw kw : steady (compound_command_kw B fuel K kw).
Proof. unfold compound_command_kw. repeat st_step. Qed.
Hint Resolve steady_compound_kw : stable.
Lemma steady_compound : steady (compound_command B fuel K).
Proof. unfold compound_command. repeat st_step. Qed.
Hint Resolve steady_compound : stable.
Lemma steady_function_parens b : steady (function_parens B fuel K b).
Proof.
  intros c. unfold function_parens. st_step.
  - destruct (otoken_eqb _ _); [repeat st_step|]. destruct (_ && _); [repeat st_step|].
    eapply (stable_bind _ _ _ always); [repeat st_step|]. intros v cc _. repeat st_step.
  - destruct (otoken_eqb _ _); [repeat st_step|]. destruct (_ && _); [repeat st_step|].
    eapply (stable_bind _ _ _ always); [repeat st_step|]. intros v cc _. repeat st_step.
Qed.
Hint Resolve steady_function_parens : stable.
Lemma steady_function_internal : steady (function_declaration_internal B fuel K).
Proof.
  intros c. unfold function_declaration_internal. st_step.
  eapply (stable_bind _ _ _ always); [repeat st_step|]. intros v cc _. repeat st_step.
Qed.
Hint Resolve steady_function_internal : stable.
Lemma steady_function : steady (function_declaration B fuel K).
Proof. unfold function_declaration. repeat st_step. Qed.
Hint Resolve steady_function : stable.
Lemma steady_maybe_function : steady (maybe_function_declaration B fuel K).
Proof.
  intros c. unfold maybe_function_declaration. st_step. destruct a; [repeat st_step|].
  st_look insens_function. repeat st_step.
Qed.
Hint Resolve steady_maybe_function : stable.
Lemma steady_command : steady (command B fuel K).
Proof. unfold command. repeat st_step. Qed.
Hint Resolve steady_command : stable.
Lemma steady_pipeline : steady (pipeline B fuel K).
Proof.
  assert (L : forall n cmds, steady (pipeline_loop B fuel K n cmds)).
  { intros n. induction n as [|n IH]; intros cmds c; [apply stable_fuel|]. cbn [pipeline_loop]. repeat st_step. }
  unfold pipeline. repeat st_step.
Qed.
Hint Resolve steady_pipeline : stable.
Lemma steady_and_or_list : steady (and_or_list B fuel K).
Proof.
  assert (L : forall n rest, steady (and_or_loop B fuel K n rest)).
  { intros n. induction n as [|n IH]; intros rest c; [apply stable_fuel|]. cbn [and_or_loop]. repeat st_step. }
  unfold and_or_list. repeat st_step.
Qed.
Hint Resolve steady_and_or_list : stable.
Lemma steady_complete_lc cs : steady (complete_command_with_leading_comments B fuel K cs).
Proof.
  intros c. unfold complete_command_with_leading_comments. st_step. st_step.
  - eapply (stable_bind _ _ _ always); [repeat st_step|]. intros [sp cm] cc _. repeat st_step.
  - eapply (stable_bind _ _ _ always); [repeat st_step|]. intros [sp cm] cc _. repeat st_step.
Qed.
Hint Resolve steady_complete_lc : stable.
Lemma steady_complete : steady (complete_command B fuel K).
Proof. unfold complete_command. repeat st_step. Qed.
Lemma steady_found_delim cfg : ~ In TNewline (reserved_tokens cfg) -> steady (found_delim B fuel cfg).
Proof.
  intros Hn c. unfold found_delim.
  eapply (stable_bind _ _ _ always); [repeat st_step|]. intros v cc _. repeat st_step.
Qed.
Hint Resolve steady_found_delim : stable.
Lemma steady_group cfg : ~ In TNewline (reserved_tokens cfg) -> steady (command_group_internal B fuel K cfg).
Proof.
  intros Hn. unfold command_group_internal.
  assert (L : forall n cmds, steady (command_group_loop B fuel K cfg n cmds)); [|apply L].
  intros n. induction n as [|n IH]; intros cmds c; [apply stable_fuel|]. cbn [command_group_loop]. st_step.
  destruct a; [st_step|]. do 2 st_step.
  eapply (stable_bind _ _ _ always); [repeat st_step|]. intros v cc _. repeat st_step.
Qed.
End Commands.
Lemma steady_knot B fuel : forall n, k_steady (knot B fuel n).
Proof.
  intros n. induction n as [|n IH]; cbn [knot]; constructor; cbn [k_group k_param]; intros; try apply stable_fuel.
  - now apply steady_group.
  - now apply steady_parameter_raw.
Qed.
