(** * The public parsing methods, and the states a parser can be in *)
From Verif Require Import Base Token Pos Ast Builder Prog Iter Located IterProofs ParserBase Balanced
  Arith Word Redirect Command RunLemmas.

(** Every public method of [Parser] that reads tokens (src/parse.rs), as a function of the fuel.
    [brace_group] is listed apart because called on its own it reports the position of a blank
    before the brace. *)
Inductive entry_point_nb (B : builder) : forall A, (nat -> prog (bst B) (b_err B) A) -> Prop :=
  | ep_complete_command : entry_point_nb B _ (p_complete_command B)
  | ep_and_or_list : entry_point_nb B _ (p_and_or_list B)
  | ep_pipeline : entry_point_nb B _ (p_pipeline B)
  | ep_command : entry_point_nb B _ (p_command B)
  | ep_simple_command : entry_point_nb B _ (p_simple_command B)
  | ep_redirect_list : entry_point_nb B _ (p_redirect_list B)
  | ep_redirect : entry_point_nb B _ (p_redirect B)
  | ep_redirect_heredoc fd : entry_point_nb B _ (fun f => p_redirect_heredoc B f fd)
  | ep_word : entry_point_nb B _ (p_word B)
  | ep_word_preserve : entry_point_nb B _ (p_word_preserve_trailing_whitespace B)
  | ep_backticked : entry_point_nb B _ (p_backticked_command_substitution B)
  | ep_parameter : entry_point_nb B _ (p_parameter B)
  | ep_do_group : entry_point_nb B _ (p_do_group B)
  | ep_subshell : entry_point_nb B _ (p_subshell B)
  | ep_compound_command : entry_point_nb B _ (p_compound_command B)
  | ep_loop_command : entry_point_nb B _ (p_loop_command B)
  | ep_if_command : entry_point_nb B _ (p_if_command B)
  | ep_for_command : entry_point_nb B _ (p_for_command B)
  | ep_case_command : entry_point_nb B _ (p_case_command B)
  | ep_maybe_function : entry_point_nb B _ (p_maybe_function_declaration B)
  | ep_function : entry_point_nb B _ (p_function_declaration B)
  | ep_skip_whitespace : entry_point_nb B _ (p_skip_whitespace B)
  | ep_linebreak : entry_point_nb B _ (p_linebreak B)
  | ep_newline : entry_point_nb B _ (p_newline B)
  | ep_peek_reserved_token ts : entry_point_nb B _ (fun f => p_peek_reserved_token B f ts)
  | ep_peek_reserved_word ws : entry_point_nb B _ (fun f => p_peek_reserved_word B f ws)
  | ep_reserved_token ts : entry_point_nb B _ (fun f => p_reserved_token B f ts)
  | ep_reserved_word ws : entry_point_nb B _ (fun f => p_reserved_word B f ws)
  | ep_command_group cfg : entry_point_nb B _ (fun f => p_command_group B f cfg)
  | ep_arithmetic : entry_point_nb B _ (p_arithmetic_substitution B).

(** The methods that read one compound command without looking for blanks first. *)
Inductive keyword_entry (B : builder) : forall A, (nat -> prog (bst B) (b_err B) A) -> Prop :=
  | ke_do_group : keyword_entry B _ (p_do_group B)
  | ke_loop_command : keyword_entry B _ (p_loop_command B)
  | ke_if_command : keyword_entry B _ (p_if_command B)
  | ke_for_command : keyword_entry B _ (p_for_command B)
  | ke_case_command : keyword_entry B _ (p_case_command B).

Inductive entry_point (B : builder) : forall A, (nat -> prog (bst B) (b_err B) A) -> Prop :=
  | ep_nb A P : entry_point_nb B A P -> entry_point B A P
  | ep_brace_group : entry_point B _ (p_brace_group B).

(** The tokens [next] would still yield, in order: the buffered ones, then the source's. *)
Definition tokens_left (s : token_iter) : list token :=
  flat_map (fun x => match x with TPTok t => [t] | TPPos _ => [] end) (ti_buf s) ++ ti_iter s.

(** States of a parser reached from a fresh one by any sequence of calls of its methods. *)
Inductive parser_reach (B : builder) : token_iter -> bst B -> Prop :=
  | pr_new ts b : parser_reach B (ti_new ts) b
  | pr_call A P fuel s b o s' b' :
      entry_point B A P -> parser_reach B s b ->
      run concrete (P fuel) s b = (o, s', b') -> parser_reach B s' b'.

Lemma parser_reach_good B s b : parser_reach B s b -> good s.
Proof.
  induction 1 as [ts b|A P fuel s b o s' b' He Hr IH E]; [exact I|].
  pose proof (run_transfer (P fuel) s b IH) as T. rewrite E in T. apply T.
Qed.

Lemma tokens_left_abs s : map fst (toks (abs s)) = tokens_left s.
Proof.
  destruct s as [iter buf p]. unfold abs, tokens_left. cbn [ti_buf ti_pos ti_iter].
  revert p. induction buf as [|[t|q] buf IH]; intros p; simpl.
  - apply locate_fst.
  - f_equal. apply IH.
  - apply IH.
Qed.
