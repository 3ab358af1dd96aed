(** * The public methods of [Parser], as data, and the same call made with different builders *)
From Verif Require Import Base Token Pos Ast Builder Prog Iter Located IterProofs ParserBase Balanced
  Arith Word Redirect Command RunLemmas Entry Sim SimArith SimWord SimCommand.
#[local] Opaque Sim.sim.

(** parse.rs 446-2640: the public methods that read tokens, with their arguments. *)
Inductive api :=
  | ACompleteCommand | AAndOrList | APipeline | ACommand | ASimpleCommand | ARedirectList | ARedirect
  | ARedirectHeredoc (fd : option N) | AWord | AWordPreserve | ABackticked | AParameter | ADoGroup
  | ABraceGroup | ASubshell | ACompoundCommand | ALoopCommand | AIfCommand | AForCommand | ACaseCommand
  | AMaybeFunction | AFunction | ASkipWhitespace | ALinebreak | ANewline
  | APeekReservedToken (ts : list token) | APeekReservedWord (ws : list str)
  | AReservedToken (ts : list token) | AReservedWord (ws : list str)
  | ACommandGroup (cfg : delimiters) | AArithmetic.

(** What each returns. *)
Definition api_result (B : builder) (m : api) : Type :=
  match m with
  | ACompleteCommand => option (b_cmd B)
  | AAndOrList => b_list B
  | APipeline => b_listable B
  | ACommand | ASimpleCommand | AFunction => b_pipeable B
  | ARedirectList => list (b_redirect B)
  | ARedirect => option (b_redirect B + b_word B)
  | ARedirectHeredoc _ => b_redirect B
  | AWord | AWordPreserve => option (b_word B)
  | ABackticked | AParameter => b_word B
  | ADoGroup | ABraceGroup | ASubshell | ACommandGroup _ => cgroup (b_cmd B)
  | ACompoundCommand => b_compound B
  | ALoopCommand => loop_kind * gbpair (b_cmd B)
  | AIfCommand => if_fragments (b_cmd B)
  | AForCommand => for_fragments (b_word B) (b_cmd B)
  | ACaseCommand => case_fragments (b_word B) (b_cmd B)
  | AMaybeFunction => option (b_pipeable B)
  | ASkipWhitespace => unit
  | ALinebreak => list newline_
  | ANewline => option newline_
  | APeekReservedToken _ => option token
  | APeekReservedWord _ | AReservedWord _ => option str
  | AReservedToken _ => token
  | AArithmetic => arith
  end.

Definition call (B : builder) (m : api) (fuel : nat) : prog (bst B) (b_err B) (api_result B m) :=
  match m with
  | ACompleteCommand => p_complete_command B fuel
  | AAndOrList => p_and_or_list B fuel
  | APipeline => p_pipeline B fuel
  | ACommand => p_command B fuel
  | ASimpleCommand => p_simple_command B fuel
  | ARedirectList => p_redirect_list B fuel
  | ARedirect => p_redirect B fuel
  | ARedirectHeredoc fd => p_redirect_heredoc B fuel fd
  | AWord => p_word B fuel
  | AWordPreserve => p_word_preserve_trailing_whitespace B fuel
  | ABackticked => p_backticked_command_substitution B fuel
  | AParameter => p_parameter B fuel
  | ADoGroup => p_do_group B fuel
  | ABraceGroup => p_brace_group B fuel
  | ASubshell => p_subshell B fuel
  | ACompoundCommand => p_compound_command B fuel
  | ALoopCommand => p_loop_command B fuel
  | AIfCommand => p_if_command B fuel
  | AForCommand => p_for_command B fuel
  | ACaseCommand => p_case_command B fuel
  | AMaybeFunction => p_maybe_function_declaration B fuel
  | AFunction => p_function_declaration B fuel
  | ASkipWhitespace => p_skip_whitespace B fuel
  | ALinebreak => p_linebreak B fuel
  | ANewline => p_newline B fuel
  | APeekReservedToken ts => p_peek_reserved_token B fuel ts
  | APeekReservedWord ws => p_peek_reserved_word B fuel ws
  | AReservedToken ts => p_reserved_token B fuel ts
  | AReservedWord ws => p_reserved_word B fuel ws
  | ACommandGroup cfg => p_command_group B fuel cfg
  | AArithmetic => p_arithmetic_substitution B fuel
  end.

Lemma call_entry B m : entry_point B _ (call B m).
Proof. destruct m; try (apply ep_nb; constructor). apply ep_brace_group. Qed.
Lemma entry_call B A (P : nat -> prog (bst B) (b_err B) A) : entry_point B A P ->
  exists m, existT (fun A => nat -> prog (bst B) (b_err B) A) A P
          = existT (fun A => nat -> prog (bst B) (b_err B) A) (api_result B m) (call B m).
Proof.
  intros [A' P' []|].
  - exists ACompleteCommand; reflexivity.
  - exists AAndOrList; reflexivity.
  - exists APipeline; reflexivity.
  - exists ACommand; reflexivity.
  - exists ASimpleCommand; reflexivity.
  - exists ARedirectList; reflexivity.
  - exists ARedirect; reflexivity.
  - exists (ARedirectHeredoc fd); reflexivity.
  - exists AWord; reflexivity.
  - exists AWordPreserve; reflexivity.
  - exists ABackticked; reflexivity.
  - exists AParameter; reflexivity.
  - exists ADoGroup; reflexivity.
  - exists ASubshell; reflexivity.
  - exists ACompoundCommand; reflexivity.
  - exists ALoopCommand; reflexivity.
  - exists AIfCommand; reflexivity.
  - exists AForCommand; reflexivity.
  - exists ACaseCommand; reflexivity.
  - exists AMaybeFunction; reflexivity.
  - exists AFunction; reflexivity.
  - exists ASkipWhitespace; reflexivity.
  - exists ALinebreak; reflexivity.
  - exists ANewline; reflexivity.
  - exists (APeekReservedToken ts); reflexivity.
  - exists (APeekReservedWord ws); reflexivity.
  - exists (AReservedToken ts); reflexivity.
  - exists (AReservedWord ws); reflexivity.
  - exists (ACommandGroup cfg); reflexivity.
  - exists AArithmetic; reflexivity.
  - exists ABraceGroup; reflexivity.
Qed.

(** Replacing the builder's values in a result. *)
Definition map_result {B1 B2} (M : bmor B1 B2) (m : api) : api_result B1 m -> api_result B2 m :=
  match m with
  | ACompleteCommand => option_map (m_cmd _ _ M)
  | AAndOrList => m_list _ _ M
  | APipeline => m_listable _ _ M
  | ACommand => m_pipeable _ _ M
  | ASimpleCommand => m_pipeable _ _ M
  | AFunction => m_pipeable _ _ M
  | ARedirectList => map (m_redirect _ _ M)
  | ARedirect => option_map (map_sum (m_redirect _ _ M) (m_word _ _ M))
  | ARedirectHeredoc _ => m_redirect _ _ M
  | AWord => option_map (m_word _ _ M)
  | AWordPreserve => option_map (m_word _ _ M)
  | ABackticked => m_word _ _ M
  | AParameter => m_word _ _ M
  | ADoGroup => map_cg (m_cmd _ _ M)
  | ABraceGroup => map_cg (m_cmd _ _ M)
  | ASubshell => map_cg (m_cmd _ _ M)
  | ACommandGroup _ => map_cg (m_cmd _ _ M)
  | ACompoundCommand => m_compound _ _ M
  | ALoopCommand => fun x => (fst x, map_gbp (m_cmd _ _ M) (snd x))
  | AIfCommand => map_if (m_cmd _ _ M)
  | AForCommand => map_for (m_word _ _ M) (m_cmd _ _ M)
  | ACaseCommand => map_case (m_word _ _ M) (m_cmd _ _ M)
  | AMaybeFunction => option_map (m_pipeable _ _ M)
  | ASkipWhitespace => fun x => x
  | ALinebreak => fun x => x
  | ANewline => fun x => x
  | APeekReservedToken _ => fun x => x
  | APeekReservedWord _ => fun x => x
  | AReservedWord _ => fun x => x
  | AReservedToken _ => fun x => x
  | AArithmetic => fun x => x
  end.

Lemma sim_call {B1 B2} (M : bmor B1 B2) m f1 f2 : (f1 <= f2)%nat ->
  sim (RB _ _ M) (RE _ _ M) (graph (map_result M m)) (call B1 m f1) (call B2 m f2).
Proof.
  intros Hf. pose proof (sim_knot M f1 f2 Hf f1 f2 Hf) as HK.
  destruct m; cbn [call map_result].
  - apply sim_complete_command; auto.
  - apply sim_and_or_list; auto.
  - apply sim_pipeline; auto.
  - apply sim_command; auto.
  - apply sim_simple_command; auto.
  - apply sim_redirect_list; auto.
  - apply sim_redirect; auto.
  - apply sim_redirect_heredoc; auto.
  - apply sim_word; auto.
  - apply sim_wptw; auto.
  - apply sim_bcs; auto.
  - apply sim_parameter; auto.
  - apply sim_do_group; auto.
  - apply sim_brace_group; auto.
  - apply sim_subshell; auto.
  - apply sim_compound; auto.
  - apply sim_loop_command; auto.
  - apply sim_if_command; auto.
  - apply sim_for_command; auto.
  - apply sim_case_command; auto.
  - apply sim_maybe_function; auto.
  - apply sim_fd; auto.
  - apply sim_skip_whitespace; auto.
  - apply sim_linebreak; auto.
  - apply sim_newline; auto.
  - apply sim_peek_reserved_token; auto.
  - apply sim_peek_reserved_word; auto.
  - apply sim_reserved_token; auto.
  - apply sim_reserved_word; auto.
  - apply sim_command_group; auto.
  - apply sim_arithmetic_substitution; auto.
Qed.
