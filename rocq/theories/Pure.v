(** * Builders that neither fail nor keep a state

    For such a builder the result of a parse is determined by the source alone.  The default
    builder is one, but for its [pipeline] method on an empty list of commands, which the parser
    never calls ([SameParse.v]). *)
From Verif Require Import Base Token Ast Builder DefaultBuilder.

Record pure (B : builder) := mkPure {
  pu_complete_command : list newline_ -> b_list B -> sep_kind -> option newline_ -> b_cmd B;
  pu_and_or_list : b_listable B -> list (list newline_ * and_or (b_listable B)) -> b_list B;
  pu_pipeline : bool -> list (list newline_ * b_pipeable B) -> b_listable B;
  pu_simple_command : list (redirect_or_env_var (b_redirect B) str (b_word B)) ->
                      list (redirect_or_cmd_word (b_redirect B) (b_word B)) -> b_pipeable B;
  pu_brace_group : cgroup (b_cmd B) -> list (b_redirect B) -> b_compound B;
  pu_subshell : cgroup (b_cmd B) -> list (b_redirect B) -> b_compound B;
  pu_loop_command : loop_kind -> gbpair (b_cmd B) -> list (b_redirect B) -> b_compound B;
  pu_if_command : if_fragments (b_cmd B) -> list (b_redirect B) -> b_compound B;
  pu_for_command : for_fragments (b_word B) (b_cmd B) -> list (b_redirect B) -> b_compound B;
  pu_case_command : case_fragments (b_word B) (b_cmd B) -> list (b_redirect B) -> b_compound B;
  pu_into_pipeable : b_compound B -> b_pipeable B;
  pu_function_declaration : str -> list newline_ -> b_compound B -> b_pipeable B;
  pu_word : cwk (b_cmd B) -> b_word B;
  pu_redirect : redirect_ (b_word B) -> b_redirect B;
  pu_complete_command_ok a b c d s :
    o_complete_command B a b c d s = (inl (pu_complete_command a b c d), s);
  pu_and_or_list_ok a b s : o_and_or_list B a b s = (inl (pu_and_or_list a b), s);
  pu_pipeline_ok a b s : b <> [] -> o_pipeline B a b s = (inl (pu_pipeline a b), s);
  pu_simple_command_ok a b s : o_simple_command B a b s = (inl (pu_simple_command a b), s);
  pu_brace_group_ok a b s : o_brace_group B a b s = (inl (pu_brace_group a b), s);
  pu_subshell_ok a b s : o_subshell B a b s = (inl (pu_subshell a b), s);
  pu_loop_command_ok a b c s : o_loop_command B a b c s = (inl (pu_loop_command a b c), s);
  pu_if_command_ok a b s : o_if_command B a b s = (inl (pu_if_command a b), s);
  pu_for_command_ok a b s : o_for_command B a b s = (inl (pu_for_command a b), s);
  pu_case_command_ok a b s : o_case_command B a b s = (inl (pu_case_command a b), s);
  pu_into_pipeable_ok a s :
    o_compound_command_into_pipeable B a s = (inl (pu_into_pipeable a), s);
  pu_function_declaration_ok a b c s :
    o_function_declaration B a b c s = (inl (pu_function_declaration a b c), s);
  pu_comments_ok a s : o_comments B a s = (inl tt, s);
  pu_word_ok a s : o_word B a s = (inl (pu_word a), s);
  pu_redirect_ok a s : o_redirect B a s = (inl (pu_redirect a), s) }.
Arguments pu_complete_command {B}. Arguments pu_and_or_list {B}. Arguments pu_pipeline {B}.
Arguments pu_simple_command {B}. Arguments pu_brace_group {B}. Arguments pu_subshell {B}.
Arguments pu_loop_command {B}. Arguments pu_if_command {B}. Arguments pu_for_command {B}.
Arguments pu_case_command {B}. Arguments pu_into_pipeable {B}.
Arguments pu_function_declaration {B}. Arguments pu_word {B}. Arguments pu_redirect {B}.

(** What the default builder makes of a pipeline. *)
Definition pipeline_ast (bang : bool) (cmds : list (list newline_ * d_pipeable)) : d_listable :=
  match cmds with
  | [(_, c)] => if bang then LPipe true [c] else LSingle c
  | _ => LPipe bang (map snd cmds)
  end.

Definition default_pure : pure default_builder.
Proof.
  refine (mkPure default_builder d_complete_command d_and_or_list pipeline_ast d_simple_command
    d_brace_group d_subshell d_loop_command d_if_command d_for_command d_case_command
    d_into_pipeable d_function_declaration default_word (fun r => r)
    _ _ _ _ _ _ _ _ _ _ _ _ _ _ _); try reflexivity.
  intros bang cmds s Hn. cbn. unfold d_pipeline.
  destruct cmds as [|[l c] [|[l2 c2] cmds]]; [congruence| |].
  - destruct bang; reflexivity.
  - cbn. rewrite orb_true_r. destruct bang; reflexivity.
Defined.
