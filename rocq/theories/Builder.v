(** * The [Builder] trait (src/ast/builder.rs 254-451) *)
From Verif Require Import Base Token Ast.

(** builder.rs 254-451.  [&mut self] is a threaded state of type [bst]; a method returns either
    its result or an error, and the new state. *)
Record builder := mkBuilder {
  bst : Type;
  b_cmd : Type;        (* type Command *)
  b_list : Type;       (* type CommandList *)
  b_listable : Type;   (* type ListableCommand *)
  b_pipeable : Type;   (* type PipeableCommand *)
  b_compound : Type;   (* type CompoundCommand *)
  b_word : Type;       (* type Word *)
  b_redirect : Type;   (* type Redirect *)
  b_err : Type;        (* type Error *)
  o_complete_command : list newline_ -> b_list -> sep_kind -> option newline_ ->
                       bst -> (b_cmd + b_err) * bst;
  o_and_or_list : b_listable -> list (list newline_ * and_or b_listable) ->
                  bst -> (b_list + b_err) * bst;
  o_pipeline : bool -> list (list newline_ * b_pipeable) -> bst -> (b_listable + b_err) * bst;
  o_simple_command : list (redirect_or_env_var b_redirect str b_word) ->
                     list (redirect_or_cmd_word b_redirect b_word) ->
                     bst -> (b_pipeable + b_err) * bst;
  o_brace_group : cgroup b_cmd -> list b_redirect -> bst -> (b_compound + b_err) * bst;
  o_subshell : cgroup b_cmd -> list b_redirect -> bst -> (b_compound + b_err) * bst;
  o_loop_command : loop_kind -> gbpair b_cmd -> list b_redirect ->
                   bst -> (b_compound + b_err) * bst;
  o_if_command : if_fragments b_cmd -> list b_redirect -> bst -> (b_compound + b_err) * bst;
  o_for_command : for_fragments b_word b_cmd -> list b_redirect ->
                  bst -> (b_compound + b_err) * bst;
  o_case_command : case_fragments b_word b_cmd -> list b_redirect ->
                   bst -> (b_compound + b_err) * bst;
  o_compound_command_into_pipeable : b_compound -> bst -> (b_pipeable + b_err) * bst;
  o_function_declaration : str -> list newline_ -> b_compound ->
                           bst -> (b_pipeable + b_err) * bst;
  o_comments : list newline_ -> bst -> (unit + b_err) * bst;
  o_word : cwk b_cmd -> bst -> (b_word + b_err) * bst;
  o_redirect : redirect_ b_word -> bst -> (b_redirect + b_err) * bst
}.
