(** * The generic default builder and the delegating builders

    default_builder.rs 228-704: [CoreBuilder<T, W, C, F>] for any string type [T], word type [W],
    command type [C] and function body type [F] with the conversions its [impl] asks for.
    [DefaultBuilder.v] models it for [T = String] and the types of [ast.rs]; here it is modelled
    as it is written, with the conversions as parameters. *)
From Coq Require Import String.
From Verif Require Import Base Token Ast Builder DefaultBuilder.

(** ast.rs 14-34: [enum Parameter<T>]. *)
Inductive gparam (T : Type) :=
  | GAt | GStar | GPound | GQuestion | GDash | GDollar | GBang | GPositional (n : N) | GVar (v : T).
Arguments GAt {T}. Arguments GStar {T}. Arguments GPound {T}. Arguments GQuestion {T}. Arguments GDash {T}.
Arguments GDollar {T}. Arguments GBang {T}. Arguments GPositional {T}. Arguments GVar {T}.

(** ast.rs 421-490: [enum Arithmetic<T>]. *)
Inductive garith (T : Type) :=
  | GAVar (v : T)
  | GALiteral (z : Z)
  | GAPow (a b : garith T)
  | GAPostIncr (v : T) | GAPostDecr (v : T) | GAPreIncr (v : T) | GAPreDecr (v : T)
  | GAUnaryPlus (a : garith T) | GAUnaryMinus (a : garith T) | GALogicalNot (a : garith T)
  | GABitwiseNot (a : garith T)
  | GAMult (a b : garith T) | GADiv (a b : garith T) | GAModulo (a b : garith T)
  | GAAdd (a b : garith T) | GASub (a b : garith T)
  | GAShiftLeft (a b : garith T) | GAShiftRight (a b : garith T)
  | GALess (a b : garith T) | GALessEq (a b : garith T) | GAGreat (a b : garith T) | GAGreatEq (a b : garith T)
  | GAEq (a b : garith T) | GANotEq (a b : garith T)
  | GABitwiseAnd (a b : garith T) | GABitwiseXor (a b : garith T) | GABitwiseOr (a b : garith T)
  | GALogicalAnd (a b : garith T) | GALogicalOr (a b : garith T)
  | GATernary (a b c : garith T)
  | GAAssign (v : T) (a : garith T)
  | GASequence (l : list (garith T)).
Arguments GAVar {T}. Arguments GALiteral {T}. Arguments GAPow {T}. Arguments GAPostIncr {T}. Arguments GAPostDecr {T}.
Arguments GAPreIncr {T}. Arguments GAPreDecr {T}. Arguments GAUnaryPlus {T}. Arguments GAUnaryMinus {T}.
Arguments GALogicalNot {T}. Arguments GABitwiseNot {T}. Arguments GAMult {T}. Arguments GADiv {T}. Arguments GAModulo {T}.
Arguments GAAdd {T}. Arguments GASub {T}. Arguments GAShiftLeft {T}. Arguments GAShiftRight {T}. Arguments GALess {T}.
Arguments GALessEq {T}. Arguments GAGreat {T}. Arguments GAGreatEq {T}. Arguments GAEq {T}. Arguments GANotEq {T}.
Arguments GABitwiseAnd {T}. Arguments GABitwiseXor {T}. Arguments GABitwiseOr {T}. Arguments GALogicalAnd {T}.
Arguments GALogicalOr {T}. Arguments GATernary {T}. Arguments GAAssign {T}. Arguments GASequence {T}.

Section Core.
Variables T W C F : Type.
(** [ShellWord<T, W, C>] (ast.rs 87-92), [ShellCompoundCommand<T, W, C>] (ast.rs 219),
    [BuilderPipeableCommand<T, W, C, F>] (default_builder.rs 264-270). *)
Definition cb_subst := param_subst (gparam T) W C (garith T).
Definition cb_simple_word := simple_word T (gparam T) cb_subst.
Definition cb_word := word_ T cb_simple_word.
Definition cb_shell_word := complex_word cb_word.
Definition cb_redirect := redirect_ W.
Definition cb_compound := compound_command_ (compound_kind T W C) cb_redirect.
Definition cb_pipeable := pipeable_ T (simple_command_ T W cb_redirect) cb_compound F.
Definition cb_listable := listable cb_pipeable.
Definition cb_list := and_or_list_ cb_listable.
(** [T: From<String>], [W: From<ShellWord<T, W, C>>], [C: From<Command<..>>],
    [F: From<ShellCompoundCommand<T, W, C>>] (default_builder.rs 272-278). *)
Variable from_string : str -> T.
Variable from_word : cb_shell_word -> W.
Variable from_command : command_ cb_list -> C.
Variable from_compound : cb_compound -> F.

(** default_builder.rs 290-305. *)
Definition cb_complete_command (_ : list newline_) (l : cb_list) (sep : sep_kind) (_ : option newline_) : C :=
  from_command (match sep with
                | SepSemi | SepOther | SepNewline => CList l
                | SepAmp => CJob l
                end).
(** default_builder.rs 308-317. *)
Definition cb_and_or_list (fst : cb_listable) (rest : list (list newline_ * and_or cb_listable)) : cb_list :=
  mkAOL fst (map snd rest).
(** default_builder.rs 321-338. *)
Definition cb_pipeline (bang : bool) (cmds : list (list newline_ * cb_pipeable)) (s : unit)
  : (cb_listable + default_err) * unit :=
  let cmds := map snd cmds in
  if bang || (1 <? List.length cmds)%nat then ok (LPipe bang cmds) s
  else match rev cmds with
       | c :: _ => ok (LSingle c) s
       | [] => (inr PipelineUnwrap, s)
       end.
(** default_builder.rs 341-360. *)
Definition cb_simple_command (vars : list (redirect_or_env_var cb_redirect str W))
    (args : list (redirect_or_cmd_word cb_redirect W)) : cb_pipeable :=
  PSimple (mkSC (map (fun x => match x with ERedirect r => ERedirect r | EEnvVar k v => EEnvVar (from_string k) v end) vars) args).
(** default_builder.rs 363-375. *)
Definition cb_brace_group (g : cgroup C) (io : list cb_redirect) : cb_compound := mkCC (CBrace (commands g)) io.
(** default_builder.rs 378-390. *)
Definition cb_subshell (g : cgroup C) (io : list cb_redirect) : cb_compound := mkCC (CSubshell (commands g)) io.
(** default_builder.rs 393-417. *)
Definition cb_loop_command (k : loop_kind) (gb : gbpair C) (io : list cb_redirect) : cb_compound :=
  let gb' := mkGB (commands (gguard gb)) (commands (gbody gb)) in
  mkCC (match k with LoopWhile => CWhile gb' | LoopUntil => CUntil gb' end) io.
(** default_builder.rs 420-461. *)
Definition cb_if_command (f : if_fragments C) (io : list cb_redirect) : cb_compound :=
  mkCC (CIf (map (fun gb => mkGB (commands (gguard gb)) (commands (gbody gb))) (conditionals f))
            (option_map commands (else_branch f))) io.
(** default_builder.rs 464-486. *)
Definition cb_for_command (f : for_fragments W C) (io : list cb_redirect) : cb_compound :=
  mkCC (CFor (from_string (ff_var f)) (option_map (fun t => snd (fst t)) (ff_words f)) (commands (ff_body f))) io.
(** default_builder.rs 489-516. *)
Definition cb_case_command (f : case_fragments W C) (io : list cb_redirect) : cb_compound :=
  mkCC (CCase (cf_word f)
              (map (fun arm => mkPB (pattern_alternatives (arm_patterns arm)) (commands (arm_body arm))) (cf_arms f))) io.
(** default_builder.rs 519-524. *)
Definition cb_into_pipeable (c : cb_compound) : cb_pipeable := PCompound c.
(** default_builder.rs 527-534. *)
Definition cb_function_declaration (name : str) (_ : list newline_) (c : cb_compound) : cb_pipeable :=
  PFunctionDef (from_string name) (from_compound c).

(** default_builder.rs 552-596: [map_arith]. *)
Fixpoint cb_map_arith (a : arith) : garith T :=
  match a with
  | AVar v => GAVar (from_string v)
  | ALiteral l => GALiteral l
  | APow a b => GAPow (cb_map_arith a) (cb_map_arith b)
  | APostIncr p => GAPostIncr (from_string p)
  | APostDecr p => GAPostDecr (from_string p)
  | APreIncr p => GAPreIncr (from_string p)
  | APreDecr p => GAPreDecr (from_string p)
  | AUnaryPlus a => GAUnaryPlus (cb_map_arith a)
  | AUnaryMinus a => GAUnaryMinus (cb_map_arith a)
  | ALogicalNot a => GALogicalNot (cb_map_arith a)
  | ABitwiseNot a => GABitwiseNot (cb_map_arith a)
  | AMult a b => GAMult (cb_map_arith a) (cb_map_arith b)
  | ADiv a b => GADiv (cb_map_arith a) (cb_map_arith b)
  | AModulo a b => GAModulo (cb_map_arith a) (cb_map_arith b)
  | AAdd a b => GAAdd (cb_map_arith a) (cb_map_arith b)
  | ASub a b => GASub (cb_map_arith a) (cb_map_arith b)
  | AShiftLeft a b => GAShiftLeft (cb_map_arith a) (cb_map_arith b)
  | AShiftRight a b => GAShiftRight (cb_map_arith a) (cb_map_arith b)
  | ALess a b => GALess (cb_map_arith a) (cb_map_arith b)
  | ALessEq a b => GALessEq (cb_map_arith a) (cb_map_arith b)
  | AGreat a b => GAGreat (cb_map_arith a) (cb_map_arith b)
  | AGreatEq a b => GAGreatEq (cb_map_arith a) (cb_map_arith b)
  | AEq a b => GAEq (cb_map_arith a) (cb_map_arith b)
  | ANotEq a b => GANotEq (cb_map_arith a) (cb_map_arith b)
  | ABitwiseAnd a b => GABitwiseAnd (cb_map_arith a) (cb_map_arith b)
  | ABitwiseXor a b => GABitwiseXor (cb_map_arith a) (cb_map_arith b)
  | ABitwiseOr a b => GABitwiseOr (cb_map_arith a) (cb_map_arith b)
  | ALogicalAnd a b => GALogicalAnd (cb_map_arith a) (cb_map_arith b)
  | ALogicalOr a b => GALogicalOr (cb_map_arith a) (cb_map_arith b)
  | ATernary a b c => GATernary (cb_map_arith a) (cb_map_arith b) (cb_map_arith c)
  | AAssign v a => GAAssign (from_string v) (cb_map_arith a)
  | ASequence l => GASequence (map cb_map_arith l)
  end.
(** default_builder.rs 598-611: [map_param]. *)
Definition cb_map_param (p : param) : gparam T :=
  match p with
  | PmAt => GAt
  | PmStar => GStar
  | PmPound => GPound
  | PmQuestion => GQuestion
  | PmDash => GDash
  | PmDollar => GDollar
  | PmBang => GBang
  | PmPositional n => GPositional n
  | PmVar v => GVar (from_string v)
  end.

(** default_builder.rs 542-686: [CoreBuilder::word]; [rec] is the recursive [self.word]. *)
Section GWord.
Variable rec : cwk C -> W.
Definition cb_map_subst (s : psk C) : cb_subst :=
  match s with
  | KSLen p => SLen (cb_map_param p)
  | KSCommand c => SCommand (commands c)
  | KSArith a => SArith (option_map cb_map_arith a)
  | KSDefault c p w => SDefault c (cb_map_param p) (option_map rec w)
  | KSAssign c p w => SAssign c (cb_map_param p) (option_map rec w)
  | KSError c p w => SError c (cb_map_param p) (option_map rec w)
  | KSAlternative c p w => SAlternative c (cb_map_param p) (option_map rec w)
  | KSRemoveSmallestSuffix p w => SRemoveSmallestSuffix (cb_map_param p) (option_map rec w)
  | KSRemoveLargestSuffix p w => SRemoveLargestSuffix (cb_map_param p) (option_map rec w)
  | KSRemoveSmallestPrefix p w => SRemoveSmallestPrefix (cb_map_param p) (option_map rec w)
  | KSRemoveLargestPrefix p w => SRemoveLargestPrefix (cb_map_param p) (option_map rec w)
  end.
Definition cb_map_simple (s : swk C) : cb_simple_word :=
  match s with
  | KLiteral s => WLiteral (from_string s)
  | KEscaped s => WEscaped (from_string s)
  | KParam p => WParam (cb_map_param p)
  | KStar => WStar
  | KQuestion => WQuestion
  | KSquareOpen => WSquareOpen
  | KSquareClose => WSquareClose
  | KTilde => WTilde
  | KColon => WColon
  | KCommandSubst c => WSubst (SCommand (commands c))
  | KSubst s => WSubst (cb_map_subst s)
  end.
Definition cb_map_word (w : wk C) : cb_word :=
  match w with
  | KSimple s => WSimple (cb_map_simple s)
  | KSingleQuoted s => WSingleQuoted (from_string s)
  | KDoubleQuoted v => WDoubleQuoted (map cb_map_simple v)
  end.
Definition cb_map_complex (k : cwk C) : W :=
  from_word (match compress k with
             | KSingle s => WSingle (cb_map_word s)
             | KConcat ws => WConcat (map cb_map_word ws)
             end).
End GWord.
(** [n] bounds the nesting; [cb_core_word] supplies enough. *)
Fixpoint cb_word_n (n : nat) (k : cwk C) : W :=
  cb_map_complex (match n with
                 | O => fun _ => from_word (WConcat [])
                 | S n' => cb_word_n n'
                 end) k.
Definition cb_core_word (k : cwk C) : W := cb_word_n (cwk_depth k) k.

(** default_builder.rs 272-704: [impl Builder for CoreBuilder<T, W, C, F>]. *)
Definition core_builder : builder :=
  mkBuilder unit C cb_list cb_listable cb_pipeable cb_compound W cb_redirect default_err
    (fun pre l sep c => ok (cb_complete_command pre l sep c))
    (fun f r => ok (cb_and_or_list f r))
    cb_pipeline
    (fun v a => ok (cb_simple_command v a))
    (fun g io => ok (cb_brace_group g io))
    (fun g io => ok (cb_subshell g io))
    (fun k gb io => ok (cb_loop_command k gb io))
    (fun f io => ok (cb_if_command f io))
    (fun f io => ok (cb_for_command f io))
    (fun f io => ok (cb_case_command f io))
    (fun c => ok (cb_into_pipeable c))
    (fun n cs c => ok (cb_function_declaration n cs c))
    (fun _ => ok tt)
    (fun k => ok (cb_core_word k))
    (fun r => ok r).
End Core.

(** builder.rs 453-589: [impl Builder for &mut T] and [for Box<T>] ([impl_builder_body!]); also the
    methods of [DefaultBuilder] and [AtomicDefaultBuilder], which delegate to the [CoreBuilder]
    they contain (default_builder.rs 60-186).  Every method calls its namesake with its arguments,
    in order. *)
Definition delegating (B : builder) : builder :=
  mkBuilder (bst B) (b_cmd B) (b_list B) (b_listable B) (b_pipeable B) (b_compound B) (b_word B) (b_redirect B) (b_err B)
    (fun pre_cmd_comments list separator cmd_comment => o_complete_command B pre_cmd_comments list separator cmd_comment)
    (fun first rest => o_and_or_list B first rest)
    (fun bang cmds => o_pipeline B bang cmds)
    (fun redirects_or_env_vars redirects_or_cmd_words => o_simple_command B redirects_or_env_vars redirects_or_cmd_words)
    (fun cmds redirects => o_brace_group B cmds redirects)
    (fun cmds redirects => o_subshell B cmds redirects)
    (fun kind guard_body_pair redirects => o_loop_command B kind guard_body_pair redirects)
    (fun fragments redirects => o_if_command B fragments redirects)
    (fun fragments redirects => o_for_command B fragments redirects)
    (fun fragments redirects => o_case_command B fragments redirects)
    (fun cmd => o_compound_command_into_pipeable B cmd)
    (fun name post_name_comments body => o_function_declaration B name post_name_comments body)
    (fun comments => o_comments B comments)
    (fun kind => o_word B kind)
    (fun kind => o_redirect B kind).
