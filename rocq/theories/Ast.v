(** * AST data types (src/ast.rs) and the parser/builder exchange types (src/ast/builder.rs) *)
From Verif Require Import Base Token.

(** ast.rs 14-34: [enum Parameter<T>], at [T = String]. *)
Inductive param :=
  | PmAt | PmStar | PmPound | PmQuestion | PmDash | PmDollar | PmBang
  | PmPositional (n : N)
  | PmVar (s : str).

Definition param_dec (a b : param) : {a = b} + {a <> b}.
Proof. decide equality; [apply N.eq_dec|apply str_dec]. Defined.
Definition param_eqb a b := if param_dec a b then true else false.

(** ast.rs 421-490: [enum Arithmetic<T>], at [T = String]; [Box] is not represented. *)
Inductive arith :=
  | AVar (v : str)
  | ALiteral (z : Z)
  | APow (a b : arith)
  | APostIncr (v : str) | APostDecr (v : str) | APreIncr (v : str) | APreDecr (v : str)
  | AUnaryPlus (a : arith) | AUnaryMinus (a : arith) | ALogicalNot (a : arith)
  | ABitwiseNot (a : arith)
  | AMult (a b : arith) | ADiv (a b : arith) | AModulo (a b : arith)
  | AAdd (a b : arith) | ASub (a b : arith)
  | AShiftLeft (a b : arith) | AShiftRight (a b : arith)
  | ALess (a b : arith) | ALessEq (a b : arith) | AGreat (a b : arith) | AGreatEq (a b : arith)
  | AEq (a b : arith) | ANotEq (a b : arith)
  | ABitwiseAnd (a b : arith) | ABitwiseXor (a b : arith) | ABitwiseOr (a b : arith)
  | ALogicalAnd (a b : arith) | ALogicalOr (a b : arith)
  | ATernary (a b c : arith)
  | AAssign (v : str) (a : arith)
  | ASequence (l : list arith).

(** ast.rs 48-83: [enum ParameterSubstitution<P, W, C, A>]. *)
Inductive param_subst (P W C A : Type) :=
  | SCommand (c : list C)
  | SLen (p : P)
  | SArith (a : option A)
  | SDefault (colon : bool) (p : P) (w : option W)
  | SAssign (colon : bool) (p : P) (w : option W)
  | SError (colon : bool) (p : P) (w : option W)
  | SAlternative (colon : bool) (p : P) (w : option W)
  | SRemoveSmallestSuffix (p : P) (w : option W)
  | SRemoveLargestSuffix (p : P) (w : option W)
  | SRemoveSmallestPrefix (p : P) (w : option W)
  | SRemoveLargestPrefix (p : P) (w : option W).
Arguments SCommand {P W C A}. Arguments SLen {P W C A}. Arguments SArith {P W C A}.
Arguments SDefault {P W C A}. Arguments SAssign {P W C A}. Arguments SError {P W C A}.
Arguments SAlternative {P W C A}.
Arguments SRemoveSmallestSuffix {P W C A}. Arguments SRemoveLargestSuffix {P W C A}.
Arguments SRemoveSmallestPrefix {P W C A}. Arguments SRemoveLargestPrefix {P W C A}.

(** ast.rs 100-106: [enum ComplexWord<W>]. *)
Inductive complex_word (W : Type) := WConcat (l : list W) | WSingle (w : W).
Arguments WConcat {W}. Arguments WSingle {W}.

(** ast.rs 114-123: [enum Word<L, W>]. *)
Inductive word_ (L W : Type) := WSimple (w : W) | WDoubleQuoted (l : list W) | WSingleQuoted (s : L).
Arguments WSimple {L W}. Arguments WDoubleQuoted {L W}. Arguments WSingleQuoted {L W}.

(** ast.rs 132-155: [enum SimpleWord<L, P, S>]. *)
Inductive simple_word (L P S : Type) :=
  | WLiteral (s : L) | WEscaped (s : L) | WParam (p : P) | WSubst (s : S)
  | WStar | WQuestion | WSquareOpen | WSquareClose | WTilde | WColon.
Arguments WLiteral {L P S}. Arguments WEscaped {L P S}. Arguments WParam {L P S}.
Arguments WSubst {L P S}. Arguments WStar {L P S}. Arguments WQuestion {L P S}.
Arguments WSquareOpen {L P S}. Arguments WSquareClose {L P S}. Arguments WTilde {L P S}.
Arguments WColon {L P S}.

(** ast.rs 163-181: [enum Redirect<W>]; builder.rs 182-200: [enum RedirectKind<W>] (the same
    eight constructors; one Coq type serves both, [CoreBuilder::redirect] maps each constructor
    to its namesake). *)
Inductive redirect_ (W : Type) :=
  | RRead (fd : option N) (w : W)
  | RWrite (fd : option N) (w : W)
  | RReadWrite (fd : option N) (w : W)
  | RAppend (fd : option N) (w : W)
  | RClobber (fd : option N) (w : W)
  | RHeredoc (fd : option N) (w : W)
  | RDupRead (fd : option N) (w : W)
  | RDupWrite (fd : option N) (w : W).
Arguments RRead {W}. Arguments RWrite {W}. Arguments RReadWrite {W}. Arguments RAppend {W}.
Arguments RClobber {W}. Arguments RHeredoc {W}. Arguments RDupRead {W}. Arguments RDupWrite {W}.

(** ast.rs 184-191: [struct GuardBodyPair<C>]. *)
Record guard_body (C : Type) := mkGB { guard : list C; body : list C }.
Arguments mkGB {C}. Arguments guard {C}. Arguments body {C}.

(** ast.rs 194-200: [struct PatternBodyPair<W, C>]. *)
Record pattern_body (W C : Type) := mkPB { patterns : list W; pbody : list C }.
Arguments mkPB {W C}. Arguments patterns {W C}. Arguments pbody {W C}.

(** ast.rs 206-213: [enum Command<T>]. *)
Inductive command_ (T : Type) := CJob (t : T) | CList (t : T).
Arguments CJob {T}. Arguments CList {T}.

(** ast.rs 247-253: [enum AndOr<T>]. *)
Inductive and_or (T : Type) := And (t : T) | Or (t : T).
Arguments And {T}. Arguments Or {T}.

(** ast.rs 259-265: [struct AndOrList<T>]. *)
Record and_or_list_ (T : Type) := mkAOL { first : T; rest : list (and_or T) }.
Arguments mkAOL {T}. Arguments first {T}. Arguments rest {T}.

(** ast.rs 271-282: [enum ListableCommand<T>]. *)
Inductive listable (T : Type) := LPipe (bang : bool) (l : list T) | LSingle (t : T).
Arguments LPipe {T}. Arguments LSingle {T}.

(** ast.rs 292-302: [enum PipeableCommand<N, S, C, F>]. *)
Inductive pipeable_ (N S C F : Type) :=
  | PSimple (s : S) | PCompound (c : C) | PFunctionDef (n : N) (f : F).
Arguments PSimple {N S C F}. Arguments PCompound {N S C F}. Arguments PFunctionDef {N S C F}.

(** ast.rs 315-320: [struct CompoundCommand<T, R>]. *)
Record compound_command_ (T R : Type) := mkCC { kind : T; io : list R }.
Arguments mkCC {T R}. Arguments kind {T R}. Arguments io {T R}.

(** ast.rs 330-367: [enum CompoundCommandKind<V, W, C>]. *)
Inductive compound_kind (V W C : Type) :=
  | CBrace (l : list C)
  | CSubshell (l : list C)
  | CWhile (gb : guard_body C)
  | CUntil (gb : guard_body C)
  | CIf (conditionals : list (guard_body C)) (else_branch : option (list C))
  | CFor (var : V) (words : option (list W)) (body : list C)
  | CCase (word : W) (arms : list (pattern_body W C)).
Arguments CBrace {V W C}. Arguments CSubshell {V W C}. Arguments CWhile {V W C}.
Arguments CUntil {V W C}. Arguments CIf {V W C}. Arguments CFor {V W C}. Arguments CCase {V W C}.

(** ast.rs 376-382: [enum RedirectOrEnvVar<R, V, W>]. *)
Inductive redirect_or_env_var (R V W : Type) := ERedirect (r : R) | EEnvVar (v : V) (w : option W).
Arguments ERedirect {R V W}. Arguments EEnvVar {R V W}.

(** ast.rs 390-396: [enum RedirectOrCmdWord<R, W>]. *)
Inductive redirect_or_cmd_word (R W : Type) := DRedirect (r : R) | DCmdWord (w : W).
Arguments DRedirect {R W}. Arguments DCmdWord {R W}.

(** ast.rs 406-413: [struct SimpleCommand<V, W, R>]. *)
Record simple_command_ (V W R : Type) := mkSC {
  redirects_or_env_vars : list (redirect_or_env_var R V W);
  redirects_or_cmd_words : list (redirect_or_cmd_word R W) }.
Arguments mkSC {V W R}. Arguments redirects_or_env_vars {V W R}.
Arguments redirects_or_cmd_words {V W R}.

(** ast.rs 492-594, 230-236, 305, 219, 87-92: [TopLevelWord<String>], [TopLevelCommand<String>]
    and the aliases tying the generic types together. [Rc]/[Box] are not represented. *)
Inductive tlword :=
  | TLWord (w : complex_word (word_ str (simple_word str param
                   (param_subst param tlword tlcmd arith))))
with tlcmd :=
  | TLCmd (c : command_ (and_or_list_ (listable (pipeable_ str
        (simple_command_ str tlword (redirect_ tlword))
        (compound_command_ (compound_kind str tlword tlcmd) (redirect_ tlword))
        (compound_command_ (compound_kind str tlword tlcmd) (redirect_ tlword)))))).

Definition d_subst := param_subst param tlword tlcmd arith.
Definition d_simple_word := simple_word str param d_subst.
Definition d_word := word_ str d_simple_word.
Definition d_redirect := redirect_ tlword.
Definition d_compound := compound_command_ (compound_kind str tlword tlcmd) d_redirect.
Definition d_simple := simple_command_ str tlword d_redirect.
Definition d_pipeable := pipeable_ str d_simple d_compound d_compound.
Definition d_listable := listable d_pipeable.
Definition d_list := and_or_list_ d_listable.

(** ** Exchange types between parser and builder *)

(** builder.rs 21-33: [enum SeparatorKind]. *)
Inductive sep_kind := SepSemi | SepAmp | SepNewline | SepOther.

(** builder.rs 35-42: [enum LoopKind]. *)
Inductive loop_kind := LoopWhile | LoopUntil.

(** builder.rs 247-248: [struct Newline(Option<String>)]. *)
Inductive newline_ := Newline (comment : option str).

(** builder.rs 46-52: [struct CommandGroup<C>]. *)
Record cgroup (C : Type) := mkCG { commands : list C; trailing_comments : list newline_ }.
Arguments mkCG {C}. Arguments commands {C}. Arguments trailing_comments {C}.

(** builder.rs 55-62: [struct GuardBodyPairGroup<C>]. *)
Record gbpair (C : Type) := mkGBP { gguard : cgroup C; gbody : cgroup C }.
Arguments mkGBP {C}. Arguments gguard {C}. Arguments gbody {C}.

(** builder.rs 65-71: [struct IfFragments<C>]. *)
Record if_fragments (C : Type) := mkIF {
  conditionals : list (gbpair C); else_branch : option (cgroup C) }.
Arguments mkIF {C}. Arguments conditionals {C}. Arguments else_branch {C}.

(** builder.rs 74-88: [struct ForFragments<W, C>]. *)
Record for_fragments (W C : Type) := mkFF {
  ff_var : str;
  ff_var_comment : option newline_;
  ff_words : option (list newline_ * list W * option newline_);
  ff_pre_body_comments : list newline_;
  ff_body : cgroup C }.
Arguments mkFF {W C}. Arguments ff_var {W C}. Arguments ff_var_comment {W C}.
Arguments ff_words {W C}. Arguments ff_pre_body_comments {W C}. Arguments ff_body {W C}.

(** builder.rs 122-130: [struct CasePatternFragments<W>]. *)
Record case_pattern (W : Type) := mkCP {
  pre_pattern_comments : list newline_;
  pattern_alternatives : list W;
  pattern_comment : option newline_ }.
Arguments mkCP {W}. Arguments pre_pattern_comments {W}. Arguments pattern_alternatives {W}.
Arguments pattern_comment {W}.

(** builder.rs 110-119: [struct CaseArm<W, C>]. *)
Record case_arm (W C : Type) := mkCA {
  arm_patterns : case_pattern W; arm_body : cgroup C; arm_comment : option newline_ }.
Arguments mkCA {W C}. Arguments arm_patterns {W C}. Arguments arm_body {W C}.
Arguments arm_comment {W C}.

(** builder.rs 91-107: [struct CaseFragments<W, C>]. *)
Record case_fragments (W C : Type) := mkCF {
  cf_word : W;
  cf_post_word_comments : list newline_;
  cf_in_comment : option newline_;
  cf_arms : list (case_arm W C);
  cf_post_arms_comments : list newline_ }.
Arguments mkCF {W C}. Arguments cf_word {W C}. Arguments cf_post_word_comments {W C}.
Arguments cf_in_comment {W C}. Arguments cf_arms {W C}. Arguments cf_post_arms_comments {W C}.

(** builder.rs 154-178: [enum SimpleWordKind<C>]; builder.rs 142-151: [enum WordKind<C>];
    builder.rs 133-139: [enum ComplexWordKind<C>]; builder.rs 203-243:
    [enum ParameterSubstitutionKind<W, C>] at [W = ComplexWordKind<C>]. *)
Inductive swk (C : Type) :=
  | KLiteral (s : str)
  | KParam (p : param)
  | KSubst (s : psk C)
  | KCommandSubst (g : cgroup C)
  | KEscaped (s : str)
  | KStar | KQuestion | KSquareOpen | KSquareClose | KTilde | KColon
with wk (C : Type) :=
  | KSimple (s : swk C)
  | KDoubleQuoted (l : list (swk C))
  | KSingleQuoted (s : str)
with cwk (C : Type) :=
  | KConcat (l : list (wk C))
  | KSingle (w : wk C)
with psk (C : Type) :=
  | KSCommand (g : cgroup C)
  | KSLen (p : param)
  | KSArith (a : option arith)
  | KSDefault (colon : bool) (p : param) (w : option (cwk C))
  | KSAssign (colon : bool) (p : param) (w : option (cwk C))
  | KSError (colon : bool) (p : param) (w : option (cwk C))
  | KSAlternative (colon : bool) (p : param) (w : option (cwk C))
  | KSRemoveSmallestSuffix (p : param) (w : option (cwk C))
  | KSRemoveLargestSuffix (p : param) (w : option (cwk C))
  | KSRemoveSmallestPrefix (p : param) (w : option (cwk C))
  | KSRemoveLargestPrefix (p : param) (w : option (cwk C)).
Arguments KLiteral {C}. Arguments KParam {C}. Arguments KSubst {C}. Arguments KCommandSubst {C}.
Arguments KEscaped {C}. Arguments KStar {C}. Arguments KQuestion {C}. Arguments KSquareOpen {C}.
Arguments KSquareClose {C}. Arguments KTilde {C}. Arguments KColon {C}.
Arguments KSimple {C}. Arguments KDoubleQuoted {C}. Arguments KSingleQuoted {C}.
Arguments KConcat {C}. Arguments KSingle {C}.
Arguments KSCommand {C}. Arguments KSLen {C}. Arguments KSArith {C}. Arguments KSDefault {C}.
Arguments KSAssign {C}. Arguments KSError {C}. Arguments KSAlternative {C}.
Arguments KSRemoveSmallestSuffix {C}. Arguments KSRemoveLargestSuffix {C}.
Arguments KSRemoveSmallestPrefix {C}. Arguments KSRemoveLargestPrefix {C}.
