(** * What a builder is told

    Independent of the parser.  [tracer] is a builder that writes down, in the order of the source, whatever
    it is given: it keeps all of the arguments of its calls.  [spells l ts] says that the tokens [ts] are a
    way to write [l].  Its rules list everything that may stand in the source without being told to the
    builder. *)
From Coq Require Import String.
From Verif Require Import Base Token Ast Builder ParserBase Runs Pure ArithSpec HeredocSpec Relex BalancedSpec Forms.

(** What is written down. *)
Inductive item :=
  | Ch (c : char)
  | Num (n : N)                   (* a descriptor *)
  | Opt (s : str)                 (* a token a builder is not told about; it may be missing in the source *)
  | Eol                           (* the end of a comment *)
  | Par (p : param)               (* a parameter *)
  | Pname (p : param)             (* its name within a substitution *)
  | Arith (e : arith)
  | Sub (l : list item)           (* a command substitution *)
  | Here (l : list item)          (* a here-document with this body *)
  | ForSep.                       (* after the variable of a [for] command without words *)

Notation items := (list item).
Definition chars (s : str) : items := map Ch s.
Definition nl (n : newline_) : items :=
  match n with Newline None => [Ch 10%N] | Newline (Some c) => chars c ++ [Eol] end.
Definition nls (l : list newline_) : items := concat (map nl l).
Definition nlo (n : option newline_) : items := match n with Some n => nl n | None => [] end.
Fixpoint sep_by (sep : items) (l : list items) : items :=
  match l with [] => [] | [x] => x | x :: l => x ++ sep ++ sep_by sep l end.

Definition told_group (g : cgroup items) : items := concat (commands g) ++ nls (trailing_comments g).

(** ** Words *)
Definition told_colon (c : bool) (op : string) : items := chars ((if c then s_of ":" else []) ++ s_of op).
Section Told.
Variable told_complex : cwk items -> items.
Definition told_braces (p : param) (op : items) (w : option (cwk items)) : items :=
  chars (s_of "${") ++ [Pname p] ++ op ++ match w with Some w => told_complex w | None => [] end ++ chars (s_of "}").
End Told.
Fixpoint told_simple (s : swk items) : items :=
  match s with
  | KLiteral s => chars s
  | KParam p => [Par p]
  | KSubst s => told_subst s
  | KCommandSubst g => [Sub (told_group g)]
  | KEscaped s => chars ([92%N] ++ s)
  | KStar => chars (s_of "*")
  | KQuestion => chars (s_of "?")
  | KSquareOpen => chars (s_of "[")
  | KSquareClose => chars (s_of "]")
  | KTilde => chars (s_of "~")
  | KColon => chars (s_of ":")
  end
with told_frag (w : wk items) : items :=
  match w with
  | KSimple s => told_simple s
  | KDoubleQuoted l => chars [34%N] ++ (fix all l := match l with [] => [] | s :: l => told_simple s ++ all l end) l ++ chars [34%N]
  | KSingleQuoted s => chars ([39%N] ++ s ++ [39%N])
  end
with told_word (w : cwk items) : items :=
  match w with
  | KConcat l => (fix all l := match l with [] => [] | w :: l => told_frag w ++ all l end) l
  | KSingle w => told_frag w
  end
with told_subst (s : psk items) : items :=
  match s with
  | KSCommand g => [Sub (told_group g)]
  | KSLen p => chars (s_of "${#") ++ [Pname p] ++ chars (s_of "}")
  | KSArith None => chars (s_of "$(())")
  | KSArith (Some e) => chars (s_of "$((") ++ [Arith e] ++ chars (s_of "))")
  | KSDefault c p w => told_braces told_word p (told_colon c "-") w
  | KSAssign c p w => told_braces told_word p (told_colon c "=") w
  | KSError c p w => told_braces told_word p (told_colon c "?") w
  | KSAlternative c p w => told_braces told_word p (told_colon c "+") w
  | KSRemoveSmallestSuffix p w => told_braces told_word p (chars (s_of "%")) w
  | KSRemoveLargestSuffix p w => told_braces told_word p (chars (s_of "%%")) w
  | KSRemoveSmallestPrefix p w => told_braces told_word p (chars (s_of "#")) w
  | KSRemoveLargestPrefix p w => told_braces told_word p (chars (s_of "##")) w
  end.

(** ** Commands *)
Definition told_fd (fd : option N) : items := match fd with Some n => [Num n] | None => [] end.
Definition told_redirect (r : redirect_ items) : items :=
  match r with
  | RRead fd w => told_fd fd ++ chars (s_of "<") ++ w
  | RWrite fd w => told_fd fd ++ chars (s_of ">") ++ w
  | RReadWrite fd w => told_fd fd ++ chars (s_of "<>") ++ w
  | RAppend fd w => told_fd fd ++ chars (s_of ">>") ++ w
  | RClobber fd w => told_fd fd ++ chars (s_of ">|") ++ w
  | RDupRead fd w => told_fd fd ++ chars (s_of "<&") ++ w
  | RDupWrite fd w => told_fd fd ++ chars (s_of ">&") ++ w
  | RHeredoc fd w => told_fd fd ++ [Here w]
  end.
Definition told_env (e : redirect_or_env_var items str items) : items :=
  match e with
  | ERedirect r => r
  | EEnvVar v w => chars (v ++ s_of "=") ++ match w with Some w => w | None => [] end
  end.
Definition told_arg (a : redirect_or_cmd_word items items) : items :=
  match a with DRedirect r => r | DCmdWord w => w end.
Definition told_do (g : cgroup items) : items := chars (s_of "do") ++ told_group g ++ chars (s_of "done").
Definition told_guard (gb : gbpair items) : items :=
  told_group (gguard gb) ++ chars (s_of "then") ++ told_group (gbody gb).
Definition told_else (e : option (cgroup items)) : items :=
  match e with Some g => chars (s_of "else") ++ told_group g | None => [] end.
Definition told_for_words (ws : option (list newline_ * list items * option newline_)) : items :=
  match ws with
  | Some (ns, ws, n) => nls ns ++ chars (s_of "in") ++ concat ws ++ [Opt (s_of ";")] ++ nlo n
  | None => [ForSep]
  end.
Definition told_arm (a : case_arm items items) : items :=
  nls (pre_pattern_comments (arm_patterns a)) ++ [Opt (s_of "(")] ++
  sep_by (chars (s_of "|")) (pattern_alternatives (arm_patterns a)) ++ chars (s_of ")") ++
  nlo (pattern_comment (arm_patterns a)) ++ told_group (arm_body a) ++ [Opt (s_of ";;")] ++ nlo (arm_comment a).
(** The newlines kept with a command of a pipeline stand after the bar that follows it. *)
Fixpoint told_pipe (l : list (list newline_ * items)) : items :=
  match l with
  | [] => []
  | [(ns, c)] => c ++ nls ns
  | (ns, c) :: l => c ++ chars (s_of "|") ++ nls ns ++ told_pipe l
  end.
Definition told_and_or (x : list newline_ * and_or items) : items :=
  match x with
  | (ns, And p) => chars (s_of "&&") ++ nls ns ++ p
  | (ns, Or p) => chars (s_of "||") ++ nls ns ++ p
  end.
Definition told_sep (s : sep_kind) : items :=
  match s with SepSemi => chars (s_of ";") | SepAmp => chars (s_of "&") | SepNewline | SepOther => [] end.

Definition t_complete_command ns (l : items) sep n : items := nls ns ++ l ++ told_sep sep ++ nlo n.
Definition t_and_or_list (p : items) (l : list (list newline_ * and_or items)) : items := p ++ concat (map told_and_or l).
Definition t_pipeline (bang : bool) l : items := (if bang then chars (s_of "!") else []) ++ told_pipe l.
Definition t_simple_command (vars : list (redirect_or_env_var items str items)) (args : list (redirect_or_cmd_word items items)) : items :=
  concat (map told_env vars) ++ concat (map told_arg args).
Definition t_brace_group g (rs : list items) : items := chars (s_of "{") ++ told_group g ++ chars (s_of "}") ++ concat rs.
Definition t_subshell g (rs : list items) : items := chars (s_of "(") ++ told_group g ++ chars (s_of ")") ++ concat rs.
Definition t_loop_command k (gb : gbpair items) (rs : list items) : items :=
  chars (match k with LoopWhile => s_of "while" | LoopUntil => s_of "until" end) ++ told_group (gguard gb) ++ told_do (gbody gb) ++ concat rs.
Definition t_if_command (f : if_fragments items) (rs : list items) : items :=
  chars (s_of "if") ++ sep_by (chars (s_of "elif")) (map told_guard (Ast.conditionals f)) ++ told_else (else_branch f) ++ chars (s_of "fi") ++ concat rs.
Definition t_for_command (f : for_fragments items items) (rs : list items) : items :=
  chars (s_of "for" ++ ff_var f) ++ nlo (ff_var_comment f) ++ told_for_words (ff_words f) ++
  nls (ff_pre_body_comments f) ++ told_do (ff_body f) ++ concat rs.
Definition t_case_command (f : case_fragments items items) (rs : list items) : items :=
  chars (s_of "case") ++ cf_word f ++ nls (cf_post_word_comments f) ++ chars (s_of "in") ++ nlo (cf_in_comment f) ++
  concat (map told_arm (cf_arms f)) ++ nls (cf_post_arms_comments f) ++ chars (s_of "esac") ++ concat rs.
Definition t_function_declaration (name : str) ns (body : items) : items :=
  [Opt (s_of "function")] ++ chars name ++ [Opt (s_of "("); Opt (s_of ")")] ++ nls ns ++ body.


Definition tracer : builder :=
  mkBuilder unit items items items items items items items False
    (fun a b c d s => (inl (t_complete_command a b c d), s))
    (fun a b s => (inl (t_and_or_list a b), s))
    (fun a b s => (inl (t_pipeline a b), s))
    (fun a b s => (inl (t_simple_command a b), s))
    (fun a b s => (inl (t_brace_group a b), s))
    (fun a b s => (inl (t_subshell a b), s))
    (fun a b c s => (inl (t_loop_command a b c), s))
    (fun a b s => (inl (t_if_command a b), s))
    (fun a b s => (inl (t_for_command a b), s))
    (fun a b s => (inl (t_case_command a b), s))
    (fun a s => (inl a, s))
    (fun a b c s => (inl (t_function_declaration a b c), s))
    (fun a s => (inl tt, s))
    (fun a s => (inl (told_word a), s))
    (fun a s => (inl (told_redirect a), s)).

(** ** Ways to write it *)
Inductive spells : items -> list token -> Prop :=
  | sp_nil : spells [] []
  | sp_token t l ts : spells l ts -> spells (chars (as_str t) ++ l) (t :: ts)
  (* not told: blanks, escaped newlines, a backslash at the very end *)
  | sp_blank w l ts : spells l ts -> spells l (TWhitespace w :: ts)
  | sp_escaped_newline l ts : spells l ts -> spells l (TBackslash :: TNewline :: ts)
  | sp_last_backslash l : spells l [] -> spells l [TBackslash]
  (* not told: whether these are there; ways to write numbers, parameters and substitutions *)
  | sp_none s l ts : spells l ts -> spells (Opt s :: l) ts
  | sp_some t l ts : spells l ts -> spells (Opt (as_str t) :: l) (t :: ts)
  | sp_eol l ts : spells l ts -> spells (Eol :: l) (TNewline :: ts)
  | sp_eol_end l : spells l [] -> spells (Eol :: l) []
  | sp_number n d l ts : number (text d) n -> spells l ts -> spells (Num n :: l) (d ++ ts)
  | sp_positional p l ts : spells l ts -> spells (Par (PmPositional (as_num p)) :: l) (TParamPositional p :: ts)
  | sp_param p t l ts : param_token p t -> spells l ts -> spells (Par p :: l) (TDollar :: t :: ts)
  | sp_braces p t l ts : braced_param p t -> spells l ts ->
      spells (Par p :: l) (TDollar :: TCurlyOpen :: t :: TCurlyClose :: ts)
  | sp_braces_colon p t l ts : braced_param p t -> spells l ts ->
      spells (Par p :: l) (TDollar :: TCurlyOpen :: t :: TColon :: TCurlyClose :: ts)
  | sp_pname p t l ts : braced_param p t -> spells l ts -> spells (Pname p :: l) (t :: ts)
  | sp_arith e us l ts : written e us -> spells l ts -> spells (Arith e :: l) (us ++ ts)
  | sp_parens i l ts : spells (i ++ chars (s_of ")") ++ l) ts -> spells (Sub i :: l) (TDollar :: TParenOpen :: ts)
  | sp_backquotes i us l ts : spells i (unescape us) -> spells l ts ->
      spells (Sub i :: l) (TBacktick :: us ++ TBacktick :: ts)
  (* not told: the delimiter of a here-document and, with [<<-], tabs *)
  | sp_here op strip body us ts l : here_op op strip -> here_document strip true body (skipw us) ts -> spells l ts ->
      spells (Here (chars (text body)) :: l) (op :: us)
  | sp_here_unquoted op strip i body us ts l : here_op op strip -> here_document strip false body (skipw us) ts ->
      spells i body -> spells l ts -> spells (Here i :: l) (op :: us)
  (* not told: a semicolon after the variable of a [for] command, and the newlines and comments before it *)
  | sp_for l ts : spells l ts -> spells (ForSep :: l) ts
  | sp_for_semi ns us l ts : newlines ns us (TSemi :: ts) -> spells l ts -> spells (ForSep :: l) us.
