(** * The written forms of words, redirections and commands

    Independent of the parser.  [form x ts rest] says: the tokens [ts] start with a way to write
    [x] and continue with [rest].  What is written is described by the calls made to a builder
    [P] without state ([Pure.v]); with the default builder these are the nodes of the AST.

    [skipw ts] is [ts] without the blanks and escaped newlines at its front. *)
From Coq Require Import String.
From Verif Require Import Base Token Ast Builder ParserBase Runs Pure Relex BalancedSpec HeredocSpec ArithSpec.

(** ** Newlines and comments *)
Inductive newline_form : newline_ -> list token -> list token -> Prop :=
  | nf_newline ts rest : skipw ts = TNewline :: rest -> newline_form (Newline None) ts rest
  | nf_comment ts c rest : skipw ts = TPound :: c ++ TNewline :: rest -> ~ In TNewline c ->
      newline_form (Newline (Some (text (TPound :: c)))) ts rest
  | nf_comment_end ts c : skipw ts = TPound :: c -> ~ In TNewline c ->
      newline_form (Newline (Some (text (TPound :: c)))) ts [].
Definition no_newline (ts : list token) : Prop :=
  hd_error ts <> Some TNewline /\ hd_error ts <> Some TPound.
(** At most one newline. *)
Inductive maybe_newline : option newline_ -> list token -> list token -> Prop :=
  | mn_some n ts rest : newline_form n ts rest -> maybe_newline (Some n) ts rest
  | mn_none ts : no_newline (skipw ts) -> maybe_newline None ts (skipw ts).
(** All newlines. *)
Inductive newlines : list newline_ -> list token -> list token -> Prop :=
  | ns_nil ts : no_newline (skipw ts) -> newlines [] ts (skipw ts)
  | ns_cons n ts mid ns rest : newline_form n ts mid -> newlines ns mid rest ->
      newlines (n :: ns) ts rest.

(** ** Words *)

(** The text of a number in a descriptor or a positional parameter: digits; a sign [+] before them
    is accepted too. *)
Inductive number : str -> N -> Prop :=
  | nu_digits s n : numeral_value 10 s n -> number s n
  | nu_plus s n : numeral_value 10 s n -> number (43%N :: s) n.

(** The end of the input or a token that ends words. *)
Definition delimited (rest : list token) : Prop :=
  match rest with [] => True | t :: _ => is_word_delimiter t = true end.

(** Tokens standing for themselves in an unquoted word. *)
Definition literal_token (t : token) : bool :=
  match t with
  | TBang | TPound | TPercent | TDash | TEquals | TPlus | TAt | TCaret | TSlash | TComma
  | TCurlyOpen | TCurlyClose | TName _ | TLiteral _ => true
  | _ => false
  end.
(** Tokens with a meaning of their own in an unquoted word. *)
Inductive glob_token {C} : token -> swk C -> Prop :=
  | gt_star : glob_token TStar KStar
  | gt_question : glob_token TQuestion KQuestion
  | gt_tilde : glob_token TTilde KTilde
  | gt_open : glob_token TSquareOpen KSquareOpen
  | gt_close : glob_token TSquareClose KSquareClose
  | gt_colon : glob_token TColon KColon.

(** The parameters that may directly follow a dollar sign. *)
Inductive param_token : param -> token -> Prop :=
  | pt_star : param_token PmStar TStar
  | pt_pound : param_token PmPound TPound
  | pt_question : param_token PmQuestion TQuestion
  | pt_dollar : param_token PmDollar TDollar
  | pt_bang : param_token PmBang TBang
  | pt_dash : param_token PmDash TDash
  | pt_at : param_token PmAt TAt
  | pt_name v : param_token (PmVar v) (TName v).
(** The parameters that may stand in braces: also every positional parameter. *)
Inductive braced_param : param -> token -> Prop :=
  | bp_token p t : param_token p t -> braced_param p t
  | bp_positional s n : number s n -> (n < 2 ^ 32)%N -> braced_param (PmPositional n) (TLiteral s).
(** A dollar sign is literal when nothing it could introduce follows. *)
Definition lone_dollar (rest : list token) : Prop :=
  match rest with
  | (TStar | TPound | TQuestion | TDollar | TBang | TDash | TAt | TName _ | TParenOpen | TCurlyOpen) :: _ => False
  | _ => True
  end.

(** The substitutions with a word as operand. *)
Inductive subst_op {C} : bool -> token -> (param -> option (cwk C) -> psk C) -> Prop :=
  | so_default c : subst_op c TDash (KSDefault c)
  | so_assign c : subst_op c TEquals (KSAssign c)
  | so_error c : subst_op c TQuestion (KSError c)
  | so_alternative c : subst_op c TPlus (KSAlternative c).

(** A word made of fragments. *)
Definition word_of {C} (ws : list (wk C)) : option (cwk C) :=
  match ws with [] => None | [w] => Some (KSingle w) | _ => Some (KConcat ws) end.

(** Inside double quotes ([close] is the closing quote) and in the bodies of here-documents (no
    [close]): tokens standing for themselves, tokens a backslash quotes. *)
Definition quoted_plain (close : option token) (t : token) : bool :=
  match t with
  | TDollar | TParamPositional _ | TBacktick | TBackslash => false
  | _ => negb (otoken_eqb (Some t) close)
  end.
Definition quoted_special (t : token) : bool :=
  match t with TDollar | TBacktick | TDoubleQuote | TBackslash | TNewline => true | _ => false end.
(** A run of literal text there, followed by [rest]; a backslash is literal unless it quotes. *)
Inductive quoted_run (close : option token) : list token -> list token -> Prop :=
  | qr_nil rest : quoted_run close [] rest
  | qr_plain t ts rest : quoted_plain close t = true -> quoted_run close ts rest -> quoted_run close (t :: ts) rest
  | qr_backslash t ts rest : hd_error (ts ++ rest) = Some t -> quoted_special t = false -> quoted_run close ts rest ->
      quoted_run close (TBackslash :: ts) rest.
(** The run cannot be continued with [rest]. *)
Definition run_ends (close : option token) (rest : list token) : Prop :=
  match rest with
  | [] => True
  | TBackslash :: t :: _ => quoted_special t = true
  | TBackslash :: [] => False
  | t :: _ => quoted_plain close t = false
  end.

(** ** Redirections *)
Inductive redirect_op_form {W} : token -> (option N -> W -> redirect_ W) -> Prop :=
  | ro_read : redirect_op_form TLess RRead
  | ro_write : redirect_op_form TGreat RWrite
  | ro_append : redirect_op_form TDGreat RAppend
  | ro_clobber : redirect_op_form TClobber RClobber
  | ro_read_write : redirect_op_form TLessGreat RReadWrite.
Inductive dup_op_form {W} : token -> (option N -> W -> redirect_ W) -> Prop :=
  | du_read : dup_op_form TLessAnd RDupRead
  | du_write : dup_op_form TGreatAnd RDupWrite.
(** The body of a here-document as a word. *)
Definition here_word {C} (ws : list (swk C)) : cwk C :=
  match ws with
  | [] => KSingle (KSimple (KLiteral []))
  | [w] => KSingle (KSimple w)
  | _ => KConcat (map KSimple ws)
  end.
(** The descriptor before a redirection operator, maybe with an escaped newline in between. *)
Inductive fd_form : option N -> list token -> list token -> Prop :=
  | fd_none ts : fd_form None ts ts
  | fd_some d n ts : Forall (fun t => literal_token t = true) d -> number (text d) n -> (n < 2 ^ 16)%N ->
      fd_form (Some n) (d ++ ts) ts
  | fd_some_newline d n ts : Forall (fun t => literal_token t = true) d -> number (text d) n -> (n < 2 ^ 16)%N ->
      fd_form (Some n) (d ++ TBackslash :: TNewline :: ts) ts.
Definition digits (s : str) : Prop := Forall (fun c => (48 <= c <= 57)%N) s.
(** Operands of [<&] and [>&]: digits, or expansions that may turn out to be digits. *)
Definition maybe_digits {C} (s : swk C) : Prop :=
  match s with
  | KLiteral s | KEscaped s => digits s
  | KParam _ | KSubst _ | KCommandSubst _ => True
  | _ => False
  end.
Definition maybe_number {C} (w : wk C) : Prop :=
  match w with
  | KSimple s => maybe_digits s
  | KSingleQuoted s => digits s
  | KDoubleQuoted l => Forall maybe_digits l
  end.
Definition redirect_token (t : token) : bool :=
  match t with
  | TLess | TGreat | TDLess | TDGreat | TGreatAnd | TLessAnd | TDLessDash | TClobber | TLessGreat => true
  | _ => false
  end.
(** The word written [ts], followed by [rest], is not taken for a descriptor. *)
Definition not_fd (ts rest : list token) : Prop :=
  match rest with
  | t :: _ => redirect_token t = true -> forall n, ~ fd_form (Some n) ts rest
  | [] => True
  end.
(** Where a word could stand there is none.  A lone backslash at the end of the input is dropped. *)
Inductive no_word : list token -> list token -> Prop :=
  | nw_delimited ts : delimited (skipw ts) -> no_word ts (skipw ts)
  | nw_comment ts : hd_error (skipw ts) = Some TPound -> no_word ts (skipw ts)
  | nw_backslash ts : skipw ts = [TBackslash] -> no_word ts [].

(** ** Reserved words, the start and the end of commands *)
Inductive keyword (k : str) : list token -> list token -> Prop :=
  | kw_name ts rest : skipw ts = TName k :: rest -> delimited rest -> keyword k ts rest
  | kw_literal ts rest : skipw ts = TLiteral k :: rest -> delimited rest -> keyword k ts rest.
Definition at_keyword (ks : list str) (ts : list token) : Prop :=
  exists k rest, In k ks /\ keyword k ts rest.
Definition at_token (tks : list token) (ts : list token) : Prop :=
  exists t rest, In t tks /\ skipw ts = t :: rest /\ delimited rest.
(** What ends a simple command or a list of redirections. *)
Definition no_redirect (ts : list token) : Prop :=
  match ts with t :: _ => redirect_token t = false | [] => True end.
(** An assignment without a value. *)
Inductive no_value : list token -> list token -> Prop :=
  | nv_blank w ts : no_value (TWhitespace w :: ts) (TWhitespace w :: ts)
  | nv_none ts rest : (forall w, hd_error ts <> Some (TWhitespace w)) -> no_word ts rest -> no_value ts rest.
(** [name (] *)
Definition at_function (ts : list token) : Prop :=
  match ts with
  | TName _ :: TParenOpen :: _ | TName _ :: TWhitespace _ :: TParenOpen :: _ => True
  | _ => False
  end.
Definition at_compound (ts : list token) : Prop :=
  hd_error ts = Some TParenOpen \/ at_token [TCurlyOpen] ts \/
  at_keyword [FOR; CASE; IF; WHILE; UNTIL] ts.
Definition at_assignment (ts : list token) : Prop :=
  match ts with TName _ :: TEquals :: _ => True | _ => False end.
(** Where a list of commands with the given delimiters ends. *)
Definition group_end (cfg : delimiters) (ts : list token) : Prop :=
  ts = [] \/
  (exists t rest, ts = t :: rest /\ In t (exact_tokens cfg)) \/
  at_keyword (reserved_words cfg) ts \/ at_token (reserved_tokens cfg) ts.

(** The language of arithmetic expressions is a parameter of the grammar. *)
Class ArithLang := arith_lang : arith -> list token -> Prop.

Section Forms.
Variable B : builder.
Variable P : pure B.
Context {AL : ArithLang}.
Notation C := (b_cmd B).
Notation W := (b_word B).
Notation R := (b_redirect B).

Inductive
(** Fragments of unquoted words. *)
frag : wk C -> list token -> list token -> Prop :=
  | fr_literal t rest : literal_token t = true -> frag (KSimple (KLiteral (as_str t))) (t :: rest) rest
  | fr_glob t s rest : glob_token t s -> frag (KSimple s) (t :: rest) rest
  | fr_escape t rest : t <> TNewline -> frag (KSimple (KEscaped (as_str t))) (TBackslash :: t :: rest) rest
  | fr_single ts rest : ~ In TSingleQuote ts ->
      frag (KSingleQuoted (text ts)) (TSingleQuote :: ts ++ TSingleQuote :: rest) rest
  | fr_double ws ts rest : quoted (Some TDoubleQuote) ws ts (TDoubleQuote :: rest) ->
      frag (KDoubleQuoted ws) (TDoubleQuote :: ts) rest
  | fr_expansion s ts rest : expansion s ts rest -> frag (KSimple s) ts rest
with
(** Parameters and substitutions. *)
expansion : swk C -> list token -> list token -> Prop :=
  | ex_backticks g ts rest : content TBacktick ts -> group no_delims g (unescape ts) [] ->
      expansion (KCommandSubst g) (TBacktick :: ts ++ TBacktick :: rest) rest
  | ex_dollar s ts rest : dollar s ts rest -> expansion s ts rest
with
dollar : swk C -> list token -> list token -> Prop :=
  | do_lone rest : lone_dollar rest -> dollar (KLiteral (s_of "$")) (TDollar :: rest) rest
  | do_positional p rest : dollar (KParam (PmPositional (as_num p))) (TParamPositional p :: rest) rest
  | do_param p t rest : param_token p t -> dollar (KParam p) (TDollar :: t :: rest) rest
  | do_braces p t rest : braced_param p t ->
      dollar (KParam p) (TDollar :: TCurlyOpen :: t :: TCurlyClose :: rest) rest
  | do_length p t rest : braced_param p t ->
      dollar (KSubst (KSLen p)) (TDollar :: TCurlyOpen :: TPound :: t :: TCurlyClose :: rest) rest
  | do_subst p t (colon : bool) op mk ws ts rest : braced_param p t -> subst_op colon op mk ->
      operand ws ts (TCurlyClose :: rest) ->
      ~ (p = PmPound /\ colon = false /\ ws = [] /\ (op = TDash \/ op = TQuestion)) ->
      dollar (KSubst (mk p (word_of ws)))
        (TDollar :: TCurlyOpen :: t :: (if colon then [TColon] else []) ++ op :: ts) rest
  | do_suffix p t ws ts rest : braced_param p t -> operand ws ts (TCurlyClose :: rest) ->
      hd_error ts <> Some TPercent ->
      dollar (KSubst (KSRemoveSmallestSuffix p (word_of ws))) (TDollar :: TCurlyOpen :: t :: TPercent :: ts) rest
  | do_suffixes p t ws ts rest : braced_param p t -> operand ws ts (TCurlyClose :: rest) ->
      dollar (KSubst (KSRemoveLargestSuffix p (word_of ws)))
        (TDollar :: TCurlyOpen :: t :: TPercent :: TPercent :: ts) rest
  | do_prefix p t ws ts rest : braced_param p t -> operand ws ts (TCurlyClose :: rest) ->
      hd_error ts <> Some TPound -> ~ (p = PmPound /\ ws = []) ->
      dollar (KSubst (KSRemoveSmallestPrefix p (word_of ws))) (TDollar :: TCurlyOpen :: t :: TPound :: ts) rest
  | do_prefixes p t ws ts rest : braced_param p t -> operand ws ts (TCurlyClose :: rest) ->
      dollar (KSubst (KSRemoveLargestPrefix p (word_of ws)))
        (TDollar :: TCurlyOpen :: t :: TPound :: TPound :: ts) rest
  | do_arith e ts mid mid' rest : arith_lang e ts -> skipw mid = TParenClose :: mid' ->
      skipw mid' = TParenClose :: rest ->
      dollar (KSubst (KSArith (Some e))) (TDollar :: TParenOpen :: TParenOpen :: ts ++ mid) rest
  | do_arith_empty mid mid' rest : skipw mid = TParenClose :: mid' ->
      skipw mid' = TParenClose :: rest ->
      dollar (KSubst (KSArith None)) (TDollar :: TParenOpen :: TParenOpen :: mid) rest
  | do_command g ts rest : group (mkDelims [] [] [TParenClose]) g ts (TParenClose :: rest) ->
      hd_error ts <> Some TParenOpen ->
      dollar (KSubst (KSCommand g)) (TDollar :: TParenOpen :: ts) rest
  (* a colon without an operator is ignored *)
  | do_colon p t rest : braced_param p t ->
      dollar (KParam p) (TDollar :: TCurlyOpen :: t :: TColon :: TCurlyClose :: rest) rest
with
(** The contents of double quotes (the same text as the body of a here-document). *)
quoted : option token -> list (swk C) -> list token -> list token -> Prop :=
  | qu_nil close rest : hd_error rest = close -> quoted close [] rest rest
  | qu_text close ts ws mid rest : quoted_run close ts mid -> text ts <> [] -> run_ends close mid ->
      quoted close ws mid rest -> quoted close (KLiteral (text ts) :: ws) (ts ++ mid) rest
  | qu_escape close t ws ts rest : quoted_special t = true -> quoted close ws ts rest ->
      quoted close (KEscaped (as_str t) :: ws) (TBackslash :: t :: ts) rest
  | qu_expansion close s ts mid ws rest : expansion s ts mid -> quoted close ws mid rest ->
      quoted close (s :: ws) ts rest
  (* tokens without text (the lexer makes none) leave nothing *)
  | qu_empty close ts ws mid rest : quoted_run close ts mid -> text ts = [] -> run_ends close mid ->
      quoted close ws mid rest -> quoted close ws (ts ++ mid) rest
with
(** Words, up to a delimiter or, if given, a closing token; an escaped newline ends a word too. *)
frags : option token -> list (wk C) -> list token -> list token -> Prop :=
  | fs_end stop rest : delimited rest \/ (stop <> None /\ hd_error rest = stop) -> frags stop [] rest rest
  | fs_escaped_newline stop rest : frags stop [] (TBackslash :: TNewline :: rest) rest
  | fs_frag stop w ts mid ws rest : frag w ts mid -> (stop <> None -> hd_error ts <> stop) ->
      frags stop ws mid rest -> frags stop (w :: ws) ts rest
  (* a lone backslash at the end of the input is dropped *)
  | fs_backslash stop : frags stop [] [TBackslash] []
with
(** The operand of a substitution: fragments as in words, but delimiters are literal. *)
operand : list (wk C) -> list token -> list token -> Prop :=
  | op_end rest : operand [] (TCurlyClose :: rest) (TCurlyClose :: rest)
  | op_delimiter t ws ts rest : is_word_delimiter t = true \/ t = TPound -> operand ws ts rest ->
      operand (KSimple (KLiteral (as_str t)) :: ws) (t :: ts) rest
  | op_escaped_newline ws ts rest : operand ws ts rest ->
      operand (KSimple (KEscaped (as_str TNewline)) :: ws) (TBackslash :: TNewline :: ts) rest
  | op_frags w ws ts mid ws' rest : frags (Some TCurlyClose) (w :: ws) ts mid ->
      hd_error ts <> Some TPound -> operand ws' mid rest ->
      operand ((w :: ws) ++ ws') ts rest
with
word_form : cwk C -> list token -> list token -> Prop :=
  | wf_word w ws k ts rest : frags None (w :: ws) ts rest -> hd_error ts <> Some TPound ->
      word_of (w :: ws) = Some k -> word_form k ts rest
with
redirect_form : R -> list token -> list token -> Prop :=
  | rf_file fd op mk k ts ts' rest : fd_form fd ts (op :: ts') -> redirect_op_form op mk ->
      word_form k (skipw ts') rest ->
      redirect_form (pu_redirect P (mk fd (pu_word P k))) ts rest
  | rf_dup fd op mk w ws k ts ts' rest : fd_form fd ts (op :: ts') -> dup_op_form op mk ->
      frags None (w :: ws) (skipw ts') rest -> Forall maybe_number (w :: ws) ->
      word_of (w :: ws) = Some k ->
      redirect_form (pu_redirect P (mk fd (pu_word P k))) ts rest
  | rf_close fd op mk ts ts' rest : fd_form fd ts (op :: ts') -> dup_op_form op mk ->
      skipw ts' = TDash :: rest -> delimited rest ->
      redirect_form (pu_redirect P (mk fd (pu_word P (KSingle (KSimple (KLiteral (s_of "-"))))))) ts rest
  (* here-documents: the body is taken out of the tokens that follow the command line *)
  | rf_here_quoted fd op strip body ts ts' rest : fd_form fd ts (op :: ts') -> here_op op strip ->
      here_document strip true body (skipw ts') rest ->
      redirect_form (pu_redirect P (RHeredoc fd (pu_word P (KSingle (KSimple (KLiteral (text body))))))) ts rest
  | rf_here fd op strip body ws ts ts' rest : fd_form fd ts (op :: ts') -> here_op op strip ->
      here_document strip false body (skipw ts') rest -> quoted None ws body [] ->
      redirect_form (pu_redirect P (RHeredoc fd (pu_word P (here_word ws)))) ts rest
with
(** A list of redirections, up to the end of the command. *)
redirects : list R -> list token -> list token -> Prop :=
  | re_end ts rest : no_word ts rest -> no_redirect rest -> redirects [] ts rest
  | re_more r ts mid rs rest : redirect_form r (skipw ts) mid -> redirects rs mid rest ->
      redirects (r :: rs) ts rest
with
(** The arguments of a command. *)
arguments : list (redirect_or_cmd_word R W) -> list token -> list token -> Prop :=
  | ag_end ts rest : no_word ts rest -> no_redirect rest -> arguments [] ts rest
  | ag_redirect r ts mid args rest : redirect_form r (skipw ts) mid -> arguments args mid rest ->
      arguments (DRedirect r :: args) ts rest
  | ag_word k ts mid args rest : word_form k (skipw ts) mid -> not_fd (skipw ts) mid ->
      arguments args mid rest -> arguments (DCmdWord (pu_word P k) :: args) ts rest
with
(** A simple command: assignments and redirections, then the command name and its arguments. *)
simple : list (redirect_or_env_var R str W) -> list (redirect_or_cmd_word R W) ->
    list token -> list token -> Prop :=
  | si_end ts rest : no_word ts rest -> no_redirect rest -> simple [] [] ts rest
  | si_redirect r ts mid vars args rest : redirect_form r (skipw ts) mid -> 
      simple vars args mid rest -> simple (ERedirect r :: vars) args ts rest
  | si_assign v k ts mid mid' vars args rest : skipw ts = TName v :: TEquals :: mid ->
      (forall w, hd_error mid <> Some (TWhitespace w)) -> word_form k (skipw mid) mid' -> simple vars args mid' rest ->
      simple (EEnvVar v (Some (pu_word P k)) :: vars) args ts rest
  | si_assign_empty v ts mid mid' vars args rest : skipw ts = TName v :: TEquals :: mid -> no_value mid mid' ->
      simple vars args mid' rest -> simple (EEnvVar v None :: vars) args ts rest
  | si_command k ts mid args rest : word_form k (skipw ts) mid -> not_fd (skipw ts) mid ->
      ~ at_assignment (skipw ts) -> arguments args mid rest ->
      simple [] (DCmdWord (pu_word P k) :: args) ts rest
with
command_form : b_pipeable B -> list token -> list token -> Prop :=
  | cf_simple vars args ts rest : simple vars args ts rest -> (vars <> [] \/ args <> []) ->
      ~ at_compound ts -> ~ at_function ts -> ~ at_keyword [FUNCTION] ts ->
      command_form (pu_simple_command P vars args) ts rest
  | cf_compound c ts rest : compound c ts rest -> command_form (pu_into_pipeable P c) ts rest
  | cf_function v ns c ts ts1 ts2 ts3 rest : ~ at_compound ts -> ~ at_keyword [FUNCTION] ts ->
      ts = TName v :: ts1 ->
      (ts1 = TParenOpen :: ts2 \/ exists w, ts1 = TWhitespace w :: TParenOpen :: ts2) ->
      skipw ts2 = TParenClose :: ts3 -> function_body ns c ts3 rest ->
      command_form (pu_function_declaration P v ns c) ts rest
  | cf_function_parens v ns c ts ts0 ts1 ts2 rest : keyword FUNCTION ts ts0 ->
      skipw ts0 = TName v :: TParenOpen :: ts1 ->
      skipw ts1 = TParenClose :: ts2 -> function_body ns c ts2 rest ->
      command_form (pu_function_declaration P v ns c) ts rest
  | cf_function_word v ns c ts ts0 ts1 rest : keyword FUNCTION ts ts0 ->
      skipw ts0 = TName v :: ts1 ->
      (hd_error ts1 = Some TNewline \/
       exists w ts2, ts1 = TWhitespace w :: ts2 /\ hd_error (skipw ts2) <> Some TParenOpen) ->
      function_body ns c ts1 rest ->
      command_form (pu_function_declaration P v ns c) ts rest
  | cf_function_word_parens v ns c ts ts0 w ts1 ts2 ts3 rest : keyword FUNCTION ts ts0 ->
      skipw ts0 = TName v :: TWhitespace w :: ts1 -> skipw ts1 = TParenOpen :: ts2 ->
      skipw ts2 = TParenClose :: ts3 -> function_body ns c ts3 rest ->
      command_form (pu_function_declaration P v ns c) ts rest
  | cf_function_subshell v g ts ts0 w ts1 ts2 rest : keyword FUNCTION ts ts0 ->
      skipw ts0 = TName v :: TWhitespace w :: ts1 -> skipw ts1 = TParenOpen :: ts2 ->
      group (mkDelims [] [] [TParenClose]) g ts2 (TParenClose :: rest) ->
      (commands g <> [] \/ trailing_comments g <> []) ->
      command_form (pu_function_declaration P v [] (pu_subshell P g [])) ts rest
with
function_body : list newline_ -> b_compound B -> list token -> list token -> Prop :=
  | fb_body ns c ts mid rest : newlines ns ts mid -> compound c mid rest -> function_body ns c ts rest
with
compound : b_compound B -> list token -> list token -> Prop :=
  | co_brace g ts mid mid' rs rest : delimited ts ->
      group (mkDelims [TCurlyClose] [] []) g ts mid -> commands g <> [] ->
      mid = TCurlyClose :: mid' -> delimited mid' -> redirects rs mid' rest ->
      compound (pu_brace_group P g rs) (TCurlyOpen :: ts) rest
  | co_subshell g ts mid rs rest :
      group (mkDelims [] [] [TParenClose]) g ts (TParenClose :: mid) -> commands g <> [] ->
      redirects rs mid rest ->
      compound (pu_subshell P g rs) (TParenOpen :: ts) rest
  | co_while g b ts ts1 ts2 ts3 rs rest : keyword WHILE ts ts1 ->
      group (mkDelims [] [DO] []) g ts1 ts2 -> commands g <> [] -> do_form b ts2 ts3 -> redirects rs ts3 rest ->
      compound (pu_loop_command P LoopWhile (mkGBP g b) rs) ts rest
  | co_until g b ts ts1 ts2 ts3 rs rest : keyword UNTIL ts ts1 ->
      group (mkDelims [] [DO] []) g ts1 ts2 -> commands g <> [] -> do_form b ts2 ts3 -> redirects rs ts3 rest ->
      compound (pu_loop_command P LoopUntil (mkGBP g b) rs) ts rest
  | co_if conds els ts ts1 ts2 rs rest : keyword IF ts ts1 -> conditionals conds els ts1 ts2 ->
      redirects rs ts2 rest ->
      compound (pu_if_command P (mkIF conds els) rs) ts rest
  | co_for v vc ws cs b ts ts1 ts2 ts3 ts4 ts5 rs rest : keyword FOR ts ts1 -> skipw ts1 = TName v :: ts2 ->
      maybe_newline vc ts2 ts3 -> for_list ws cs ts3 ts4 -> do_form b ts4 ts5 -> redirects rs ts5 rest ->
      compound (pu_for_command P (mkFF v vc ws cs b) rs) ts rest
  | co_case k cs ic arms ac ts ts1 ts2 ts3 ts4 ts5 ts6 ts7 rs rest : keyword CASE ts ts1 ->
      word_form k (skipw ts1) ts2 -> newlines cs ts2 ts3 -> keyword IN ts3 ts4 ->
      maybe_newline ic ts4 ts5 -> case_arms arms ac ts5 ts6 -> keyword ESAC ts6 ts7 -> redirects rs ts7 rest ->
      compound (pu_case_command P (mkCF (pu_word P k) cs ic arms ac) rs) ts rest
with
do_form : cgroup C -> list token -> list token -> Prop :=
  | df_do g ts ts1 ts2 rest : keyword DO ts ts1 -> group (mkDelims [] [DONE] []) g ts1 ts2 -> commands g <> [] ->
      keyword DONE ts2 rest -> do_form g ts rest
with
conditionals : list (gbpair C) -> option (cgroup C) -> list token -> list token -> Prop :=
  | cd_fi g b ts ts1 ts2 ts3 rest :
      group (mkDelims [] [THEN] []) g ts ts1 -> commands g <> [] -> keyword THEN ts1 ts2 ->
      group (mkDelims [] [ELIF; ELSE; FI] []) b ts2 ts3 -> commands b <> [] -> keyword FI ts3 rest ->
      conditionals [mkGBP g b] None ts rest
  | cd_else g b e ts ts1 ts2 ts3 ts4 ts5 rest :
      group (mkDelims [] [THEN] []) g ts ts1 -> commands g <> [] -> keyword THEN ts1 ts2 ->
      group (mkDelims [] [ELIF; ELSE; FI] []) b ts2 ts3 -> commands b <> [] -> keyword ELSE ts3 ts4 ->
      group (mkDelims [] [FI] []) e ts4 ts5 -> commands e <> [] -> keyword FI ts5 rest ->
      conditionals [mkGBP g b] (Some e) ts rest
  | cd_elif g b conds els ts ts1 ts2 ts3 ts4 rest :
      group (mkDelims [] [THEN] []) g ts ts1 -> commands g <> [] -> keyword THEN ts1 ts2 ->
      group (mkDelims [] [ELIF; ELSE; FI] []) b ts2 ts3 -> commands b <> [] -> keyword ELIF ts3 ts4 ->
      conditionals conds els ts4 rest ->
      conditionals (mkGBP g b :: conds) els ts rest
with
(** Between the variable and the body of a [for] command. *)
for_list : option (list newline_ * list W * option newline_) -> list newline_ ->
    list token -> list token -> Prop :=
  | fl_words ns ws wc cs ts ts1 ts2 ts3 ts4 ts5 rest : newlines ns ts ts1 -> keyword IN ts1 ts2 ->
      for_words_form ws ts2 ts3 ->
      (ts3 = TSemi :: ts4 \/ (ts3 = ts4 /\ hd_error ts3 <> Some TSemi /\ wc <> None)) ->
      maybe_newline wc ts4 ts5 -> newlines cs ts5 rest ->
      for_list (Some (ns, ws, wc)) cs ts rest
  | fl_semi ns cs ts ts1 rest : newlines ns ts (TSemi :: ts1) -> newlines cs ts1 rest ->
      for_list None cs ts rest
  | fl_none ns ts rest : newlines ns ts rest -> ~ at_keyword [IN] rest -> hd_error rest <> Some TSemi ->
      for_list None ns ts rest
with
for_words_form : list W -> list token -> list token -> Prop :=
  | fw_end ts rest : no_word ts rest -> for_words_form [] ts rest
  | fw_word k ts mid ws rest : word_form k (skipw ts) mid -> for_words_form ws mid rest ->
      for_words_form (pu_word P k :: ws) ts rest
with
case_arms : list (case_arm W C) -> list newline_ -> list token -> list token -> Prop :=
  | ca_end cs ts rest : newlines cs ts rest -> at_keyword [ESAC] rest -> case_arms [] cs ts rest
  | ca_arm pre ps pc b ac arms cs ts ts1 ts2 ts3 ts4 ts5 ts6 rest :
      newlines pre ts ts1 -> ~ at_keyword [ESAC] ts1 ->
      (ts1 = TParenOpen :: ts2 \/ (hd_error ts1 <> Some TParenOpen /\ ts1 = ts2)) ->
      patterns_form ps ts2 ts3 -> maybe_newline pc ts3 ts4 ->
      group (mkDelims [] [ESAC] [TDSemi]) b ts4 (TDSemi :: ts5) ->
      maybe_newline ac ts5 ts6 -> case_arms arms cs ts6 rest ->
      case_arms (mkCA (mkCP pre ps pc) b ac :: arms) cs ts rest
  | ca_last pre ps pc b ts ts1 ts2 ts3 ts4 rest :
      newlines pre ts ts1 -> ~ at_keyword [ESAC] ts1 ->
      (ts1 = TParenOpen :: ts2 \/ (hd_error ts1 <> Some TParenOpen /\ ts1 = ts2)) ->
      patterns_form ps ts2 ts3 -> maybe_newline pc ts3 ts4 ->
      group (mkDelims [] [ESAC] [TDSemi]) b ts4 rest -> at_keyword [ESAC] rest ->
      case_arms [mkCA (mkCP pre ps pc) b None] [] ts rest
with
patterns_form : list W -> list token -> list token -> Prop :=
  | pf_last k ts mid rest : word_form k (skipw ts) mid -> skipw mid = TParenClose :: rest ->
      patterns_form [pu_word P k] ts rest
  | pf_more k ts mid mid' ps rest : word_form k (skipw ts) mid -> skipw mid = TPipe :: mid' ->
      patterns_form ps mid' rest -> patterns_form (pu_word P k :: ps) ts rest
with
(** The commands of a pipeline, each with the newlines after the bar that follows it. *)
pipe_form : list (list newline_ * b_pipeable B) -> list token -> list token -> Prop :=
  | pi_last c ts rest : command_form c (skipw ts) rest -> hd_error ts <> Some TBang ->
      hd_error rest <> Some TPipe -> pipe_form [([], c)] ts rest
  | pi_more c ns cs ts mid mid' rest : command_form c (skipw ts) (TPipe :: mid) -> hd_error ts <> Some TBang ->
      newlines ns mid mid' -> pipe_form cs mid' rest ->
      pipe_form ((ns, c) :: cs) ts rest
with
pipeline_form : b_listable B -> list token -> list token -> Prop :=
  | pp_plain cs ts rest : hd_error (skipw ts) <> Some TBang -> pipe_form cs (skipw ts) rest ->
      pipeline_form (pu_pipeline P false cs) ts rest
  | pp_bang cs ts mid rest : skipw ts = TBang :: mid -> pipe_form cs mid rest ->
      pipeline_form (pu_pipeline P true cs) ts rest
with
and_or_form : list (list newline_ * and_or (b_listable B)) -> list token -> list token -> Prop :=
  | ao_end ts : hd_error (skipw ts) <> Some TAndIf -> hd_error (skipw ts) <> Some TOrIf ->
      and_or_form [] ts (skipw ts)
  | ao_and_if p ns l ts ts1 ts2 ts3 rest : skipw ts = TAndIf :: ts1 -> newlines ns ts1 ts2 ->
      pipeline_form p ts2 ts3 -> and_or_form l ts3 rest -> and_or_form ((ns, And p) :: l) ts rest
  | ao_or_if p ns l ts ts1 ts2 ts3 rest : skipw ts = TOrIf :: ts1 -> newlines ns ts1 ts2 ->
      pipeline_form p ts2 ts3 -> and_or_form l ts3 rest -> and_or_form ((ns, Or p) :: l) ts rest
with
list_form : b_list B -> list token -> list token -> Prop :=
  | lf_list p l ts mid rest : pipeline_form p ts mid -> and_or_form l mid rest ->
      list_form (pu_and_or_list P p l) ts rest
with
(** A command with its separator. *)
complete_form : list newline_ -> C -> list token -> list token -> Prop :=
  | cp_semi ns l nl ts mid rest : list_form l ts (TSemi :: mid) -> maybe_newline nl mid rest ->
      complete_form ns (pu_complete_command P ns l SepSemi nl) ts rest
  | cp_amp ns l nl ts mid rest : list_form l ts (TAmp :: mid) -> maybe_newline nl mid rest ->
      complete_form ns (pu_complete_command P ns l SepAmp nl) ts rest
  | cp_newline ns l nl ts mid rest : list_form l ts mid -> newline_form nl mid rest ->
      complete_form ns (pu_complete_command P ns l SepNewline (Some nl)) ts rest
  | cp_other ns l ts rest : list_form l ts rest ->
      hd_error rest <> Some TSemi -> hd_error rest <> Some TAmp -> no_newline rest -> skipw rest = rest ->
      complete_form ns (pu_complete_command P ns l SepOther None) ts rest
with
(** Commands up to one of the delimiters, which is left. *)
group : delimiters -> cgroup C -> list token -> list token -> Prop :=
  | gr_end cfg ns ts rest : newlines ns ts rest -> group_end cfg rest -> group cfg (mkCG [] ns) ts rest
  | gr_command cfg ns c cs tr ts ts1 ts2 rest : newlines ns ts ts1 -> ~ group_end cfg ts1 ->
      complete_form ns c ts1 ts2 -> group cfg (mkCG cs tr) ts2 rest ->
      group cfg (mkCG (c :: cs) tr) ts rest.

End Forms.

(** The arithmetic expressions of [ArithSpec.v]. *)
#[global] Instance written_arith : ArithLang := written.
