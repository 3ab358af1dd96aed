(** * What an AST must have been written with

    Independent of the parser: [trace_cmd b c] are the characters that any source of the command [c] must
    contain, in the order of the source: names, literals, quotes, descriptors, numbers of parameters,
    reserved words and operators.  Not included: blanks, comments, separators of commands, the delimiters
    of command substitutions (they may be written in two ways), the parentheses of functions, numbers and
    parentheses in arithmetic, and delimiters of here-documents.  The bodies of here-documents, which
    stand further down in the source, are included if [b]. *)
From Coq Require Import String.
From Verif Require Import Base Token Ast Printer.

Fixpoint join (sep : str) (l : list str) : str :=
  match l with
  | [] => []
  | [x] => x
  | x :: l => x ++ sep ++ join sep l
  end.

(** Arithmetic.  [v op= e] is stored as [v = v op e]. *)
Fixpoint trace_arith (e : arith) : str :=
  match e with
  | ALiteral _ => []
  | AVar v => v
  | APostIncr v => v ++ s_of "++"
  | APostDecr v => v ++ s_of "--"
  | APreIncr v => s_of "++" ++ v
  | APreDecr v => s_of "--" ++ v
  | AUnaryPlus a => s_of "+" ++ trace_arith a
  | AUnaryMinus a => s_of "-" ++ trace_arith a
  | ALogicalNot a => s_of "!" ++ trace_arith a
  | ABitwiseNot a => s_of "~" ++ trace_arith a
  | APow a b => trace_arith a ++ s_of "**" ++ trace_arith b
  | AMult a b => trace_arith a ++ s_of "*" ++ trace_arith b
  | ADiv a b => trace_arith a ++ s_of "/" ++ trace_arith b
  | AModulo a b => trace_arith a ++ s_of "%" ++ trace_arith b
  | AAdd a b => trace_arith a ++ s_of "+" ++ trace_arith b
  | ASub a b => trace_arith a ++ s_of "-" ++ trace_arith b
  | AShiftLeft a b => trace_arith a ++ s_of "<<" ++ trace_arith b
  | AShiftRight a b => trace_arith a ++ s_of ">>" ++ trace_arith b
  | ALess a b => trace_arith a ++ s_of "<" ++ trace_arith b
  | ALessEq a b => trace_arith a ++ s_of "<=" ++ trace_arith b
  | AGreat a b => trace_arith a ++ s_of ">" ++ trace_arith b
  | AGreatEq a b => trace_arith a ++ s_of ">=" ++ trace_arith b
  | AEq a b => trace_arith a ++ s_of "==" ++ trace_arith b
  | ANotEq a b => trace_arith a ++ s_of "!=" ++ trace_arith b
  | ABitwiseAnd a b => trace_arith a ++ s_of "&" ++ trace_arith b
  | ABitwiseXor a b => trace_arith a ++ s_of "^" ++ trace_arith b
  | ABitwiseOr a b => trace_arith a ++ s_of "|" ++ trace_arith b
  | ALogicalAnd a b => trace_arith a ++ s_of "&&" ++ trace_arith b
  | ALogicalOr a b => trace_arith a ++ s_of "||" ++ trace_arith b
  | ATernary a b c => trace_arith a ++ s_of "?" ++ trace_arith b ++ s_of ":" ++ trace_arith c
  | AAssign v a =>
      v ++ s_of "=" ++
      match a with
      | AMult (AVar v') b | ADiv (AVar v') b | AModulo (AVar v') b | AAdd (AVar v') b | ASub (AVar v') b
      | AShiftLeft (AVar v') b | AShiftRight (AVar v') b | ABitwiseAnd (AVar v') b | ABitwiseOr (AVar v') b
      | ABitwiseXor (AVar v') b => if str_eqb v v' then trace_arith b else trace_arith a
      | _ => trace_arith a
      end
  | ASequence l => join (s_of ",") (map trace_arith l)
  end.

Section Trace.
Context {W C : Type}.
Variable bodies : bool.
Variable tw : W -> str.
Variable tc : C -> str.

Definition t_operand (w : option W) : str := match w with Some w => tw w | None => [] end.
Definition t_cs (l : list C) : str := concat (map tc l).
Definition t_braces (p : param) (op : str) (w : option W) : str :=
  s_of "${" ++ show_name p ++ op ++ t_operand w ++ s_of "}".
Definition t_subst (s : g_subst W C) : str :=
  match s with
  | SCommand cs => t_cs cs
  | SLen p => s_of "${#" ++ show_name p ++ s_of "}"
  | SArith None => s_of "$(())"
  | SArith (Some e) => s_of "$((" ++ trace_arith e ++ s_of "))"
  | SDefault c p w => t_braces p (with_colon c (s_of "-")) w
  | SAssign c p w => t_braces p (with_colon c (s_of "=")) w
  | SError c p w => t_braces p (with_colon c (s_of "?")) w
  | SAlternative c p w => t_braces p (with_colon c (s_of "+")) w
  | SRemoveSmallestSuffix p w => t_braces p (s_of "%") w
  | SRemoveLargestSuffix p w => t_braces p (s_of "%%") w
  | SRemoveSmallestPrefix p w => t_braces p (s_of "#") w
  | SRemoveLargestPrefix p w => t_braces p (s_of "##") w
  end.
Definition t_simple (f : g_simple_word W C) : str :=
  match f with
  | WLiteral s => s
  | WEscaped s => [92%N] ++ s
  | WParam p => s_of "$" ++ show_name p
  | WSubst s => t_subst s
  | WStar => s_of "*"
  | WQuestion => s_of "?"
  | WSquareOpen => s_of "["
  | WSquareClose => s_of "]"
  | WTilde => s_of "~"
  | WColon => s_of ":"
  end.
Definition t_frag (f : g_word W C) : str :=
  match f with
  | WSimple s => t_simple s
  | WDoubleQuoted l => [34%N] ++ concat (map t_simple l) ++ [34%N]
  | WSingleQuoted s => [39%N] ++ s ++ [39%N]
  end.
Definition t_complex (x : complex_word (g_word W C)) : str :=
  match x with
  | WSingle f => t_frag f
  | WConcat l => concat (map t_frag l)
  end.
Definition t_redirect (r : redirect_ W) : str :=
  match r with
  | RRead fd w => show_fd fd ++ s_of "<" ++ tw w
  | RWrite fd w => show_fd fd ++ s_of ">" ++ tw w
  | RReadWrite fd w => show_fd fd ++ s_of "<>" ++ tw w
  | RAppend fd w => show_fd fd ++ s_of ">>" ++ tw w
  | RClobber fd w => show_fd fd ++ s_of ">|" ++ tw w
  | RDupRead fd w => show_fd fd ++ s_of "<&" ++ tw w
  | RDupWrite fd w => show_fd fd ++ s_of ">&" ++ tw w
  | RHeredoc fd w => show_fd fd ++ s_of "<<" ++ (if bodies then tw w else [])
  end.
Definition t_redirects (l : list (redirect_ W)) : str := concat (map t_redirect l).
Definition t_env (e : redirect_or_env_var (redirect_ W) str W) : str :=
  match e with
  | ERedirect r => t_redirect r
  | EEnvVar v w => v ++ s_of "=" ++ t_operand w
  end.
Definition t_arg (a : redirect_or_cmd_word (redirect_ W) W) : str :=
  match a with
  | DRedirect r => t_redirect r
  | DCmdWord w => tw w
  end.
Definition t_sc (c : g_simple W) : str :=
  concat (map t_env (redirects_or_env_vars c)) ++ concat (map t_arg (redirects_or_cmd_words c)).
Definition t_ws (ws : list W) : str := concat (map tw ws).
Definition t_guard (gb : guard_body C) : str := t_cs (guard gb) ++ s_of "then" ++ t_cs (body gb).
Definition t_else (els : option (list C)) : str := match els with Some l => s_of "else" ++ t_cs l | None => [] end.
Definition t_do (l : list C) : str := s_of "do" ++ t_cs l ++ s_of "done".
Definition t_patterns (ps : list W) : str := join (s_of "|") (map tw ps) ++ s_of ")".
Definition t_arm (a : pattern_body W C) : str := t_patterns (patterns a) ++ t_cs (pbody a).
Definition t_in (ws : option (list W)) : str := match ws with Some ws => s_of "in" ++ t_ws ws | None => [] end.
Definition t_kind (k : compound_kind str W C) : str :=
  match k with
  | CBrace l => s_of "{" ++ t_cs l ++ s_of "}"
  | CSubshell l => s_of "(" ++ t_cs l ++ s_of ")"
  | CWhile gb => s_of "while" ++ t_cs (guard gb) ++ t_do (body gb)
  | CUntil gb => s_of "until" ++ t_cs (guard gb) ++ t_do (body gb)
  | CIf gbs els => s_of "if" ++ join (s_of "elif") (map t_guard gbs) ++ t_else els ++ s_of "fi"
  | CFor v ws l => s_of "for" ++ v ++ t_in ws ++ t_do l
  | CCase w arms => s_of "case" ++ tw w ++ s_of "in" ++ concat (map t_arm arms) ++ s_of "esac"
  end.
Definition t_compound (c : g_compound W C) : str := t_kind (kind c) ++ t_redirects (io c).
Definition t_pipeable (c : g_pipeable W C) : str :=
  match c with
  | PSimple c => t_sc c
  | PCompound c => t_compound c
  | PFunctionDef n c => n ++ t_compound c
  end.
Definition t_listable (l : g_listable W C) : str :=
  match l with
  | LSingle c => t_pipeable c
  | LPipe bang l => (if bang then s_of "!" else []) ++ join (s_of "|") (map t_pipeable l)
  end.
Definition t_and_or (a : and_or (g_listable W C)) : str :=
  match a with
  | And l => s_of "&&" ++ t_listable l
  | Or l => s_of "||" ++ t_listable l
  end.
Definition t_list (l : g_list W C) : str := t_listable (first l) ++ concat (map t_and_or (rest l)).
Definition t_command (c : command_ (g_list W C)) : str :=
  match c with
  | CList l => t_list l
  | CJob l => t_list l ++ s_of "&"
  end.
End Trace.

Definition trace_word (b : bool) : tlword -> str := fold_word (t_complex as_is as_is) (t_command b as_is as_is).
Definition trace_cmd (b : bool) : tlcmd -> str := fold_cmd (t_complex as_is as_is) (t_command b as_is as_is).
Definition trace_script (b : bool) (cs : list tlcmd) : str := concat (map (trace_cmd b) cs).

(** Taking the traces of inner words and commands where they stand is the same. *)
Section Traced.
Context {W C : Type}.
Variable b : bool.
Variable f : W -> str.
Variable g : C -> str.
Notation i := as_is.
Lemma traced_cs l : t_cs i (map g l) = t_cs g l.
Proof. unfold t_cs. rewrite map_map. reflexivity. Qed.
Lemma traced_operand w : t_operand i (option_map f w) = t_operand f w.
Proof. now destruct w. Qed.
Lemma traced_subst s : t_subst i i (map_subst f g s) = t_subst f g s.
Proof. destruct s; cbn [map_subst t_subst]; unfold t_braces; rewrite ?traced_cs, ?traced_operand; reflexivity. Qed.
Lemma traced_simple x : t_simple i i (map_simple f g x) = t_simple f g x.
Proof. destruct x; cbn; rewrite ?traced_subst; reflexivity. Qed.
Lemma traced_frag x : t_frag i i (map_frag f g x) = t_frag f g x.
Proof. destruct x; cbn; [apply traced_simple| |reflexivity]. rewrite map_simples_map, cat_map. now rewrite (cat_ext _ _ _ traced_simple). Qed.
Lemma traced_complex x : t_complex i i (map_complex f g x) = t_complex f g x.
Proof. destruct x; cbn; [|apply traced_frag]. rewrite map_frags_map, cat_map. apply cat_ext, traced_frag. Qed.
Lemma traced_redirect r : t_redirect b i (map_redirect f r) = t_redirect b f r.
Proof. now destruct r. Qed.
Lemma traced_redirects l : t_redirects b i (map_redirects f l) = t_redirects b f l.
Proof. unfold t_redirects. rewrite map_redirects_map, cat_map. apply cat_ext, traced_redirect. Qed.
Lemma traced_env e : t_env b i (map_env f e) = t_env b f e.
Proof. destruct e; cbn; rewrite ?traced_redirect, ?traced_operand; reflexivity. Qed.
Lemma traced_arg e : t_arg b i (map_arg f e) = t_arg b f e.
Proof. destruct e; cbn; rewrite ?traced_redirect; reflexivity. Qed.
Lemma traced_sc c : t_sc b i (map_sc f c) = t_sc b f c.
Proof.
  destruct c as [vs ws]. unfold t_sc. cbn. rewrite map_envs_map, map_args_map, !cat_map. f_equal; apply cat_ext; [apply traced_env|apply traced_arg].
Qed.
Lemma traced_ws l : t_ws i (map f l) = t_ws f l.
Proof. unfold t_ws. rewrite map_map. reflexivity. Qed.
Lemma traced_guard x : t_guard i (map_guard g x) = t_guard g x.
Proof. destruct x. unfold t_guard. cbn -[t_cs]. now rewrite !traced_cs. Qed.
Lemma traced_guards l : map (t_guard i) (map_guards g l) = map (t_guard g) l.
Proof. rewrite map_guards_map, map_map. apply map_ext, traced_guard. Qed.
Lemma traced_arm x : t_arm i i (map_arm f g x) = t_arm f g x.
Proof. destruct x. unfold t_arm, t_patterns. cbn -[t_cs]. rewrite traced_cs, map_map. reflexivity. Qed.
Lemma traced_kind k : t_kind i i (map_kind f g k) = t_kind f g k.
Proof.
  destruct k as [l|l|[x y]|[x y]|l e|v ws l|w l]; cbn -[t_cs t_do t_guard t_else t_in t_arm]; unfold t_do; rewrite ?traced_cs, ?traced_guards; try reflexivity.
  - destruct e as [e|]; [|reflexivity]. cbn [t_else]. now rewrite traced_cs.
  - destruct ws as [ws|]; [|reflexivity]. cbn [t_in]. now rewrite traced_ws.
  - rewrite map_arms_map, cat_map, (cat_ext _ _ _ traced_arm). reflexivity.
Qed.
Lemma traced_compound c : t_compound b i i (map_compound f g c) = t_compound b f g c.
Proof. destruct c. unfold t_compound. cbn -[t_kind t_redirects]. now rewrite traced_kind, traced_redirects. Qed.
Lemma traced_pipeable c : t_pipeable b i i (map_pipeable f g c) = t_pipeable b f g c.
Proof. destruct c; cbn; rewrite ?traced_sc, ?traced_compound; reflexivity. Qed.
Lemma traced_listable l : t_listable b i i (map_listable f g l) = t_listable b f g l.
Proof.
  destruct l as [bang l|c]; cbn; [|apply traced_pipeable]. rewrite map_pipeables_map, map_map.
  now rewrite (map_ext _ _ traced_pipeable).
Qed.
Lemma traced_and_or a : t_and_or b i i (map_and_or f g a) = t_and_or b f g a.
Proof. destruct a; cbn; now rewrite traced_listable. Qed.
Lemma traced_list l : t_list b i i (map_list f g l) = t_list b f g l.
Proof.
  destruct l. unfold t_list. cbn. rewrite traced_listable, map_and_ors_map, cat_map. f_equal. apply cat_ext, traced_and_or.
Qed.
Lemma traced_command c : t_command b i i (map_command f g c) = t_command b f g c.
Proof. destruct c; cbn; now rewrite traced_list. Qed.
End Traced.
Lemma trace_word_eq b x : trace_word b (TLWord x) = t_complex (trace_word b) (trace_cmd b) x.
Proof. unfold trace_word, trace_cmd. cbn [fold_word]. apply traced_complex. Qed.
Lemma trace_cmd_eq b x : trace_cmd b (TLCmd x) = t_command b (trace_word b) (trace_cmd b) x.
Proof. unfold trace_word, trace_cmd. cbn [fold_cmd]. apply traced_command. Qed.
