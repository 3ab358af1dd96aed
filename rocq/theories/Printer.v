(** * Writing an AST as source text, and the normal forms

    Independent of the parser: [show_cmd] writes the default AST of a command as shell source, and
    [nf_cmd] says which trees have such a source.  The repository has no printer; this one is the
    specification against which the parser and the default builder are proved ([RoundTrip.v]).

    Every word, redirection and keyword is followed by one blank.  Not in normal form:
    here-documents (C24), and literals containing characters that mean something else where they
    stand (a dollar sign or a backslash outside single quotes, for instance). *)
From Coq Require Import String.
From Verif Require Import Base Token Ast Relex LexSpec LexTheorems Seams ArithTheorems Quotes.
Local Open Scope N_scope.

(** ** Source text *)

(** A parameter without its dollar sign. *)
Definition show_name (p : param) : str :=
  match p with
  | PmAt => s_of "@"
  | PmStar => s_of "*"
  | PmPound => s_of "#"
  | PmQuestion => s_of "?"
  | PmDash => s_of "-"
  | PmDollar => s_of "$"
  | PmBang => s_of "!"
  | PmPositional n => dec n
  | PmVar v => v
  end.

(** The layers of the AST over any words and commands; at [tlword] and [tlcmd] they are those of [Ast.v]. *)
Definition g_subst (W C : Type) := param_subst param W C arith.
Definition g_simple_word (W C : Type) := simple_word str param (g_subst W C).
Definition g_word (W C : Type) := word_ str (g_simple_word W C).
Definition g_compound (W C : Type) := compound_command_ (compound_kind str W C) (redirect_ W).
Definition g_simple (W : Type) := simple_command_ str W (redirect_ W).
Definition g_pipeable (W C : Type) := pipeable_ str (g_simple W) (g_compound W C) (g_compound W C).
Definition g_listable (W C : Type) := listable (g_pipeable W C).
Definition g_list (W C : Type) := and_or_list_ (g_listable W C).

Section Show.
Context {W C : Type}.
Variable show_w : W -> str.
Variable show_c : C -> str.

Definition show_operand (w : option W) : str := match w with Some w => show_w w | None => [] end.
(** A list of commands; each ends with its separator and a blank. *)
Definition show_cs (l : list C) : str := concat (map show_c l).
Definition in_braces (p : param) (op : str) (w : option W) : str :=
  s_of "${" ++ show_name p ++ op ++ show_operand w ++ s_of "}".
Definition with_colon (c : bool) (op : str) : str := if c then s_of ":" ++ op else op.

Definition show_subst (s : g_subst W C) : str :=
  match s with
  | SCommand cs => s_of "$( " ++ show_cs cs ++ s_of ")"
  | SLen p => s_of "${#" ++ show_name p ++ s_of "}"
  | SArith None => s_of "$(( ))"
  | SArith (Some e) => s_of "$((" ++ text (awrite e 0) ++ s_of "))"
  | SDefault c p w => in_braces p (with_colon c (s_of "-")) w
  | SAssign c p w => in_braces p (with_colon c (s_of "=")) w
  | SError c p w => in_braces p (with_colon c (s_of "?")) w
  | SAlternative c p w => in_braces p (with_colon c (s_of "+")) w
  | SRemoveSmallestSuffix p w => in_braces p (s_of "%") w
  | SRemoveLargestSuffix p w => in_braces p (s_of "%%") w
  | SRemoveSmallestPrefix p w => in_braces p (s_of "#") w
  | SRemoveLargestPrefix p w => in_braces p (s_of "##") w
  end.
Definition show_simple (f : g_simple_word W C) : str :=
  match f with
  | WLiteral s => s
  | WEscaped s => backslash :: s
  | WParam p => s_of "${" ++ show_name p ++ s_of "}"
  | WSubst s => show_subst s
  | WStar => s_of "*"
  | WQuestion => s_of "?"
  | WSquareOpen => s_of "["
  | WSquareClose => s_of "]"
  | WTilde => s_of "~"
  | WColon => s_of ":"
  end.
Definition show_frag (f : g_word W C) : str :=
  match f with
  | WSimple s => show_simple s
  | WDoubleQuoted l => 34 :: concat (map show_simple l) ++ [34]
  | WSingleQuoted s => 39 :: s ++ [39]
  end.
Definition show_complex (x : complex_word (g_word W C)) : str :=
  match x with
  | WSingle f => show_frag f
  | WConcat l => concat (map show_frag l)
  end.

Definition blank_after (s : str) : str := s ++ [32].
Definition show_fd (fd : option N) : str := match fd with Some n => dec n | None => [] end.
Definition show_redirect (r : redirect_ W) : str :=
  match r with
  | RRead fd w => show_fd fd ++ s_of "< " ++ show_w w
  | RWrite fd w => show_fd fd ++ s_of "> " ++ show_w w
  | RReadWrite fd w => show_fd fd ++ s_of "<> " ++ show_w w
  | RAppend fd w => show_fd fd ++ s_of ">> " ++ show_w w
  | RClobber fd w => show_fd fd ++ s_of ">| " ++ show_w w
  | RDupRead fd w => show_fd fd ++ s_of "<& " ++ show_w w
  | RDupWrite fd w => show_fd fd ++ s_of ">& " ++ show_w w
  | RHeredoc fd w => []     (* not in normal form *)
  end.
Definition show_env (e : redirect_or_env_var (redirect_ W) str W) : str :=
  match e with
  | ERedirect r => show_redirect r
  | EEnvVar v w => v ++ s_of "=" ++ show_operand w
  end.
Definition show_arg (a : redirect_or_cmd_word (redirect_ W) W) : str :=
  match a with
  | DRedirect r => show_redirect r
  | DCmdWord w => show_w w
  end.
Definition show_sc (c : g_simple W) : str :=
  concat (map (fun e => blank_after (show_env e)) (redirects_or_env_vars c)) ++
  concat (map (fun a => blank_after (show_arg a)) (redirects_or_cmd_words c)).
Definition show_ws (ws : list W) : str := concat (map (fun w => blank_after (show_w w)) ws).
Definition show_guard (gb : guard_body C) : str :=
  show_cs (guard gb) ++ s_of "then " ++ show_cs (body gb).
Fixpoint show_patterns (ps : list W) : str :=
  match ps with
  | [] => []
  | [p] => blank_after (show_w p) ++ s_of ") "
  | p :: ps => blank_after (show_w p) ++ s_of "| " ++ show_patterns ps
  end.
Definition show_arm (a : pattern_body W C) : str :=
  s_of "( " ++ show_patterns (patterns a) ++ show_cs (pbody a) ++ s_of ";; ".
Definition show_kind (k : compound_kind str W C) : str :=
  match k with
  | CBrace l => s_of "{ " ++ show_cs l ++ s_of "} "
  | CSubshell l => s_of "( " ++ show_cs l ++ s_of ") "
  | CWhile gb => s_of "while " ++ show_cs (guard gb) ++ s_of "do " ++ show_cs (body gb) ++ s_of "done "
  | CUntil gb => s_of "until " ++ show_cs (guard gb) ++ s_of "do " ++ show_cs (body gb) ++ s_of "done "
  | CIf [] _ => []     (* not in normal form *)
  | CIf (gb :: gbs) els =>
      s_of "if " ++ show_guard gb ++ concat (map (fun gb => s_of "elif " ++ show_guard gb) gbs) ++
      match els with Some l => s_of "else " ++ show_cs l | None => [] end ++ s_of "fi "
  | CFor v ws l =>
      s_of "for " ++ v ++ s_of " " ++
      match ws with Some ws => s_of "in " ++ show_ws ws | None => [] end ++
      s_of "; do " ++ show_cs l ++ s_of "done "
  | CCase w arms => s_of "case " ++ show_w w ++ s_of " in " ++ concat (map show_arm arms) ++ s_of "esac "
  end.
Definition show_compound (c : g_compound W C) : str :=
  show_kind (kind c) ++ concat (map (fun r => blank_after (show_redirect r)) (io c)).
Definition show_pipeable (c : g_pipeable W C) : str :=
  match c with
  | PSimple c => show_sc c
  | PCompound c => show_compound c
  | PFunctionDef n c => n ++ s_of "() " ++ show_compound c
  end.
Fixpoint show_pipe (l : list (g_pipeable W C)) : str :=
  match l with
  | [] => []
  | [c] => show_pipeable c
  | c :: l => show_pipeable c ++ s_of "| " ++ show_pipe l
  end.
Definition show_listable (l : g_listable W C) : str :=
  match l with
  | LSingle c => show_pipeable c
  | LPipe bang l => (if bang then s_of "! " else []) ++ show_pipe l
  end.
Definition show_and_or (a : and_or (g_listable W C)) : str :=
  match a with
  | And l => s_of "&& " ++ show_listable l
  | Or l => s_of "|| " ++ show_listable l
  end.
Definition show_list (l : g_list W C) : str := show_listable (first l) ++ concat (map show_and_or (rest l)).
Definition show_command (c : command_ (g_list W C)) : str :=
  match c with
  | CList l => show_list l ++ s_of "; "
  | CJob l => show_list l ++ s_of "& "
  end.
End Show.

(** Replacing the words and commands inside a layer.  The lists have functions of their own because the
    termination checker needs minutes for the same functions with [map]. *)
Section Map.
Context {W C W' C' : Type}.
Variable f : W -> W'.
Variable g : C -> C'.
Definition map_subst (s : g_subst W C) : g_subst W' C' :=
  match s with
  | SCommand cs => SCommand (map g cs)
  | SLen p => SLen p
  | SArith a => SArith a
  | SDefault c p w => SDefault c p (option_map f w)
  | SAssign c p w => SAssign c p (option_map f w)
  | SError c p w => SError c p (option_map f w)
  | SAlternative c p w => SAlternative c p (option_map f w)
  | SRemoveSmallestSuffix p w => SRemoveSmallestSuffix p (option_map f w)
  | SRemoveLargestSuffix p w => SRemoveLargestSuffix p (option_map f w)
  | SRemoveSmallestPrefix p w => SRemoveSmallestPrefix p (option_map f w)
  | SRemoveLargestPrefix p w => SRemoveLargestPrefix p (option_map f w)
  end.
Definition map_simple (x : g_simple_word W C) : g_simple_word W' C' :=
  match x with
  | WLiteral s => WLiteral s
  | WEscaped s => WEscaped s
  | WParam p => WParam p
  | WSubst s => WSubst (map_subst s)
  | WStar => WStar
  | WQuestion => WQuestion
  | WSquareOpen => WSquareOpen
  | WSquareClose => WSquareClose
  | WTilde => WTilde
  | WColon => WColon
  end.
Fixpoint map_simples (l : list (g_simple_word W C)) : list (g_simple_word W' C') :=
  match l with [] => [] | x :: l => map_simple x :: map_simples l end.
Definition map_frag (x : g_word W C) : g_word W' C' :=
  match x with
  | WSimple s => WSimple (map_simple s)
  | WDoubleQuoted l => WDoubleQuoted (map_simples l)
  | WSingleQuoted s => WSingleQuoted s
  end.
Fixpoint map_frags (l : list (g_word W C)) : list (g_word W' C') :=
  match l with [] => [] | x :: l => map_frag x :: map_frags l end.
Definition map_complex (x : complex_word (g_word W C)) : complex_word (g_word W' C') :=
  match x with WSingle x => WSingle (map_frag x) | WConcat l => WConcat (map_frags l) end.
Definition map_redirect (r : redirect_ W) : redirect_ W' :=
  match r with
  | RRead fd w => RRead fd (f w)
  | RWrite fd w => RWrite fd (f w)
  | RReadWrite fd w => RReadWrite fd (f w)
  | RAppend fd w => RAppend fd (f w)
  | RClobber fd w => RClobber fd (f w)
  | RHeredoc fd w => RHeredoc fd (f w)
  | RDupRead fd w => RDupRead fd (f w)
  | RDupWrite fd w => RDupWrite fd (f w)
  end.
Fixpoint map_redirects (l : list (redirect_ W)) : list (redirect_ W') :=
  match l with [] => [] | x :: l => map_redirect x :: map_redirects l end.
Definition map_env (e : redirect_or_env_var (redirect_ W) str W) : redirect_or_env_var (redirect_ W') str W' :=
  match e with ERedirect r => ERedirect (map_redirect r) | EEnvVar v w => EEnvVar v (option_map f w) end.
Fixpoint map_envs (l : list (redirect_or_env_var (redirect_ W) str W)) : list (redirect_or_env_var (redirect_ W') str W') :=
  match l with [] => [] | x :: l => map_env x :: map_envs l end.
Definition map_arg (a : redirect_or_cmd_word (redirect_ W) W) : redirect_or_cmd_word (redirect_ W') W' :=
  match a with DRedirect r => DRedirect (map_redirect r) | DCmdWord w => DCmdWord (f w) end.
Fixpoint map_args (l : list (redirect_or_cmd_word (redirect_ W) W)) : list (redirect_or_cmd_word (redirect_ W') W') :=
  match l with [] => [] | x :: l => map_arg x :: map_args l end.
Definition map_sc (c : g_simple W) : g_simple W' :=
  match c with mkSC vs ws => mkSC (map_envs vs) (map_args ws) end.
Definition map_guard (gb : guard_body C) : guard_body C' :=
  match gb with mkGB a b => mkGB (map g a) (map g b) end.
Fixpoint map_guards (l : list (guard_body C)) : list (guard_body C') :=
  match l with [] => [] | x :: l => map_guard x :: map_guards l end.
Definition map_arm (a : pattern_body W C) : pattern_body W' C' :=
  match a with mkPB ps b => mkPB (map f ps) (map g b) end.
Fixpoint map_arms (l : list (pattern_body W C)) : list (pattern_body W' C') :=
  match l with [] => [] | x :: l => map_arm x :: map_arms l end.
Definition map_kind (k : compound_kind str W C) : compound_kind str W' C' :=
  match k with
  | CBrace l => CBrace (map g l)
  | CSubshell l => CSubshell (map g l)
  | CWhile gb => CWhile (map_guard gb)
  | CUntil gb => CUntil (map_guard gb)
  | CIf gbs els => CIf (map_guards gbs) (match els with Some l => Some (map g l) | None => None end)
  | CFor v ws l => CFor v (match ws with Some l => Some (map f l) | None => None end) (map g l)
  | CCase w arms => CCase (f w) (map_arms arms)
  end.
Definition map_compound (c : g_compound W C) : g_compound W' C' :=
  match c with mkCC k io => mkCC (map_kind k) (map_redirects io) end.
Definition map_pipeable (c : g_pipeable W C) : g_pipeable W' C' :=
  match c with
  | PSimple c => PSimple (map_sc c)
  | PCompound c => PCompound (map_compound c)
  | PFunctionDef n c => PFunctionDef n (map_compound c)
  end.
Fixpoint map_pipeables (l : list (g_pipeable W C)) : list (g_pipeable W' C') :=
  match l with [] => [] | x :: l => map_pipeable x :: map_pipeables l end.
Definition map_listable (l : g_listable W C) : g_listable W' C' :=
  match l with LSingle c => LSingle (map_pipeable c) | LPipe b l => LPipe b (map_pipeables l) end.
Definition map_and_or (a : and_or (g_listable W C)) : and_or (g_listable W' C') :=
  match a with And _ => And | Or _ => Or end (map_listable match a with And l | Or l => l end).
Fixpoint map_and_ors (l : list (and_or (g_listable W C))) : list (and_or (g_listable W' C')) :=
  match l with [] => [] | x :: l => map_and_or x :: map_and_ors l end.
Definition map_list (l : g_list W C) : g_list W' C' :=
  match l with mkAOL x r => mkAOL (map_listable x) (map_and_ors r) end.
Definition map_command (c : command_ (g_list W C)) : command_ (g_list W' C') :=
  match c with CList _ => CList | CJob _ => CJob end (map_list match c with CList l | CJob l => l end).
Lemma map_simples_map l : map_simples l = map map_simple l.
Proof. induction l; cbn; congruence. Qed.
Lemma map_frags_map l : map_frags l = map map_frag l.
Proof. induction l; cbn; congruence. Qed.
Lemma map_redirects_map l : map_redirects l = map map_redirect l.
Proof. induction l; cbn; congruence. Qed.
Lemma map_envs_map l : map_envs l = map map_env l.
Proof. induction l; cbn; congruence. Qed.
Lemma map_args_map l : map_args l = map map_arg l.
Proof. induction l; cbn; congruence. Qed.
Lemma map_guards_map l : map_guards l = map map_guard l.
Proof. induction l; cbn; congruence. Qed.
Lemma map_arms_map l : map_arms l = map map_arm l.
Proof. induction l; cbn; congruence. Qed.
Lemma map_pipeables_map l : map_pipeables l = map map_pipeable l.
Proof. induction l; cbn; congruence. Qed.
Lemma map_and_ors_map l : map_and_ors l = map map_and_or l.
Proof. induction l; cbn; congruence. Qed.
End Map.

(** A function of words and commands computed from the inside out: the words and commands in a layer
    are replaced by their values, then [fw] and [fc] give the value of the layer. *)
Section Fold.
Context {W C : Type}.
Variable fw : complex_word (g_word W C) -> W.
Variable fc : command_ (g_list W C) -> C.
Fixpoint fold_word (w : tlword) : W :=
  match w with TLWord x => fw (map_complex fold_word fold_cmd x) end
with fold_cmd (c : tlcmd) : C :=
  match c with TLCmd x => fc (map_command fold_word fold_cmd x) end.
End Fold.

(** Inner words and commands are written first, then their layer around them. *)
Definition as_is (s : str) : str := s.
Definition show_word : tlword -> str := fold_word (show_complex as_is as_is) (show_command as_is as_is).
Definition show_cmd : tlcmd -> str := fold_cmd (show_complex as_is as_is) (show_command as_is as_is).
Definition show_script (cs : list tlcmd) : str := show_cs show_cmd cs.

(** Writing the inner words and commands where they stand is the same. *)
Section Shown.
Context {W C : Type}.
Variable f : W -> str.
Variable g : C -> str.
Notation i := as_is.
Lemma cat_map {A B} (h : B -> str) (k : A -> B) (l : list A) : concat (map h (map k l)) = concat (map (fun x => h (k x)) l).
Proof. now rewrite map_map. Qed.
Lemma cat_ext {A} (h k : A -> str) (l : list A) : (forall x, h x = k x) -> concat (map h l) = concat (map k l).
Proof. intros H. f_equal. now apply map_ext. Qed.
Lemma shown_cs l : show_cs i (map g l) = show_cs g l.
Proof. unfold show_cs. rewrite map_map. reflexivity. Qed.
Lemma shown_operand w : show_operand i (option_map f w) = show_operand f w.
Proof. now destruct w. Qed.
Lemma shown_subst s : show_subst i i (map_subst f g s) = show_subst f g s.
Proof. destruct s; cbn [map_subst show_subst]; unfold in_braces; rewrite ?shown_cs, ?shown_operand; reflexivity. Qed.
Lemma shown_simple x : show_simple i i (map_simple f g x) = show_simple f g x.
Proof. destruct x; cbn; rewrite ?shown_subst; reflexivity. Qed.
Lemma shown_frag x : show_frag i i (map_frag f g x) = show_frag f g x.
Proof. destruct x; cbn; [apply shown_simple| |reflexivity]. rewrite map_simples_map, cat_map. now rewrite (cat_ext _ _ _ shown_simple). Qed.
Lemma shown_complex x : show_complex i i (map_complex f g x) = show_complex f g x.
Proof. destruct x; cbn; [|apply shown_frag]. rewrite map_frags_map, cat_map. apply cat_ext, shown_frag. Qed.
Lemma shown_redirect r : show_redirect i (map_redirect f r) = show_redirect f r.
Proof. now destruct r. Qed.
Lemma shown_env e : show_env i (map_env f e) = show_env f e.
Proof. destruct e; cbn; [apply shown_redirect|now rewrite shown_operand]. Qed.
Lemma shown_arg a : show_arg i (map_arg f a) = show_arg f a.
Proof. destruct a; cbn; [apply shown_redirect|reflexivity]. Qed.
Lemma shown_sc c : show_sc i (map_sc f c) = show_sc f c.
Proof.
  destruct c as [vs ws]. unfold show_sc. cbn. rewrite map_envs_map, map_args_map, !cat_map. f_equal; apply cat_ext; intros x; [now rewrite shown_env|now rewrite shown_arg].
Qed.
Lemma shown_guard gb : show_guard i (map_guard g gb) = show_guard g gb.
Proof. destruct gb. unfold show_guard. cbn [map_guard Ast.guard Ast.body]. now rewrite !shown_cs. Qed.
Lemma shown_ws ws : show_ws i (map f ws) = show_ws f ws.
Proof. unfold show_ws. now rewrite cat_map. Qed.
Lemma shown_patterns ps : show_patterns i (map f ps) = show_patterns f ps.
Proof. induction ps as [|p [|q ps] IH]; [reflexivity|reflexivity|]. cbn in *. now rewrite IH. Qed.
Lemma shown_arm a : show_arm i i (map_arm f g a) = show_arm f g a.
Proof. destruct a. unfold show_arm. cbn [map_arm Ast.patterns Ast.pbody]. now rewrite shown_cs, shown_patterns. Qed.
Lemma shown_kind k : show_kind i i (map_kind f g k) = show_kind f g k.
Proof.
  destruct k as [l|l|[a b]|[a b]|[|gb gbs] els|v ws l|w arms]; cbn [map_kind map_guard map_guards show_kind Ast.guard Ast.body]; rewrite ?shown_cs; try reflexivity.
  - rewrite shown_guard, map_guards_map, cat_map. rewrite (cat_ext _ (fun gb => s_of "elif " ++ show_guard g gb) gbs) by (intros x; now rewrite shown_guard).
    destruct els; rewrite ?shown_cs; reflexivity.
  - destruct ws; rewrite ?shown_ws; reflexivity.
  - rewrite map_arms_map, cat_map, (cat_ext _ _ _ shown_arm). reflexivity.
Qed.
Lemma shown_compound c : show_compound i i (map_compound f g c) = show_compound f g c.
Proof.
  destruct c. unfold show_compound. cbn [map_compound Ast.kind Ast.io]. rewrite shown_kind, map_redirects_map, cat_map. f_equal. apply cat_ext. intros r. now rewrite shown_redirect.
Qed.
Lemma shown_pipeable c : show_pipeable i i (map_pipeable f g c) = show_pipeable f g c.
Proof. destruct c; cbn [map_pipeable show_pipeable]; rewrite ?shown_sc, ?shown_compound; reflexivity. Qed.
Lemma shown_pipe l : show_pipe i i (map (map_pipeable f g) l) = show_pipe f g l.
Proof.
  induction l as [|p [|q l] IH]; [reflexivity|exact (shown_pipeable p)|].
  change (show_pipe i i (map (map_pipeable f g) (p :: q :: l))) with
    (show_pipeable i i (map_pipeable f g p) ++ s_of "| " ++ show_pipe i i (map (map_pipeable f g) (q :: l))).
  rewrite IH, shown_pipeable. reflexivity.
Qed.
Lemma shown_listable l : show_listable i i (map_listable f g l) = show_listable f g l.
Proof. destruct l; cbn [map_listable show_listable]; rewrite ?map_pipeables_map, ?shown_pipeable, ?shown_pipe; reflexivity. Qed.
Lemma shown_and_or a : show_and_or i i (map_and_or f g a) = show_and_or f g a.
Proof. destruct a; cbn [map_and_or show_and_or]; rewrite shown_listable; reflexivity. Qed.
Lemma shown_list l : show_list i i (map_list f g l) = show_list f g l.
Proof.
  destruct l. unfold show_list. cbn [map_list Ast.first Ast.rest]. rewrite shown_listable, map_and_ors_map, cat_map. f_equal. apply cat_ext, shown_and_or.
Qed.
Lemma shown_command c : show_command i i (map_command f g c) = show_command f g c.
Proof. destruct c; cbn [map_command show_command]; rewrite shown_list; reflexivity. Qed.
End Shown.
Lemma show_word_eq x : show_word (TLWord x) = show_complex show_word show_cmd x.
Proof. exact (shown_complex show_word show_cmd x). Qed.
Lemma show_cmd_eq c : show_cmd (TLCmd c) = show_command show_word show_cmd c.
Proof. exact (shown_command show_word show_cmd c). Qed.

(** ** Immediate parts *)
Definition opt_list {A} (o : option A) : list A := match o with Some x => [x] | None => [] end.
(** The operands and the commands in a word. *)
Definition subst_operands (s : d_subst) : list tlword :=
  match s with
  | SCommand _ | SLen _ | SArith _ => []
  | SDefault _ _ w | SAssign _ _ w | SError _ _ w | SAlternative _ _ w | SRemoveSmallestSuffix _ w
  | SRemoveLargestSuffix _ w | SRemoveSmallestPrefix _ w | SRemoveLargestPrefix _ w => opt_list w
  end.
Definition subst_cmds (s : d_subst) : list tlcmd := match s with SCommand cs => cs | _ => [] end.
Definition simple_operands (f : d_simple_word) : list tlword := match f with WSubst s => subst_operands s | _ => [] end.
Definition simple_cmds (f : d_simple_word) : list tlcmd := match f with WSubst s => subst_cmds s | _ => [] end.
Definition frag_operands (f : d_word) : list tlword :=
  match f with WSimple s => simple_operands s | WDoubleQuoted l => flat_map simple_operands l | WSingleQuoted _ => [] end.
Definition frag_cmds (f : d_word) : list tlcmd :=
  match f with WSimple s => simple_cmds s | WDoubleQuoted l => flat_map simple_cmds l | WSingleQuoted _ => [] end.
Definition fragments (x : complex_word d_word) : list d_word := match x with WSingle f => [f] | WConcat l => l end.
Definition word_operands (x : complex_word d_word) : list tlword := flat_map frag_operands (fragments x).
Definition word_cmds (x : complex_word d_word) : list tlcmd := flat_map frag_cmds (fragments x).

(** The words and the commands in a command. *)
Definition redirect_word (r : d_redirect) : tlword :=
  match r with
  | RRead _ w | RWrite _ w | RReadWrite _ w | RAppend _ w | RClobber _ w | RHeredoc _ w | RDupRead _ w | RDupWrite _ w => w
  end.
Definition env_words (e : redirect_or_env_var d_redirect str tlword) : list tlword :=
  match e with ERedirect r => [redirect_word r] | EEnvVar _ w => opt_list w end.
Definition arg_word (a : redirect_or_cmd_word d_redirect tlword) : tlword :=
  match a with DRedirect r => redirect_word r | DCmdWord w => w end.
Definition sc_words (c : d_simple) : list tlword :=
  flat_map env_words (redirects_or_env_vars c) ++ map arg_word (redirects_or_cmd_words c).
Definition kind_words (k : compound_kind str tlword tlcmd) : list tlword :=
  match k with
  | CFor _ (Some ws) _ => ws
  | CCase w arms => w :: flat_map patterns arms
  | _ => []
  end.
Definition kind_cmds (k : compound_kind str tlword tlcmd) : list tlcmd :=
  match k with
  | CBrace l | CSubshell l => l
  | CWhile gb | CUntil gb => guard gb ++ body gb
  | CIf gbs els => flat_map (fun gb => guard gb ++ body gb) gbs ++ match els with Some l => l | None => [] end
  | CFor _ _ l => l
  | CCase _ arms => flat_map pbody arms
  end.
Definition compound_words (c : d_compound) : list tlword := kind_words (kind c) ++ map redirect_word (io c).
Definition compound_cmds (c : d_compound) : list tlcmd := kind_cmds (kind c).
Definition pipeable_words (c : d_pipeable) : list tlword :=
  match c with PSimple c => sc_words c | PCompound c | PFunctionDef _ c => compound_words c end.
Definition pipeable_cmds (c : d_pipeable) : list tlcmd :=
  match c with PSimple c => [] | PCompound c | PFunctionDef _ c => compound_cmds c end.
Definition pipeables (l : d_listable) : list d_pipeable := match l with LSingle c => [c] | LPipe _ l => l end.
Definition listable_of (a : and_or d_listable) : d_listable := match a with And l | Or l => l end.
Definition listables (l : d_list) : list d_listable := first l :: map listable_of (rest l).
Definition list_of (c : command_ d_list) : d_list := match c with CList l | CJob l => l end.
Definition cmd_pipeables (c : command_ d_list) : list d_pipeable := flat_map pipeables (listables (list_of c)).

(** ** Normal forms *)
Section Normal.
Context {U : Uni}.

(** Characters that stand for themselves in an unquoted word. *)
Definition word_char (c : char) : Prop :=
  is_whitespace c = false /\ ~ In c (s_of "|&;<>()$`*?[]~:'") /\ c <> 34 /\ c <> backslash.
(** ... and in the operand of a substitution, which ends with a brace and may contain blanks and
    operators. *)
Definition operand_char (c : char) : Prop :=
  ~ In c (s_of "$`*?[]~:'}") /\ c <> 34 /\ c <> backslash.
Definition text_of (ok : char -> Prop) (s : str) : Prop := s <> [] /\ Forall ok s.
(** Neighbours. *)
Fixpoint separate {A} (R : A -> A -> Prop) (l : list A) : Prop :=
  match l with
  | a :: (b :: _) as l' => ~ R a b /\ separate R l'
  | _ => True
  end.
Definition two_literals (a b : d_simple_word) : Prop :=
  match a, b with WLiteral _, WLiteral _ => True | _, _ => False end.
(** Neighbours that are one fragment in normal form. *)
Definition same_kind (a b : d_word) : Prop :=
  match a, b with
  | WSimple a, WSimple b => two_literals a b
  | WSingleQuoted _, WSingleQuoted _ | WDoubleQuoted _, WDoubleQuoted _ => True
  | _, _ => False
  end.
(** The printed operand does not start with the given character. *)
Definition not_before (c : char) (w : option tlword) : Prop := hd_error (show_operand show_word w) <> Some c.

Definition ok_subst (s : d_subst) : Prop :=
  match s with
  | SCommand _ | SArith None => True
  | SLen p => valid_param p
  | SArith (Some e) => awf e
  | SAssign _ p _ | SAlternative _ p _ => valid_param p
  (* ${#-} and ${#?} are lengths *)
  | SDefault c p w | SError c p w => valid_param p /\ ~ (p = PmPound /\ c = false /\ w = None)
  | SRemoveSmallestSuffix p w => valid_param p /\ not_before 37 w
  | SRemoveLargestSuffix p _ | SRemoveLargestPrefix p _ => valid_param p
  (* ${##} is a length *)
  | SRemoveSmallestPrefix p w => valid_param p /\ not_before 35 w /\ ~ (p = PmPound /\ w = None)
  end.
Definition ok_simple (lit : char -> Prop) (f : d_simple_word) : Prop :=
  match f with
  | WLiteral s => text_of lit s
  | WEscaped s => exists c, s = [c] /\ c <> 10
  | WParam p => valid_param p
  | WSubst s => ok_subst s
  | _ => True
  end.
Definition ok_quoted (f : d_simple_word) : Prop :=
  match f with
  | WLiteral s => text_of plain_in_double s
  | WEscaped s => exists c, s = [c] /\ In c [36; 96; 34; backslash; 10]
  | WParam p => valid_param p
  | WSubst s => ok_subst s
  | _ => False
  end.
Definition ok_frag (lit : char -> Prop) (f : d_word) : Prop :=
  match f with
  | WSimple s => ok_simple lit s
  | WDoubleQuoted l => Forall ok_quoted l /\ separate two_literals l
  | WSingleQuoted s => ~ In 39 s
  end.
Definition ok_complex (lit : char -> Prop) (x : complex_word d_word) : Prop :=
  match x with
  | WSingle f => ok_frag lit f
  | WConcat l => (2 <= List.length l)%nat /\ Forall (ok_frag lit) l /\ separate same_kind l
  end.

(** Redirections: descriptors of 16 bits; what is duplicated is a number, may turn out to be one, or
    is a dash. *)
Definition ok_fd (fd : option N) : Prop := match fd with Some n => n < 2 ^ 16 | None => True end.
Definition all_digits (s : str) : Prop := Forall (fun c => 48 <= c <= 57) s.
Definition numeric_simple (f : d_simple_word) : Prop :=
  match f with
  | WLiteral s | WEscaped s => all_digits s
  | WParam _ | WSubst _ => True
  | _ => False
  end.
Definition numeric_frag (f : d_word) : Prop :=
  match f with
  | WSimple s => numeric_simple s
  | WDoubleQuoted l => Forall numeric_simple l
  | WSingleQuoted s => all_digits s
  end.
Definition ok_dup (w : tlword) : Prop :=
  match w with TLWord x => Forall numeric_frag (fragments x) \/ x = WSingle (WSimple (WLiteral (s_of "-"))) end.
Definition ok_redirect (r : d_redirect) : Prop :=
  match r with
  | RRead fd _ | RWrite fd _ | RReadWrite fd _ | RAppend fd _ | RClobber fd _ => ok_fd fd
  | RDupRead fd w | RDupWrite fd w => ok_fd fd /\ ok_dup w
  | RHeredoc _ _ => False
  end.

(** Command names: not taken for an assignment, and, if they start the command, not for a reserved
    word. *)
Definition identifier (v : str) : Prop := lexable (TName v).
Definition reserved : list str :=
  map s_of ["{"; "}"; "case"; "do"; "done"; "elif"; "else"; "esac"; "fi"; "for"; "function"; "if"; "then"; "until"; "while"]%string.
Definition not_assignment (w : tlword) : Prop := forall v r, identifier v -> show_word w <> v ++ s_of "=" ++ r.
Definition not_reserved (w : tlword) : Prop := ~ In (show_word w) reserved /\ hd_error (show_word w) <> Some 33.
Definition ok_env (e : redirect_or_env_var d_redirect str tlword) : Prop :=
  match e with ERedirect r => ok_redirect r | EEnvVar v _ => identifier v end.
Definition ok_arg (a : redirect_or_cmd_word d_redirect tlword) : Prop :=
  match a with DRedirect r => ok_redirect r | DCmdWord _ => True end.
Definition ok_sc (c : d_simple) : Prop :=
  let vars := redirects_or_env_vars c in
  let args := redirects_or_cmd_words c in
  Forall ok_env vars /\ Forall ok_arg args /\
  match args with
  | [] => vars <> []
  | DRedirect _ :: _ => False        (* redirections before the name are kept with the assignments *)
  | DCmdWord w :: _ => not_assignment w /\ (vars = [] -> not_reserved w)
  end.
Definition ok_kind (k : compound_kind str tlword tlcmd) : Prop :=
  match k with
  | CBrace l | CSubshell l => l <> []
  | CWhile gb | CUntil gb => guard gb <> [] /\ body gb <> []
  | CIf gbs els => gbs <> [] /\ Forall (fun gb => guard gb <> [] /\ body gb <> []) gbs /\ els <> Some []
  | CFor v _ l => identifier v /\ l <> []
  | CCase _ arms => Forall (fun a => patterns a <> []) arms
  end.
Definition ok_compound (c : d_compound) : Prop := ok_kind (kind c) /\ Forall ok_redirect (io c).
Definition ok_pipeable (c : d_pipeable) : Prop :=
  match c with
  | PSimple c => ok_sc c
  | PCompound c => ok_compound c
  | PFunctionDef n c => identifier n /\ ~ In n reserved /\ ok_compound c
  end.
(** A pipeline of one command has a bang. *)
Definition ok_listable (l : d_listable) : Prop :=
  match l with LSingle c => True | LPipe bang l => l <> [] /\ (bang = false -> (2 <= List.length l)%nat) end.
Definition ok_command (c : command_ d_list) : Prop :=
  Forall ok_listable (listables (list_of c)) /\ Forall ok_pipeable (cmd_pipeables c).

Inductive nf_word : tlword -> Prop :=
  | nfw x : ok_complex word_char x -> hd_error (show_word (TLWord x)) <> Some 35 ->
      Forall nf_operand (word_operands x) -> Forall nf_cmd (word_cmds x) -> nf_word (TLWord x)
with nf_operand : tlword -> Prop :=
  | nfo x : ok_complex operand_char x ->
      Forall nf_operand (word_operands x) -> Forall nf_cmd (word_cmds x) -> nf_operand (TLWord x)
with nf_cmd : tlcmd -> Prop :=
  | nfc c : ok_command c ->
      Forall nf_word (flat_map pipeable_words (cmd_pipeables c)) ->
      Forall nf_cmd (flat_map pipeable_cmds (cmd_pipeables c)) -> nf_cmd (TLCmd c).
End Normal.
