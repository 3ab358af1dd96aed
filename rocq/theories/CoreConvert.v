(** * Every string, word and command type gives the same parse (C43)

    [CoreBuilder<T, W, C, F>] (modelled in [CoreBuilder.v]) is generic in its string type and in the
    wrappers of its words, commands and function bodies.  Whatever they are, it builds the tree that
    [DefaultBuilder] builds, with every string converted and every word, command and function body
    wrapped. *)
From Coq Require Import String.
From Verif Require Import Base Token Lexer Pos Ast Builder Prog Iter Located IterProofs ParserBase Balanced
  Arith Word Redirect Command RunLemmas Entry Total Sim SimArith SimWord SimCommand Api DefaultBuilder EmptyBuilder
  SameParse Compress CoreBuilder Exact Forms FormsTheorems.
From Verif Require Printer.

(** ** The specification: converting a tree *)
Section Convert.
Variables T W C F : Type.
Variable from_string : str -> T.
Variable from_word : cb_shell_word T W C -> W.
Variable from_command : command_ (cb_list T W C F) -> C.
Variable from_compound : cb_compound T W C -> F.

(** One layer of the tree, whose words and commands have been converted: every node is kept and
    every string is converted. *)
Definition conv_param (p : param) : gparam T :=
  match p with
  | PmVar v => GVar (from_string v)
  | PmPositional n => GPositional n
  | PmAt => GAt | PmStar => GStar | PmPound => GPound | PmQuestion => GQuestion | PmDash => GDash
  | PmDollar => GDollar | PmBang => GBang
  end.
Fixpoint conv_arith (a : arith) : garith T :=
  let s := from_string in
  let r := conv_arith in
  match a with
  | AVar x => GAVar (s x) | APostIncr x => GAPostIncr (s x) | APostDecr x => GAPostDecr (s x) | APreIncr x => GAPreIncr (s x) | APreDecr x => GAPreDecr (s x)
  | AAssign x e => GAAssign (s x) (r e)
  | ALiteral z => GALiteral z
  | AUnaryPlus e => GAUnaryPlus (r e) | AUnaryMinus e => GAUnaryMinus (r e) | ALogicalNot e => GALogicalNot (r e) | ABitwiseNot e => GABitwiseNot (r e)
  | APow e f => GAPow (r e) (r f) | AMult e f => GAMult (r e) (r f) | ADiv e f => GADiv (r e) (r f)
  | AModulo e f => GAModulo (r e) (r f) | AAdd e f => GAAdd (r e) (r f) | ASub e f => GASub (r e) (r f)
  | AShiftLeft e f => GAShiftLeft (r e) (r f) | AShiftRight e f => GAShiftRight (r e) (r f) | ALess e f => GALess (r e) (r f)
  | ALessEq e f => GALessEq (r e) (r f) | AGreat e f => GAGreat (r e) (r f) | AGreatEq e f => GAGreatEq (r e) (r f)
  | AEq e f => GAEq (r e) (r f) | ANotEq e f => GANotEq (r e) (r f) | ABitwiseAnd e f => GABitwiseAnd (r e) (r f)
  | ABitwiseXor e f => GABitwiseXor (r e) (r f) | ABitwiseOr e f => GABitwiseOr (r e) (r f) | ALogicalAnd e f => GALogicalAnd (r e) (r f)
  | ALogicalOr e f => GALogicalOr (r e) (r f)
  | ATernary c e f => GATernary (r c) (r e) (r f)
  | ASequence l => GASequence (map r l)
  end.
Definition conv_subst (s : Printer.g_subst W C) : cb_subst T W C :=
  match s with
  | SCommand c => SCommand c
  | SLen p => SLen (conv_param p)
  | SArith a => SArith (option_map conv_arith a)
  | SDefault c p w => SDefault c (conv_param p) w
  | SAssign c p w => SAssign c (conv_param p) w
  | SError c p w => SError c (conv_param p) w
  | SAlternative c p w => SAlternative c (conv_param p) w
  | SRemoveSmallestSuffix p w => SRemoveSmallestSuffix (conv_param p) w
  | SRemoveLargestSuffix p w => SRemoveLargestSuffix (conv_param p) w
  | SRemoveSmallestPrefix p w => SRemoveSmallestPrefix (conv_param p) w
  | SRemoveLargestPrefix p w => SRemoveLargestPrefix (conv_param p) w
  end.
Definition conv_simple (s : Printer.g_simple_word W C) : cb_simple_word T W C :=
  match s with
  | WLiteral s => WLiteral (from_string s)
  | WEscaped s => WEscaped (from_string s)
  | WParam p => WParam (conv_param p)
  | WSubst s => WSubst (conv_subst s)
  | WStar => WStar | WQuestion => WQuestion | WSquareOpen => WSquareOpen
  | WSquareClose => WSquareClose | WTilde => WTilde | WColon => WColon
  end.
Definition conv_wd (w : Printer.g_word W C) : cb_word T W C :=
  match w with
  | WSimple s => WSimple (conv_simple s)
  | WDoubleQuoted l => WDoubleQuoted (map conv_simple l)
  | WSingleQuoted s => WSingleQuoted (from_string s)
  end.
Definition conv_complex (w : complex_word (Printer.g_word W C)) : cb_shell_word T W C :=
  match w with
  | WConcat l => WConcat (map conv_wd l)
  | WSingle w => WSingle (conv_wd w)
  end.
Definition conv_env (x : redirect_or_env_var (redirect_ W) str W) : redirect_or_env_var (cb_redirect W) T W :=
  match x with
  | ERedirect r => ERedirect r
  | EEnvVar v w => EEnvVar (from_string v) w
  end.
Definition conv_kind (k : compound_kind str W C) : compound_kind T W C :=
  match k with
  | CBrace l => CBrace l
  | CSubshell l => CSubshell l
  | CWhile g => CWhile g
  | CUntil g => CUntil g
  | CIf conds els => CIf conds els
  | CFor v ws b => CFor (from_string v) ws b
  | CCase w arms => CCase w arms
  end.
Definition conv_compound (c : Printer.g_compound W C) : cb_compound T W C :=
  match c with mkCC k io => mkCC (conv_kind k) io end.
Definition conv_pipeable (p : Printer.g_pipeable W C) : cb_pipeable T W C F :=
  match p with
  | PSimple (mkSC vars args) => PSimple (mkSC (map conv_env vars) args)
  | PCompound c => PCompound (conv_compound c)
  | PFunctionDef v c => PFunctionDef (from_string v) (from_compound (conv_compound c))
  end.
Definition conv_listable (l : Printer.g_listable W C) : cb_listable T W C F :=
  match l with
  | LPipe bang l => LPipe bang (map conv_pipeable l)
  | LSingle p => LSingle (conv_pipeable p)
  end.
Definition conv_and_or (x : and_or (Printer.g_listable W C)) : and_or (cb_listable T W C F) :=
  match x with And t => And (conv_listable t) | Or t => Or (conv_listable t) end.
Definition conv_list (l : Printer.g_list W C) : cb_list T W C F :=
  match l with mkAOL f r => mkAOL (conv_listable f) (map conv_and_or r) end.
Definition conv_command (c : command_ (Printer.g_list W C)) : command_ (cb_list T W C F) :=
  match c with CJob l => CJob (conv_list l) | CList l => CList (conv_list l) end.

(** A whole tree: the words and commands inside a layer are converted where they stand
    ([Printer.map_complex], [Printer.map_command]), and the layer around them is wrapped
    ([to_word_eq], [to_cmd_eq]). *)
Definition to_word : tlword -> W :=
  Printer.fold_word (fun x => from_word (conv_complex x)) (fun x => from_command (conv_command x)).
Definition to_cmd : tlcmd -> C :=
  Printer.fold_cmd (fun x => from_word (conv_complex x)) (fun x => from_command (conv_command x)).
Lemma to_word_eq x : to_word (TLWord x) = from_word (conv_complex (Printer.map_complex to_word to_cmd x)).
Proof. reflexivity. Qed.
Lemma to_cmd_eq x : to_cmd (TLCmd x) = from_command (conv_command (Printer.map_command to_word to_cmd x)).
Proof. reflexivity. Qed.
Definition to_list (l : d_list) : cb_list T W C F := conv_list (Printer.map_list to_word to_cmd l).
Definition to_listable (l : d_listable) : cb_listable T W C F := conv_listable (Printer.map_listable to_word to_cmd l).
Definition to_pipeable (p : d_pipeable) : cb_pipeable T W C F := conv_pipeable (Printer.map_pipeable to_word to_cmd p).
Definition to_compound (c : d_compound) : cb_compound T W C := conv_compound (Printer.map_compound to_word to_cmd c).
Definition to_redirect (r : d_redirect) : cb_redirect W := Printer.map_redirect to_word r.

(** ** Words *)
Lemma coalesce_map {A A2} (h : A -> A2) (f1 : A -> A -> A + (A * A)) (f2 : A2 -> A2 -> A2 + (A2 * A2)) :
  (forall a b, f2 (h a) (h b) = match f1 a b with inl c => inl (h c) | inr (l, r) => inr (h l, h r) end) ->
  forall l, coalesce f2 (map h l) = map h (coalesce f1 l).
Proof.
  intros H.
  assert (L : forall it a b, coalesce_loop f2 (h a) (h b) (map h it) =
    match coalesce_loop f1 a b it with (x, c, it') => (h x, option_map h c, map h it') end).
  { induction it as [|y it IH]; intros a b; cbn [coalesce_loop map]; rewrite H; destruct (f1 a b) as [c|[l r]]; cbn; auto. }
  assert (N : forall c it, coalesce_next f2 (option_map h c, map h it) =
    match coalesce_next f1 (c, it) with (x, (c', it')) => (option_map h x, (option_map h c', map h it')) end).
  { intros c it. unfold coalesce_next. destruct c as [c|]; destruct it as [|x it]; cbn [option_map map]; try reflexivity.
    - rewrite L. destruct (coalesce_loop f1 c x it) as [[? ?] ?]; reflexivity.
    - destruct it as [|y it]; cbn [map]; [reflexivity|]. rewrite L. destruct (coalesce_loop f1 x y it) as [[? ?] ?]; reflexivity. }
  assert (K : forall n c it, coalesce_collect f2 n (option_map h c, map h it) = map h (coalesce_collect f1 n (c, it))).
  { induction n as [|n IH]; intros c it; [reflexivity|]. cbn [coalesce_collect]. rewrite N.
    destruct (coalesce_next f1 (c, it)) as [[x|] [c' it']]; cbn [option_map map]; [|reflexivity]. now rewrite IH. }
  intros l. unfold coalesce. rewrite map_length. apply (K _ None l).
Qed.
Section Words.
Context {C1 C2 : Type} (f : C1 -> C2).
Lemma coalesce_simple_map a b : coalesce_simple (map_swk f a) (map_swk f b) =
  match coalesce_simple a b with inl c => inl (map_swk f c) | inr (l, r) => inr (map_swk f l, map_swk f r) end.
Proof. destruct a; try reflexivity. destruct b; reflexivity. Qed.
Lemma coalesce_word_map a b : coalesce_word (map_wk f a) (map_wk f b) =
  match coalesce_word a b with inl c => inl (map_wk f c) | inr (l, r) => inr (map_wk f l, map_wk f r) end.
Proof.
  destruct a as [a|a|a]; destruct b as [b|b|b]; try reflexivity.
  - cbn [map_wk coalesce_word].
    change (match coalesce_simple (map_swk f a) (map_swk f b) with inl c => inl (KSimple c) | inr (a, b) => inr (KSimple a, KSimple b) end =
      match match coalesce_simple a b with inl c => inl (KSimple c) | inr (a, b) => inr (KSimple a, KSimple b) end with
        inl c => inl (map_wk f c) | inr (l, r) => inr (map_wk f l, map_wk f r) end).
    rewrite coalesce_simple_map. destruct (coalesce_simple a b) as [c|[l r]]; reflexivity.
  - change (inl (A:=wk C2) (B:=wk C2 * wk C2) (KDoubleQuoted (coalesce coalesce_simple (map (map_swk f) a ++ map (map_swk f) b))) =
      inl (KDoubleQuoted (map (map_swk f) (coalesce coalesce_simple (a ++ b))))).
    now rewrite <- map_app, (coalesce_map (map_swk f) coalesce_simple) by apply coalesce_simple_map.
Qed.
Lemma compress_map k : compress (map_cwk f k) = map_cwk f (compress k).
Proof.
  destruct k as [l|w].
  - change (match coalesce coalesce_word (map (map_wk f) l) with [s] => KSingle s | body => KConcat body end =
      map_cwk f (match coalesce coalesce_word l with [s] => KSingle s | body => KConcat body end)).
    rewrite (coalesce_map (map_wk f) coalesce_word) by apply coalesce_word_map.
    destruct (coalesce coalesce_word l) as [|a [|b l']]; reflexivity.
  - destruct w as [w|v|w]; try reflexivity.
    change (KSingle (KDoubleQuoted (coalesce coalesce_simple (map (map_swk f) v))) =
      KSingle (KDoubleQuoted (map (map_swk f) (coalesce coalesce_simple v)))).
    now rewrite (coalesce_map (map_swk f) coalesce_simple) by apply coalesce_simple_map.
Qed.
Fixpoint swk_depth_map (w : swk C1) : swk_depth (map_swk f w) = swk_depth w
with wk_depth_map (w : wk C1) : wk_depth (map_wk f w) = wk_depth w
with cwk_depth_map (w : cwk C1) : cwk_depth (map_cwk f w) = cwk_depth w
with psk_depth_map (w : psk C1) : psk_depth (map_psk f w) = psk_depth w.
Proof.
  - destruct w as [?|?|s|g|?| | | | | |]; try reflexivity. exact (psk_depth_map s).
  - destruct w as [w|l|w]; try reflexivity; [exact (swk_depth_map w)|].
    change (list_max (map swk_depth (map (map_swk f) l)) = list_max (map swk_depth l)). f_equal.
    induction l as [|x l IH]; [reflexivity|]. cbn [map]. f_equal; [apply swk_depth_map|apply IH].
  - destruct w as [l|w]; [|exact (wk_depth_map w)].
    change (list_max (map wk_depth (map (map_wk f) l)) = list_max (map wk_depth l)). f_equal.
    induction l as [|x l IH]; [reflexivity|]. cbn [map]. f_equal; [apply wk_depth_map|apply IH].
  - destruct w as [g|?|?|c p w|c p w|c p w|c p w|p w|p w|p w|p w]; try reflexivity;
      (destruct w as [w|]; [|reflexivity]; exact (f_equal S (cwk_depth_map w))).
Qed.
End Words.

Notation cw := (cb_core_word T W C from_string from_word).
Notation cwn := (cb_word_n T W C from_string from_word).
Section Rec.
Variables (r1 : cwk tlcmd -> tlword) (r2 : cwk C -> W).
Hypothesis Hr : forall k, r2 (map_cwk to_cmd k) = to_word (r1 k).
Lemma opt_rec w : option_map r2 (option_map (map_cwk to_cmd) w) = option_map to_word (option_map r1 w).
Proof. destruct w; cbn; [now rewrite Hr|reflexivity]. Qed.
Lemma map_subst_commutes s : cb_map_subst T W C from_string r2 (map_psk to_cmd s) =
  conv_subst (Printer.map_subst to_word to_cmd (d_map_subst r1 s)).
Proof.
  destruct s; try reflexivity; cbn [map_psk cb_map_subst d_map_subst Printer.map_subst conv_subst];
    try (rewrite <- opt_rec; reflexivity).
Qed.
Lemma map_simple_commutes s : cb_map_simple T W C from_string r2 (map_swk to_cmd s) =
  conv_simple (Printer.map_simple to_word to_cmd (d_map_simple r1 s)).
Proof.
  destruct s; try reflexivity.
  exact (f_equal WSubst (map_subst_commutes _)).
Qed.
Lemma map_word_commutes w : cb_map_word T W C from_string r2 (map_wk to_cmd w) =
  conv_wd (Printer.map_frag to_word to_cmd (d_map_word r1 w)).
Proof.
  destruct w as [w|l|w]; [exact (f_equal WSimple (map_simple_commutes _))| |reflexivity].
  change (WDoubleQuoted (map (cb_map_simple T W C from_string r2) (map (map_swk to_cmd) l)) =
    WDoubleQuoted (L:=T) (map conv_simple (Printer.map_simples to_word to_cmd (map (d_map_simple r1) l)))).
  rewrite Printer.map_simples_map, !map_map. f_equal. apply map_ext. intros x. apply map_simple_commutes.
Qed.
Lemma map_complex_commutes k : cb_map_complex T W C from_string from_word r2 (map_cwk to_cmd k) = to_word (d_map_complex r1 k).
Proof.
  unfold cb_map_complex, d_map_complex. rewrite compress_map, to_word_eq. f_equal.
  destruct (compress k) as [l|w].
  - change (WConcat (map (cb_map_word T W C from_string r2) (map (map_wk to_cmd) l)) =
      WConcat (map conv_wd (Printer.map_frags to_word to_cmd (map (d_map_word r1) l)))).
    rewrite Printer.map_frags_map, !map_map. f_equal. apply map_ext. intros x. apply map_word_commutes.
  - exact (f_equal WSingle (map_word_commutes _)).
Qed.
End Rec.
Lemma word_n_commutes : forall n k, cwn n (map_cwk to_cmd k) = to_word (d_word_n n k).
Proof.
  induction n as [|n IH]; intros k; cbn [cb_word_n d_word_n]; apply map_complex_commutes; auto.
Qed.
Lemma word_commutes k : cw (map_cwk to_cmd k) = to_word (default_word k).
Proof. unfold cb_core_word, default_word. rewrite cwk_depth_map. apply word_n_commutes. Qed.

(** ** The other methods *)
Notation core := (core_builder T W C F from_string from_word from_command from_compound).
Lemma ok_rel {A A2} (g : A -> A2) a a2 : a2 = g a ->
  bld_rel (BE1:=default_err) (BE2:=default_err) eq eq (graph g) (ok a) (ok a2).
Proof. intros ->. intros b ? <-. repeat split. Qed.
Lemma pipeline_commutes bang (l : list (list newline_ * d_pipeable)) :
  bld_rel (BE1:=default_err) (BE2:=default_err) eq eq (graph to_listable) (d_pipeline bang l)
    (cb_pipeline T W C F bang (map (fun x => (fst x, to_pipeable (snd x))) l)).
Proof.
  intros b ? <-. unfold d_pipeline, cb_pipeline. cbv zeta. rewrite !map_length, map_map. cbn [fst snd].
  destruct (_ || _); unfold ok.
  - split; [|reflexivity]. unfold graph, to_listable. cbn [Printer.map_listable conv_listable]. f_equal.
    rewrite Printer.map_pipeables_map, !map_map. reflexivity.
  - rewrite <- !map_rev. destruct (rev l) as [|c r]; cbn [map]; (split; [|reflexivity]); reflexivity.
Qed.
Definition core_mor : bmor default_builder core.
Proof.
  refine (mkMor default_builder core to_cmd to_list to_listable to_pipeable to_compound to_word to_redirect
    eq eq _ _ _ _ _ _ _ _ _ _ _ _ _ _ _); intros.
  - apply ok_rel. unfold cb_complete_command, d_complete_command. rewrite to_cmd_eq. destruct s; reflexivity.
  - apply ok_rel. unfold cb_and_or_list, d_and_or_list, to_list. cbn [Printer.map_list conv_list].
    rewrite Printer.map_and_ors_map, !map_map. f_equal. apply map_ext. intros [c [x|x]]; reflexivity.
  - apply pipeline_commutes.
  - apply ok_rel. unfold cb_simple_command, d_simple_command, to_pipeable.
    cbn [Printer.map_pipeable Printer.map_sc conv_pipeable]. rewrite Printer.map_envs_map, Printer.map_args_map, !map_map.
    f_equal.
  - apply ok_rel. unfold cb_brace_group, d_brace_group, to_compound. cbn [Printer.map_compound conv_compound].
    now rewrite Printer.map_redirects_map.
  - apply ok_rel. unfold cb_subshell, d_subshell, to_compound. cbn [Printer.map_compound conv_compound].
    now rewrite Printer.map_redirects_map.
  - apply ok_rel. unfold cb_loop_command, d_loop_command, to_compound. cbn [Printer.map_compound conv_compound].
    rewrite Printer.map_redirects_map. destruct k; reflexivity.
  - apply ok_rel. unfold cb_if_command, d_if_command, to_compound. cbn [Printer.map_compound Printer.map_kind conv_compound conv_kind].
    rewrite Printer.map_redirects_map, Printer.map_guards_map. destruct g as [c e]. unfold map_if. cbn [Ast.conditionals Ast.else_branch].
    rewrite !map_map. destruct e; reflexivity.
  - apply ok_rel. unfold cb_for_command, d_for_command, to_compound. cbn [Printer.map_compound Printer.map_kind conv_compound conv_kind].
    rewrite Printer.map_redirects_map. destruct g as [v c w p b]. destruct w as [[[? ?] ?]|]; reflexivity.
  - apply ok_rel. unfold cb_case_command, d_case_command, to_compound. cbn [Printer.map_compound Printer.map_kind conv_compound conv_kind].
    rewrite Printer.map_redirects_map, Printer.map_arms_map. destruct g as [v c w p b]. unfold map_case. cbn. rewrite !map_map. reflexivity.
  - now apply ok_rel.
  - now apply ok_rel.
  - intros b ? <-. repeat split.
  - apply ok_rel. apply word_commutes.
  - apply ok_rel. destruct r; reflexivity.
Defined.
End Convert.

(** ** Every method *)
(** A morphism of builders relates all the calls. *)
Lemma mor_call {B1 B2} (M : bmor B1 B2) m fuel s b1 b2 : good s -> (List.length (tokens_left s) + 2 < fuel)%nat ->
  RB _ _ M b1 b2 -> forall o1 s1 b1' o2 s2 b2',
  run concrete (call B1 m fuel) s b1 = (o1, s1, b1') -> run concrete (call B2 m fuel) s b2 = (o2, s2, b2') ->
  out_rel (RE _ _ M) (graph (map_result M m)) o1 o2 /\ abs s1 = abs s2 /\ RB _ _ M b1' b2'.
Proof.
  intros G Hf Hb o1 s1 b1' o2 s2 b2' E1 E2.
  pose proof (entry_total B1 _ (call B1 m) True fuel s b1 (call_entry B1 m) G (fun _ => I) Hf) as T.
  rewrite E1 in T. destruct T as [_ T].
  pose proof (run_transfer (call B1 m fuel) s b1 G) as T1. rewrite E1 in T1. destruct T1 as [T1 _].
  pose proof (run_transfer (call B2 m fuel) s b2 G) as T2. rewrite E2 in T2. destruct T2 as [T2 _].
  pose proof (sim_call M m fuel fuel (le_n _) (abs s) b1 b2 Hb) as S'. unfold lrun in S'. rewrite T1, T2 in S'.
  destruct o1; [| | |contradiction]; destruct S' as (S1 & S2 & S3); auto.
Qed.

(** What a call gives when its result is replaced by [f] of it. *)
Definition map_outcome {E A A2} (f : A -> A2) (o : outcome E A) : outcome E A2 :=
  match o with OOk a => OOk (f a) | OErr e => OErr e | OPanic x => OPanic x | OFuel => OFuel end.
Lemma out_rel_map {E A A2} (f : A -> A2) (o1 : outcome E A) (o2 : outcome E A2) :
  out_rel eq (graph f) o1 o2 -> o2 = map_outcome f o1.
Proof.
  destruct o1 as [a|e|x|], o2 as [a2|e2|x2|]; cbn; try contradiction.
  - now intros ->.
  - intros H. now rewrite (err_rel_eq _ _ H).
  - now intros ->.
Qed.

Section C43.
Context {T W C F : Type}.
Variable from_string : str -> T.
Variable from_word : cb_shell_word T W C -> W.
Variable from_command : command_ (cb_list T W C F) -> C.
Variable from_compound : cb_compound T W C -> F.
Notation core := (core_builder T W C F from_string from_word from_command from_compound).
Notation conv_cmd := (to_cmd T W C F from_string from_word from_command from_compound).
(** The result of a public method, converted. *)
Definition converted (m : api) : api_result default_builder m -> api_result core m :=
  map_result (core_mor T W C F from_string from_word from_command from_compound) m.

(** C43: in every state a parser can reach, every public method of a parser over the generic builder
    ends the way it does with the default builder, the result converted, and leaves the same tokens
    at the same positions. *)
Theorem core_builder_same m fuel s : parser_reach core s tt -> (List.length (tokens_left s) + 2 < fuel)%nat ->
  forall o1 s1 b1 o2 s2 b2,
  run concrete (call default_builder m fuel) s tt = (o1, s1, b1) ->
  run concrete (call core m fuel) s tt = (o2, s2, b2) ->
  o2 = map_outcome (converted m) o1 /\ abs s2 = abs s1.
Proof.
  intros HR Hf o1 s1 b1 o2 s2 b2 E1 E2.
  destruct (mor_call (core_mor T W C F from_string from_word from_command from_compound) m fuel s tt tt
    (parser_reach_good _ _ _ HR) Hf eq_refl _ _ _ _ _ _ E1 E2) as (H & Ha & _).
  split; [now apply out_rel_map|congruence].
Qed.

(** The iterator: it yields the converted commands, and then what the default builder's yields. *)
Definition same_iter (st1 : parser_iter concrete default_builder) (st2 : parser_iter concrete core) : Prop :=
  match st1, st2 with
  | None, None => True
  | Some (s1, _), Some (s2, _) => good s1 /\ good s2 /\ abs s1 = abs s2
  | _, _ => False
  end.
Definition left_in {B} (st : parser_iter concrete B) : nat :=
  match st with Some (s, _) => List.length (tokens_left s) | None => 0 end.
Lemma same_next fuel st1 st2 : same_iter st1 st2 -> (left_in st1 + 2 < fuel)%nat ->
  forall r1 st1' r2 st2', parser_iter_next concrete default_builder fuel st1 = (r1, st1') ->
  parser_iter_next concrete core fuel st2 = (r2, st2') ->
  r2 = option_map (map_outcome conv_cmd) r1 /\ same_iter st1' st2' /\
  (forall c, r1 = Some (OOk c) -> (left_in st1' <= left_in st1)%nat).
Proof.
  intros HS Hf r1 st1' r2 st2' E1 E2. unfold same_iter in HS.
  destruct st1 as [[s1 b1]|], st2 as [[s2 b2]|]; try contradiction.
  2: { injection E1 as <- <-. injection E2 as <- <-. repeat split. discriminate. }
  destruct HS as (G1 & G2 & HA). cbn [left_in] in Hf. cbn [parser_iter_next] in E1, E2.
  destruct (run concrete (p_complete_command default_builder fuel) s1 b1) as [[o1 s1'] b1'] eqn:R1.
  destruct (run concrete (p_complete_command core fuel) s2 b2) as [[o2 s2'] b2'] eqn:R2.
  pose proof (entry_total default_builder _ (call default_builder ACompleteCommand) True fuel s1 b1 (call_entry _ _) G1 (fun _ => I) Hf) as T1.
  assert (R1' : run concrete (call default_builder ACompleteCommand fuel) s1 b1 = (o1, s1', b1')) by exact R1.
  rewrite R1' in T1. destruct T1 as [G1' T1].
  pose proof (run_transfer (p_complete_command default_builder fuel) s1 b1 G1) as L1. rewrite R1 in L1. destruct L1 as [L1 _].
  pose proof (run_transfer (p_complete_command core fuel) s2 b2 G2) as L2. rewrite R2 in L2. destruct L2 as [L2 G2'].
  destruct b1, b2.
  pose proof (sim_call (core_mor T W C F from_string from_word from_command from_compound) ACompleteCommand fuel fuel (le_n _) (abs s1) tt tt eq_refl) as S'.

  assert (L1' : lrun (call default_builder ACompleteCommand fuel) (abs s1) tt = (o1, abs s1', b1')) by exact L1.
  assert (L2' : lrun (call core ACompleteCommand fuel) (abs s1) tt = (o2, abs s2', b2')) by (rewrite HA; exact L2).
  rewrite L1', L2' in S'.
  destruct o1 as [a1|e1|x1|]; [| | |contradiction]; destruct S' as (S1 & S2 & _); apply out_rel_map in S1; subst o2.
  - cbn [map_outcome map_result] in E2. destruct a1 as [c|]; cbn [option_map core_mor m_cmd] in E2.
    + injection E1 as <- <-. injection E2 as <- <-. split; [reflexivity|]. split; [cbn; auto|]. intros c' _. exact T1.
    + injection E1 as <- <-. injection E2 as <- <-. split; [reflexivity|]. split; [exact I|discriminate].
  - injection E1 as <- <-. injection E2 as <- <-. split; [reflexivity|]. split; [exact I|discriminate].
  - injection E1 as <- <-. injection E2 as <- <-. split; [reflexivity|]. split; [cbn; auto|discriminate].
Qed.
Lemma same_yields fuel cs st1 st1' : yields default_builder fuel st1 cs st1' ->
  forall st2, same_iter st1 st2 -> (left_in st1 + 2 < fuel)%nat ->
  exists st2', yields core fuel st2 (map conv_cmd cs) st2' /\ same_iter st1' st2' /\ (left_in st1' + 2 < fuel)%nat.
Proof.
  induction 1 as [st1|st1 c sti cs st1' E _ IH]; intros st2 HS Hf; [exists st2; split; [constructor|auto]|].
  destruct (parser_iter_next concrete core fuel st2) as [r2 st2i] eqn:E2.
  destruct (same_next fuel st1 st2 HS Hf _ _ _ _ E E2) as (-> & HS' & HL).
  destruct (IH st2i HS' ltac:(specialize (HL c eq_refl); lia)) as (st2' & Y & HS2 & HF).
  exists st2'. split; [|auto]. cbn [map]. eapply y_cons; [exact E2|exact Y].
Qed.
Lemma same_yields_back fuel cs st2 st2' : yields core fuel st2 cs st2' ->
  forall st1, same_iter st1 st2 -> (left_in st1 + 2 < fuel)%nat ->
  exists cs1 st1', cs = map conv_cmd cs1 /\ yields default_builder fuel st1 cs1 st1' /\ same_iter st1' st2' /\ (left_in st1' + 2 < fuel)%nat.
Proof.
  induction 1 as [st2|st2 c sti cs st2' E _ IH]; intros st1 HS Hf; [exists [], st1; split; [reflexivity|split; [constructor|auto]]|].
  destruct (parser_iter_next concrete default_builder fuel st1) as [r1 st1i] eqn:E1.
  destruct (same_next fuel st1 st2 HS Hf _ _ _ _ E1 E) as (Hr & HS' & HL).
  destruct r1 as [[c1|?|?|]|]; try discriminate. injection Hr as ->.
  destruct (IH st1i HS' ltac:(specialize (HL c1 eq_refl); lia)) as (cs1 & st1' & -> & Y & HS2 & HF).
  exists (c1 :: cs1), st1'. split; [reflexivity|]. split; [|auto]. eapply y_cons; [exact E1|exact Y].
Qed.

(** The iterator over a script, with the generic builder, yields the converted commands and then ends,
    fails or panics as with the default builder.  [rs] is the list of commands yielded and [r] what
    follows them. *)
Definition ends {B} (fuel : nat) (ts : list token) (b : bst B) (cs : list (b_cmd B)) (r : option (outcome (b_err B) (b_cmd B))) : Prop :=
  exists st st', yields B fuel (parser_iter_new B ts b) cs st /\ parser_iter_next concrete B fuel st = (r, st').
Theorem core_iterator_same fuel ts cs' r' : (List.length ts + 2 < fuel)%nat ->
  ends (B:=core) fuel ts tt cs' r' <->
  exists cs r, ends (B:=default_builder) fuel ts tt cs r /\ cs' = map conv_cmd cs /\ r' = option_map (map_outcome conv_cmd) r.
Proof.
  intros Hf.
  assert (HS : same_iter (parser_iter_new default_builder ts tt) (parser_iter_new core ts tt)) by (cbn; auto).
  assert (HF : (left_in (parser_iter_new default_builder ts tt) + 2 < fuel)%nat) by exact Hf.
  split.
  - intros (st & st' & Y & E). destruct (same_yields_back fuel _ _ _ Y _ HS HF) as (cs1 & st1 & -> & Y1 & HS1 & HF1).
    destruct (parser_iter_next concrete default_builder fuel st1) as [r st1'] eqn:E1.
    destruct (same_next _ _ _ HS1 HF1 _ _ _ _ E1 E) as (-> & _).
    exists cs1, r. split; [exists st1, st1'; auto|auto].
  - intros (cs & r & (st & st' & Y & E) & -> & ->). destruct (same_yields fuel _ _ _ Y _ HS HF) as (st2 & Y2 & HS2 & HF2).
    destruct (parser_iter_next concrete core fuel st2) as [r2 st2'] eqn:E2.
    destruct (same_next _ _ _ HS2 HF2 _ _ _ _ E E2) as (-> & _).
    exists st2, st2'. auto.
Qed.

(** The model of [CoreBuilder::word] satisfies its recursive equation: bounding the recursion by the
    nesting of the word is no restriction. *)
Notation gword := (cb_core_word T W C from_string from_word).
Notation gcomplex := (cb_map_complex T W C from_string from_word).
Definition gagree n (r1 r2 : cwk C -> W) : Prop := forall k, (cwk_depth k < n)%nat -> r1 k = r2 k.
Lemma g_simple_ext r1 r2 n x : gagree n r1 r2 -> (swk_depth x <= n)%nat ->
  cb_map_simple T W C from_string r1 x = cb_map_simple T W C from_string r2 x.
Proof.
  intros H Hd. destruct x as [?|?|p|?|?| | | | | |]; try reflexivity. cbn [cb_map_simple]. f_equal.
  change (psk_depth p <= n)%nat in Hd.
  destruct p as [?|?|?|c p w|c p w|c p w|c p w|p w|p w|p w|p w]; try reflexivity;
    (destruct w as [w|]; [|reflexivity]; cbn [cb_map_subst option_map]; rewrite (H w); [reflexivity|];
     change (S (cwk_depth w) <= n)%nat in Hd; lia).
Qed.
Lemma g_word_ext r1 r2 n x : gagree n r1 r2 -> (wk_depth x <= n)%nat ->
  cb_map_word T W C from_string r1 x = cb_map_word T W C from_string r2 x.
Proof.
  intros H Hd. destruct x as [x|v|x]; cbn [cb_map_word]; [|f_equal|reflexivity].
  - now rewrite (g_simple_ext r1 r2 n).
  - change (list_max (map swk_depth v) <= n)%nat in Hd. apply map_ext_in. intros x Hx.
    apply (g_simple_ext _ _ n); auto. pose proof (list_max_in _ _ (in_map swk_depth _ _ Hx)). lia.
Qed.
Lemma g_complex_ext r1 r2 n k : gagree n r1 r2 -> (cwk_depth k <= n)%nat -> gcomplex r1 k = gcomplex r2 k.
Proof.
  intros H Hd. unfold cb_map_complex. pose proof (compress_depth k) as Hc. f_equal.
  destruct (compress k) as [l|w].
  - f_equal. change (list_max (map wk_depth l) <= cwk_depth k)%nat in Hc. apply map_ext_in. intros x Hx.
    apply (g_word_ext _ _ n); auto. pose proof (list_max_in _ _ (in_map wk_depth _ _ Hx)). lia.
  - f_equal. apply (g_word_ext _ _ n); auto. change (wk_depth w <= cwk_depth k)%nat in Hc. lia.
Qed.
Lemma g_word_n_enough : forall n m k, (cwk_depth k <= n)%nat -> (cwk_depth k <= m)%nat ->
  cb_word_n T W C from_string from_word n k = cb_word_n T W C from_string from_word m k.
Proof.
  induction n as [|n IH]; intros m k Hn Hm.
  - destruct m as [|m]; [reflexivity|]. cbn [cb_word_n]. apply (g_complex_ext _ _ 0); auto.
    intros k' Hk'. lia.
  - destruct m as [|m]; cbn [cb_word_n].
    + apply (g_complex_ext _ _ 0); [|lia]. intros k' Hk'. lia.
    + apply (g_complex_ext _ _ (Nat.min (S n) (S m))); [|lia]. intros k' Hk'. apply IH; lia.
Qed.
Theorem core_word_eq k : gword k = gcomplex gword k.
Proof.
  unfold cb_core_word at 1.
  transitivity (cb_word_n T W C from_string from_word (S (cwk_depth k)) k); [apply g_word_n_enough; lia|]. cbn [cb_word_n].
  apply (g_complex_ext _ _ (cwk_depth k)); [|lia]. intros k' Hk'. apply g_word_n_enough; lia.
Qed.
End C43.

(** ** Delegating builders *)
(** [&mut B], [Box<B>], [DefaultBuilder] and [AtomicDefaultBuilder] are the builder they contain. *)
Theorem delegating_same B : delegating B = B.
Proof. now destruct B. Qed.

(** ** The theorems apply *)
(** Strings become their lengths, words the list of their literals' lengths, a command the words of its
    first simple command, and a function body the number of its redirections. *)
Section Witness.
#[local] Instance some_uni : Uni := fun _ => false.
Definition w_lits (w : cb_shell_word nat (list nat) (list (list nat))) : list nat :=
  let one w := match w with WSimple (WLiteral t) => [t] | WSingleQuoted t => [t] | _ => [] end in
  match w with WSingle w => one w | WConcat l => flat_map one l end.
Definition w_args (c : command_ (cb_list nat (list nat) (list (list nat)) nat)) : list (list nat) :=
  match c with CJob l | CList l =>
    match first l with
    | LSingle (PSimple c) => flat_map (fun a => match a with DCmdWord w => [w] | _ => [] end) (redirects_or_cmd_words c)
    | _ => []
    end
  end.
Definition w_core := core_builder nat (list nat) (list (list nat)) nat (@List.length _) w_lits w_args (fun c => List.length (io c)).
Example w_core_parses : fst (fst (run concrete (call w_core ACompleteCommand 100) (ti_new (lex (s_of "echo foo'bar' $(ls) >f | cat; echo foo'bar' $x >f"))) tt)) =
  OOk (Some []).
Proof. vm_compute. reflexivity. Qed.
Example w_core_parses2 : fst (fst (run concrete (call w_core ACompleteCommand 100) (ti_new (lex (s_of "echo foo'barbar' $x >f; ls"))) tt)) =
  OOk (Some [[4]; [3; 6]; []]%nat).
Proof. vm_compute. reflexivity. Qed.
Example w_core_fails : exists p, fst (fst (run concrete (call w_core ACompleteCommand 100) (ti_new (lex (s_of "echo foo | )"))) tt)) =
  OErr (Unexpected TParenClose p) /\
  fst (fst (run concrete (call default_builder ACompleteCommand 100) (ti_new (lex (s_of "echo foo | )"))) tt)) = OErr (Unexpected TParenClose p).
Proof. eexists. split; vm_compute; reflexivity. Qed.
End Witness.
