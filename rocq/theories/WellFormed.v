(** * Every tree the parser returns with the default builder is well formed

    [wf_cmd] is an independent specification of the trees a consumer of the default AST may rely on;
    the repository states parts of it in comments only ("Must contain at least one command", say).
    Nothing is assumed about the tokens: they need not come from the lexer. *)
From Coq Require Import String.
From Verif Require Import Base Token Ast Builder Prog Iter ParserBase Runs Pure Relex BalancedSpec HeredocSpec ArithSpec
  Forms FormsRuns Command Lexer DefaultBuilder Compress Printer Api Entry Total Sim SimCommand SameParse CompoundRuns FormsTheorems Gives ArithExact SoundBase SoundCommand SoundScript Exact ExactMethods.
Local Open Scope N_scope.

(** ** Well-formed trees *)

(** Positional parameters are numbers of 32 bits, integer literals of 64; a sequence of arithmetic
    expressions has at least two. *)
Definition wf_param (p : param) : Prop := match p with PmPositional n => n < 2 ^ 32 | _ => True end.
Fixpoint wf_arith (e : arith) : Prop :=
  match e with
  | AVar _ | APostIncr _ | APostDecr _ | APreIncr _ | APreDecr _ => True
  | ALiteral z => (- 2 ^ 63 <= z < 2 ^ 63)%Z
  | AUnaryPlus a | AUnaryMinus a | ALogicalNot a | ABitwiseNot a | AAssign _ a => wf_arith a
  | APow a b | AMult a b | ADiv a b | AModulo a b | AAdd a b | ASub a b | AShiftLeft a b | AShiftRight a b
  | ALess a b | ALessEq a b | AGreat a b | AGreatEq a b | AEq a b | ANotEq a b | ABitwiseAnd a b
  | ABitwiseXor a b | ABitwiseOr a b | ALogicalAnd a b | ALogicalOr a b => wf_arith a /\ wf_arith b
  | ATernary a b c => wf_arith a /\ wf_arith b /\ wf_arith c
  | ASequence l => (2 <= List.length l)%nat /\ fold_right (fun a P => wf_arith a /\ P) True l
  end.
Definition wf_subst (s : d_subst) : Prop :=
  match s with
  | SCommand _ | SArith None => True
  | SArith (Some e) => wf_arith e
  | SLen p | SDefault _ p _ | SAssign _ p _ | SError _ p _ | SAlternative _ p _ | SRemoveSmallestSuffix p _
  | SRemoveLargestSuffix p _ | SRemoveSmallestPrefix p _ | SRemoveLargestPrefix p _ => wf_param p
  end.
Definition wf_simple (f : d_simple_word) : Prop :=
  match f with WParam p => wf_param p | WSubst s => wf_subst s | _ => True end.
(** Globs, tildes and colons do not occur in double quotes and in here-documents. *)
Definition wf_quoted (f : d_simple_word) : Prop :=
  match f with
  | WLiteral _ | WEscaped _ => True
  | WParam p => wf_param p
  | WSubst s => wf_subst s
  | _ => False
  end.
Definition wf_frag (f : d_word) : Prop :=
  match f with
  | WSimple s => wf_simple s
  | WDoubleQuoted l => Forall wf_quoted l
  | WSingleQuoted _ => True
  end.
(** A concatenation has at least two fragments, and no two neighbours that could be one. *)
Definition wf_complex (x : complex_word d_word) : Prop :=
  Forall wf_frag (fragments x) /\
  match x with
  | WSingle (WDoubleQuoted l) => separate two_literals l
  | WSingle _ => True
  | WConcat l => (2 <= List.length l)%nat /\ separate same_kind l
  end.
(** Descriptors are numbers of 16 bits; what is duplicated may be a number, or is a dash. *)
Definition here_frag (f : d_word) : Prop := match f with WSimple s => wf_quoted s | _ => False end.
Definition wf_redirect (r : d_redirect) : Prop :=
  match r with
  | RRead fd _ | RWrite fd _ | RReadWrite fd _ | RAppend fd _ | RClobber fd _ => ok_fd fd
  | RDupRead fd w | RDupWrite fd w => ok_fd fd /\ ok_dup w
  | RHeredoc fd (TLWord x) => ok_fd fd /\ Forall here_frag (fragments x)
  end.
Definition env_redirects (e : redirect_or_env_var d_redirect str tlword) : list d_redirect :=
  match e with ERedirect r => [r] | EEnvVar _ _ => [] end.
Definition arg_redirects (a : redirect_or_cmd_word d_redirect tlword) : list d_redirect :=
  match a with DRedirect r => [r] | DCmdWord _ => [] end.
(** A simple command is not empty; what comes before the command's name stands in the first list. *)
Definition wf_sc (c : d_simple) : Prop :=
  (redirects_or_env_vars c <> [] \/ redirects_or_cmd_words c <> []) /\
  match redirects_or_cmd_words c with DRedirect _ :: _ => False | _ => True end /\
  Forall wf_redirect (flat_map env_redirects (redirects_or_env_vars c)) /\
  Forall wf_redirect (flat_map arg_redirects (redirects_or_cmd_words c)).
(** The lists of commands in compound commands are not empty, but for the arms of [case]. *)
Definition wf_kind (k : compound_kind str tlword tlcmd) : Prop :=
  match k with
  | CBrace l | CSubshell l => l <> []
  | CWhile gb | CUntil gb => guard gb <> [] /\ body gb <> []
  | CIf gbs els => gbs <> [] /\ Forall (fun gb => guard gb <> [] /\ body gb <> []) gbs /\ els <> Some []
  | CFor _ _ l => l <> []
  | CCase _ arms => Forall (fun a => patterns a <> []) arms
  end.
Definition wf_compound (c : d_compound) : Prop := wf_kind (kind c) /\ Forall wf_redirect (io c).
(** The exception: [function f (], a comment on a line of its own, [)] has an empty body. *)
Definition wf_pipeable (c : d_pipeable) : Prop :=
  match c with
  | PSimple c => wf_sc c
  | PCompound c => wf_compound c
  | PFunctionDef _ c => wf_compound c \/ c = mkCC (CSubshell []) []
  end.
Definition wf_command (c : command_ d_list) : Prop :=
  Forall ok_listable (listables (list_of c)) /\ Forall wf_pipeable (cmd_pipeables c).

(** All words and commands inside are well formed too. *)
Inductive wf_word : tlword -> Prop :=
  | wfw x : wf_complex x -> Forall wf_word (word_operands x) -> Forall wf_cmd (word_cmds x) -> wf_word (TLWord x)
with wf_cmd : tlcmd -> Prop :=
  | wfc c : wf_command c ->
      Forall wf_word (flat_map pipeable_words (cmd_pipeables c)) ->
      Forall wf_cmd (flat_map pipeable_cmds (cmd_pipeables c)) -> wf_cmd (TLCmd c).

(** ** Arithmetic *)
Scheme aexpr_min := Minimality for aexpr Sort Prop with aseq_min := Minimality for aseq Sort Prop.
Lemma written_wf e ts : written e ts -> wf_arith e.
Proof.
  intros (o & H). revert H.
  apply (aexpr_min (fun _ _ e _ => wf_arith e) (fun _ es _ => es <> [] /\ fold_right (fun a P => wf_arith a /\ P) True es));
    intros; cbn; auto.
  - (* literal *) match goal with H : literal_denotes _ _ |- _ => inversion H end; subst; auto. lia.
  - match goal with H : unop _ _ |- _ => inversion H end; subst; cbn; auto.
  - match goal with H : binop _ _ _ |- _ => inversion H end; subst; cbn; auto.
  - match goal with H : assignop _ _ |- _ => inversion H end; subst; cbn; auto.
  - match goal with H : _ /\ _ |- _ => destruct H as [Hn Hf] end. split; [|auto].
    destruct es; [congruence|]. cbn. lia.
  - split; [discriminate|auto].
  - match goal with H : _ /\ _ |- _ => destruct H as [Hn Hf] end. split; [discriminate|auto].
Qed.

(** ** Words *)
Notation ds := (d_map_simple default_word).
Notation dw := (d_map_word default_word).

(** Merging fragments keeps [Q]. *)
Definition mergeable_in (Q : wk tlcmd -> Prop) : Prop :=
  (forall ls, ls <> [] -> Forall (fun s => Q (KSimple (KLiteral s))) ls -> Q (KSimple (KLiteral (concat ls)))) /\
  (forall ls, ls <> [] -> Forall (fun s => Q (KSingleQuoted s)) ls -> Q (KSingleQuoted (concat ls))) /\
  (forall vs v, vs <> [] -> Forall (fun v => Q (KDoubleQuoted v)) vs -> merged_simple (concat vs) v -> Q (KDoubleQuoted v)).
Lemma Forall_map_iff {A B} (f : A -> B) Q l : Forall Q (map f l) <-> Forall (fun x => Q (f x)) l.
Proof. apply Forall_map. Qed.
Lemma merged_in Q l l' : mergeable_in Q -> merged l l' -> Forall Q l -> Forall Q l'.
Proof.
  intros (Q1 & Q2 & Q3) (gs & -> & H). induction H as [|g x gs xs Hj _ IH]; [constructor|].
  cbn [concat]. rewrite Forall_app. intros [Hg Hr]. constructor; [|auto].
  inversion Hj; subst.
  - now inversion Hg.
  - apply Q1; [intros ->; cbn in *; lia|]. now apply (proj1 (Forall_map_iff _ _ _)) in Hg.
  - apply Q2; [intros ->; cbn in *; lia|]. now apply (proj1 (Forall_map_iff _ _ _)) in Hg.
  - eapply Q3; [|  |eassumption]; [intros ->; cbn in *; lia|]. now apply (proj1 (Forall_map_iff _ _ _)) in Hg.
Qed.
Lemma merged_simple_in (Q : swk tlcmd -> Prop) l l' : (forall ls, Forall (fun s => Q (KLiteral s)) ls -> Q (KLiteral (concat ls))) ->
  merged_simple l l' -> Forall Q l -> Forall Q l'.
Proof.
  intros Q1 (gs & -> & H). induction H as [|g x gs xs Hj _ IH]; [constructor|].
  cbn [concat]. rewrite Forall_app. intros [Hg Hr]. constructor; [|auto].
  inversion Hj; subst; [now inversion Hg|]. apply Q1. now apply (proj1 (Forall_map_iff _ _ _)) in Hg.
Qed.
Lemma no_adjacent_separate {A B} (f : A -> B) (R : A -> A -> Prop) (R' : B -> B -> Prop) l :
  (forall a b, R' (f a) (f b) -> R a b) -> no_adjacent R l -> separate R' (map f l).
Proof.
  intros HR. induction l as [|a [|b l] IH]; intros Hn; cbn; auto. split.
  - intros H. apply (Hn [] a b l eq_refl). now apply HR.
  - apply IH. intros pre x y post E. apply (Hn (a :: pre) x y post). cbn. now rewrite E.
Qed.
Lemma same_kind_mergeable a b : same_kind (dw a) (dw b) -> mergeable a b.
Proof.
  destruct a as [[]| |], b as [[]| |]; cbn; try contradiction; intros _;
    [left|right; right|right; left]; eexists _, _; split; reflexivity.
Qed.
Lemma two_literals_mergeable a b : two_literals (ds a) (ds b) -> mergeable_simple a b.
Proof. destruct a, b; cbn; try contradiction; intros _; eexists _, _; split; reflexivity. Qed.
Lemma merged_length (l l' : list (wk tlcmd)) : merged l l' -> l <> [] -> l' <> [].
Proof. intros (gs & -> & H) Hn. inversion H; subst; [now cbn in Hn|discriminate]. Qed.

Definition wf_shape (x : complex_word d_word) : Prop :=
  match x with
  | WSingle (WDoubleQuoted l) => separate two_literals l
  | WSingle _ => True
  | WConcat l => (2 <= List.length l)%nat /\ separate same_kind l
  end.
Lemma joins_double g v : joins g (KDoubleQuoted v : wk tlcmd) -> (2 <= List.length g)%nat -> no_adjacent mergeable_simple v.
Proof. intros H. inversion H; subst; cbn; [lia|auto]. Qed.
Lemma word_fragments ws k : word_of ws = Some k ->
  exists x l, default_word k = TLWord x /\ fragments x = map dw l /\ wf_shape x /\
    forall Q, mergeable_in Q -> Forall Q ws -> Forall Q l.
Proof.
  intros Hk. rewrite default_word_eq. unfold d_map_complex.
  destruct ws as [|w [|w2 ws]]; [discriminate| |]; injection Hk as <-.
  - pose proof (compress_single w) as H. destruct w as [s|v|s].
    + rewrite H. eexists _, [_]. split; [reflexivity|]. split; [reflexivity|]. split; [exact I|auto].
    + destruct H as (v' & Hm & Hn & ->). eexists _, [_]. split; [reflexivity|]. split; [reflexivity|]. split.
      * cbn. eapply no_adjacent_separate; [apply two_literals_mergeable|exact Hn].
      * intros Q (_ & _ & Q3) HQ. constructor; [|constructor]. apply (Q3 [v]); [discriminate|inversion HQ; subst; now constructor|].
        cbn. now rewrite app_nil_r.
    + rewrite H. eexists _, [_]. split; [reflexivity|]. split; [reflexivity|]. split; [exact I|auto].
  - destruct (compress_concat (w :: w2 :: ws)) as (l' & Hm & Hn & ->).
    assert (Hne : l' <> []) by (eapply merged_length; [exact Hm|discriminate]).
    destruct l' as [|a [|b l']]; [congruence| |].
    + eexists _, [a]. split; [reflexivity|]. split; [reflexivity|]. split.
      * cbn. destruct a as [s|v|s]; cbn; try exact I.
        eapply no_adjacent_separate; [apply two_literals_mergeable|].
        destruct Hm as (gs & Eg & Hg). inversion Hg as [|? ? ? ? Hj Hr]; subst. inversion Hr; subst.
        eapply joins_double; [exact Hj|]. cbn in Eg. rewrite app_nil_r in Eg. rewrite <- Eg. cbn. lia.
      * intros Q HQ HF. eapply merged_in; eauto.
    + eexists _, (a :: b :: l'). split; [reflexivity|]. split; [reflexivity|]. split.
      * cbn [wf_shape]. split; [cbn; lia|]. eapply no_adjacent_separate; [apply same_kind_mergeable|exact Hn].
      * intros Q HQ HF. eapply merged_in; eauto.
Qed.

(** Fragments with well-formed contents. *)
Definition wf_s (s : swk tlcmd) : Prop :=
  wf_simple (ds s) /\ Forall wf_word (simple_operands (ds s)) /\ Forall wf_cmd (simple_cmds (ds s)).
Definition wf_q (s : swk tlcmd) : Prop :=
  wf_quoted (ds s) /\ Forall wf_word (simple_operands (ds s)) /\ Forall wf_cmd (simple_cmds (ds s)).
Definition wf_w (w : wk tlcmd) : Prop :=
  wf_frag (dw w) /\ Forall wf_word (frag_operands (dw w)) /\ Forall wf_cmd (frag_cmds (dw w)).
Lemma wf_q_s s : wf_q s -> wf_s s.
Proof. intros (H & H1 & H2). split; [|auto]. destruct (ds s); cbn in *; auto. Qed.
Lemma Forall_flat_map_map {A B D} (f : B -> list D) (g : A -> B) (Q : D -> Prop) l :
  Forall Q (flat_map f (map g l)) <-> Forall (fun x => Forall Q (f (g x))) l.
Proof.
  induction l as [|x l IH]; cbn; [split; constructor|]. rewrite Forall_app. rewrite IH.
  split; [intros []; constructor; auto|]. intros H. inversion H; auto.
Qed.
Lemma Forall_flat_map' {B D} (f : B -> list D) (Q : D -> Prop) l : Forall Q (flat_map f l) <-> Forall (fun x => Forall Q (f x)) l.
Proof. rewrite <- (map_id l) at 1. apply Forall_flat_map_map. Qed.
Lemma wf_w_simple s : wf_s s -> wf_w (KSimple s).
Proof. intros H. exact H. Qed.
Lemma wf_w_double l : Forall wf_q l -> wf_w (KDoubleQuoted l).
Proof.
  intros H. unfold wf_w. cbn [d_map_word wf_frag frag_operands frag_cmds].
  rewrite !Forall_flat_map_map, Forall_map_iff. 
  split; [|split]; eapply Forall_impl; try exact H; intros s (H1 & H2 & H3); auto.
Qed.
Lemma wf_w_double_inv l : wf_w (KDoubleQuoted l) -> Forall wf_q l.
Proof.
  unfold wf_w. cbn [d_map_word wf_frag frag_operands frag_cmds].
  rewrite !Forall_flat_map_map, Forall_map_iff. intros (H1 & H2 & H3).
  rewrite Forall_forall in *. intros s Hs. split; [|split]; [apply H1|apply H2|apply H3]; auto.
Qed.
Lemma wf_q_literals (ls : list str) : wf_q (KLiteral (concat ls)).
Proof. split; [exact I|split; constructor]. Qed.
Lemma wf_w_mergeable : mergeable_in wf_w.
Proof.
  split; [|split].
  - intros ls _ _. split; [exact I|split; constructor].
  - intros ls _ _. split; [exact I|split; constructor].
  - intros vs v _ Hv Hm. apply wf_w_double. eapply merged_simple_in; [|exact Hm|].
    + intros ls _. apply wf_q_literals.
    + clear Hm. induction Hv; cbn; [constructor|]. apply Forall_app. split; [now apply wf_w_double_inv|auto].
Qed.
Lemma digits_concat ls : Forall digits ls -> digits (concat ls).
Proof. induction 1; cbn; [constructor|]. apply Forall_app; auto. Qed.
Lemma number_mergeable : mergeable_in maybe_number.
Proof.
  split; [|split].
  - intros ls _ H. apply digits_concat, H.
  - intros ls _ H. apply digits_concat, H.
  - intros vs v _ Hv Hm. cbn. eapply merged_simple_in; [|exact Hm|].
    + intros ls H. apply digits_concat, H.
    + clear Hm. induction Hv; cbn; [constructor|]. apply Forall_app; auto.
Qed.
Lemma maybe_numeric w : maybe_number w -> numeric_frag (dw w).
Proof.
  destruct w as [s|l|s]; cbn; auto.
  - destruct s; cbn; auto.
  - rewrite Forall_map_iff. intros H. eapply Forall_impl; [|exact H]. intros s. destruct s; cbn; auto.
Qed.
Definition here_w (w : wk tlcmd) : Prop := match w with KSimple s => wf_q s | _ => False end.
Lemma here_mergeable : mergeable_in here_w.
Proof.
  split; [|split].
  - intros ls _ _. apply wf_q_literals.
  - intros ls Hn H. destruct H; [congruence|contradiction].
  - intros vs v Hn H. destruct H; [congruence|contradiction].
Qed.

(** The trees made of words. *)
Lemma word_of_wf ws k : word_of ws = Some k -> Forall wf_w ws -> wf_word (default_word k).
Proof.
  intros Hk Hw. destruct (word_fragments ws k Hk) as (x & l & -> & Ef & Hs & Hl).
  specialize (Hl wf_w wf_w_mergeable Hw). constructor.
  - split; [|exact Hs]. rewrite Ef, Forall_map_iff. eapply Forall_impl; [|exact Hl]. now intros w [].
  - unfold word_operands. rewrite Ef, Forall_flat_map_map. eapply Forall_impl; [|exact Hl]. now intros w (_ & ? & _).
  - unfold word_cmds. rewrite Ef, Forall_flat_map_map. eapply Forall_impl; [|exact Hl]. now intros w (_ & _ & ?).
Qed.
Lemma word_of_number ws k : word_of ws = Some k -> Forall maybe_number ws -> ok_dup (default_word k).
Proof.
  intros Hk Hw. destruct (word_fragments ws k Hk) as (x & l & -> & Ef & Hs & Hl).
  specialize (Hl _ number_mergeable Hw). left. rewrite Ef, Forall_map_iff. eapply Forall_impl; [|exact Hl]. apply maybe_numeric.
Qed.
Lemma here_word_of ws : exists l, word_of l = Some (here_word ws : cwk tlcmd) /\ (Forall wf_q ws -> Forall here_w l).
Proof.
  destruct ws as [|w [|w2 ws]].
  - exists [KSimple (KLiteral [])]. split; [reflexivity|]. intros _. constructor; [apply (wf_q_literals [])|constructor].
  - exists [KSimple w]. split; [reflexivity|]. intros H. inversion H; subst. now constructor.
  - exists (map KSimple (w :: w2 :: ws)). split; [reflexivity|]. intros H. apply Forall_map_iff. exact H.
Qed.
Lemma here_w_wf w : here_w w -> wf_w w.
Proof. destruct w; cbn; try contradiction. intros H. apply wf_w_simple, wf_q_s, H. Qed.
Lemma here_word_wf ws fd : Forall wf_q ws -> ok_fd fd ->
  wf_redirect (RHeredoc fd (default_word (here_word ws))) /\ wf_word (default_word (here_word ws)).
Proof.
  intros H Hfd. destruct (here_word_of ws) as (l & Hk & Hl). specialize (Hl H). split.
  - destruct (word_fragments l _ Hk) as (x & l' & -> & Ef & Hs & Hl'). split; [exact Hfd|].
    specialize (Hl' _ here_mergeable Hl). rewrite Ef, Forall_map_iff. eapply Forall_impl; [|exact Hl'].
    intros w. destruct w; cbn; try contradiction. now intros [].
  - apply (word_of_wf l); [exact Hk|]. eapply Forall_impl; [|exact Hl]. apply here_w_wf.
Qed.
Lemma fd_form_ok fd ts rest : fd_form fd ts rest -> ok_fd fd.
Proof. intros H. inversion H; subst; cbn; auto. Qed.

(** ** Everything written is well formed *)
Definition wf_r (r : d_redirect) : Prop := wf_redirect r /\ wf_word (redirect_word r).
Definition wf_arg (a : redirect_or_cmd_word d_redirect tlword) : Prop :=
  match a with DRedirect r => wf_r r | DCmdWord w => wf_word w end.
Definition wf_env (e : redirect_or_env_var d_redirect str tlword) : Prop :=
  match e with ERedirect r => wf_r r | EEnvVar _ (Some w) => wf_word w | EEnvVar _ None => True end.
Definition wf_simple_parts vars args : Prop :=
  Forall wf_env vars /\ Forall wf_arg args /\ match args with DRedirect _ :: _ => False | _ => True end.
Definition wf_c (c : d_compound) : Prop :=
  wf_compound c /\ Forall wf_word (compound_words c) /\ Forall wf_cmd (compound_cmds c).
Definition wf_p (c : d_pipeable) : Prop :=
  wf_pipeable c /\ Forall wf_word (pipeable_words c) /\ Forall wf_cmd (pipeable_cmds c).
Definition wf_group (g : cgroup tlcmd) : Prop := Forall wf_cmd (commands g).
Definition wf_body (g : cgroup tlcmd) : Prop := commands g <> [] /\ wf_group g.
Definition wf_conds (conds : list (gbpair tlcmd)) (els : option (cgroup tlcmd)) : Prop :=
  conds <> [] /\ Forall (fun gb => wf_body (gguard gb) /\ wf_body (gbody gb)) conds /\
  match els with Some g => wf_body g | None => True end.
Definition wf_l (l : d_listable) : Prop := ok_listable l /\ Forall wf_p (pipeables l).

Lemma wf_r_io rs : Forall wf_r rs -> Forall wf_redirect rs /\ Forall wf_word (map redirect_word rs).
Proof. rewrite Forall_map_iff. intros H. split; eapply Forall_impl; try exact H; now intros r []. Qed.
Lemma wf_c_intro k rs : wf_kind k -> Forall wf_word (kind_words k) -> Forall wf_cmd (kind_cmds k) -> Forall wf_r rs -> wf_c (mkCC k rs).
Proof.
  intros H1 H2 H3 H4. apply wf_r_io in H4 as [H4 H5]. split; [split; auto|]. split; [|auto].
  unfold compound_words. cbn [kind io]. apply Forall_app; auto.
Qed.
Lemma wf_sc_intro vars args : wf_simple_parts vars args -> (vars <> [] \/ args <> []) -> wf_p (PSimple (mkSC vars args)).
Proof.
  intros (H1 & H2 & H3) Hn. split; [|split; [|constructor]].
  - cbn. split; [exact Hn|]. split; [exact H3|]. cbn. rewrite !Forall_flat_map'. split.
    + eapply Forall_impl; [|exact H1]. intros [r|v w] H; cbn; [|constructor]. constructor; [apply H|constructor].
    + eapply Forall_impl; [|exact H2]. intros [r|w] H; cbn; [|constructor]. constructor; [apply H|constructor].
  - cbn. unfold sc_words. cbn. apply Forall_app. rewrite Forall_flat_map', Forall_map_iff. split.
    + eapply Forall_impl; [|exact H1]. intros [r|v [w|]] H; cbn in *; repeat constructor; auto. apply H.
    + eapply Forall_impl; [|exact H2]. intros [r|w] H; cbn in *; auto. apply H.
Qed.
Lemma wf_l_intro bang cs : cs <> [] -> Forall (fun c => wf_p (snd c)) cs -> wf_l (pipeline_ast bang cs).
Proof.
  intros Hn H. destruct cs as [|[ns c] [|[ns2 c2] cs]]; [congruence| |].
  - inversion H; subst. destruct bang; cbn; split; cbn; auto. split; [discriminate|]. discriminate.
  - split; [split; [discriminate|]|].
    + intros _. cbn. lia.
    + apply (proj2 (Forall_map_iff snd wf_p _)). exact H.
Qed.
Lemma wf_cmd_intro c : Forall wf_l (listables (list_of c)) -> wf_cmd (TLCmd c).
Proof.
  intros H.
  assert (Hp : Forall wf_p (cmd_pipeables c)).
  { unfold cmd_pipeables. rewrite Forall_flat_map'. eapply Forall_impl; [|exact H]. now intros l []. }
  constructor.
  - split; [eapply Forall_impl; [|exact H]; now intros l []|eapply Forall_impl; [|exact Hp]; now intros p []].
  - rewrite Forall_flat_map'. eapply Forall_impl; [|exact Hp]. now intros p (_ & ? & _).
  - rewrite Forall_flat_map'. eapply Forall_impl; [|exact Hp]. now intros p (_ & _ & ?).
Qed.
Lemma operand_wf ws : Forall wf_w ws -> Forall wf_word (opt_list (option_map default_word (word_of ws))).
Proof.
  intros H. destruct (word_of ws) as [k|] eqn:E; cbn; [|constructor]. constructor; [|constructor]. eapply word_of_wf; eauto.
Qed.
Lemma param_token_wf p t : param_token p t -> wf_param p.
Proof. intros H. inversion H; subst; exact I. Qed.
Lemma braced_wf p t : braced_param p t -> wf_param p.
Proof. intros H. inversion H; subst; [eapply param_token_wf; eassumption|assumption]. Qed.

Notation "'DB'" := default_builder (only parsing).
Notation "'DP'" := default_pure (only parsing).
Theorem forms_wf :
  (forall w ts rest, frag DB DP w ts rest -> wf_w w) /\
  (forall s ts rest, expansion DB DP s ts rest -> wf_q s) /\
  (forall s ts rest, dollar DB DP s ts rest -> wf_q s) /\
  (forall close ws ts rest, quoted DB DP close ws ts rest -> Forall wf_q ws) /\
  (forall stop ws ts rest, frags DB DP stop ws ts rest -> Forall wf_w ws) /\
  (forall ws ts rest, operand DB DP ws ts rest -> Forall wf_w ws) /\
  (forall k ts rest, word_form DB DP k ts rest -> wf_word (default_word k)) /\
  (forall r ts rest, redirect_form DB DP r ts rest -> wf_r r) /\
  (forall rs ts rest, redirects DB DP rs ts rest -> Forall wf_r rs) /\
  (forall args ts rest, arguments DB DP args ts rest -> Forall wf_arg args) /\
  (forall vars args ts rest, simple DB DP vars args ts rest -> wf_simple_parts vars args) /\
  (forall c ts rest, command_form DB DP c ts rest -> wf_p c) /\
  (forall ns c ts rest, function_body DB DP ns c ts rest -> wf_c c) /\
  (forall c ts rest, compound DB DP c ts rest -> wf_c c) /\
  (forall g ts rest, do_form DB DP g ts rest -> wf_body g) /\
  (forall conds els ts rest, Forms.conditionals DB DP conds els ts rest -> wf_conds conds els) /\
  (forall ws cs ts rest, for_list DB DP ws cs ts rest -> match ws with Some (_, ws, _) => Forall wf_word ws | None => True end) /\
  (forall ws ts rest, for_words_form DB DP ws ts rest -> Forall wf_word ws) /\
  (forall arms cs ts rest, case_arms DB DP arms cs ts rest ->
     Forall (fun a => pattern_alternatives (arm_patterns a) <> [] /\
                      Forall wf_word (pattern_alternatives (arm_patterns a)) /\ wf_group (arm_body a)) arms) /\
  (forall ps ts rest, patterns_form DB DP ps ts rest -> ps <> [] /\ Forall wf_word ps) /\
  (forall cs ts rest, pipe_form DB DP cs ts rest -> cs <> [] /\ Forall (fun c => wf_p (snd c)) cs) /\
  (forall p ts rest, pipeline_form DB DP p ts rest -> wf_l p) /\
  (forall l ts rest, and_or_form DB DP l ts rest -> Forall (fun x => wf_l (listable_of (snd x))) l) /\
  (forall l ts rest, list_form DB DP l ts rest -> Forall wf_l (listables l)) /\
  (forall ns c ts rest, complete_form DB DP ns c ts rest -> wf_cmd c) /\
  (forall cfg g ts rest, group DB DP cfg g ts rest -> wf_group g).
Proof.
  assert (Hsub : forall (mk : param -> option (cwk tlcmd) -> psk tlcmd) p ws, wf_param p -> Forall wf_w ws ->
    (exists f : param -> option tlword -> d_subst, (forall w, d_map_subst default_word (mk p w) = f p (option_map default_word w)) /\
       (forall w, wf_subst (f p w) = wf_param p /\ subst_operands (f p w) = opt_list w /\ subst_cmds (f p w) = [])) ->
    wf_q (KSubst (mk p (word_of ws)))).
  { intros mk p ws Hp Hw (f & Hf & Hf'). unfold wf_q. cbn [d_map_simple wf_quoted simple_operands simple_cmds]. rewrite Hf.
    destruct (Hf' (option_map default_word (word_of ws))) as (-> & -> & ->). split; [exact Hp|]. split; [now apply operand_wf|constructor]. }
  apply (forms_mind DB DP written_arith).
  - (* fr_literal *) intros. split; [exact I|split; constructor].
  - intros t s rest H. inversion H; subst; (split; [exact I|split; constructor]).
  - intros. split; [exact I|split; constructor].
  - intros. split; [exact I|split; constructor].
  - intros ws ts rest _ IH. now apply wf_w_double.
  - intros s ts rest _ IH. apply wf_w_simple, wf_q_s, IH.
  - (* ex_backticks *) intros g ts rest _ _ IH. split; [exact I|]. split; [constructor|exact IH].
  - intros s ts rest _ IH. exact IH.
  - (* do_lone *) intros. split; [exact I|split; constructor].
  - intros p rest. split; [destruct p; cbn; lia|split; constructor].
  - intros p t rest H. split; [eapply param_token_wf; exact H|split; constructor].
  - intros p t rest H. split; [eapply braced_wf; exact H|split; constructor].
  - intros p t rest H. split; [eapply braced_wf; exact H|split; constructor].
  - intros p t colon op mk ws ts rest H1 H2 _ IH H3. apply (Hsub mk); [eapply braced_wf; exact H1|exact IH|].
    inversion H2; subst; eexists (_ _); (split; [intros; reflexivity|intros [w|]; cbn; auto]).
  - intros p t ws ts rest H1 _ IH H3. apply (Hsub KSRemoveSmallestSuffix); [eapply braced_wf; exact H1|exact IH|].
    exists SRemoveSmallestSuffix; (split; [intros; reflexivity|intros [w|]; cbn; auto]).
  - intros p t ws ts rest H1 _ IH. apply (Hsub KSRemoveLargestSuffix); [eapply braced_wf; exact H1|exact IH|].
    exists SRemoveLargestSuffix; (split; [intros; reflexivity|intros [w|]; cbn; auto]).
  - intros p t ws ts rest H1 _ IH H3 H4. apply (Hsub KSRemoveSmallestPrefix); [eapply braced_wf; exact H1|exact IH|].
    exists SRemoveSmallestPrefix; (split; [intros; reflexivity|intros [w|]; cbn; auto]).
  - intros p t ws ts rest H1 _ IH. apply (Hsub KSRemoveLargestPrefix); [eapply braced_wf; exact H1|exact IH|].
    exists SRemoveLargestPrefix; (split; [intros; reflexivity|intros [w|]; cbn; auto]).
  - intros e ts mid mid' rest H1 H2 H3. split; [eapply written_wf; exact H1|split; constructor].
  - intros mid mid' rest H2 H3. split; [exact I|split; constructor].
  - intros g ts rest _ IH H. split; [exact I|]. split; [constructor|exact IH].
  - (* do_colon *) intros p t rest H. split; [eapply braced_wf; exact H|split; constructor].
  - (* qu_nil *) constructor.
  - intros close ts ws mid rest _ _ _ _ IH. constructor; [split; [exact I|split; constructor]|exact IH].
  - intros close t ws ts rest _ _ IH. constructor; [split; [exact I|split; constructor]|exact IH].
  - intros close s ts mid ws rest _ IH1 _ IH2. now constructor.
  - intros close ts ws mid rest _ _ _ _ IH. exact IH.
  - (* fs_end *) constructor.
  - constructor.
  - intros stop w ts mid ws rest _ IH1 _ _ IH2. now constructor.
  - constructor.
  - (* op_end *) constructor.
  - intros t ws ts rest _ _ IH. constructor; [split; [exact I|split; constructor]|exact IH].
  - intros ws ts rest _ IH. constructor; [split; [exact I|split; constructor]|exact IH].
  - intros w ws ts mid ws' rest _ IH1 _ _ IH2. now apply Forall_app.
  - (* wf_word *) intros w ws k ts rest _ IH _ Hk. eapply word_of_wf; eauto.
  - (* rf_file *) intros fd op mk k ts ts' rest H1 H2 _ IH. apply fd_form_ok in H1.
    inversion H2; subst; (split; [exact H1|exact IH]).
  - intros fd op mk w ws k ts ts' rest H1 H2 _ IH Hm Hk. apply fd_form_ok in H1.
    assert (X1 : wf_word (default_word k)) by (eapply word_of_wf; eauto).
    assert (X2 : ok_dup (default_word k)) by (eapply word_of_number; eauto).
    inversion H2; subst; (split; [split; [exact H1|exact X2]|exact X1]).
  - intros fd op mk ts ts' rest H1 H2 _ _. apply fd_form_ok in H1.
    assert (X1 : wf_word (default_word (KSingle (KSimple (KLiteral (s_of "-")))))).
    { apply (word_of_wf [KSimple (KLiteral (s_of "-"))] _ eq_refl). constructor; [|constructor]. split; [exact I|split; constructor]. }
    inversion H2; subst; (split; [split; [exact H1|right; reflexivity]|exact X1]).
  - intros fd op strip body ts ts' rest H1 _ _. apply fd_form_ok in H1.
    apply (here_word_wf [KLiteral (text body)]); [|exact H1]. constructor; [|constructor]. split; [exact I|split; constructor].
  - intros fd op strip body ws ts ts' rest H1 _ _ _ IH. apply fd_form_ok in H1. now apply here_word_wf.
  - (* re_end *) constructor.
  - intros. now constructor.
  - (* ag_end *) constructor.
  - intros. now constructor.
  - intros. now constructor.
  - (* si_end *) intros. split; [constructor|split; [constructor|exact I]].
  - intros r ts mid vars args rest _ IH1 _ (H1 & H2). split; [now constructor|exact H2].
  - intros v k ts mid mid' vars args rest _ _ _ IH1 _ (H1 & H2). split; [now constructor|exact H2].
  - intros v ts mid mid' vars args rest _ _ _ (H1 & H2). split; [now constructor|exact H2].
  - intros k ts mid args rest _ IH1 _ _ _ IH2. split; [constructor|]. split; [now constructor|exact I].
  - (* cf_simple *) intros vars args ts rest _ IH H _ _ _. now apply wf_sc_intro.
  - intros c ts rest _ (H1 & H2 & H3). split; [exact H1|]. now split.
  - intros v ns c ts ts1 ts2 ts3 rest _ _ _ _ _ _ (H1 & H2 & H3). split; [now left|]. now split.
  - intros v ns c ts ts0 ts1 ts2 rest _ _ _ _ (H1 & H2 & H3). split; [now left|]. now split.
  - intros v ns c ts ts0 ts1 rest _ _ _ _ (H1 & H2 & H3). split; [now left|]. now split.
  - intros v ns c ts ts0 w ts1 ts2 ts3 rest _ _ _ _ _ (H1 & H2 & H3). split; [now left|]. now split.
  - intros v g ts ts0 w ts1 ts2 rest _ _ _ _ IH _. split; [|split; [constructor|exact IH]].
    cbn. destruct g as [[|c cs] tr]; [right; reflexivity|left]. split; [discriminate|constructor].
  - (* fb_body *) intros ns c ts mid rest _ _ IH. exact IH.
  - (* co_brace *) intros g ts mid mid' rs rest _ _ IH1 H _ _ _ IH2. apply wf_c_intro; auto; constructor.
  - intros g ts mid rs rest _ IH1 H _ IH2. apply wf_c_intro; auto; constructor.
  - intros g b ts ts1 ts2 ts3 rs rest _ _ IH1 H _ [IH2 IH2'] _ IH3. apply wf_c_intro; auto; [now split|constructor|]. now apply Forall_app.
  - intros g b ts ts1 ts2 ts3 rs rest _ _ IH1 H _ [IH2 IH2'] _ IH3. apply wf_c_intro; auto; [now split|constructor|]. now apply Forall_app.
  - intros conds els ts ts1 ts2 rs rest _ _ (Hn & Hc & He) _ IH2. apply wf_c_intro; auto; [|constructor|].
    + cbn. split; [intros X; apply Hn; now apply map_eq_nil in X|]. split.
      * rewrite Forall_map_iff. eapply Forall_impl; [|exact Hc]. now intros gb [[] []].
      * destruct els as [g|]; [|discriminate]. cbn. destruct He as [He _]. intros X. apply He. now injection X.
    + cbn. apply Forall_app. split.
      * rewrite Forall_flat_map_map. eapply Forall_impl; [|exact Hc]. intros gb [[_ X1] [_ X2]]. now apply Forall_app.
      * destruct els as [g|]; [apply He|constructor].
  - intros v vc ws cs b ts ts1 ts2 ts3 ts4 ts5 rs rest _ _ _ _ IH1 _ [IH2 IH2'] _ IH3. apply wf_c_intro; auto.
    cbn. destruct ws as [[[? ws] ?]|]; cbn; [exact IH1|constructor].
  - intros k cs ic arms ac ts ts1 ts2 ts3 ts4 ts5 ts6 ts7 rs rest _ _ IH1 _ _ _ _ IH2 _ _ IH3. apply wf_c_intro; auto.
    + cbn. rewrite Forall_map_iff. eapply Forall_impl; [|exact IH2]. now intros a [].
    + cbn. constructor; [exact IH1|]. rewrite Forall_flat_map_map. eapply Forall_impl; [|exact IH2]. now intros a (_ & ? & _).
    + cbn. rewrite Forall_flat_map_map. eapply Forall_impl; [|exact IH2]. now intros a (_ & _ & ?).
  - (* df_do *) intros g ts ts1 ts2 rest _ _ IH H _. now split.
  - (* cd_fi *) intros g b ts ts1 ts2 ts3 rest _ IH1 H1 _ _ IH2 H2 _. split; [discriminate|]. split; [|exact I].
    constructor; [|constructor]. split; split; auto.
  - intros g b e ts ts1 ts2 ts3 ts4 ts5 rest _ IH1 H1 _ _ IH2 H2 _ _ IH3 H3 _. split; [discriminate|]. split; [|split; auto].
    constructor; [|constructor]. split; split; auto.
  - intros g b conds els ts ts1 ts2 ts3 ts4 rest _ IH1 H1 _ _ IH2 H2 _ _ (Hn & Hc & He). split; [discriminate|]. split; [|exact He].
    constructor; [|exact Hc]. split; split; auto.
  - (* fl_words *) intros ns ws wc cs ts ts1 ts2 ts3 ts4 ts5 rest _ _ _ IH _ _ _. exact IH.
  - intros. exact I.
  - intros. exact I.
  - (* fw_end *) constructor.
  - intros. now constructor.
  - (* ca_end *) constructor.
  - intros pre ps pc b ac arms cs ts ts1 ts2 ts3 ts4 ts5 ts6 rest _ _ _ _ [Hp1 Hp2] _ _ IH2 _ _ IH3. now constructor.
  - intros pre ps pc b ts ts1 ts2 ts3 ts4 rest _ _ _ _ [Hp1 Hp2] _ _ IH2 _. now repeat constructor.
  - (* pf_last *) intros k ts mid rest _ IH _. split; [discriminate|]. now constructor.
  - intros k ts mid mid' ps rest _ IH1 _ _ [_ IH2]. split; [discriminate|]. now constructor.
  - (* pi_last *) intros c ts rest _ IH _ _. split; [discriminate|]. now constructor.
  - intros c ns cs ts mid mid' rest _ IH1 _ _ _ [_ IH2]. split; [discriminate|]. now constructor.
  - (* pp_plain *) intros cs ts rest _ _ [H1 H2]. now apply wf_l_intro.
  - intros cs ts mid rest _ _ [H1 H2]. now apply wf_l_intro.
  - (* ao_end *) constructor.
  - intros. now constructor.
  - intros. now constructor.
  - (* lf_list *) intros p l ts mid rest _ IH1 _ IH2. unfold listables. cbn. constructor; [exact IH1|].
    rewrite map_map. now apply Forall_map_iff.
  - (* cp_semi *) intros ns l nl ts mid rest _ IH _. now apply wf_cmd_intro.
  - intros ns l nl ts mid rest _ IH _. now apply wf_cmd_intro.
  - intros ns l nl ts mid rest _ IH _. now apply wf_cmd_intro.
  - intros ns l ts rest _ IH _ _ _ _. now apply wf_cmd_intro.
  - (* gr_end *) constructor.
  - intros cfg ns c cs tr ts ts1 ts2 rest _ _ _ IH1 _ IH2. now constructor.
Qed.

(** ** What the parser returns *)
Lemma word_form_wf k ts rest : word_form DB DP k ts rest -> wf_word (default_word k).
Proof. apply forms_wf. Qed.
Lemma dollar_wf s ts rest : dollar DB DP s ts rest -> wf_q s.
Proof. apply forms_wf. Qed.
Lemma expansion_wf s ts rest : expansion DB DP s ts rest -> wf_q s.
Proof. apply forms_wf. Qed.
Lemma group_wf cfg g ts rest : group DB DP cfg g ts rest -> Forall wf_cmd (commands g).
Proof. apply forms_wf. Qed.
Lemma complete_wf ns c ts rest : complete_form DB DP ns c ts rest -> wf_cmd c.
Proof. apply forms_wf. Qed.
Lemma wf_q_word s : wf_q s -> wf_word (default_word (KSingle (KSimple s))).
Proof. intros H. apply (word_of_wf [KSimple s] _ eq_refl). constructor; [apply wf_w_simple, wf_q_s, H|constructor]. Qed.

(** The value returned by a call of a method. *)
Definition nonempty (g : cgroup tlcmd) : Prop := commands g <> [] /\ Forall wf_cmd (commands g).
Definition wf_tree_p (c : d_pipeable) : Prop :=
  wf_pipeable c /\ Forall wf_word (pipeable_words c) /\ Forall wf_cmd (pipeable_cmds c).
Definition wf_tree_l (l : d_listable) : Prop := ok_listable l /\ Forall wf_tree_p (pipeables l).
Definition wf_result (m : api) : api_result DB m -> Prop :=
  match m return api_result DB m -> Prop with
  | ACompleteCommand => fun r => match r with Some c => wf_cmd c | None => True end
  | AAndOrList => fun l => Forall wf_tree_l (listables l)
  | APipeline => wf_tree_l
  | ACommand | ASimpleCommand | AFunction => wf_tree_p
  | AMaybeFunction => fun r => match r with Some c => wf_tree_p c | None => True end
  | ACompoundCommand => fun c => wf_compound c /\ Forall wf_word (compound_words c) /\ Forall wf_cmd (compound_cmds c)
  | ARedirectList => fun rs => Forall wf_redirect rs /\ Forall wf_word (map redirect_word rs)
  | ARedirect => fun r => match r with
                          | Some (inl r) => wf_redirect r /\ wf_word (redirect_word r)
                          | Some (inr w) => wf_word w
                          | None => True
                          end
  | AWord | AWordPreserve => fun r => match r with Some w => wf_word w | None => True end
  | ABackticked | AParameter => wf_word
  | ADoGroup | ABraceGroup | ASubshell => fun g => commands g <> [] /\ Forall wf_cmd (commands g)
  | ACommandGroup cfg => fun g => plain cfg -> commands g <> [] /\ Forall wf_cmd (commands g)
  | ARedirectHeredoc fd => fun r => ok_fd fd -> wf_redirect r /\ wf_word (redirect_word r)
  | ALoopCommand => fun r => nonempty (gguard (snd r)) /\ nonempty (gbody (snd r))
  | AIfCommand => fun f => Ast.conditionals f <> [] /\
      Forall (fun gb => nonempty (gguard gb) /\ nonempty (gbody gb)) (Ast.conditionals f) /\
      match else_branch f with Some g => nonempty g | None => True end
  | AForCommand => fun f => nonempty (ff_body f) /\
      match ff_words f with Some (_, ws, _) => Forall wf_word ws | None => True end
  | ACaseCommand => fun f => wf_word (cf_word f) /\
      Forall (fun a => pattern_alternatives (arm_patterns a) <> [] /\
        Forall wf_word (pattern_alternatives (arm_patterns a)) /\ Forall wf_cmd (commands (arm_body a))) (cf_arms f)
  | AArithmetic => wf_arith
  | ASkipWhitespace | ALinebreak | ANewline | APeekReservedToken _ | APeekReservedWord _ | AReservedToken _ | AReservedWord _ =>
      fun _ => True
  end.
Lemma function_form_wf c ts rest : function_form DB DP c ts rest -> wf_p c.
Proof.
  intros H. destruct H as [v ns c ts ts1 ts2 ts3 rest _ _ _ _ Hb|v ns c ts ts0 ts1 ts2 rest _ _ _ Hb
    |v ns c ts ts0 ts1 rest _ _ _ Hb|v ns c ts ts0 w ts1 ts2 ts3 rest _ _ _ _ Hb|v g ts ts0 w ts1 ts2 rest _ _ _ Hg _].
  5: { split; [|split; [constructor|eapply group_wf; exact Hg]].
    cbn. destruct g as [[|c cs] tr]; [right; reflexivity|left]. split; [discriminate|constructor]. }
  all: assert (X : wf_c c) by (destruct Hb as [ns c ts' mid rest _ Hb]; eapply forms_wf; exact Hb); destruct X as (H1 & H2 & H3); split; [now left|]; now split.
Qed.
Theorem method_wf m fuel s b a s' b' : parser_reach DB s b ->
  run concrete (call DB m fuel) s b = (OOk a, s', b') -> wf_result m a.
Proof.
  intros Hr E.
  assert (R : returns DB fuel s b m a (tokens_left s')) by (exists s', b'; auto).
  destruct m; cbn [wf_result]; try exact I.
  - pose proof (complete_command_sound DB DP fuel s b Hr a _ R) as X. destruct a as [c|]; [|exact I].
    destruct X as (ns & mid & _ & _ & X). eapply complete_wf; exact X.
  - pose proof (and_or_list_sound DB DP fuel s b Hr a _ R) as X. eapply forms_wf; exact X.
  - pose proof (pipeline_sound DB DP fuel s b Hr a _ R) as X. eapply forms_wf; exact X.
  - pose proof (command_sound DB DP fuel s b Hr a _ R) as X. eapply forms_wf; exact X.
  - destruct (simple_command_sound DB DP fuel s b Hr a _ R) as (vars & args & -> & X & Hn). apply wf_sc_intro; [|exact Hn].
    eapply forms_wf; exact X.
  - pose proof (redirect_list_sound DB DP fuel s b Hr a _ R) as X. apply wf_r_io. eapply forms_wf; exact X.
  - pose proof (redirect_sound DB DP fuel s b Hr a _ R) as X. destruct a as [[r|w]|]; [|  |exact I].
    + assert (Y : wf_r r) by (eapply forms_wf; exact X). exact Y.
    + destruct X as (k & -> & X & _). eapply word_form_wf; exact X.
  - intros Hf. pose proof (sound_of DB fuel s b Hr (ARedirectHeredoc fd) (fun r _ => wf_r r)) as X. refine (X _ a _ R). clear - Hf.
    cbn [call]. apply (heredoc_op_gives DB DP fuel (knot DB fuel fuel) (proj1 (knots_sound DB DP fuel fuel)) (proj2 (knots_sound DB DP fuel fuel))).
    + intros op strip body us rest _ _ _. apply (here_word_wf [KLiteral (text body)]); [|exact Hf].
      constructor; [|constructor]. split; [exact I|split; constructor].
    + intros op strip body ws us rest _ _ _ Hq. apply here_word_wf; [|exact Hf]. eapply forms_wf; exact Hq.
  - pose proof (word_sound DB DP fuel s b Hr a _ R) as X. destruct a as [w|]; [|exact I].
    destruct X as (k & mid & -> & X & _). eapply word_form_wf; exact X.
  - pose proof (word_preserve_sound DB DP fuel s b Hr a _ R) as X. destruct a as [w|]; [|exact I].
    destruct X as (k & -> & X). eapply word_form_wf; exact X.
  - destruct (backticked_sound DB DP fuel s b Hr a _ R) as (w & -> & X). apply wf_q_word. eapply expansion_wf; exact X.
  - destruct (parameter_sound DB DP fuel s b Hr a _ R) as (w & -> & X). apply wf_q_word. eapply dollar_wf; exact X.
  - pose proof (do_group_sound DB DP fuel s b Hr a _ R) as X. assert (Y : wf_body a) by (eapply forms_wf; exact X). exact Y.
  - destruct (brace_group_sound DB DP fuel s b Hr a _ R) as (us & _ & _ & Hn & _ & X). split; [exact Hn|]. eapply group_wf; exact X.
  - destruct (subshell_sound DB DP fuel s b Hr a _ R) as (us & _ & Hn & X). split; [exact Hn|]. eapply group_wf; exact X.
  - pose proof (compound_command_sound DB DP fuel s b Hr a _ R) as X. assert (Y : wf_c a) by (eapply forms_wf; exact X). exact Y.
  - destruct a as [k [g gb]]. destruct (loop_command_sound DB DP fuel s b Hr k g gb _ R) as (ts1 & ts2 & _ & X & Hn & Y).
    split; [split; [exact Hn|eapply group_wf; exact X]|]. assert (Z : wf_body gb) by (eapply forms_wf; exact Y). exact Z.
  - destruct a as [conds els]. destruct (if_command_sound DB DP fuel s b Hr conds els _ R) as (ts1 & _ & X).
    assert (Z : wf_conds conds els) by (eapply forms_wf; exact X). exact Z.
  - destruct a as [v vc ws cs gb]. destruct (for_command_sound DB DP fuel s b Hr v vc ws cs gb _ R) as (ts1 & ts2 & ts3 & ts4 & _ & _ & _ & X & Y).
    split; [assert (Z : wf_body gb) by (eapply forms_wf; exact Y); exact Z|]. cbn [ff_words].
    assert (Z : match ws with Some (_, ws, _) => Forall wf_word ws | None => True end) by (eapply forms_wf; exact X). exact Z.
  - destruct a as [w cs ic arms ac]. destruct (case_command_sound DB DP fuel s b Hr w cs ic arms ac _ R) as (k & ts1 & ts2 & ts3 & ts4 & ts5 & ts6 & -> & _ & X & _ & _ & _ & Y & _).
    split; [eapply word_form_wf; exact X|]. eapply forms_wf; exact Y.
  - pose proof (sound_of DB fuel s b Hr AMaybeFunction (fun r _ => match r with Some c => wf_p c | None => True end)) as X. refine (X _ a _ R).
    cbn [call]. unfold p_maybe_function_declaration, maybe_function_declaration.
    gstep. apply peek_word_gives; [discriminate| |].
    + intros k r _ _. gstep. eapply gives_mono; [apply (function_declaration_gives DB DP)|]. intros c rest Hf. cbv beta. gstep.
      eapply function_form_wf; exact Hf.
    + intros _. gstep. gstep. destruct (Located.look function_try _); [|gstep; exact I].
      gstep. eapply gives_mono; [apply (function_declaration_gives DB DP)|]. intros c rest Hf. cbv beta. gstep.
      eapply function_form_wf; exact Hf.
  - pose proof (sound_of DB fuel s b Hr AFunction (fun c _ => wf_p c)) as X. refine (X _ a _ R).
    cbn [call]. eapply gives_mono; [apply (function_declaration_gives DB DP)|]. intros c rest. apply function_form_wf.
  - intros Hp. destruct (command_group_sound DB DP fuel s b Hr cfg a _ Hp R) as [X Hn]. split; [exact Hn|]. eapply group_wf; exact X.
  - destruct (sound_of DB fuel s b Hr AArithmetic _ (arith_gives fuel _) a _ R) as (us & w & _ & _ & X). eapply written_wf; exact X.
Qed.

(** C41: every command the iterator yields, also those before an error, is well formed. *)
Theorem iterator_wf fuel ts b cs st : yields DB fuel (parser_iter_new DB ts b) cs st -> Forall wf_cmd cs.
Proof.
  intros Y.
  enough (G : forall st0 cs st, yields DB fuel st0 cs st -> forall s b, st0 = Some (s, b) -> parser_reach DB s b -> Forall wf_cmd cs).
  { eapply G; [exact Y|reflexivity|apply pr_new]. }
  clear. intros st0 cs st Y. induction Y as [st|st c st1 cs st2 E _ IH]; intros s b -> Hr; [constructor|].
  unfold parser_iter_next in E. destruct (run concrete (p_complete_command DB fuel) s b) as [[o s'] b'] eqn:ER.
  destruct o as [[c'|]|e|x|]; try discriminate. injection E as -> <-. constructor.
  - exact (method_wf ACompleteCommand fuel s b (Some c) s' b' Hr ER).
  - eapply IH; [reflexivity|]. eapply pr_call; [apply (call_entry DB ACompleteCommand)|exact Hr|exact ER].
Qed.

(** A tree of some size, and a tree the exception is about. *)
Section Witness.
#[local] Instance some_uni : Uni := fun _ => false.
Definition wf_source : list token :=
  lex (s_of "f() { a=b c ""$x"" 2>&1 | d; }; case $((1,2)) in (x|y) ;; esac && { e; } &").
Example iterator_wf_witness : exists cs st, yields DB 200 (parser_iter_new DB wf_source tt) cs st /\
  List.length cs = 2%nat /\ Forall wf_cmd cs.
Proof.
  pose proof (yields_steps DB 200 200 wf_source tt) as [H|H].
  - vm_compute in H. discriminate.
  - destruct H as (cs & r & st & st' & H & Y & _). exists cs, st. split; [exact Y|]. split; [|eapply iterator_wf; exact Y].
    vm_compute in H. injection H as <- _. reflexivity.
Qed.
Definition empty_body : list token := lex (s_of "function f (" ++ [10] ++ s_of "# nothing" ++ [10] ++ s_of ")").
(** The exception occurs: a function whose body is an empty subshell. *)
Theorem empty_function_body : exists st,
  yields DB 200 (parser_iter_new DB empty_body tt)
    [TLCmd (CList (mkAOL (LSingle (PFunctionDef (s_of "f") (mkCC (CSubshell []) []))) []))] st.
Proof.
  pose proof (yields_steps DB 200 200 empty_body tt) as [H|H].
  - vm_compute in H. discriminate.
  - destruct H as (cs & r & st & st' & H & Y & _). exists st.
    assert (E : cs = [TLCmd (CList (mkAOL (LSingle (PFunctionDef (s_of "f") (mkCC (CSubshell []) []))) []))])
      by (vm_compute in H; now injection H as <- _).
    now rewrite <- E.
Qed.
End Witness.
