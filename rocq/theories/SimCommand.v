(** * Comparing runs: redirections, commands, and every public method *)
From Verif Require Import Base Token Pos Ast Builder Prog Located RunLemmas ParserBase Balanced Arith Sim
  SimArith Word SimWord Redirect Command Entry.
#[local] Opaque Sim.sim.

Definition map_redirect {W1 W2} (f : W1 -> W2) (r : redirect_ W1) : redirect_ W2 :=
  match r with
  | RRead fd w => RRead fd (f w)
  | RWrite fd w => RWrite fd (f w)
  | RReadWrite fd w => RReadWrite fd (f w)
  | RAppend fd w => RAppend fd (f w)
  | RClobber fd w => RClobber fd (f w)
  | RHeredoc fd w => RHeredoc fd (f w)
  | RDupRead fd w => RDupRead fd (f w)
  | RDupWrite fd w => RDupWrite fd (f w)
  end.
Definition map_sum {A1 A2 C1 C2} (f : A1 -> A2) (g : C1 -> C2) (x : A1 + C1) : A2 + C2 :=
  match x with inl a => inl (f a) | inr c => inr (g c) end.
Definition map_env {R1 R2 W1 W2} (f : R1 -> R2) (g : W1 -> W2) (x : redirect_or_env_var R1 str W1)
  : redirect_or_env_var R2 str W2 :=
  match x with ERedirect r => ERedirect (f r) | EEnvVar v w => EEnvVar v (option_map g w) end.
Definition map_arg {R1 R2 W1 W2} (f : R1 -> R2) (g : W1 -> W2) (x : redirect_or_cmd_word R1 W1)
  : redirect_or_cmd_word R2 W2 :=
  match x with DRedirect r => DRedirect (f r) | DCmdWord w => DCmdWord (g w) end.
Definition map_gbp {C1 C2} (f : C1 -> C2) (g : gbpair C1) : gbpair C2 :=
  mkGBP (map_cg f (gguard g)) (map_cg f (gbody g)).
Definition map_if {C1 C2} (f : C1 -> C2) (x : if_fragments C1) : if_fragments C2 :=
  mkIF (map (map_gbp f) (conditionals x)) (option_map (map_cg f) (else_branch x)).
Definition map_fwords {W1 W2} (g : W1 -> W2) (x : option (list newline_ * list W1 * option newline_))
  : option (list newline_ * list W2 * option newline_) :=
  option_map (fun y => (fst (fst y), map g (snd (fst y)), snd y)) x.
Definition map_for {W1 W2 C1 C2} (g : W1 -> W2) (f : C1 -> C2) (x : for_fragments W1 C1) : for_fragments W2 C2 :=
  mkFF (ff_var x) (ff_var_comment x) (map_fwords g (ff_words x)) (ff_pre_body_comments x) (map_cg f (ff_body x)).
Definition map_pat {W1 W2} (g : W1 -> W2) (x : case_pattern W1) : case_pattern W2 :=
  mkCP (pre_pattern_comments x) (map g (pattern_alternatives x)) (pattern_comment x).
Definition map_arm {W1 W2 C1 C2} (g : W1 -> W2) (f : C1 -> C2) (x : case_arm W1 C1) : case_arm W2 C2 :=
  mkCA (map_pat g (arm_patterns x)) (map_cg f (arm_body x)) (arm_comment x).
Definition map_case {W1 W2 C1 C2} (g : W1 -> W2) (f : C1 -> C2) (x : case_fragments W1 C1) : case_fragments W2 C2 :=
  mkCF (g (cf_word x)) (cf_post_word_comments x) (cf_in_comment x) (map (map_arm g f) (cf_arms x))
       (cf_post_arms_comments x).
Definition map_and_or {T1 T2} (f : T1 -> T2) (x : and_or T1) : and_or T2 :=
  match x with And t => And (f t) | Or t => Or (f t) end.

(** A map between the values of two builders that commutes with every method (a pipeline is only
    built of at least one command). *)
Record bmor (B1 B2 : builder) := mkMor {
  m_cmd : b_cmd B1 -> b_cmd B2;
  m_list : b_list B1 -> b_list B2;
  m_listable : b_listable B1 -> b_listable B2;
  m_pipeable : b_pipeable B1 -> b_pipeable B2;
  m_compound : b_compound B1 -> b_compound B2;
  m_word : b_word B1 -> b_word B2;
  m_redirect : b_redirect B1 -> b_redirect B2;
  RB : bst B1 -> bst B2 -> Prop;
  RE : b_err B1 -> b_err B2 -> Prop;
  mo_complete_command : forall a l s c, bld_rel RB RE (graph m_cmd)
    (o_complete_command B1 a l s c) (o_complete_command B2 a (m_list l) s c);
  mo_and_or_list : forall a l, bld_rel RB RE (graph m_list) (o_and_or_list B1 a l)
    (o_and_or_list B2 (m_listable a) (map (fun x => (fst x, map_and_or m_listable (snd x))) l));
  mo_pipeline : forall a l, l <> [] -> bld_rel RB RE (graph m_listable) (o_pipeline B1 a l)
    (o_pipeline B2 a (map (fun x => (fst x, m_pipeable (snd x))) l));
  mo_simple_command : forall a l, bld_rel RB RE (graph m_pipeable) (o_simple_command B1 a l)
    (o_simple_command B2 (map (map_env m_redirect m_word) a) (map (map_arg m_redirect m_word) l));
  mo_brace_group : forall g r, bld_rel RB RE (graph m_compound) (o_brace_group B1 g r)
    (o_brace_group B2 (map_cg m_cmd g) (map m_redirect r));
  mo_subshell : forall g r, bld_rel RB RE (graph m_compound) (o_subshell B1 g r)
    (o_subshell B2 (map_cg m_cmd g) (map m_redirect r));
  mo_loop_command : forall k g r, bld_rel RB RE (graph m_compound) (o_loop_command B1 k g r)
    (o_loop_command B2 k (map_gbp m_cmd g) (map m_redirect r));
  mo_if_command : forall g r, bld_rel RB RE (graph m_compound) (o_if_command B1 g r)
    (o_if_command B2 (map_if m_cmd g) (map m_redirect r));
  mo_for_command : forall g r, bld_rel RB RE (graph m_compound) (o_for_command B1 g r)
    (o_for_command B2 (map_for m_word m_cmd g) (map m_redirect r));
  mo_case_command : forall g r, bld_rel RB RE (graph m_compound) (o_case_command B1 g r)
    (o_case_command B2 (map_case m_word m_cmd g) (map m_redirect r));
  mo_into_pipeable : forall c, bld_rel RB RE (graph m_pipeable)
    (o_compound_command_into_pipeable B1 c) (o_compound_command_into_pipeable B2 (m_compound c));
  mo_function_declaration : forall n l c, bld_rel RB RE (graph m_pipeable)
    (o_function_declaration B1 n l c) (o_function_declaration B2 n l (m_compound c));
  mo_comments : forall l, bld_rel RB RE same (o_comments B1 l) (o_comments B2 l);
  mo_word : forall w, bld_rel RB RE (graph m_word) (o_word B1 w) (o_word B2 (map_cwk m_cmd w));
  mo_redirect : forall r, bld_rel RB RE (graph m_redirect) (o_redirect B1 r) (o_redirect B2 (map_redirect m_word r))
}.
#[global] Hint Resolve mo_complete_command mo_and_or_list mo_pipeline mo_simple_command mo_brace_group
  mo_subshell mo_loop_command mo_if_command mo_for_command mo_case_command mo_into_pipeable
  mo_function_declaration mo_comments mo_word mo_redirect : sim.

Section SimCommand.
Context {B1 B2 : builder} (M : bmor B1 B2).
Notation sim := (sim (RB _ _ M) (RE _ _ M)).
Notation fc := (m_cmd _ _ M). Notation fw := (m_word _ _ M). Notation fr := (m_redirect _ _ M).
Notation fp := (m_pipeable _ _ M). Notation fl := (m_listable _ _ M).
Notation fcc := (m_compound _ _ M).
Variables f1 f2 : nat.
Hypothesis Hf : (f1 <= f2)%nat.

Ltac by_ih IH := apply IH; [assumption|rewrite ?map_app; reflexivity].

Section K.
Variable K1 : knots (bst B1) (b_err B1) (b_cmd B1).
Variable K2 : knots (bst B2) (b_err B2) (b_cmd B2).
Hypothesis HK : k_rel (RB _ _ M) (RE _ _ M) fc K1 K2.
Let h1 := kr_group _ _ _ _ _ HK. Let h2 := kr_param _ _ _ _ _ HK.
Hint Resolve h1 h2 sim_sub sim_build : sim.
Let h3 := sim_word_raw _ _ _ _ _ Hf _ _ HK.
Let h4 := sim_backticked_raw _ _ _ _ _ Hf _ _ HK.
Let h5 := sim_parameter_raw _ _ _ _ _ Hf _ _ HK.
Let h6 := sim_interp _ _ _ _ _ Hf _ _ HK.
Let h7 := sim_subshell_internal _ _ _ _ _ HK.
Hint Resolve h3 h4 h5 h6 h7 : sim.

Lemma sim_wptw : sim (graph (option_map fw)) (word_preserve_trailing_whitespace B1 f1 K1)
  (word_preserve_trailing_whitespace B2 f2 K2).
Proof.
  unfold word_preserve_trailing_whitespace. sim_step. destruct a as [w|]; cbn [option_map]; repeat sim_step.
Qed.
Hint Resolve sim_wptw : sim.
Lemma sim_word : sim (graph (option_map fw)) (word B1 f1 K1) (word B2 f2 K2).
Proof. unfold word. repeat sim_step. Qed.
Hint Resolve sim_word : sim.
Lemma sim_bcs : sim (graph fw) (backticked_command_substitution B1 f1 K1) (backticked_command_substitution B2 f2 K2).
Proof.
  unfold backticked_command_substitution. sim_step. apply sim_build.
  apply (mo_word _ _ M (KSingle (KSimple a))).
Qed.
Lemma sim_parameter : sim (graph fw) (parameter B1 f1 K1) (parameter B2 f2 K2).
Proof.
  unfold parameter. sim_step. apply sim_build. apply (mo_word _ _ M (KSingle (KSimple a))).
Qed.

Lemma scbn_map {C1 C2} (f : C1 -> C2) w : simple_could_be_numeric (map_swk f w) = simple_could_be_numeric w.
Proof. destruct w; reflexivity. Qed.
Lemma cbn_map {C1 C2} (f : C1 -> C2) w : could_be_numeric (map_wk f w) = could_be_numeric w.
Proof.
  destruct w as [s|l|s]; [apply scbn_map| |reflexivity].
  change (forallb simple_could_be_numeric (map (map_swk f) l) = forallb simple_could_be_numeric l).
  induction l as [|x l IH]; [reflexivity|]. cbn [map forallb]. now rewrite scbn_map, IH.
Qed.
Lemma litfrag_map {C1 C2} (f : C1 -> C2) l : literal_fragments (map (map_wk f) l) = literal_fragments l.
Proof.
  induction l as [|x l IH]; [reflexivity|]. destruct x as [[]| |]; cbn [map map_wk map_swk literal_fragments]; try reflexivity.
  now rewrite IH.
Qed.
Lemma as_num_map {C1 C2} (f : C1 -> C2) w : word_as_num (map_cwk f w) = word_as_num w.
Proof.
  destruct w as [l|[[]| |]]; try reflexivity.
  change (match literal_fragments (map (map_wk f) l) with Some b => from_str_radix_u u16_max 10 b | None => None end
          = match literal_fragments l with Some b => from_str_radix_u u16_max 10 b | None => None end).
  now rewrite litfrag_map.
Qed.

(** Here-documents. *)
Lemma sim_delim_tokens : forall n m, (n <= m)%nat -> forall acc,
  sim same (delim_tokens_loop B1 f1 n acc) (delim_tokens_loop B2 f2 m acc).
Proof. sim_loop IH. cbn [delim_tokens_loop]. repeat sim_step. Qed.
Lemma sim_delim_dq : forall n m, (n <= m)%nat -> forall b d,
  sim same (delim_dq_loop B1 n b d) (delim_dq_loop B2 m b d).
Proof. sim_loop IH. cbn [delim_dq_loop]. repeat sim_step. Qed.
Hint Resolve sim_delim_tokens sim_delim_dq : sim.
Lemma sim_delim_loop : forall n m, (n <= m)%nat -> forall q d,
  sim same (delim_loop B1 f1 n q d) (delim_loop B2 f2 m q d).
Proof. sim_loop IH. cbn [delim_loop]. repeat sim_step. Qed.
Lemma sim_saved : forall n m, (n <= m)%nat -> forall acc,
  sim same (saved_tokens_loop B1 f1 n acc) (saved_tokens_loop B2 f2 m acc).
Proof. sim_loop IH. cbn [saved_tokens_loop]. repeat sim_step. Qed.
Lemma sim_heredoc_line st d : forall n m, (n <= m)%nat -> forall l p,
  sim same (heredoc_line B1 st d n l p) (heredoc_line B2 st d m l p).
Proof.
  sim_loop IH. cbn [heredoc_line]. eapply (sim_bind _ _ same).
  - destruct st; repeat sim_step.
  - intros [l' p'] ? ->. repeat sim_step.
Qed.
Hint Resolve sim_delim_loop sim_saved sim_heredoc_line : sim.
Lemma sim_heredoc_lines st d : forall n m, (n <= m)%nat -> forall acc,
  sim same (heredoc_lines B1 f1 st d n acc) (heredoc_lines B2 f2 st d m acc).
Proof. sim_loop IH. cbn [heredoc_lines]. repeat sim_step. Qed.
Hint Resolve sim_heredoc_lines : sim.
Lemma heredoc_body_map {C1 C2} (f : C1 -> C2) l :
  heredoc_body_word (map (map_swk f) l) = map_cwk f (heredoc_body_word l).
Proof.
  destruct l as [|a [|b l]]; try reflexivity. cbn [heredoc_body_word map map_cwk map_wk].
  now rewrite !map_map.
Qed.
Lemma sim_redirect_heredoc fd : sim (graph fr) (redirect_heredoc B1 f1 K1 fd) (redirect_heredoc B2 f2 K2 fd).
Proof.
  unfold redirect_heredoc. sim_step. eapply (sim_bind _ _ same).
  { destruct a as [[]|]; repeat sim_step. }
  intros st ? ->. sim_step. sim_step.
  eapply (sim_bind _ _ same); [apply sim_sub; apply sim_delim_loop; exact Hf|].
  intros [d q] ? ->. destruct d as [|c d]; [apply sim_unexpected|].
  repeat sim_step.
  eapply (sim_bind _ _ (graph (map_cwk fc))).
  { destruct q; [repeat sim_step|]. 
    eapply sim_bind; [apply sim_sub; apply h6|]. intros ws ? ->.
    apply sim_ret. unfold graph. now rewrite heredoc_body_map. }
  intros w ? ->. sim_step. apply sim_build. apply (mo_redirect _ _ M (RHeredoc fd _)).
Qed.
Hint Resolve sim_redirect_heredoc : sim.

Lemma sim_get_path : sim (graph fw) (get_path B1 f1 K1) (get_path B2 f2 K2).
Proof. unfold get_path. sim_step. destruct a as [w|]; cbn [option_map]; repeat sim_step. Qed.
Lemma sim_get_dup_path : sim (graph fw) (get_dup_path B1 f1 K1) (get_dup_path B2 f2 K2).
Proof.
  unfold get_dup_path. sim_step. eapply (sim_bind _ _ (graph (map_cwk fc))).
  - destruct a as [d|]; [repeat sim_step|]. sim_step. sim_step.
    destruct a0 as [w|]; cbn [option_map]; [|apply sim_unexpected].
    replace (match map_cwk fc w with KConcat v => forallb could_be_numeric v | KSingle p => could_be_numeric p end)
      with (match w with KConcat v => forallb could_be_numeric v | KSingle p => could_be_numeric p end).
    + match goal with |- sim _ (if ?c then _ else _) _ => destruct c end; [apply sim_ret; reflexivity|].
      repeat sim_step.
    + destruct w as [l|w]; [|symmetry; apply (cbn_map fc)].
      change (forallb could_be_numeric l = forallb could_be_numeric (map (map_wk fc) l)).
      induction l as [|x l IH]; [reflexivity|]. cbn [map forallb].
      change (could_be_numeric x && forallb could_be_numeric l =
              could_be_numeric (map_wk fc x) && forallb could_be_numeric (map (map_wk fc) l)).
      now rewrite cbn_map, IH.
  - intros w ? ->. repeat sim_step.
Qed.
Hint Resolve sim_get_path sim_get_dup_path : sim.
Lemma sim_redirect_op op fd : sim (graph fr) (redirect_op B1 f1 K1 op fd) (redirect_op B2 f2 K2 op fd).
Proof.
  unfold redirect_op. sim_step. eapply (sim_bind _ _ (graph (map_redirect fw))).
  - destruct op; try apply sim_panic; (sim_step; apply sim_ret; reflexivity).
  - intros r ? ->. repeat sim_step.
Qed.
Hint Resolve sim_redirect_op : sim.
Lemma sim_redirect_after fd w : sim (graph (option_map (map_sum fr fw)))
  (redirect_after B1 f1 K1 fd w) (redirect_after B2 f2 K2 fd (option_map (map_cwk fc) w)).
Proof.
  unfold redirect_after. sim_step.
  match goal with |- sim ?R (match ?a with Some _ => _ | None => ?x end) (match ?a with Some _ => _ | None => ?y end) =>
    assert (HN : sim R x y) end.
  { destruct w as [w|]; cbn [option_map]; repeat sim_step. }
  destruct a as [t|]; [|exact HN]. destruct t; try exact HN; repeat sim_step.
Qed.
Lemma sim_redirect : sim (graph (option_map (map_sum fr fw))) (redirect B1 f1 K1) (redirect B2 f2 K2).
Proof.
  unfold redirect. sim_step. destruct a as [w|]; cbn [option_map]; [|apply (sim_redirect_after None None)].
  rewrite as_num_map. destruct (word_as_num w); [|repeat sim_step].
  apply (sim_redirect_after (Some n) (Some w)).
Qed.
Hint Resolve sim_redirect : sim.
Lemma sim_redirect_list_loop : forall n m, (n <= m)%nat -> forall acc acc2, acc2 = map fr acc ->
  sim (graph (map fr)) (redirect_list_loop B1 f1 K1 n acc) (redirect_list_loop B2 f2 K2 m acc2).
Proof.
  sim_loop IH. subst acc2. cbn [redirect_list_loop]. sim_step. sim_step. sim_step.
  destruct a1 as [[r|w]|]; cbn [option_map map_sum]; [by_ih IH|repeat sim_step|apply sim_ret; reflexivity].
Qed.
Lemma sim_redirect_list : sim (graph (map fr)) (redirect_list B1 f1 K1) (redirect_list B2 f2 K2).
Proof. apply sim_redirect_list_loop; auto. Qed.
Hint Resolve sim_redirect_list : sim.

(** Commands. *)
Lemma sim_simple_vars : forall n m, (n <= m)%nat -> forall v v2, v2 = map (map_env fr fw) v ->
  sim (graph (fun x => (map (map_env fr fw) (fst x), option_map fw (snd x))))
    (simple_vars_loop B1 f1 K1 n v) (simple_vars_loop B2 f2 K2 m v2).
Proof.
  sim_loop IH. subst v2. cbn [simple_vars_loop]. sim_step. sim_step. destruct a0.
  - sim_step. destruct a0 as [t|]; [|apply sim_panic]. destruct t; try apply sim_panic.
    sim_step. sim_step. eapply (sim_bind _ _ (graph (option_map fw))).
    + destruct a1 as [[]|]; first [sim_leaf|apply sim_ret; reflexivity].
    + intros w ? ->. by_ih IH.
  - sim_step. destruct a0 as [[r|w]|]; cbn [option_map map_sum]; [by_ih IH|apply sim_ret; reflexivity..].
Qed.
Lemma sim_simple_args : forall n m, (n <= m)%nat -> forall v v2, v2 = map (map_arg fr fw) v ->
  sim (graph (map (map_arg fr fw))) (simple_args_loop B1 f1 K1 n v) (simple_args_loop B2 f2 K2 m v2).
Proof.
  sim_loop IH. subst v2. cbn [simple_args_loop]. sim_step.
  destruct a as [[r|w]|]; cbn [option_map map_sum]; [by_ih IH|by_ih IH|apply sim_ret; reflexivity].
Qed.
Lemma sim_simple_command : sim (graph fp) (simple_command B1 f1 K1) (simple_command B2 f2 K2).
Proof.
  unfold simple_command. eapply sim_bind; [apply sim_simple_vars; [exact Hf|reflexivity]|].
  intros [v x] ? ->. cbn [fst snd]. eapply sim_bind; [apply sim_simple_args; [exact Hf|]|].
  { destruct x; reflexivity. }
  intros args a2 H. unfold graph in H. subst a2. rewrite !is_nil_map. destruct (_ && _); [apply sim_unexpected|].
  apply sim_build. apply (mo_simple_command _ _ M).
Qed.
Hint Resolve sim_simple_command : sim.
Lemma sim_command_group cfg : sim (graph (map_cg fc)) (command_group B1 K1 cfg) (command_group B2 K2 cfg).
Proof.
  unfold command_group. sim_step. cbn [map_cg commands]. rewrite is_nil_map.
  destruct (is_nil _); repeat sim_step.
Qed.
Hint Resolve sim_command_group : sim.
Lemma sim_do_group : sim (graph (map_cg fc)) (do_group B1 f1 K1) (do_group B2 f2 K2).
Proof. unfold do_group. repeat sim_step. Qed.
Lemma sim_brace_group : sim (graph (map_cg fc)) (brace_group B1 f1 K1) (brace_group B2 f2 K2).
Proof.
  unfold brace_group. sim_step. sim_step. sim_step.
  eapply sim_bind; [apply sim_reserved_token_res; exact Hf|].
  intros [t|e] [t'|e'] H; cbn in H; try contradiction; repeat sim_step.
Qed.
Lemma sim_subshell : sim (graph (map_cg fc)) (subshell B1 K1) (subshell B2 K2).
Proof. apply h7. Qed.
Lemma sim_next_compound : sim same (next_compound_command_type B1 f1) (next_compound_command_type B2 f2).
Proof. unfold next_compound_command_type. sim_step. sim_step. destruct (otoken_eqb _ _); repeat sim_step. Qed.
Hint Resolve sim_do_group sim_brace_group sim_subshell sim_next_compound : sim.
Lemma sim_loop_command : sim (graph (fun x => (fst x, map_gbp fc (snd x)))) (loop_command B1 f1 K1) (loop_command B2 f2 K2).
Proof.
  unfold loop_command. sim_step. sim_step. destruct a0 as [w|]; [|apply sim_unexpected].
  eapply (sim_bind _ _ same); [repeat sim_step|]. intros k ? ->. repeat sim_step.
Qed.
Lemma sim_if_loop p : forall n m, (n <= m)%nat -> forall v v2, v2 = map (map_gbp fc) v ->
  sim (graph (map_if fc)) (if_loop B1 f1 K1 p n v) (if_loop B2 f2 K2 p m v2).
Proof.
  sim_loop IH. subst v2. cbn [if_loop]. sim_step. sim_step. destruct a0 as [t|]; [|repeat sim_step].
  sim_step. cbv zeta. sim_step. destruct a1 as [k|]; [|repeat sim_step].
  destruct (str_eqb k ELIF); [by_ih IH|]. destruct (str_eqb k ELSE).
  - sim_step. sim_step. destruct a2; [|repeat sim_step]. apply sim_ret. unfold graph, map_if. cbn. now rewrite map_app.
  - destruct (str_eqb k FI); [|apply sim_panic]. apply sim_ret. unfold graph, map_if. cbn. now rewrite map_app.
Qed.
Lemma sim_if_command : sim (graph (map_if fc)) (if_command B1 f1 K1) (if_command B2 f2 K2).
Proof.
  unfold if_command. sim_step. sim_step. destruct a0; [|apply sim_unexpected]. now apply sim_if_loop.
Qed.
Lemma sim_words_loop : forall n m, (n <= m)%nat -> forall v v2, v2 = map fw v ->
  sim (graph (map fw)) (words_loop B1 f1 K1 n v) (words_loop B2 f2 K2 m v2).
Proof.
  sim_loop IH. subst v2. cbn [words_loop]. sim_step. destruct a; cbn [option_map]; [by_ih IH|apply sim_ret; reflexivity].
Qed.
Lemma sim_for_words p c : sim (graph (fun x => (map_fwords fw (fst x), snd x))) (for_words B1 f1 K1 p c) (for_words B2 f2 K2 p c).
Proof.
  unfold for_words. sim_step. destruct a; [|sim_step; destruct (otoken_eqb _ _); repeat sim_step].
  sim_step. destruct a; [|apply sim_panic].
  eapply sim_bind; [apply sim_words_loop; [exact Hf|reflexivity]|]. intros w ? ->. sim_step. sim_step.
  destruct (_ && _); repeat sim_step.
Qed.
Hint Resolve sim_loop_command sim_if_command sim_for_words : sim.
Lemma sim_for_command : sim (graph (map_for fw fc)) (for_command B1 f1 K1) (for_command B2 f2 K2).
Proof. unfold for_command. repeat sim_step. Qed.
Lemma sim_patterns p : forall n m, (n <= m)%nat -> forall v v2, v2 = map fw v ->
  sim (graph (map fw)) (patterns_loop B1 f1 K1 p n v) (patterns_loop B2 f2 K2 p m v2).
Proof.
  sim_loop IH. subst v2. cbn [patterns_loop]. sim_step. destruct a; cbn [option_map]; [|apply sim_unexpected].
  sim_step. destruct a as [t|]; [|repeat sim_step]. destruct t; try apply sim_unexpected.
  - sim_step. apply sim_ret. unfold graph. now rewrite map_app.
  - sim_step. by_ih IH.
Qed.
Lemma sim_arms p : forall n m, (n <= m)%nat -> forall v v2, v2 = map (map_arm fw fc) v ->
  sim (graph (fun x => (map (map_arm fw fc) (fst x), snd x))) (arms_loop B1 f1 K1 p n v) (arms_loop B2 f2 K2 p m v2).
Proof.
  sim_loop IH. subst v2. cbn [arms_loop]. sim_step. sim_step. destruct a0; [apply sim_ret; reflexivity|].
  sim_step. sim_step. destruct a1; [|repeat sim_step].
  eapply sim_bind; [apply sim_patterns; [exact Hf|reflexivity]|]. intros w ? ->.
  sim_step. sim_step. sim_step. destruct a3.
  - sim_step. by_ih IH.
  - apply sim_ret. unfold graph. cbn. now rewrite map_app.
Qed.
Lemma sim_case_command : sim (graph (map_case fw fc)) (case_command B1 f1 K1) (case_command B2 f2 K2).
Proof.
  unfold case_command. sim_step. sim_step. destruct a0; [|apply sim_unexpected]. sim_step.
  destruct a0; cbn [option_map]; [|apply sim_unexpected]. sim_step. sim_step. destruct a1; [|repeat sim_step].
  sim_step. eapply sim_bind; [apply sim_arms; [exact Hf|reflexivity]|]. intros [w c] ? ->. cbn [fst snd].
  repeat sim_step.
Qed.
Hint Resolve sim_for_command sim_case_command : sim.
Lemma sim_compound_kw kw : sim (graph fcc) (compound_command_kw B1 f1 K1 kw) (compound_command_kw B2 f2 K2 kw).
Proof. unfold compound_command_kw. destruct kw as [[]|]; repeat sim_step. Qed.
Hint Resolve sim_compound_kw : sim.
Lemma sim_compound : sim (graph fcc) (compound_command B1 f1 K1) (compound_command B2 f2 K2).
Proof. unfold compound_command. repeat sim_step. Qed.
Hint Resolve sim_compound : sim.
Lemma sim_function_parens ff : sim (graph (option_map fcc)) (function_parens B1 f1 K1 ff) (function_parens B2 f2 K2 ff).
Proof.
  unfold function_parens. sim_step. destruct (otoken_eqb a _); [repeat sim_step|].
  destruct (_ && _); [repeat sim_step|].
  eapply (sim_bind _ _ same); [destruct a as [[]|]; repeat sim_step|]. intros ? ? ->. sim_step.
  destruct (negb ff); [repeat sim_step|]. sim_step. destruct (otoken_eqb _ _); [|repeat sim_step].
  sim_step. cbn [map_cg commands trailing_comments]. rewrite is_nil_map. destruct (_ && _); [repeat sim_step|].
  eapply sim_bind; [apply sim_build; apply (mo_subshell _ _ M a3 [])|]. intros c ? ->. repeat sim_step.
Qed.
Hint Resolve sim_function_parens : sim.
Lemma sim_fdi : sim (graph (fun x => (fst x, fcc (snd x))))
  (function_declaration_internal B1 f1 K1) (function_declaration_internal B2 f2 K2).
Proof.
  unfold function_declaration_internal. sim_step.
  eapply (sim_bind _ _ same); [destruct a; repeat sim_step|]. intros ff ? ->. sim_step. sim_step.
  destruct a1 as [t|]; [|apply sim_unexpected]. 
  match goal with |- sim ?R (match t with TName _ => ?x | _ => _ end) (match t with TName _ => ?y | _ => _ end) =>
    assert (HN : sim R x y) end.
  { sim_step. sim_step. destruct a2 as [u|]; [|apply sim_panic]. destruct u; try apply sim_panic; repeat sim_step. }
  destruct t; first [exact HN|apply sim_unexpected].
Qed.
Hint Resolve sim_fdi : sim.
Lemma sim_fd : sim (graph fp) (function_declaration B1 f1 K1) (function_declaration B2 f2 K2).
Proof.
  unfold function_declaration. eapply sim_bind; [apply sim_fdi|]. intros [[n l] c] ? ->. cbn [fst snd].
  repeat sim_step.
Qed.
Hint Resolve sim_fd : sim.
Lemma sim_maybe_function : sim (graph (option_map fp)) (maybe_function_declaration B1 f1 K1) (maybe_function_declaration B2 f2 K2).
Proof. unfold maybe_function_declaration. repeat sim_step. Qed.
Hint Resolve sim_maybe_function : sim.
Lemma sim_command : sim (graph fp) (command B1 f1 K1) (command B2 f2 K2).
Proof.
  unfold command. sim_step. destruct a; [repeat sim_step|]. sim_step. destruct a; cbn [option_map]; repeat sim_step.
Qed.
Hint Resolve sim_command : sim.
Definition fpl := map (fun x : list newline_ * b_pipeable B1 => (fst x, fp (snd x))).
Lemma sim_pipeline_loop : forall n m, (n <= m)%nat -> forall v v2, v2 = fpl v ->
  sim (fun l1 l2 => l2 = fpl l1 /\ l1 <> []) (pipeline_loop B1 f1 K1 n v) (pipeline_loop B2 f2 K2 m v2).
Proof.
  sim_loop IH. subst v2. cbn [pipeline_loop]. sim_step. destruct (otoken_eqb _ _); [apply sim_unexpected|].
  sim_step. sim_step. destruct a1.
  - sim_step. apply IH; [assumption|]. unfold fpl. now rewrite map_app.
  - apply sim_ret. unfold fpl. rewrite map_app. split; [reflexivity|]. destruct v; discriminate.
Qed.
Lemma sim_pipeline : sim (graph fl) (pipeline B1 f1 K1) (pipeline B2 f2 K2).
Proof.
  unfold pipeline. sim_step. sim_step. eapply sim_bind; [apply sim_pipeline_loop; [exact Hf|reflexivity]|].
  intros l l2 [-> Hne]. apply sim_build. now apply mo_pipeline.
Qed.
Hint Resolve sim_pipeline : sim.
Definition faol := map (fun x : list newline_ * and_or (b_listable B1) => (fst x, map_and_or fl (snd x))).
Lemma sim_and_or_loop : forall n m, (n <= m)%nat -> forall v v2, v2 = faol v ->
  sim (graph faol) (and_or_loop B1 f1 K1 n v) (and_or_loop B2 f2 K2 m v2).
Proof.
  sim_loop IH. subst v2. cbn [and_or_loop]. sim_step. sim_step.
  destruct a0 as [t|]; [|apply sim_ret; reflexivity]. destruct t; try (apply sim_ret; reflexivity);
  (sim_step; sim_step; sim_step; apply IH; [assumption|unfold faol; now rewrite map_app]).
Qed.
Lemma sim_and_or_list : sim (graph (m_list _ _ M)) (and_or_list B1 f1 K1) (and_or_list B2 f2 K2).
Proof.
  unfold and_or_list. sim_step. eapply sim_bind; [apply sim_and_or_loop; [exact Hf|reflexivity]|].
  intros l ? ->. apply sim_build. apply mo_and_or_list.
Qed.
Hint Resolve sim_and_or_list : sim.
Lemma sim_ccwlc c : sim (graph fc) (complete_command_with_leading_comments B1 f1 K1 c)
  (complete_command_with_leading_comments B2 f2 K2 c).
Proof.
  unfold complete_command_with_leading_comments. sim_step. sim_step.
  eapply (sim_bind _ _ same); [destruct a0 as [[]|]; repeat sim_step|]. intros [s n] ? ->. repeat sim_step.
Qed.
Hint Resolve sim_ccwlc : sim.
Lemma sim_complete_command : sim (graph (option_map fc)) (complete_command B1 f1 K1) (complete_command B2 f2 K2).
Proof. unfold complete_command. repeat sim_step. Qed.
Lemma sim_found_delim cfg : sim same (found_delim B1 f1 cfg) (found_delim B2 f2 cfg).
Proof.
  unfold found_delim. eapply (sim_bind _ _ same); [destruct (exact_tokens cfg); repeat sim_step|].
  intros b ? ->. repeat sim_step.
Qed.
Hint Resolve sim_found_delim : sim.
Lemma sim_command_group_loop cfg : forall n m, (n <= m)%nat -> forall v v2, v2 = map fc v ->
  sim (graph (map_cg fc)) (command_group_loop B1 f1 K1 cfg n v) (command_group_loop B2 f2 K2 cfg m v2).
Proof.
  sim_loop IH. subst v2. cbn [command_group_loop]. sim_step. destruct a; [apply sim_ret; reflexivity|].
  sim_step. sim_step. eapply (sim_bind _ _ same); [destruct a0; repeat sim_step|]. intros st ? ->.
  destruct st; [apply sim_ret; reflexivity|]. sim_step. by_ih IH.
Qed.
Lemma sim_cgi cfg : sim (graph (map_cg fc)) (command_group_internal B1 f1 K1 cfg) (command_group_internal B2 f2 K2 cfg).
Proof. apply sim_command_group_loop; auto. Qed.
End K.

Lemma sim_knot : forall n m, (n <= m)%nat ->
  k_rel (RB _ _ M) (RE _ _ M) fc (knot B1 f1 n) (knot B2 f2 m).
Proof.
  intros n; induction n as [|n IH]; intros m H.
  - split; intros; apply sim_fuel.
  - destruct m as [|m]; [lia|]. specialize (IH m ltac:(lia)). split; cbn [knot k_group k_param].
    + intros cfg. now apply sim_cgi.
    + now apply sim_parameter_raw.
Qed.
End SimCommand.
