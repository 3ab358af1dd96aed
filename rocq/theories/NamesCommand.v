(** * Sources that differ in names and blanks: redirections, commands, and the whole parser *)
From Verif Require Import Base Token Pos Ast Builder Prog Located RunLemmas ParserBase Balanced Arith Word Redirect Command
  Entry Names NamesArith NamesWord.

(** What the parser hands to the builder, without comments and with names replaced. *)
Definition nenv {R W} (x : redirect_or_env_var R str W) : redirect_or_env_var R str W :=
  match x with ERedirect r => ERedirect r | EEnvVar v w => EEnvVar (norm v) w end.
Definition ngbp {C} (g : gbpair C) : gbpair C := mkGBP (ncg (gguard g)) (ncg (gbody g)).
Definition nif {C} (x : if_fragments C) : if_fragments C := mkIF (map ngbp (conditionals x)) (option_map ncg (else_branch x)).
Definition nfwords {W} (x : option (list newline_ * list W * option newline_)) : option (list newline_ * list W * option newline_) :=
  option_map (fun y => ([], snd (fst y), None)) x.
Definition nfor {W C} (x : for_fragments W C) : for_fragments W C :=
  mkFF (norm (ff_var x)) None (nfwords (ff_words x)) [] (ncg (ff_body x)).
Definition narm {W C} (x : case_arm W C) : case_arm W C :=
  mkCA (mkCP [] (pattern_alternatives (arm_patterns x)) None) (ncg (arm_body x)) None.
Definition ncase {W C} (x : case_fragments W C) : case_fragments W C :=
  mkCF (cf_word x) [] None (map narm (cf_arms x)) [].

(** A builder that looks at no comment, and tells no two texts that are not numbers apart. *)
Record blind (B : builder) : Prop := mkBlind {
  bl_complete_command : forall p1 p2 l s c1 c2 b, o_complete_command B p1 l s c1 b = o_complete_command B p2 l s c2 b;
  bl_and_or_list : forall a l1 l2 b, map snd l1 = map snd l2 -> o_and_or_list B a l1 b = o_and_or_list B a l2 b;
  bl_pipeline : forall a l1 l2 b, map snd l1 = map snd l2 -> o_pipeline B a l1 b = o_pipeline B a l2 b;
  bl_simple_command : forall v1 v2 a b, map nenv v1 = map nenv v2 -> o_simple_command B v1 a b = o_simple_command B v2 a b;
  bl_brace_group : forall g1 g2 r b, ncg g1 = ncg g2 -> o_brace_group B g1 r b = o_brace_group B g2 r b;
  bl_subshell : forall g1 g2 r b, ncg g1 = ncg g2 -> o_subshell B g1 r b = o_subshell B g2 r b;
  bl_loop_command : forall k g1 g2 r b, ngbp g1 = ngbp g2 -> o_loop_command B k g1 r b = o_loop_command B k g2 r b;
  bl_if_command : forall g1 g2 r b, nif g1 = nif g2 -> o_if_command B g1 r b = o_if_command B g2 r b;
  bl_for_command : forall g1 g2 r b, nfor g1 = nfor g2 -> o_for_command B g1 r b = o_for_command B g2 r b;
  bl_case_command : forall g1 g2 r b, ncase g1 = ncase g2 -> o_case_command B g1 r b = o_case_command B g2 r b;
  bl_function_declaration : forall n1 n2 l1 l2 c b, norm n1 = norm n2 ->
    o_function_declaration B n1 l1 c b = o_function_declaration B n2 l2 c b;
  bl_comments : forall l1 l2 b, o_comments B l1 b = o_comments B l2 b;
  bl_word : forall w1 w2 b, ncwk w1 = ncwk w2 -> o_word B w1 b = o_word B w2 b }.

(** Being a number, and being usable as one. *)
Lemma digits_like a b : norm a = norm b -> forallb is_digit10 a = forallb is_digit10 b.
Proof. rewrite norm_S. apply S_digits. Qed.
Lemma scbn_like {C} (a b : swk C) : RW a b -> simple_could_be_numeric a = simple_could_be_numeric b.
Proof. unfold by_. destruct a, b; cbn; intros H; try discriminate H; try reflexivity; injection H as H; now apply digits_like. Qed.
Lemma scbns_like {C} (l1 l2 : list (swk C)) : RWs l1 l2 -> forallb simple_could_be_numeric l1 = forallb simple_could_be_numeric l2.
Proof.
  unfold by_. revert l2. induction l1 as [|a l1 IH]; intros [|b l2] H; try discriminate H; [reflexivity|]. cbn [map] in H.
  assert (H1 : nswk a = nswk b) by congruence. assert (H2 : map nswk l1 = map nswk l2) by congruence.
  cbn [forallb]. now rewrite (scbn_like a b H1), (IH l2 H2).
Qed.
Lemma cbn_like {C} (a b : wk C) : RK a b -> could_be_numeric a = could_be_numeric b.
Proof.
  unfold by_. destruct a as [a|a|a], b as [b|b|b]; autorewrite with nk; intros H; try discriminate H.
  - assert (E : nswk a = nswk b) by congruence. now apply scbn_like.
  - assert (E : map nswk a = map nswk b) by congruence. now apply scbns_like.
  - assert (E : norm a = norm b) by congruence. now apply digits_like.
Qed.
Lemma cbns_like {C} (l1 l2 : list (wk C)) : RKs l1 l2 -> forallb could_be_numeric l1 = forallb could_be_numeric l2.
Proof.
  unfold by_. revert l2. induction l1 as [|a l1 IH]; intros [|b l2] H; try discriminate H; [reflexivity|]. cbn [map] in H.
  assert (H1 : nwk a = nwk b) by congruence. assert (H2 : map nwk l1 = map nwk l2) by congruence.
  cbn [forallb]. now rewrite (cbn_like a b H1), (IH l2 H2).
Qed.
Lemma kcbn_like {C} (a b : cwk C) : RC a b ->
  match a with KSingle p => could_be_numeric p | KConcat v => forallb could_be_numeric v end =
  match b with KSingle p => could_be_numeric p | KConcat v => forallb could_be_numeric v end.
Proof.
  unfold by_. destruct a as [a|a], b as [b|b]; autorewrite with nk; intros H; try discriminate H.
  - assert (E : map nwk a = map nwk b) by congruence. now apply cbns_like.
  - assert (E : nwk a = nwk b) by congruence. now apply cbn_like.
Qed.
Lemma litfrag_like {C} (l1 l2 : list (wk C)) : RKs l1 l2 -> opt RS (literal_fragments l1) (literal_fragments l2).
Proof.
  unfold by_. revert l2. induction l1 as [|a l1 IH]; intros [|b l2] H; try discriminate H; [reflexivity|]. cbn [map] in H.
  assert (H1 : nwk a = nwk b) by congruence. assert (H2 : map nwk l1 = map nwk l2) by congruence. clear H.
  specialize (IH _ H2).
  destruct a as [a|a|a], b as [b|b|b]; autorewrite with nk in H1; try discriminate H1; try exact I.
  assert (E : nswk a = nswk b) by congruence. destruct a, b; try discriminate E; try exact I.
  cbn [nswk] in E. injection E as E. cbn [literal_fragments].
  destruct (literal_fragments l1), (literal_fragments l2); try contradiction; [|exact I].
  cbn [opt] in *. unfold by_ in *. now apply norm_app.
Qed.
Lemma number_like max a b : norm a = norm b -> from_str_radix_u max 10 a = from_str_radix_u max 10 b.
Proof. rewrite norm_S. apply S_number. Qed.
Lemma as_num_like {C} (a b : cwk C) : RC a b -> word_as_num a = word_as_num b.
Proof.
  unfold by_. destruct a as [a|a], b as [b|b]; autorewrite with nk; intros H; try discriminate H.
  - assert (E : map nwk a = map nwk b) by congruence. apply litfrag_like in E. cbn [word_as_num].
    destruct (literal_fragments a), (literal_fragments b); try contradiction; [|reflexivity]. now apply number_like.
  - assert (E : nwk a = nwk b) by congruence.
    destruct a as [a|a|a], b as [b|b|b]; autorewrite with nk in E; try discriminate E; try reflexivity.
    assert (E1 : nswk a = nswk b) by congruence. destruct a, b; try discriminate E1; try reflexivity.
    cbn [nswk] in E1. injection E1 as E1. cbn [word_as_num]. now apply number_like.
Qed.

Section NC.
Variable B : builder.
Hypothesis HB : blind B.
Variable f : nat.
Notation rel := (@rel (bst B) (b_err B) _).
Lemma rel_same {A} (p : bst B -> (A + b_err B) * bst B) : rel eq (build p) (build p).
Proof. now apply rel_build. Qed.
Lemma rb_word w1 w2 : RC w1 w2 -> rel eq (build (o_word B w1)) (build (o_word B w2)).
Proof. intros H. apply rel_build. intros b. now apply bl_word. Qed.
Lemma rb_comments l1 l2 : rel eq (build (o_comments B l1)) (build (o_comments B l2)).
Proof. apply rel_build. intros b. now apply bl_comments. Qed.
Lemma rb_complete p1 p2 l s c1 c2 : rel eq (build (o_complete_command B p1 l s c1)) (build (o_complete_command B p2 l s c2)).
Proof. apply rel_build. intros b. now apply bl_complete_command. Qed.
Lemma rb_brace g1 g2 r : RG g1 g2 -> rel eq (build (o_brace_group B g1 r)) (build (o_brace_group B g2 r)).
Proof. intros H. apply rel_build. intros b. now apply bl_brace_group. Qed.
Lemma rb_subshell g1 g2 r : RG g1 g2 -> rel eq (build (o_subshell B g1 r)) (build (o_subshell B g2 r)).
Proof. intros H. apply rel_build. intros b. now apply bl_subshell. Qed.
Lemma rb_loop k g1 g2 r : by_ ngbp g1 g2 -> rel eq (build (o_loop_command B k g1 r)) (build (o_loop_command B k g2 r)).
Proof. intros H. apply rel_build. intros b. now apply bl_loop_command. Qed.
Lemma rb_if g1 g2 r : by_ nif g1 g2 -> rel eq (build (o_if_command B g1 r)) (build (o_if_command B g2 r)).
Proof. intros H. apply rel_build. intros b. now apply bl_if_command. Qed.
Lemma rb_for g1 g2 r : by_ nfor g1 g2 -> rel eq (build (o_for_command B g1 r)) (build (o_for_command B g2 r)).
Proof. intros H. apply rel_build. intros b. now apply bl_for_command. Qed.
Lemma rb_case g1 g2 r : by_ ncase g1 g2 -> rel eq (build (o_case_command B g1 r)) (build (o_case_command B g2 r)).
Proof. intros H. apply rel_build. intros b. now apply bl_case_command. Qed.
Hint Resolve rel_same rb_word rb_comments rb_complete rb_brace rb_subshell rb_loop rb_if rb_for rb_case : rel.

Section K.
Variable K : knots (bst B) (b_err B) (b_cmd B).
Hypothesis HK : k_like K.
Let h1 := kl_group K HK. Let h2 := kl_param K HK.
Ltac cfgok := unfold cfg_ok; cbn [reserved_tokens reserved_words exact_tokens]; split; [repeat constructor|]; split; [words_tac|repeat constructor].
Hint Extern 1 (Names.rel _ (k_group _ _) _) => apply h1; first [assumption|cfgok] : rel.
Let h3 := rel_word_raw f K HK.
Let h4 := rel_backticked_raw f K HK.
Let h5 := rel_parameter_raw f K HK.
Let h7 := rel_subshell_internal K HK.
Hint Resolve h2 h3 h4 h5 h7 : rel.

Lemma rel_wptw : rel eq (word_preserve_trailing_whitespace B f K) (word_preserve_trailing_whitespace B f K).
Proof.
  unfold word_preserve_trailing_whitespace. rel_step. apply opt_like in H. repeat rel_step.
Qed.
Hint Resolve rel_wptw : rel.
Lemma rel_word : rel eq (word B f K) (word B f K).
Proof. unfold word. repeat rel_step. Qed.
Hint Resolve rel_word : rel.

Lemma rel_get_path : rel eq (get_path B f K) (get_path B f K).
Proof. unfold get_path. rel_step. apply opt_like in H. repeat rel_step. Qed.
Lemma rel_reserved_token ts : Forall rigid ts -> rel TR (reserved_token f ts) (reserved_token f ts).
Proof.
  intros Hr. unfold reserved_token. eapply rel_bind; [now apply rel_reserved_token_res|].
  intros [t|e] [u|e'] H; try contradiction; [now apply rel_ret|now apply rel_throw].
Qed.
Hint Extern 1 (Names.rel _ (reserved_token _ _) _) => apply rel_reserved_token; repeat constructor : rel.
Lemma rel_get_dup_path : rel eq (get_dup_path B f K) (get_dup_path B f K).
Proof.
  unfold get_dup_path. rel_step. eapply (rel_bind RC).
  - rel_step.
    + rel_step. apply rel_ret. unfold by_. autorewrite with nk. match goal with H : TR ?x ?y |- _ => now rewrite (norm_as_str x y H) end.
    + rel_step. rel_step. match goal with H : by_ (option_map ncwk) _ _ |- _ => apply opt_like in H end. rel_step; [|rel_leaf].
      cbv zeta. match goal with H : by_ ncwk ?x ?y |- _ => rewrite (kcbn_like x y H) end. rel_step; [now apply rel_ret|].
      repeat rel_step.
  - intros w1 w2 Hw. now apply rb_word.
Qed.
Hint Resolve rel_get_path rel_get_dup_path : rel.
Lemma rel_redirect_op op op2 fd : TR op op2 -> rel eq (redirect_op B f K op fd) (redirect_op B f K op2 fd).
Proof.
  intros Ho. unfold redirect_op. rel_step. eapply (rel_bind eq).
  - destruct Ho as [op Ho|x y Hx Hy|x y Hx Hy]; [|apply rel_panic..]. destruct op; try apply rel_panic; (rel_step; apply rel_ret; reflexivity).
  - intros r ? <-. repeat rel_step.
Qed.
Hint Resolve rel_redirect_op : rel.
Lemma rel_redirect_after fd w1 w2 : ROC w1 w2 -> rel eq (redirect_after B f K fd w1) (redirect_after B f K fd w2).
Proof.
  intros Hw. apply opt_like in Hw. unfold redirect_after. rel_step.
  match goal with |- Names.rel ?R (match ?a with Some _ => _ | None => ?x end) (match ?a2 with Some _ => _ | None => ?y end) =>
    assert (HN : rel R x y) end.
  { repeat rel_step. }
  destruct H as [|t Ht|x1 x2 Hx1 Hx2|x1 x2 Hx1 Hx2]; try exact HN. destruct t; try exact HN;
    try (exfalso; apply Ht; exact I).
  all: rel_step; rel_step; try apply rel_panic; rel_step; apply rel_ret; reflexivity.
Qed.
Lemma rel_redirect : rel eq (redirect B f K) (redirect B f K).
Proof.
  unfold redirect. rel_step. pose proof (opt_like _ _ H) as Ho. rel_step; [|apply rel_redirect_after; reflexivity].
  match goal with H : by_ ncwk ?x ?y |- _ => rewrite (as_num_like x y H) end. rel_step; [|repeat rel_step].
  apply rel_redirect_after. exact H.
Qed.
Hint Resolve rel_redirect : rel.
Lemma rel_redirect_list_loop : forall n acc, rel eq (redirect_list_loop B f K n acc) (redirect_list_loop B f K n acc).
Proof.
  induction n as [|n IH]; intros acc; [apply rel_fuel|]. cbn [redirect_list_loop]. rel_step. rel_step. rel_step.
  rel_step; [|apply rel_ret; reflexivity]. rel_step; [apply IH|repeat rel_step].
Qed.
Lemma rel_redirect_list : rel eq (redirect_list B f K) (redirect_list B f K).
Proof. apply rel_redirect_list_loop. Qed.
Hint Resolve rel_redirect_list : rel.

(** Commands. *)
Lemma ml_assignment : mlike eq assignment_try assignment_try.
Proof. unfold assignment_try. repeat ml_step. Qed.
Lemma rel_simple_vars : forall n v v2, by_ (map nenv) v v2 ->
  rel (pair_ (by_ (map nenv)) eq) (simple_vars_loop B f K n v) (simple_vars_loop B f K n v2).
Proof.
  induction n as [|n IH]; intros v v2 Hv; [apply rel_fuel|]. cbn [simple_vars_loop]. rel_step.
  eapply rel_bind; [apply rel_multipeek, ml_assignment|]. intros z ? <-. destruct z.
  - rel_step.
    assert (HP : forall x y, norm x = norm y -> rel (pair_ (by_ (map nenv)) eq)
      (next;; p <- peek;; value <- match p with Some (TWhitespace _) => ret None | _ => word B f K end;;
       simple_vars_loop B f K n (v ++ [EEnvVar x value]))
      (next;; p <- peek;; value <- match p with Some (TWhitespace _) => ret None | _ => word B f K end;;
       simple_vars_loop B f K n (v2 ++ [EEnvVar y value]))).
    { intros x y Hxy. rel_step. rel_step. eapply (rel_bind eq); [repeat rel_step|].
      intros w ? <-. apply IH, snoc_by; [exact Hv|]. unfold by_. cbn [nenv]. now rewrite Hxy. }
    destruct H as [|t Ht|x y Hx Hy|x y Hx Hy]; try apply rel_panic; [destruct t; try apply rel_panic|]; apply HP; auto with rel.
  - rel_step. rel_step; [|apply rel_ret; split; [exact Hv|reflexivity]]. rel_step; [|apply rel_ret; split; [exact Hv|reflexivity]].
    apply IH, snoc_by; [exact Hv|reflexivity].
Qed.
Lemma rel_simple_args : forall n v, rel eq (simple_args_loop B f K n v) (simple_args_loop B f K n v).
Proof.
  induction n as [|n IH]; intros v; [apply rel_fuel|]. cbn [simple_args_loop]. rel_step.
  rel_step; [|apply rel_ret; reflexivity]. rel_step; apply IH.
Qed.
Lemma nil_by {A A'} (N : A -> A') l1 l2 : by_ (map N) l1 l2 -> is_nil l1 = is_nil l2.
Proof. unfold by_. destruct l1, l2; intros H; try discriminate H; reflexivity. Qed.
Lemma rel_simple_command : rel eq (simple_command B f K) (simple_command B f K).
Proof.
  unfold simple_command. eapply rel_bind; [apply rel_simple_vars; reflexivity|].
  intros [v x] [v2 x2] [Hv Hx]. cbn [fst snd] in *. subst x2.
  eapply rel_bind; [apply rel_simple_args|]. intros args ? <-. rewrite (nil_by _ _ _ Hv).
  rel_step; [apply rel_unexpected|]. apply rel_build. intros b. now apply bl_simple_command.
Qed.
Hint Resolve rel_simple_command : rel.
Lemma rel_command_group cfg : cfg_ok cfg -> rel RG (command_group B K cfg) (command_group B K cfg).
Proof.
  intros Hc. unfold command_group. rel_step. pose proof (proj1 (cg_nil _ _ H)) as E. rewrite E. rel_step; [apply rel_unexpected|].
  now apply rel_ret.
Qed.
Hint Extern 1 (Names.rel _ (command_group _ _ _) _) => apply rel_command_group; first [assumption|cfgok] : rel.
Lemma rel_do_group : rel RG (do_group B f K) (do_group B f K).
Proof. unfold do_group. repeat rel_step. Qed.
Lemma rel_brace_group : rel RG (brace_group B f K) (brace_group B f K).
Proof.
  unfold brace_group. rel_step. rel_step. rel_step. rel_step. 
  match goal with H : res_like ?x ?y |- _ => destruct x, y; try contradiction end; repeat rel_step.
Qed.
Lemma rel_next_compound : rel eq (next_compound_command_type B f) (next_compound_command_type B f).
Proof. unfold next_compound_command_type. repeat rel_step. Qed.
Hint Resolve rel_do_group rel_brace_group rel_next_compound : rel.
Lemma gbp_like {C} (a b c d : cgroup C) : RG a b -> RG c d -> by_ ngbp (mkGBP a c) (mkGBP b d).
Proof. unfold by_, ngbp. cbn. congruence. Qed.
Lemma rel_loop_command : rel (pair_ eq (by_ ngbp)) (loop_command B f K) (loop_command B f K).
Proof.
  unfold loop_command. rel_step. rel_step. rel_step; [|rel_leaf]. eapply (rel_bind eq); [repeat rel_step|].
  intros k ? <-. rel_step. rel_step. rel_step; [|repeat rel_step]. rel_step. apply rel_ret. split; [reflexivity|now apply gbp_like].
Qed.
Lemma rel_if_loop p q : forall n v v2, by_ (map ngbp) v v2 -> rel (by_ nif) (if_loop B f K p n v) (if_loop B f K q n v2).
Proof.
  induction n as [|n IH]; intros v v2 Hv; [apply rel_fuel|]. cbn [if_loop]. rel_step. rel_step. rel_step; [|repeat rel_step].
  rel_step. cbv zeta. rel_step. rel_step; [|repeat rel_step].
  match goal with Hg : by_ ncg ?x ?y, Hb : by_ ncg ?z ?w |- _ =>
    assert (Hv2 : by_ (map ngbp) (v ++ [mkGBP x z]) (v2 ++ [mkGBP y w])) by (apply snoc_by; [exact Hv|now apply gbp_like]) end.
  rel_step; [now apply IH|]. rel_step.
  - rel_step. rel_step. rel_step; [|repeat rel_step]. apply rel_ret. unfold by_, nif in *. cbn [conditionals else_branch option_map]. congruence.
  - rel_step; [|apply rel_panic]. apply rel_ret. unfold by_, nif in *. cbn [conditionals else_branch option_map]. congruence.
Qed.
Lemma rel_if_command : rel (by_ nif) (if_command B f K) (if_command B f K).
Proof. unfold if_command. rel_step. rel_step. rel_step; [|rel_leaf]. apply rel_if_loop. reflexivity. Qed.
Lemma rel_words_loop : forall n v, rel eq (words_loop B f K n v) (words_loop B f K n v).
Proof.
  induction n as [|n IH]; intros v; [apply rel_fuel|]. cbn [words_loop]. rel_step. rel_step; [apply IH|now apply rel_ret].
Qed.
Hint Resolve rel_words_loop rel_loop_command rel_if_command : rel.
Lemma rel_for_words p q c1 c2 : rel (pair_ (by_ nfwords) any) (for_words B f K p c1) (for_words B f K q c2).
Proof.
  unfold for_words. rel_step. rel_step.
  - rel_step. rel_step; [|apply rel_panic]. rel_step. rel_step. rel_step.
    match goal with H : opt any ?x ?y |- _ => destruct x, y; try contradiction end; rewrite ?andb_false_r, ?andb_true_r.
    + rel_step. apply rel_ret; split; [reflexivity|exact I].
    + rel_step; [rel_leaf|]. rel_step. apply rel_ret; split; [reflexivity|exact I].
  - rel_step. rel_eqb. rel_step; [repeat rel_step; split; [reflexivity|exact I]|].
    rel_step. rel_step; [apply rel_ret; split; [reflexivity|exact I]|repeat rel_step].
Qed.
Hint Resolve rel_for_words : rel.
Lemma rel_for_command : rel (by_ nfor) (for_command B f K) (for_command B f K).
Proof.
  unfold for_command. rel_step. rel_step. rel_step; [|rel_leaf]. rel_step. rel_step.
    assert (HP : forall x y, norm x = norm y -> forall p q, rel (by_ nfor)
      (var_comment <- newline f;; post_var_comments <- linebreak f;;
       '(words, pre_body_comments) <- for_words B f K p post_var_comments;;
       d <- peek_reserved_word f [DO];;
       match d with
       | None => q <- getpos ;; throw (IncompleteCmd FOR p DO q)
       | Some _ => body <- do_group B f K;; ret (mkFF x var_comment words pre_body_comments body)
       end)
      (var_comment <- newline f;; post_var_comments <- linebreak f;;
       '(words, pre_body_comments) <- for_words B f K q post_var_comments;;
       d <- peek_reserved_word f [DO];;
       match d with
       | None => q' <- getpos ;; throw (IncompleteCmd FOR q DO q')
       | Some _ => body <- do_group B f K;; ret (mkFF y var_comment words pre_body_comments body)
       end)).
    { intros x y Hxy p q. rel_step. rel_step. eapply rel_bind; [apply rel_for_words|]. intros [w1 c1] [w2 c2] [Hw _]. cbn [fst snd] in *.
      rel_step. rel_step; [|repeat rel_step]. rel_step. apply rel_ret. unfold by_, nfor in *. cbn. congruence. }
  match goal with H : OTR ?x ?y |- Names.rel _ (match ?x with _ => _ end) (match ?y with _ => _ end) =>
      destruct H as [|t Ht|x y Hx Hy|x y Hx Hy] end; first [rel_leaf|destruct t; first [rel_leaf|(rel_step; rel_step;
    match goal with H : OTR ?x ?y |- Names.rel _ (match ?x with _ => _ end) (match ?y with _ => _ end) =>
      destruct H as [|? ?|? ? ? ?|? ? ? ?] end; try apply rel_panic;
    [match goal with |- Names.rel _ (match ?t with _ => _ end) _ => destruct t end; first [apply rel_panic|apply HP; reflexivity|apply rel_throw; reflexivity]
    |apply HP; auto with rel])]|(rel_step; rel_step;
    match goal with H : OTR ?x ?y |- Names.rel _ (match ?x with _ => _ end) (match ?y with _ => _ end) =>
      destruct H as [|? ?|? ? ? ?|? ? ? ?] end; try apply rel_panic;
    [match goal with |- Names.rel _ (match ?t with _ => _ end) _ => destruct t end; first [apply rel_panic|apply HP; reflexivity|apply rel_throw; reflexivity]
    |apply HP; auto with rel])].
Qed.
Lemma rel_patterns p q : forall n v, rel eq (patterns_loop B f K p n v) (patterns_loop B f K q n v).
Proof.
  induction n as [|n IH]; intros v; [apply rel_fuel|]. cbn [patterns_loop]. rel_step. rel_step; [|rel_leaf].
  rel_step. match goal with H : OTR ?x ?y |- Names.rel _ (match ?x with _ => _ end) (match ?y with _ => _ end) =>
      destruct H as [|t Ht|x y Hx Hy|x y Hx Hy] end; [repeat rel_step| |rel_leaf|rel_leaf].
  destruct t; first [rel_leaf|idtac]; rel_step; first [apply IH|now apply rel_ret].
Qed.
Hint Resolve rel_patterns : rel.
Lemma rel_arms p q : forall n v v2, by_ (map narm) v v2 -> rel (pair_ (by_ (map narm)) any) (arms_loop B f K p n v) (arms_loop B f K q n v2).
Proof.
  induction n as [|n IH]; intros v v2 Hv; [apply rel_fuel|]. cbn [arms_loop]. rel_step. rel_step.
  rel_step; [apply rel_ret; split; [exact Hv|exact I]|]. rel_step. rel_step.
  match goal with |- Names.rel ?R (match _ with None => _ | Some _ => ?x end) (match _ with None => _ | Some _ => ?y end) =>
    assert (HN : rel R x y) end.
  { rel_step. rel_step. rel_step. rel_step. rel_step.
    - rel_step. apply IH, snoc_by; [exact Hv|]. unfold by_, narm in *. cbn. congruence.
    - apply rel_ret. split; [|exact I]. apply snoc_by; [exact Hv|]. unfold by_, narm in *. cbn. congruence. }
  match goal with H : OTR ?x ?y |- Names.rel _ (match ?x with _ => _ end) (match ?y with _ => _ end) =>
      destruct H as [|t Ht|x y Hx Hy|x y Hx Hy] end; first [exact HN|repeat rel_step].
Qed.
Lemma rel_case_command : rel (by_ ncase) (case_command B f K) (case_command B f K).
Proof.
  unfold case_command. rel_step. rel_step. rel_step; [|rel_leaf]. rel_step. rel_step; [|rel_leaf].
  rel_step. rel_step. rel_step; [|repeat rel_step]. rel_step. eapply rel_bind; [apply rel_arms; reflexivity|].
  intros [v1 c1] [v2 c2] [Hv _]. cbn [fst snd] in *. rel_step. rel_step. rel_step; [|repeat rel_step].
  apply rel_ret. unfold by_, ncase in *. cbn. congruence.
Qed.
Hint Resolve rel_for_command rel_case_command : rel.
Lemma rel_compound_kw kw : rel eq (compound_command_kw B f K kw) (compound_command_kw B f K kw).
Proof.
  unfold compound_command_kw.
  assert (HL : rel eq ('(k, gb) <- loop_command B f K;; io <- redirect_list B f K;; build (o_loop_command B k gb io))
    ('(k, gb) <- loop_command B f K;; io <- redirect_list B f K;; build (o_loop_command B k gb io))).
  { eapply rel_bind; [apply rel_loop_command|]. intros [k g1] [k2 g2] [Hk Hg]. cbn [fst snd] in *. subst k2. rel_step. now apply rb_loop. }
  destruct kw as [[]|]; first [exact HL|unfold subshell; repeat rel_step].
Qed.
Hint Resolve rel_compound_kw : rel.
Lemma rel_compound : rel eq (compound_command B f K) (compound_command B f K).
Proof. unfold compound_command. repeat rel_step. Qed.
Hint Resolve rel_compound : rel.
Lemma rel_function_parens ff : rel eq (function_parens B f K ff) (function_parens B f K ff).
Proof.
  unfold function_parens. rel_step. rel_eqb. rel_step; [repeat rel_step|]. rel_step; [repeat rel_step|].
  eapply (rel_bind eq).
  { match goal with H : OTR ?x ?y |- Names.rel _ (match ?x with _ => _ end) (match ?y with _ => _ end) =>
      destruct H as [|t Ht|x y Hx Hy|x y Hx Hy] end; first [rel_leaf|repeat rel_step|destruct t; first [rel_leaf|repeat rel_step]]. }
  intros ? ? _. rel_step. rel_step; [repeat rel_step|]. rel_step. rel_eqb. rel_step; [|repeat rel_step]. rel_step.
  match goal with H : by_ ncg ?x ?y |- _ => destruct (cg_nil x y H) as [-> ->] end. rel_step; repeat rel_step.
Qed.
Hint Resolve rel_function_parens : rel.
Lemma rel_fdi : rel (by_ (fun x => (norm (fst (fst x)), snd x))) (function_declaration_internal B f K) (function_declaration_internal B f K).
Proof.
  unfold function_declaration_internal. rel_step. eapply (rel_bind eq); [repeat rel_step|]. intros ff ? <-. rel_step. rel_step.
    assert (HP : forall x y, norm x = norm y -> rel (by_ (fun x => (norm (fst (fst x)), snd x)))
      (body <- function_parens B f K ff;; match body with Some c => ret (x, [], c) | None => lb <- linebreak f;; c <- compound_command B f K;; ret (x, lb, c) end)
      (body <- function_parens B f K ff;; match body with Some c => ret (y, [], c) | None => lb <- linebreak f;; c <- compound_command B f K;; ret (y, lb, c) end)).
    { intros x y Hxy. rel_step. rel_step; [apply rel_ret|rel_step; rel_step; apply rel_ret]; unfold by_; cbn; congruence. }
  match goal with H : OTR ?x ?y |- Names.rel _ (match ?x with _ => _ end) (match ?y with _ => _ end) =>
      destruct H as [|t Ht|x y Hx Hy|x y Hx Hy] end; first [rel_leaf|destruct t; first [rel_leaf|(rel_step; rel_step;
    match goal with H : OTR ?x ?y |- Names.rel _ (match ?x with _ => _ end) (match ?y with _ => _ end) =>
      destruct H as [|? ?|? ? ? ?|? ? ? ?] end; try apply rel_panic;
    [match goal with |- Names.rel _ (match ?t with _ => _ end) _ => destruct t end; first [apply rel_panic|apply HP; reflexivity|apply rel_throw; reflexivity]
    |apply HP; auto with rel])]|(rel_step; rel_step;
    match goal with H : OTR ?x ?y |- Names.rel _ (match ?x with _ => _ end) (match ?y with _ => _ end) =>
      destruct H as [|? ?|? ? ? ?|? ? ? ?] end; try apply rel_panic;
    [match goal with |- Names.rel _ (match ?t with _ => _ end) _ => destruct t end; first [apply rel_panic|apply HP; reflexivity|apply rel_throw; reflexivity]
    |apply HP; auto with rel])].
Qed.
Lemma rel_fd : rel eq (function_declaration B f K) (function_declaration B f K).
Proof.
  unfold function_declaration. eapply rel_bind; [apply rel_fdi|]. intros [[n l] c] [[n2 l2] c2] H. unfold by_ in H. cbn [fst snd] in H.
  assert (E1 : norm n = norm n2) by congruence. assert (E2 : c = c2) by congruence. subst c2.
  apply rel_build. intros b. now apply bl_function_declaration.
Qed.
Hint Resolve rel_fd : rel.
Lemma ml_function : mlike eq function_try function_try.
Proof.
  unfold function_try. repeat ml_step.
Qed.
Lemma rel_maybe_function : rel eq (maybe_function_declaration B f K) (maybe_function_declaration B f K).
Proof.
  unfold maybe_function_declaration. rel_step. rel_step; [repeat rel_step|].
  eapply rel_bind; [apply rel_multipeek, ml_function|]. intros z ? <-. repeat rel_step.
Qed.
Hint Resolve rel_maybe_function : rel.
Lemma rel_command : rel eq (command B f K) (command B f K).
Proof. unfold command. repeat rel_step. Qed.
Hint Resolve rel_command : rel.
Notation RL := (by_ (map snd)).
Lemma rel_pipeline_loop : forall n v v2, RL v v2 -> rel RL (pipeline_loop B f K n v) (pipeline_loop B f K n v2).
Proof.
  induction n as [|n IH]; intros v v2 Hv; [apply rel_fuel|]. cbn [pipeline_loop]. rel_step. rel_eqb. rel_step; [rel_leaf|].
  rel_step. rel_step. rel_step.
  - rel_step. apply IH, snoc_by; [exact Hv|reflexivity].
  - apply rel_ret, snoc_by; [exact Hv|reflexivity].
Qed.
Lemma rel_pipeline : rel eq (pipeline B f K) (pipeline B f K).
Proof.
  unfold pipeline. rel_step. rel_step. eapply rel_bind; [apply rel_pipeline_loop; reflexivity|]. intros l1 l2 Hl.
  apply rel_build. intros b. now apply bl_pipeline.
Qed.
Hint Resolve rel_pipeline : rel.
Lemma rel_and_or_loop : forall n v v2, RL v v2 -> rel RL (and_or_loop B f K n v) (and_or_loop B f K n v2).
Proof.
  induction n as [|n IH]; intros v v2 Hv; [apply rel_fuel|]. cbn [and_or_loop]. rel_step. rel_step.
  match goal with H : OTR ?x ?y |- Names.rel _ (match ?x with _ => _ end) (match ?y with _ => _ end) =>
      destruct H as [|t Ht|x y Hx Hy|x y Hx Hy] end; try (now apply rel_ret). destruct t; try (now apply rel_ret);
    (rel_step; rel_step; rel_step; apply IH, snoc_by; [exact Hv|reflexivity]).
Qed.
Lemma rel_and_or_list : rel eq (and_or_list B f K) (and_or_list B f K).
Proof.
  unfold and_or_list. rel_step. eapply rel_bind; [apply rel_and_or_loop; reflexivity|]. intros l1 l2 Hl.
  apply rel_build. intros b. now apply bl_and_or_list.
Qed.
Hint Resolve rel_and_or_list : rel.
Lemma rel_ccwlc c1 c2 : rel eq (complete_command_with_leading_comments B f K c1) (complete_command_with_leading_comments B f K c2).
Proof.
  unfold complete_command_with_leading_comments. rel_step. rel_step.
  eapply (rel_bind (pair_ eq any)).
  - assert (HN : rel (pair_ eq any)
      (n <- newline f;; ret (match n with Some _ => SepNewline | None => SepOther end, n))
      (n <- newline f;; ret (match n with Some _ => SepNewline | None => SepOther end, n))).
    { rel_step. apply rel_ret. split; [|exact I]. match goal with H : opt any ?x ?y |- _ => destruct x, y; try contradiction; reflexivity end. }
    match goal with H : OTR ?x ?y |- Names.rel _ (match ?x with _ => _ end) (match ?y with _ => _ end) =>
      destruct H as [|t Ht|x y Hx Hy|x y Hx Hy] end; try exact HN. destruct t; try exact HN;
    (rel_step; rel_step; apply rel_ret; split; [reflexivity|exact I]).
  - intros [s1 n1] [s2 n2] [Hs _]. cbn [fst snd] in *. subst s2. apply rb_complete.
Qed.
Hint Resolve rel_ccwlc : rel.
Lemma rel_complete_command : rel eq (complete_command B f K) (complete_command B f K).
Proof.
  unfold complete_command. rel_step. rel_step.
  match goal with |- Names.rel ?R (match _ with Some _ => ?x | None => ?z end) (match _ with Some _ => ?y | None => ?w end) =>
    assert (HN : rel R x y); [|assert (HM : rel R z w)] end.
  { repeat rel_step. }
  { match goal with H : same_len ?x ?y |- _ => destruct x, y; try discriminate H end; [now apply rel_ret|]. rel_red. rel_step. now apply rel_ret. }
  match goal with H : OTR ?x ?y |- Names.rel _ (match ?x with _ => _ end) (match ?y with _ => _ end) =>
      destruct H as [|t Ht|x y Hx Hy|x y Hx Hy] end; first [exact HN|exact HM].
Qed.
Lemma rel_found_delim cfg : cfg_ok cfg -> rel eq (found_delim B f cfg) (found_delim B f cfg).
Proof.
  intros (H1 & H2 & H3). unfold found_delim. eapply (rel_bind eq).
  - destruct (exact_tokens cfg) as [|t ts]; [now apply rel_ret|]. rel_step. apply rel_ret. now apply tr_existsb.
  - intros z ? <-. rel_step; [now apply rel_ret|].
    eapply rel_bind; [now apply rel_peek_reserved_word|]. intros r ? <-. rel_step; [now apply rel_ret|].
    eapply rel_bind; [now apply rel_peek_reserved_token|]. intros t ? <-. now apply rel_ret.
Qed.
Lemma rel_command_group_loop cfg : cfg_ok cfg -> forall n v, rel RG (command_group_loop B f K cfg n v) (command_group_loop B f K cfg n v).
Proof.
  intros Hc. induction n as [|n IH]; intros v; [apply rel_fuel|]. cbn [command_group_loop].
  eapply rel_bind; [now apply rel_found_delim|]. intros z ? <-. destruct z; [now apply rel_ret|].
  eapply rel_bind; [apply rel_linebreak|]. intros lc1 lc2 Hlc.
  eapply rel_bind; [now apply rel_found_delim|]. intros d2 ? <-.
  eapply (rel_bind eq); [destruct d2; repeat rel_step; match goal with H : OTR _ _ |- _ => destruct H; reflexivity end|]. intros st ? <-. destruct st.
  - apply rel_ret. unfold by_, ncg. cbn [commands trailing_comments]. f_equal. now apply nnl_len.
  - rel_step. apply IH.
Qed.
Lemma rel_cgi cfg : cfg_ok cfg -> rel RG (command_group_internal B f K cfg) (command_group_internal B f K cfg).
Proof. intros Hc. now apply rel_command_group_loop. Qed.
End K.
Lemma like_knot : forall n, k_like (knot B f n).
Proof.
  induction n as [|n IH].
  - split; intros; apply rel_fuel.
  - cbn [knot]. split; cbn [k_group k_param].
    + intros cfg Hc. now apply rel_cgi.
    + now apply rel_parameter_raw.
Qed.
End NC.
