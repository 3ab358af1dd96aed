(** * Names and layout do not change the structure of a parse (C55) *)
From Coq Require Import String.
From Verif Require Import Base Token Lexer Pos Ast Builder Prog Iter Located IterProofs ParserBase Balanced Arith Word Redirect
  Command RunLemmas Entry Total Sim SimArith SimWord SimCommand Api DefaultBuilder SameParse CoreBuilder CoreConvert
  Names NamesArith NamesWord NamesCommand.
Local Open Scope N_scope.

(** ** The generic builder tells no two texts apart that its strings do not *)
Lemma map_f2 {A A'} (N : A -> A') l1 l2 : map N l1 = map N l2 -> Forall2 (by_ N) l1 l2.
Proof.
  revert l2. induction l1 as [|a l1 IH]; intros [|b l2] H; try discriminate H; constructor; cbn [map] in H.
  - unfold by_. congruence.
  - apply IH. congruence.
Qed.
Lemma f2_map {A A'} (N : A -> A') l1 l2 : Forall2 (by_ N) l1 l2 -> map N l1 = map N l2.
Proof. induction 1 as [|a b l1 l2 H _ IH]; [reflexivity|]. cbn [map]. unfold by_ in H. congruence. Qed.
Lemma Forall2_len {A A'} (R : A -> A' -> Prop) l1 l2 : Forall2 R l1 l2 -> List.length l1 = List.length l2.
Proof. induction 1 as [|a b l1 l2 _ _ IH]; [reflexivity|]. cbn. now rewrite IH. Qed.
Section Coalesce.
Context {A : Type} (R : A -> A -> Prop) (f : A -> A -> A + (A * A)).
Definition sum_like (x y : A + (A * A)) : Prop :=
  match x, y with inl a, inl b => R a b | inr p, inr q => R (fst p) (fst q) /\ R (snd p) (snd q) | _, _ => False end.
Hypothesis Hf : forall a b a2 b2, R a a2 -> R b b2 -> sum_like (f a b) (f a2 b2).
Lemma coalesce_loop_like : forall it it2, Forall2 R it it2 -> forall a a2 b b2, R a a2 -> R b b2 ->
  R (fst (fst (coalesce_loop f a b it))) (fst (fst (coalesce_loop f a2 b2 it2))) /\
  opt R (snd (fst (coalesce_loop f a b it))) (snd (fst (coalesce_loop f a2 b2 it2))) /\
  Forall2 R (snd (coalesce_loop f a b it)) (snd (coalesce_loop f a2 b2 it2)).
Proof.
  induction 1 as [|x y it it2 Hxy Hi IH]; intros a a2 b b2 Ha Hb; cbn [coalesce_loop]; specialize (Hf _ _ _ _ Ha Hb);
    destruct (f a b) as [c|[l r]], (f a2 b2) as [c2|[l2 r2]]; try contradiction; cbn [sum_like fst snd] in *.
  - repeat split; auto.
  - destruct Hf. repeat split; auto.
  - now apply IH.
  - destruct Hf. repeat split; auto.
Qed.
Lemma coalesce_next_like c c2 it it2 : opt R c c2 -> Forall2 R it it2 ->
  opt R (fst (coalesce_next f (c, it))) (fst (coalesce_next f (c2, it2))) /\
  opt R (fst (snd (coalesce_next f (c, it)))) (fst (snd (coalesce_next f (c2, it2)))) /\
  Forall2 R (snd (snd (coalesce_next f (c, it)))) (snd (snd (coalesce_next f (c2, it2)))).
Proof.
  intros Hc Hi. unfold coalesce_next.
  destruct c as [c|], c2 as [c2|]; try contradiction; destruct Hi as [|x y it it2 Hxy Hi]; cbn.
  - auto.
  - destruct (coalesce_loop_like it it2 Hi c c2 x y Hc Hxy) as (H1 & H2 & H3).
    destruct (coalesce_loop f c x it) as [[? ?] ?], (coalesce_loop f c2 y it2) as [[? ?] ?]; auto.
  - auto.
  - destruct Hi as [|x' y' it it2 Hxy' Hi]; cbn; [auto|].
    destruct (coalesce_loop_like it it2 Hi x y x' y' Hxy Hxy') as (H1 & H2 & H3).
    destruct (coalesce_loop f x x' it) as [[? ?] ?], (coalesce_loop f y y' it2) as [[? ?] ?]; auto.
Qed.
Lemma coalesce_collect_like : forall n c c2 it it2, opt R c c2 -> Forall2 R it it2 ->
  Forall2 R (coalesce_collect f n (c, it)) (coalesce_collect f n (c2, it2)).
Proof.
  induction n as [|n IH]; intros c c2 it it2 Hc Hi; [constructor|]. cbn [coalesce_collect].
  destruct (coalesce_next_like c c2 it it2 Hc Hi) as (H1 & H2 & H3).
  destruct (coalesce_next f (c, it)) as [x [c' it']], (coalesce_next f (c2, it2)) as [x2 [c2' it2']]. cbn [fst snd] in *.
  destruct x, x2; try contradiction; [|constructor]. constructor; auto.
Qed.
Lemma coalesce_like l l2 : Forall2 R l l2 -> Forall2 R (coalesce f l) (coalesce f l2).
Proof. intros H. unfold coalesce. rewrite <- (Forall2_len _ _ _ H). now apply coalesce_collect_like. Qed.
End Coalesce.

Lemma coalesce_simple_like {C} (a b a2 b2 : swk C) : RW a a2 -> RW b b2 ->
  sum_like RW (coalesce_simple a b) (coalesce_simple a2 b2).
Proof.
  unfold by_. intros Ha Hb.
  destruct a, a2; try discriminate Ha; try (split; assumption).
  cbn [nswk] in Ha. destruct b, b2; try discriminate Hb; try (split; assumption).
  cbn [nswk] in Hb. unfold sum_like, coalesce_simple. cbn [nswk]. f_equal. apply norm_app; congruence.
Qed.
Lemma coalesce_word_like {C} (a b a2 b2 : wk C) : RK a a2 -> RK b b2 ->
  sum_like RK (coalesce_word a b) (coalesce_word a2 b2).
Proof.
  unfold by_. intros Ha Hb.
  destruct a as [a|a|a], a2 as [a2|a2|a2]; try discriminate Ha;
    destruct b as [b|b|b], b2 as [b2|b2|b2]; try discriminate Hb; try (split; assumption);
    autorewrite with nk in *; cbn [coalesce_word].
  - assert (E1 : nswk a = nswk a2) by congruence. assert (E2 : nswk b = nswk b2) by congruence.
    pose proof (coalesce_simple_like a b a2 b2 E1 E2) as H.
    destruct (coalesce_simple a b) as [c|[l r]], (coalesce_simple a2 b2) as [c2|[l2 r2]]; try contradiction; cbn [sum_like fst snd] in *.
    + autorewrite with nk. now rewrite H.
    + destruct H as [H1 H2]. autorewrite with nk. unfold by_ in *. now rewrite H1, H2.
  - assert (E1 : map nswk a = map nswk a2) by congruence. assert (E2 : map nswk b = map nswk b2) by congruence.
    cbn [sum_like]. autorewrite with nk. f_equal. apply f2_map, coalesce_like; [apply coalesce_simple_like|].
    apply map_f2. rewrite !map_app. congruence.
  - cbn [sum_like]. autorewrite with nk. f_equal. apply norm_app; congruence.
Qed.
Lemma compress_like {C} (a b : cwk C) : RC a b -> RC (compress a) (compress b).
Proof.
  unfold by_. destruct a as [a|a], b as [b|b]; autorewrite with nk; intros H; try discriminate H.
  - assert (E : map nwk a = map nwk b) by congruence. cbn [compress].
    pose proof (coalesce_like RK coalesce_word coalesce_word_like a b (map_f2 _ _ _ E)) as F.
    destruct F as [|x y l1 l2 Hxy F]; [reflexivity|]. destruct F as [|x' y' l1 l2 Hxy' F].
    + autorewrite with nk. unfold by_ in Hxy. now rewrite Hxy.
    + autorewrite with nk. f_equal. apply f2_map. repeat constructor; assumption.
  - assert (E : nwk a = nwk b) by congruence.
    destruct a as [a|a|a], b as [b|b|b]; try discriminate E; cbn [compress]; autorewrite with nk.
    2: {
    autorewrite with nk in E. assert (E1 : map nswk a = map nswk b) by congruence. do 2 f_equal.
    apply f2_map, coalesce_like; [apply coalesce_simple_like|]. now apply map_f2. }
    all: autorewrite with nk in E; congruence.
Qed.

Fixpoint swk_depth_n {C} (w : swk C) : swk_depth (nswk w) = swk_depth w
with wk_depth_n {C} (w : wk C) : wk_depth (nwk w) = wk_depth w
with cwk_depth_n {C} (w : cwk C) : cwk_depth (ncwk w) = cwk_depth w
with psk_depth_n {C} (w : psk C) : psk_depth (npsk w) = psk_depth w.
Proof.
  - destruct w as [?|?|s|g|?| | | | | |]; try reflexivity. exact (psk_depth_n C s).
  - destruct w as [w|l|w]; try reflexivity; [exact (swk_depth_n C w)|].
    change (list_max (map swk_depth (map nswk l)) = list_max (map swk_depth l)). f_equal.
    induction l as [|x l IH]; [reflexivity|]. cbn [map]. f_equal; [apply swk_depth_n|apply IH].
  - destruct w as [l|w]; [|exact (wk_depth_n C w)].
    change (list_max (map wk_depth (map nwk l)) = list_max (map wk_depth l)). f_equal.
    induction l as [|x l IH]; [reflexivity|]. cbn [map]. f_equal; [apply wk_depth_n|apply IH].
  - destruct w as [g|?|?|c p w|c p w|c p w|c p w|p w|p w|p w|p w]; try reflexivity;
      (destruct w as [w|]; [|reflexivity]; exact (f_equal S (cwk_depth_n C w))).
Qed.

Section Core.
Variables T W C F : Type.
Variable from_string : str -> T.
Variable from_word : cb_shell_word T W C -> W.
Variable from_command : command_ (cb_list T W C F) -> C.
Variable from_compound : cb_compound T W C -> F.
Hypothesis Hs : forall a b, wordlike a -> wordlike b -> from_string a = from_string b.
Lemma fs_norm a b : norm a = norm b -> from_string a = from_string b.
Proof. rewrite norm_S. intros [->|[A B]]; auto. Qed.
Lemma norm_norm s : norm (norm s) = norm s.
Proof. unfold norm at 2 3. destruct (wordlikeb s) eqn:E; [reflexivity|]. unfold norm. now rewrite E. Qed.
Lemma fs_n s : from_string (norm s) = from_string s.
Proof. apply fs_norm, norm_norm. Qed.
Notation ar := (cb_map_arith T from_string).
Fixpoint arith_n (a : arith) : ar (narith a) = ar a.
Proof.
  destruct a; cbn [narith cb_map_arith]; rewrite ?fs_n, ?arith_n; try reflexivity.
  f_equal. rewrite map_map. induction l as [|x l IH]; [reflexivity|]. cbn [map]. now rewrite arith_n, IH.
Qed.
Notation pa := (cb_map_param T from_string).
Lemma param_n p : pa (nparam p) = pa p.
Proof. destruct p; try reflexivity. cbn. now rewrite fs_n. Qed.
Lemma param_like p q : nparam p = nparam q -> pa p = pa q.
Proof. intros H. now rewrite <- param_n, H, param_n. Qed.
Lemma arith_like p q : narith p = narith q -> ar p = ar q.
Proof. intros H. now rewrite <- arith_n, H, arith_n. Qed.
Section Rec.
Variables (r1 : cwk C -> W).
Hypothesis Hr : forall k1 k2, RC k1 k2 -> r1 k1 = r1 k2.
Lemma opt_rec_like w1 w2 : ROC w1 w2 -> option_map r1 w1 = option_map r1 w2.
Proof. intros H. apply opt_like in H. destruct w1, w2; try contradiction; [|reflexivity]. cbn. f_equal. now apply Hr. Qed.
Lemma subst_like s1 s2 : npsk s1 = npsk s2 -> cb_map_subst T W C from_string r1 s1 = cb_map_subst T W C from_string r1 s2.
Proof.
  destruct s1, s2; autorewrite with nk; intros H; try discriminate H; cbn [cb_map_subst].
  - unfold ncg in H. assert (E : ncg g = ncg g0) by (unfold ncg; congruence). now rewrite (proj1 (cg_nil g g0 E)).
  - f_equal. apply param_like. congruence.
  - f_equal. destruct a, a0; try discriminate H; [|reflexivity]. cbn. f_equal. apply arith_like. cbn in H. congruence.
  - f_equal; [congruence|apply param_like; congruence|apply opt_rec_like; unfold by_; congruence].
  - f_equal; [congruence|apply param_like; congruence|apply opt_rec_like; unfold by_; congruence].
  - f_equal; [congruence|apply param_like; congruence|apply opt_rec_like; unfold by_; congruence].
  - f_equal; [congruence|apply param_like; congruence|apply opt_rec_like; unfold by_; congruence].
  - f_equal; [apply param_like; congruence|apply opt_rec_like; unfold by_; congruence].
  - f_equal; [apply param_like; congruence|apply opt_rec_like; unfold by_; congruence].
  - f_equal; [apply param_like; congruence|apply opt_rec_like; unfold by_; congruence].
  - f_equal; [apply param_like; congruence|apply opt_rec_like; unfold by_; congruence].
Qed.
Lemma simple_like s1 s2 : RW s1 s2 -> cb_map_simple T W C from_string r1 s1 = cb_map_simple T W C from_string r1 s2.
Proof.
  unfold by_. destruct s1, s2; autorewrite with nk; intros H; try discriminate H; try reflexivity; cbn [cb_map_simple].
  - f_equal. apply fs_norm. congruence.
  - f_equal. apply param_like. congruence.
  - f_equal. apply subst_like. congruence.
  - assert (E : ncg g = ncg g0) by congruence. now rewrite (proj1 (cg_nil g g0 E)).
  - f_equal. apply fs_norm. congruence.
Qed.
Lemma simples_like l1 l2 : map nswk l1 = map nswk l2 ->
  map (cb_map_simple T W C from_string r1) l1 = map (cb_map_simple T W C from_string r1) l2.
Proof. intros H. apply map_f2 in H. induction H as [|a b l1 l2 H _ IH]; [reflexivity|]. cbn [map]. now rewrite (simple_like a b H), IH. Qed.
Lemma word_like w1 w2 : RK w1 w2 -> cb_map_word T W C from_string r1 w1 = cb_map_word T W C from_string r1 w2.
Proof.
  unfold by_. destruct w1 as [w1|w1|w1], w2 as [w2|w2|w2]; autorewrite with nk; intros H; try discriminate H; cbn [cb_map_word]; f_equal.
  - apply simple_like. unfold by_. congruence.
  - apply simples_like. congruence.
  - apply fs_norm. congruence.
Qed.
Lemma complex_like k1 k2 : RC k1 k2 -> cb_map_complex T W C from_string from_word r1 k1 = cb_map_complex T W C from_string from_word r1 k2.
Proof.
  intros H. unfold cb_map_complex. f_equal. apply compress_like in H. unfold by_ in H.
  destruct (compress k1) as [l1|w1], (compress k2) as [l2|w2]; autorewrite with nk in H; try discriminate H; f_equal.
  - assert (E : map nwk l1 = map nwk l2) by congruence. apply map_f2 in E.
    induction E as [|a b l1 l2 E1 _ IH]; [reflexivity|]. cbn [map]. rewrite (word_like a b E1). f_equal. apply IH.
    revert H. cbn [map]. intros H. congruence.
  - apply word_like. unfold by_. congruence.
Qed.
End Rec.
Lemma word_n_like : forall n k1 k2, RC k1 k2 -> cb_word_n T W C from_string from_word n k1 = cb_word_n T W C from_string from_word n k2.
Proof. induction n as [|n IH]; intros k1 k2 H; cbn [cb_word_n]; apply complex_like; auto. Qed.
Lemma core_word_like k1 k2 : RC k1 k2 -> cb_core_word T W C from_string from_word k1 = cb_core_word T W C from_string from_word k2.
Proof.
  intros H. unfold cb_core_word. rewrite <- (cwk_depth_n k1), <- (cwk_depth_n k2). unfold by_ in H. rewrite H. now apply word_n_like.
Qed.

Notation core := (core_builder T W C F from_string from_word from_command from_compound).
Lemma blind_core : blind core.
Proof.
  split; cbn [core_builder o_complete_command o_and_or_list o_pipeline o_simple_command o_brace_group o_subshell o_loop_command
    o_if_command o_for_command o_case_command o_function_declaration o_comments o_word b_list b_cmd b_listable b_pipeable b_word b_redirect b_compound bst].
  - reflexivity.
  - intros a l1 l2 b H. unfold cb_and_or_list. now rewrite H.
  - intros a l1 l2 b H. unfold cb_pipeline. now rewrite H.
  - intros v1 v2 a b H. unfold cb_simple_command. do 3 f_equal.
    apply map_f2 in H. induction H as [|x y v1 v2 H _ IH]; [reflexivity|]. cbn [map]. rewrite IH. f_equal.
    unfold by_ in H. destruct x as [r|v w], y as [r2|v2' w2]; try discriminate H; cbn [nenv] in H; [congruence|].
    assert (E1 : norm v = norm v2') by congruence. rewrite (fs_norm _ _ E1). congruence.
  - intros g1 g2 r b H. unfold cb_brace_group. now rewrite (proj1 (cg_nil g1 g2 H)).
  - intros g1 g2 r b H. unfold cb_subshell. now rewrite (proj1 (cg_nil g1 g2 H)).
  - intros k g1 g2 r b H. unfold cb_loop_command.
    assert (E1 : ncg (gguard g1) = ncg (gguard g2)) by (unfold ngbp in H; congruence).
    assert (E2 : ncg (gbody g1) = ncg (gbody g2)) by (unfold ngbp in H; congruence).
    now rewrite (proj1 (cg_nil _ _ E1)), (proj1 (cg_nil _ _ E2)).
  - intros g1 g2 r b H. unfold cb_if_command. unfold nif in H.
    assert (E1 : map ngbp (conditionals g1) = map ngbp (conditionals g2)) by congruence.
    assert (E2 : option_map ncg (else_branch g1) = option_map ncg (else_branch g2)) by congruence.
    clear H. do 3 f_equal.
    + apply map_f2 in E1. induction E1 as [|x y v1 v2 E _ IH]; [reflexivity|]. cbn [map]. rewrite IH. f_equal.
      unfold by_ in E.
      assert (F1 : ncg (gguard x) = ncg (gguard y)) by (unfold ngbp in E; congruence).
      assert (F2 : ncg (gbody x) = ncg (gbody y)) by (unfold ngbp in E; congruence).
      now rewrite (proj1 (cg_nil _ _ F1)), (proj1 (cg_nil _ _ F2)).
    + destruct (else_branch g1) as [x|], (else_branch g2) as [y|]; try discriminate E2; [|reflexivity]. cbn in *.
      assert (F1 : ncg x = ncg y) by congruence. now rewrite (proj1 (cg_nil _ _ F1)).
  - intros g1 g2 r b H. unfold cb_for_command. destruct g1 as [v1 c1 w1 p1 b1], g2 as [v2 c2 w2 p2 b2].
    unfold nfor in H. cbn [ff_var ff_words ff_body] in *.
    assert (E1 : norm v1 = norm v2) by congruence. assert (E2 : ncg b1 = ncg b2) by congruence.
    assert (E3 : nfwords w1 = nfwords w2) by congruence.
    rewrite (fs_norm _ _ E1), (proj1 (cg_nil _ _ E2)). do 3 f_equal.
    destruct w1 as [[[? ?] ?]|], w2 as [[[? ?] ?]|]; try discriminate E3; [|reflexivity]. cbn in *. congruence.
  - intros g1 g2 r b H. unfold cb_case_command. destruct g1 as [v1 c1 i1 a1 p1], g2 as [v2 c2 i2 a2 p2].
    unfold ncase in H. cbn [cf_word cf_arms] in *.
    assert (E1 : v1 = v2) by congruence. assert (E2 : map narm a1 = map narm a2) by congruence. subst v2. do 3 f_equal.
    clear H. apply map_f2 in E2. induction E2 as [|x y l1 l2 E _ IH]; [reflexivity|]. cbn [map]. rewrite IH. f_equal.
    unfold by_, narm in E.
    assert (F1 : ncg (arm_body x) = ncg (arm_body y)) by congruence. rewrite (proj1 (cg_nil _ _ F1)). congruence.
  - intros n1 n2 l1 l2 c b H. unfold cb_function_declaration. now rewrite (fs_norm _ _ H).
  - reflexivity.
  - intros w1 w2 b H. now rewrite (core_word_like w1 w2 H).
Qed.
End Core.

(** ** The parser's iterator over a builder that tells no two such texts apart *)
Lemma toks_left s : strm (abs s) = tokens_left s.
Proof. exact (tokens_left_abs s). Qed.
Section Iter.
Variable B : builder.
Hypothesis HB : blind B.
Definition like_iter (st1 st2 : parser_iter concrete B) : Prop :=
  match st1, st2 with
  | None, None => True
  | Some (s1, b1), Some (s2, b2) => good s1 /\ good s2 /\ Forall2 TR (tokens_left s1) (tokens_left s2) /\ b1 = b2
  | _, _ => False
  end.
(** What two calls of [next] give: the same, up to the tokens and positions in an error. *)
Definition next_alike (r1 r2 : option (outcome (b_err B) (b_cmd B))) : Prop :=
  match r1, r2 with Some o1, Some o2 => out_like eq o1 o2 | None, None => True | _, _ => False end.
Lemma like_next fuel st1 st2 : like_iter st1 st2 -> (left_in st1 + 2 < fuel)%nat ->
  forall r1 st1' r2 st2', parser_iter_next concrete B fuel st1 = (r1, st1') ->
  parser_iter_next concrete B fuel st2 = (r2, st2') ->
  next_alike r1 r2 /\ like_iter st1' st2' /\ (forall c, r1 = Some (OOk c) -> (left_in st1' <= left_in st1)%nat).
Proof.
  intros HS Hf r1 st1' r2 st2' E1 E2. unfold like_iter in HS.
  destruct st1 as [[s1 b1]|], st2 as [[s2 b2]|]; try contradiction.
  2: { injection E1 as <- <-. injection E2 as <- <-. repeat split. discriminate. }
  destruct HS as (G1 & G2 & HT & <-). cbn [left_in] in Hf. cbn [parser_iter_next] in E1, E2.
  destruct (run concrete (p_complete_command B fuel) s1 b1) as [[o1 s1'] b1'] eqn:R1.
  destruct (run concrete (p_complete_command B fuel) s2 b1) as [[o2 s2'] b2'] eqn:R2.
  pose proof (entry_total B _ (call B ACompleteCommand) True fuel s1 b1 (call_entry _ _) G1 (fun _ => I) Hf) as T1.
  assert (R1' : run concrete (call B ACompleteCommand fuel) s1 b1 = (o1, s1', b1')) by exact R1.
  rewrite R1' in T1. destruct T1 as [G1' T1].
  pose proof (run_transfer (p_complete_command B fuel) s1 b1 G1) as L1. rewrite R1 in L1. destruct L1 as [L1 _].
  pose proof (run_transfer (p_complete_command B fuel) s2 b1 G2) as L2. rewrite R2 in L2. destruct L2 as [L2 G2'].
  pose proof (rel_complete_command B HB fuel _ (like_knot B HB fuel fuel) (abs s1) (abs s2) b1) as S'.
  rewrite !toks_left in S'. specialize (S' HT). change (complete_command B fuel (knot B fuel fuel)) with (p_complete_command B fuel) in S'.
  unfold lrun in S'. rewrite L1, L2 in S'.
  destruct o1 as [a1|e1|x1|]; [| | |contradiction]; destruct S' as (S1 & S2 & <-); rewrite !toks_left in S2;
    destruct o2 as [a2|e2|x2|]; try contradiction; cbn [out_like] in S1.
  - subst a2. destruct a1 as [c|]; injection E1 as <- <-; injection E2 as <- <-.
    + split; [reflexivity|]. split; [cbn; auto|]. intros c' _. exact T1.
    + split; [exact I|]. split; [exact I|discriminate].
  - injection E1 as <- <-. injection E2 as <- <-. split; [exact S1|]. split; [exact I|discriminate].
  - injection E1 as <- <-. injection E2 as <- <-. split; [exact S1|]. split; [cbn; auto|discriminate].
Qed.
Lemma like_yields fuel cs st1 st1' : yields B fuel st1 cs st1' ->
  forall st2, like_iter st1 st2 -> (left_in st1 + 2 < fuel)%nat ->
  exists st2', yields B fuel st2 cs st2' /\ like_iter st1' st2' /\ (left_in st1' + 2 < fuel)%nat.
Proof.
  induction 1 as [st1|st1 c sti cs st1' E _ IH]; intros st2 HS Hf; [exists st2; split; [constructor|auto]|].
  destruct (parser_iter_next concrete B fuel st2) as [r2 st2i] eqn:E2.
  destruct (like_next fuel st1 st2 HS Hf _ _ _ _ E E2) as (Hr & HS' & HL).
  destruct r2 as [[c2|?|?|]|]; try contradiction. cbn in Hr. subst c2.
  destruct (IH st2i HS' ltac:(specialize (HL c eq_refl); lia)) as (st2' & Y & HS2 & HF).
  exists st2'. split; [|auto]. eapply y_cons; [exact E2|exact Y].
Qed.
Lemma like_ends fuel ts1 ts2 b cs r1 : Forall2 TR ts1 ts2 -> (List.length ts1 + 2 < fuel)%nat ->
  ends (B:=B) fuel ts1 b cs r1 -> exists r2, ends (B:=B) fuel ts2 b cs r2 /\ next_alike r1 r2.
Proof.
  intros HT Hf (st & st' & Y & E).
  assert (HS : like_iter (parser_iter_new B ts1 b) (parser_iter_new B ts2 b)) by (cbn; auto).
  destruct (like_yields fuel _ _ _ Y _ HS Hf) as (st2 & Y2 & HS2 & HF2).
  destruct (parser_iter_next concrete B fuel st2) as [r2 st2'] eqn:E2.
  destruct (like_next _ _ _ HS2 HF2 _ _ _ _ E E2) as (H & _).
  exists r2. split; [exists st2, st2'; auto|exact H].
Qed.
End Iter.

(** ** The specification *)
(** Two scripts, as tokens, that are written with different names and different blanks: wherever the
    one has an ordinary name, so has the other, and wherever the one has a blank, so has the other;
    every other token is the same, and there are no here-documents ([TR] above).  An ordinary name is
    not a reserved word and has a character that is neither a digit nor [+], and so has a blank. *)
Definition renamed (ts1 ts2 : list token) : Prop := Forall2 TR ts1 ts2.

(** The shape of a command: its tree, with every text that has a character other than digits and [+]
    replaced by the same one. *)
Inductive shape_word := ShWord (w : cb_shell_word str shape_word shape_cmd)
with shape_cmd := ShCmd (c : command_ (cb_list str shape_word shape_cmd (cb_compound str shape_word shape_cmd))).
Definition blur (s : str) : str := if wordlikeb s then [120] else s.
Definition shape : tlcmd -> shape_cmd := to_cmd str shape_word shape_cmd _ blur ShWord ShCmd (fun c => c).
(** What follows the commands: the end of the script, the same kind of error, or the same panic. *)
Definition end_alike (r1 r2 : option (outcome default_err tlcmd)) : Prop :=
  match r1, r2 with
  | None, None => True
  | Some (OOk c1), Some (OOk c2) => shape c1 = shape c2
  | Some (OErr e1), Some (OErr e2) => err_like e1 e2
  | Some (OPanic x1), Some (OPanic x2) => x1 = x2
  | _, _ => False
  end.

(** C55: however its names and blanks are written, a script without here-documents gives commands of
    the same shape, and then ends, fails or panics alike. *)
Theorem names_do_not_change_structure fuel ts1 ts2 cs1 r1 : renamed ts1 ts2 -> (List.length ts1 + 2 < fuel)%nat ->
  ends (B:=default_builder) fuel ts1 tt cs1 r1 ->
  exists cs2 r2, ends (B:=default_builder) fuel ts2 tt cs2 r2 /\ map shape cs1 = map shape cs2 /\ end_alike r1 r2.
Proof.
  intros HT Hf H1.
  set (core := core_builder str shape_word shape_cmd _ blur ShWord ShCmd (fun c : cb_compound str shape_word shape_cmd => c)).
  assert (HB : blind core).
  { apply blind_core. intros a b Ha Hb. apply norm_S. now right. }
  assert (Hf2 : (List.length ts2 + 2 < fuel)%nat) by (rewrite <- (Forall2_len _ _ _ HT); exact Hf).
  assert (C1 : ends (B:=core) fuel ts1 tt (map shape cs1) (option_map (map_outcome shape) r1)).
  { apply (core_iterator_same blur ShWord ShCmd (fun c => c)); [exact Hf|]. exists cs1, r1. auto. }
  destruct (like_ends core HB fuel ts1 ts2 tt _ _ HT Hf C1) as (r2' & C2 & HA).
  apply (core_iterator_same blur ShWord ShCmd (fun c => c)) in C2; [|exact Hf2].
  destruct C2 as (cs2 & r2 & C2 & E & ->). exists cs2, r2. split; [exact C2|]. split; [exact E|].
  destruct r1 as [[?|?|?|]|], r2 as [[?|?|?|]|]; exact HA.
Qed.
(** The same for every builder that tells no two such texts apart: [CoreBuilder]s over any string type
    whose conversion does not. *)
Theorem names_do_not_change_conversions {T W C F : Type} (from_string : str -> T) (from_word : cb_shell_word T W C -> W)
  (from_command : command_ (cb_list T W C F) -> C) (from_compound : cb_compound T W C -> F) fuel ts1 ts2 cs r1 :
  (forall a b, wordlike a -> wordlike b -> from_string a = from_string b) ->
  renamed ts1 ts2 -> (List.length ts1 + 2 < fuel)%nat ->
  ends (B:=core_builder T W C F from_string from_word from_command from_compound) fuel ts1 tt cs r1 ->
  exists r2, ends (B:=core_builder T W C F from_string from_word from_command from_compound) fuel ts2 tt cs r2 /\
  next_alike _ r1 r2.
Proof. intros Hs HT Hf H1. exact (like_ends _ (blind_core _ _ _ _ _ _ _ _ Hs) _ _ _ _ _ _ HT Hf H1). Qed.
Lemma renamed_sym ts1 ts2 : renamed ts1 ts2 -> renamed ts2 ts1.
Proof. induction 1 as [|a b l1 l2 H _ IH]; constructor; [|exact IH]. destruct H; constructor; assumption. Qed.
(** In particular one is accepted exactly when the other is. *)
Corollary names_do_not_change_acceptance fuel ts1 ts2 : renamed ts1 ts2 -> (List.length ts1 + 2 < fuel)%nat ->
  (exists cs, ends (B:=default_builder) fuel ts1 tt cs None) <-> (exists cs, ends (B:=default_builder) fuel ts2 tt cs None).
Proof.
  intros HT Hf. pose proof (Forall2_len _ _ _ HT) as HL. split; intros (cs & H).
  - destruct (names_do_not_change_structure _ _ _ _ _ HT Hf H) as (cs2 & r2 & H2 & _ & HA).
    destruct r2; [contradiction|]. now exists cs2.
  - destruct (names_do_not_change_structure fuel ts2 ts1 _ _ (renamed_sym _ _ HT) ltac:(lia) H) as (cs2 & r2 & H2 & _ & HA).
    destruct r2; [contradiction|]. now exists cs2.
Qed.

(** ** Cases that meet the hypotheses *)
Section Witness.
#[local] Instance some_uni : Uni := fun _ => false.
Definition script1 : list token := lex (s_of "for x in a$y ${z:-b} 7; do if grep -q u f; then n=$((i + 1)); fi 2>&1 # note
done
g() { echo; } ; w ""c d"" &").
Definition script2 : list token := lex (s_of "for   number   in    file$name    ${other:-default} 7;   do  if  test -q word     path;  then total=$((count  +  1)); fi   2>&1   # remark
done
fun() {     print;    }   ;  write ""to  me""   &").
Definition wordb (s : str) : bool := wordlikeb s && negb (existsb (str_eqb s) keywords).
Lemma wordb_ok s : wordb s = true -> ordinary s.
Proof.
  unfold wordb. intros H. apply andb_prop in H. destruct H as [H1 H2]. split; [|now apply wordlikeb_spec].
  intros Hi. apply negb_true_iff in H2.
  assert (E : existsb (str_eqb s) keywords = true).
  { apply existsb_exists. exists s. split; [exact Hi|]. destruct (str_eqb_spec s s); congruence. }
  congruence.
Qed.
Ltac ren :=
  unfold renamed; match goal with |- Forall2 _ ?a ?b =>
    let a' := eval vm_compute in a in let b' := eval vm_compute in b in change (Forall2 TR a' b') end;
  repeat (apply Forall2_cons;
    [first [apply tr_same; intros H; exact H
           |apply tr_name; apply wordb_ok; vm_compute; reflexivity
           |apply tr_blank; apply wordlikeb_spec; reflexivity]|]);
  apply Forall2_nil.
(** Two scripts with different names and layout: three commands of the same shape from both. *)
Example names_witness : renamed script1 script2 /\ script1 <> script2 /\
  exists cs1 cs2, ends (B:=default_builder) 200 script1 tt cs1 None /\ ends (B:=default_builder) 200 script2 tt cs2 None /\
    List.length cs1 = 3%nat /\ cs1 <> cs2 /\ map shape cs1 = map shape cs2.
Proof.
  assert (HR : renamed script1 script2).
  { ren. }
  split; [exact HR|]. split; [vm_compute; discriminate|].
  assert (HE : exists cs1 cs2, ends (B:=default_builder) 200 script1 tt cs1 None /\ ends (B:=default_builder) 200 script2 tt cs2 None /\
    List.length cs1 = 3%nat /\ cs1 <> cs2 /\ map shape cs1 = map shape cs2).
  2: exact HE.
  eexists. eexists. split; [|split; [|split; [|split]]].
  - eexists. eexists. split.
    + eapply y_cons; [vm_compute; reflexivity|]. eapply y_cons; [vm_compute; reflexivity|]. eapply y_cons; [vm_compute; reflexivity|]. apply y_nil.
    + vm_compute. reflexivity.
  - eexists. eexists. split.
    + eapply y_cons; [vm_compute; reflexivity|]. eapply y_cons; [vm_compute; reflexivity|]. eapply y_cons; [vm_compute; reflexivity|]. apply y_nil.
    + vm_compute. reflexivity.
  - reflexivity.
  - vm_compute. discriminate.
  - vm_compute. reflexivity.
Qed.
(** And two that are rejected alike. *)
Example names_witness_error :
  renamed (lex (s_of "for x in a b; don c; done")) (lex (s_of "for   y in   u    v;   doing   c; done")) /\
  exists e1 e2, ends (B:=default_builder) 60 (lex (s_of "for x in a b; don c; done")) tt [] (Some (OErr e1)) /\
    ends (B:=default_builder) 60 (lex (s_of "for   y in   u    v;   doing   c; done")) tt [] (Some (OErr e2)) /\
    e1 <> e2 /\ err_like e1 e2.
Proof.
  split; [ren|].
  eexists. eexists. split; [|split; [|split]].
  - eexists. eexists. split; [apply y_nil|]. vm_compute. reflexivity.
  - eexists. eexists. split; [apply y_nil|]. vm_compute. reflexivity.
  - discriminate.
  - vm_compute. tauto.
Qed.
End Witness.
