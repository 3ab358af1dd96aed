(** * How much a call does: words *)
From Verif Require Import Base Token Pos Ast Builder Prog Iter Located IterProofs RunLemmas ParserBase Balanced BalancedSpec BalancedTotal Wp
  Total Arith Word Work WorkBase WorkBal WorkArith.
Local Open Scope Z_scope.

Lemma unescape_length l : (length (unescape l) <= length l)%nat.
Proof.
  remember (length l) as n eqn:E. revert l E. induction n as [n IH] using (well_founded_induction lt_wf). intros l ->.
  destruct l as [|t l]; [cbn; lia|].
  pose proof (IH (length l) ltac:(cbn; lia) l eq_refl) as H1.
  destruct t; try (cbn [unescape length]; lia). destruct l as [|u l]; [cbn; lia|].
  pose proof (IH (length l) ltac:(cbn; lia) l eq_refl) as H2. destruct u; cbn [unescape length]; lia.
Qed.
Lemma locate_length ts : forall p, length (locate ts p) = length ts.
Proof. induction ts as [|t ts IH]; intros p; cbn; auto. Qed.
Lemma iter_tokens_size i : Z.of_nat (iter_tokens i) = sz (l_make i).
Proof.
  unfold sz, size. destruct i as [ts|p cs]; cbn [iter_tokens l_make toks].
  - now rewrite locate_length.
  - f_equal. induction cs as [|[c q] cs IH]; cbn [flat_map fst snd]; auto. rewrite !app_length, locate_length. lia.
Qed.

Section Raw.
Context {BS BE : Type}.
Notation prog := (prog BS BE).
Variables N P : Z.
Hypothesis HN : 0 <= N.
Hypothesis HP : 20 <= P.
(** A step whose price is known, and what it does to the stream. *)
Lemma c_raw {A C} w (Q : A -> located -> Prop) k r (p : prog A) (f : A -> prog C) l :
  (sz l <= N -> forall b, match lrun p l b with
    | (OOk a, l', _) => sz l' <= sz l /\ Q a l' /\ lwork p l b <= w
    | (OErr _, _, _) | (OPanic _, _, _) => lwork p l b <= w
    | (OFuel, _, _) => True end) ->
  w <= k + P * sz l ->
  (forall a l', sz l <= N -> sz l' <= sz l -> Q a l' -> cost N P (k - w + P * (sz l - sz l')) r (f a) l') -> cost N P k r (bind p f) l.
Proof.
  intros Hp Hk Hf HS b. rewrite lrun_bind. specialize (Hp HS b). rewrite lwork_bind.
  destruct (lrun p l b) as [[[a|e|s|] l'] b'] eqn:E; auto; try lia.
  destruct Hp as [H1 [HQ H2]]. specialize (Hf a l' HS H1 HQ ltac:(lia) b').
  destruct (lrun (f a) l' b') as [[[c|e|s|] l2] b2]; auto; nia.
Qed.
Lemma c_create {C} fuel p k r (f : new_iter -> prog C) l : N + 2 < Z.of_nat fuel -> 20 * N + 20 <= k ->
  (forall i l', sz l <= N -> sz (l_make i) + 1 <= sz l - sz l' ->
     cost N P (k - 20 * N - 20 + P * (sz l - sz l')) r (f i) l') ->
  cost N P k r (bind (create_token_iter fuel p) f) l.
Proof.
  intros Hf Hk H. pose proof (sz_pos l) as H0.
  apply (c_raw (20 * N + 20) (fun i l' => sz (l_make i) + 1 <= sz l - sz l')).
  - intros HS b. pose proof (s_create (BS:=BS) (BE:=BE) N 20 (Z.le_refl _) fuel p 20 l (Z.le_refl _) HS b) as W.
    destruct (create_token_iter_total (BS:=BS) (BE:=BE) fuel p l b ltac:(unfold sz, size in *; lia)) as
      [(i & body & q & rest & E & E1 & E2 & E3 & E4 & E5)|(t & q & l' & E & _)]; rewrite E in *.
    + destruct W as [W1 W2]. split; auto. pose proof (sz_pos (mkL rest (end_pos l))). split; [|lia].
      unfold sz, size in *. cbn [toks] in *. rewrite E1 in *. apply (f_equal (@length _)) in E3. rewrite !map_length in E3.
      pose proof (unescape_length (map fst body)). rewrite map_length in H2. rewrite app_length in *. cbn [length] in *. lia.
    + lia.
  - nia.
  - intros i l' HS H1 H2. replace (k - 20 * N - 20) with (k - (20 * N + 20)) in H by lia. auto.
Qed.
Lemma c_sub_end {D A} i rb (q : prog D) c k r (f : D -> prog A) l : 0 <= c -> spec N P c (fun _ => - c) q ->
  sz (l_make i) <= N -> 0 <= k - c - 1 - N - P * sz (l_make i) ->
  (forall a, cost N P (k - 1 - N - P * sz (l_make i) - c) r (f a) l) ->
  cost N P k r (bind (sub_iter i rb q) f) l.
Proof.
  intros Hc Hq HM HE H. pose proof (iter_tokens_size i) as Hi.
  eapply c_sub; [exact HP|exact HM|apply (Hq c); lia| |]; rewrite Hi; [lia|].
  intros a. eapply c_mono; [|intros; apply Z.le_refl|apply H]. lia.
Qed.
End Raw.
#[local] Opaque cost Work.spec.

Section Wd.
Context {BS BE C : Type}.
Notation prog := (prog BS BE).
Variables N P : Z.
Hypothesis HN : 0 <= N.
Hypothesis HP : 5000 + 100 * N <= P.
Notation spec := (spec N P).
Variable fuel : nat.
Hypothesis Hfuel : N + 2 < Z.of_nat fuel.
(** The recursive calls. *)
Definition k_ok (K : knots BS BE C) : Prop :=
  (forall cfg, spec 500 (fun _ => -500) (k_group K cfg)) /\ spec 10 (fun _ => 1000) (k_param K).
Variable K : knots BS BE C.
Hypothesis HK : k_ok K.
Lemma kg cfg : spec 500 (fun _ => -500) (k_group K cfg). Proof. apply HK. Qed.
Lemma kpm : spec 10 (fun _ => 1000) (k_param K). Proof. apply HK. Qed.

Lemma s_backticked : spec 10 (fun _ => 1000) (backticked_raw fuel K).
Proof.
  wspec. unfold backticked_raw. wk1. eapply c_spec; [apply s_eat; lia|lia|]. intros [] l1 Hs. cbv beta.
  apply c_create; try lia. intros i l2 HS Hm. pose proof (sz_pos (l_make i)). pose proof (sz_pos l2).
  assert (P * (sz (l_make i) + 1) <= P * (sz l1 - sz l2)) by nia.
  eapply (c_sub_end N P ltac:(lia) _ _ _ 500); [lia|apply kg|nia|nia|]. intros a. apply c_ret. nia.
Qed.

Ltac wleaf ::=
  lazymatch goal with
  | |- Work.spec _ _ _ _ (eat _) => apply s_eat
  | |- Work.spec _ _ _ _ (eat_maybe _) => apply s_eat_maybe
  | |- Work.spec _ _ _ _ (skip_whitespace _) => apply s_skip_whitespace
  | |- Work.spec _ _ _ _ (backticked_raw _ _) => apply s_backticked
  | |- Work.spec _ _ _ _ (k_param _) => apply kpm
  | |- Work.spec _ _ _ _ (k_group _ _) => apply kg
  | |- Work.spec _ _ _ _ (collect_balanced _ _) => apply s_collect
  | |- Work.spec _ _ _ _ (arithmetic_substitution _) => apply s_arith
  | |- _ => whyp
  end; try lia.
Lemma s_interp_loop d p : forall n ws buf, spec 20 (fun _ => -20) (word_interp_loop fuel K d p n ws buf).
Proof.
  induction n as [|n IH]; intros ws buf; wspec; cbn [word_interp_loop]; [wk|].
  wk1. destruct (otoken_eqb (l_hd l) (option_map snd d)); [wk|].
  destruct (l_hd l) as [t|] eqn:E; [destruct t|]; wk.
Qed.
Lemma s_interp d p : spec 20 (fun _ => -20) (word_interpolated_raw fuel K d p).
Proof. apply s_interp_loop. Qed.
Definition pot {X} (ws : list X) : Z := match ws with [] => 0 | _ => 900 end.
Lemma pot_snoc {X} (ws : list X) w : pot (ws ++ [w]) = 900.
Proof. destruct ws; reflexivity. Qed.
Lemma pot_range {X} (ws : list X) : 0 <= pot ws <= 900.
Proof. destruct ws; cbn; lia. Qed.
Ltac wloop IH := lazymatch goal with
  | |- cost _ _ _ _ (word_loop _ _ _ _ _) _ => eapply c_end; [apply IH|lia|intros; cbv beta; rewrite pot_snoc; lia]
  | |- cost _ _ _ _ (bind (word_interpolated_raw _ _ _ _) _) _ => eapply c_spec; [apply s_interp|lia|intros ? ? ?]
  | _ => wk1 end.
Lemma s_word_loop d : forall n ws, spec 20 (fun ws' => pot ws' - pot ws - 20) (word_loop fuel K d n ws).
Proof.
  induction n as [|n IH]; intros ws; wspec; cbn [word_loop]; pose proof (pot_range ws); [wk|].
  wk1. destruct (match d with Some _ => _ | None => _ end); [wk|].
  destruct (l_hd l) as [t|] eqn:E; [destruct t|]; cbn [word_class_of]; repeat wloop IH.
Qed.
Definition g_word (o : option (cwk C)) : Z := match o with Some _ => 850 | None => -30 end.
Ltac wred ::= cbv beta iota delta [g_word].
Lemma s_word_delim d : spec 40 g_word (word_raw_with_delim fuel K d).
Proof.
  wspec. unfold word_raw_with_delim. wk1. wk1. wk1; [wk|].
  eapply c_spec; [apply s_word_loop|lia|]. intros ws l2 Hs. cbv beta. apply c_ret. destruct ws as [|w [|w2 ws]]; cbn [pack_words g_word pot]; lia.
Qed.
Lemma s_word_raw : spec 40 g_word (word_raw fuel K).
Proof. apply s_word_delim. Qed.
Lemma s_capture_literals : forall n ws, spec 10 (fun _ => -10) (capture_literals n ws : prog (list (wk C) * bool)).
Proof.
  induction n as [|n IH]; intros ws; wspec; cbn [capture_literals]; [wk|].
  wk1. destruct (l_hd l) as [t|] eqn:E; [destruct t|]; cbn [subst_class_of]; wk.
Qed.
Lemma s_capture_words : forall n ws, spec 50 (fun _ => -50) (capture_words fuel K n ws).
Proof.
  pose proof s_word_delim. pose proof s_capture_literals.
  induction n as [|n IH]; intros ws; wspec; cbn [capture_words]; wk.
Qed.
Ltac wred ::= cbv beta iota.
Lemma s_subst_word p : spec 60 (fun _ => -60) (parameter_substitution_word_raw fuel K p).
Proof. wspec. unfold parameter_substitution_word_raw. pose proof s_capture_words. wk. Qed.
Lemma s_param_inner : spec 5 (fun _ => P - 5) (parameter_inner : prog _).
Proof. wspec. unfold parameter_inner. wk. Qed.
Lemma s_subst_body p q : spec 10 (fun _ => 2000) (parameter_substitution_body_raw fuel K p q).
Proof. wspec. unfold parameter_substitution_body_raw. pose proof s_subst_word. wk. Qed.
Lemma s_subshell e : spec 10 (fun _ => 2000) (subshell_internal K e).
Proof. wspec. unfold subshell_internal. wk. Qed.
Lemma s_paren : spec 20 (fun _ => 1800) (paren_substitution fuel K).
Proof. wspec. unfold paren_substitution. pose proof s_subshell. wk. Qed.
Lemma s_curly p : spec 10 (fun _ => 1800) (curly_substitution fuel K p).
Proof. wspec. unfold curly_substitution. pose proof s_subst_body. pose proof s_subst_word. pose proof s_param_inner. wk. Qed.
Lemma s_param_subst : spec 30 (fun _ => 1500) (parameter_substitution_raw fuel K).
Proof. wspec. unfold parameter_substitution_raw. pose proof s_paren. pose proof s_curly. wk. Qed.
Lemma s_parameter : spec 10 (fun _ => 1000) (parameter_raw fuel K).
Proof. wspec. unfold parameter_raw. pose proof s_param_subst. pose proof s_param_inner. wk. Qed.
End Wd.
