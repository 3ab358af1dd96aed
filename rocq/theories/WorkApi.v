(** * C54: the work of a call is at most quadratic *)
From Coq Require Import String.
From Verif Require Import Base Token Pos Ast Builder Prog Iter Located IterProofs RunLemmas ParserBase Balanced BalancedSpec BalancedTotal Wp
  Total Arith Word Redirect Command Entry Api Lexer LexTheorems DefaultBuilder Work WorkBase WorkBal WorkArith WorkWord WorkRedirect WorkCommand.
Local Open Scope Z_scope.
Lemma mk_cost {BS BE A} N P c r (p : prog BS BE A) : Work.spec N P c r p -> forall k l, c <= k -> sz l <= N -> forall b, match lrun p l b with
  | (OOk a, l', _) => sz l' <= sz l /\ lwork p l b + (k + r a) <= P * (sz l - sz l') + k
  | (OErr _, _, _) | (OPanic _, _, _) => lwork p l b <= P * sz l + k
  | (OFuel, _, _) => True end.
Proof. intros H k l Hk. exact (H k l Hk). Qed.
#[local] Opaque cost Work.spec.

Section Call.
Variable B : builder.
Variables N P : Z.
Hypothesis HN : 0 <= N.
Hypothesis HP : 5000 + 100 * N <= P.
Variable fuel : nat.
Hypothesis Hfuel : N + 2 < Z.of_nat fuel.
Lemma s_call m : exists c r, Work.spec N P c r (call B m fuel) /\ c <= 600 + N /\ forall a, 0 <= 600 + N + r a.
Proof.
  pose proof (k_knot B N P HN HP fuel Hfuel fuel) as HK.
  destruct m; cbn [call].
  - do 2 eexists. split; [apply s_complete; try exact HK; lia|]. split; [lia|]. intros [x|]; cbn [g_complete]; lia.
  - do 2 eexists. split; [apply s_and_or; try exact HK; lia|]. split; [lia|]. intros; cbv beta; lia.
  - do 2 eexists. split; [apply s_pipeline; try exact HK; lia|]. split; [lia|]. intros; cbv beta; lia.
  - do 2 eexists. split; [apply s_command; try exact HK; lia|]. split; [lia|]. intros; cbv beta; lia.
  - do 2 eexists. split; [apply s_simple; try exact HK; lia|]. split; [lia|]. intros; cbv beta; lia.
  - do 2 eexists. split; [apply s_redirect_list; try exact HK; lia|]. split; [lia|]. intros; cbv beta; lia.
  - do 2 eexists. split; [apply s_redirect; try exact HK; lia|]. split; [lia|]. intros [x|]; cbn [g_red]; lia.
  - do 2 eexists. split; [apply s_heredoc; try exact HK; lia|]. split; [lia|]. intros; cbv beta; lia.
  - do 2 eexists. split; [apply s_word; try exact HK; lia|]. split; [lia|]. intros [x|]; cbn [g_bword]; lia.
  - do 2 eexists. split; [apply s_wpt; try exact HK; lia|]. split; [lia|]. intros [x|]; cbn [g_bwordp]; lia.
  - do 2 eexists. split; [apply s_backticked_cs; try exact HK; lia|]. split; [lia|]. intros; cbv beta; lia.
  - do 2 eexists. split; [apply s_param; try exact HK; lia|]. split; [lia|]. intros; cbv beta; lia.
  - do 2 eexists. split; [apply s_do_group; try exact HK; lia|]. split; [lia|]. intros; cbv beta; lia.
  - do 2 eexists. split; [apply s_brace; try exact HK; lia|]. split; [lia|]. intros; cbv beta; lia.
  - do 2 eexists. split; [exact (s_subshell N P HN HP fuel _ HK false)|]. split; [lia|]. intros; cbv beta; lia.
  - do 2 eexists. split; [apply s_compound; try exact HK; lia|]. split; [lia|]. intros; cbv beta; lia.
  - do 2 eexists. split; [apply s_loop; try exact HK; lia|]. split; [lia|]. intros; cbv beta; lia.
  - do 2 eexists. split; [apply s_if; try exact HK; lia|]. split; [lia|]. intros; cbv beta; lia.
  - do 2 eexists. split; [apply s_for; try exact HK; lia|]. split; [lia|]. intros; cbv beta; lia.
  - do 2 eexists. split; [apply s_case; try exact HK; lia|]. split; [lia|]. intros; cbv beta; lia.
  - do 2 eexists. split; [apply s_mfn; try exact HK; lia|]. split; [lia|]. intros [x|]; cbn [g_mfn]; lia.
  - do 2 eexists. split; [apply s_fn; try exact HK; lia|]. split; [lia|]. intros; cbv beta; lia.
  - do 2 eexists. split; [apply s_skip_whitespace; lia|]. split; [lia|]. intros; cbv beta; lia.
  - do 2 eexists. split; [apply s_linebreak; lia|]. split; [lia|]. intros; cbv beta; lia.
  - do 2 eexists. split; [apply s_newline; lia|]. split; [lia|]. intros [x|]; cbn [g_newline]; lia.
  - do 2 eexists. split; [apply s_prt; lia|]. split; [lia|]. intros; cbv beta; lia.
  - do 2 eexists. split; [apply s_prw; lia|]. split; [lia|]. intros; cbv beta; lia.
  - do 2 eexists. split; [apply s_rt; lia|]. split; [lia|]. intros; cbv beta; lia.
  - do 2 eexists. split; [apply s_rw; lia|]. split; [lia|]. intros [x|]; cbn [g_rw]; lia.
  - do 2 eexists. split; [exact (s_group B N P HN HP fuel _ HK cfg)|]. split; [lia|]. intros; cbv beta; lia.
  - do 2 eexists. split; [apply s_arith; lia|]. split; [lia|]. intros; cbv beta; lia.
Qed.
End Call.

Lemma run_same {B A} (p : prog (bst B) (b_err B) A) s b : good s -> work concrete p s b = work located_ops p (abs s) b.
Proof. apply work_transfer. Qed.

(** The account of one call. *)
Lemma call_account B m fuel s b (N : Z) o s' b' : parser_reach B s b -> Z.of_nat (length (tokens_left s)) <= N -> N + 2 < Z.of_nat fuel ->
  run concrete (call B m fuel) s b = (o, s', b') ->
  match o with
  | OOk _ => Z.of_nat (length (tokens_left s')) <= Z.of_nat (length (tokens_left s)) /\
      Z.of_nat (work concrete (call B m fuel) s b) <=
      (5000 + 100 * N) * (Z.of_nat (length (tokens_left s)) - Z.of_nat (length (tokens_left s'))) + 600 + N
  | _ => Z.of_nat (work concrete (call B m fuel) s b) <= (5000 + 100 * N) * Z.of_nat (length (tokens_left s)) + 600 + N
  end.
Proof.
  intros HR Hn Hf E. pose proof (parser_reach_good _ _ _ HR) as G.
  assert (HF : o <> OFuel).
  { eapply parser_terminates; [apply call_entry|exact HR| |exact E]. lia. }
  pose proof (run_transfer (call B m fuel) s b G) as T. rewrite E in T. destruct T as [T G'].
  rewrite (run_same (call B m fuel) s b G).
  assert (S1 : Z.of_nat (length (tokens_left s)) = sz (abs s)).
  { unfold sz, size. rewrite <- tokens_left_abs, map_length. reflexivity. }
  assert (S2 : Z.of_nat (length (tokens_left s')) = sz (abs s')).
  { unfold sz, size. rewrite <- tokens_left_abs, map_length. reflexivity. }
  rewrite S1, S2 in *. pose proof (sz_pos (abs s)).
  destruct (s_call B N (5000 + 100 * N) ltac:(lia) ltac:(lia) fuel Hf m) as (c & r & Hs & Hc & Hr).
  pose proof (mk_cost _ _ _ _ _ Hs (600 + N) (abs s) Hc Hn b) as W. unfold lrun in W. rewrite T in W. fold (lwork (call B m fuel) (abs s) b).
  destruct o as [a|e|x|]; try lia; [|congruence]. specialize (Hr a). lia.
Qed.

(** C54: a call of any method, in any reachable state and whatever its outcome, does at most so many operations on the
    token stream and the builder, [n] being the number of tokens left: no input makes it take more than quadratic work. *)
Theorem calls_do_quadratic_work B m fuel s b : parser_reach B s b -> (length (tokens_left s) + 2 < fuel)%nat ->
  let n := Z.of_nat (length (tokens_left s)) in Z.of_nat (work concrete (call B m fuel) s b) <= 100 * n * n + 5001 * n + 600.
Proof.
  intros HR Hf n. destruct (run concrete (call B m fuel) s b) as [[o s'] b'] eqn:E.
  pose proof (call_account B m fuel s b n o s' b' HR (Z.le_refl _) ltac:(unfold n; lia) E) as W. fold n in W.
  assert (0 <= n) by (unfold n; lia). pose proof (Nat2Z.is_nonneg (length (tokens_left s'))). destruct o; nia.
Qed.

(** ** A whole source *)
(** The operations of the calls of [complete_command] until one returns no command, at most [k] of them. *)
Fixpoint script_work (B : builder) (fuel k : nat) (s : token_iter) (b : bst B) : nat :=
  match k with
  | O => O
  | S k => (work concrete (call B ACompleteCommand fuel) s b +
      match run concrete (call B ACompleteCommand fuel) s b with
      | (OOk (Some _), s', b') => script_work B fuel k s' b'
      | _ => O
      end)%nat
  end.

Lemma complete_account B fuel s b (N : Z) c s' b' : parser_reach B s b -> Z.of_nat (length (tokens_left s)) <= N -> N + 2 < Z.of_nat fuel ->
  run concrete (call B ACompleteCommand fuel) s b = (OOk (Some c), s', b') ->
  Z.of_nat (work concrete (call B ACompleteCommand fuel) s b) <=
    (5000 + 100 * N) * (Z.of_nat (length (tokens_left s)) - Z.of_nat (length (tokens_left s'))).
Proof.
  intros HR Hn Hf E. pose proof (parser_reach_good _ _ _ HR) as G.
  pose proof (run_transfer (call B ACompleteCommand fuel) s b G) as T. rewrite E in T. destruct T as [T G'].
  rewrite (run_same (call B ACompleteCommand fuel) s b G).
  assert (S1 : Z.of_nat (length (tokens_left s)) = sz (abs s)).
  { unfold sz, size. rewrite <- tokens_left_abs, map_length. reflexivity. }
  assert (S2 : Z.of_nat (length (tokens_left s')) = sz (abs s')).
  { unfold sz, size. rewrite <- tokens_left_abs, map_length. reflexivity. }
  rewrite S1, S2 in *. pose proof (sz_pos (abs s)).
  assert (Hs : Work.spec N (5000 + 100 * N) 340 (fun o : api_result B ACompleteCommand => g_complete B o) (call B ACompleteCommand fuel)).
  { exact (s_complete B N (5000 + 100 * N) ltac:(lia) ltac:(lia) fuel Hf _ (k_knot B N (5000 + 100 * N) ltac:(lia) ltac:(lia) fuel Hf fuel)). }
  pose proof (mk_cost _ _ _ _ _ Hs 340 (abs s) (Z.le_refl _) Hn b) as W.
  unfold lrun in W. rewrite T in W. unfold lwork in W. cbn [g_complete] in W. lia.
Qed.

(** C54: reading all the commands of a source does no more than quadratic work, in the length of the source. *)
Theorem scripts_do_quadratic_work (U : Uni) B src fuel b k : (length (lex src) + 2 < fuel)%nat ->
  let n := Z.of_nat (length src) in
  Z.of_nat (script_work B fuel k (ti_new (lex src)) b) <= 100 * n * n + 5001 * n + 600.
Proof.
  intros Hf n. set (N := Z.of_nat (length (lex src))).
  assert (HN : N <= n) by (unfold N, n; pose proof (lex_length src); lia).
  assert (X : forall k s b, parser_reach B s b -> Z.of_nat (length (tokens_left s)) <= N ->
    Z.of_nat (script_work B fuel k s b) <= (5000 + 100 * N) * Z.of_nat (length (tokens_left s)) + 600 + N).
  { clear k b. induction k as [|k IH]; intros s b HR Hs; cbn [script_work]; [unfold N; nia|].
    destruct (run concrete (call B ACompleteCommand fuel) s b) as [[o s'] b'] eqn:E.
    assert (Hf' : N + 2 < Z.of_nat fuel) by (unfold N; lia).
    pose proof (call_account B ACompleteCommand fuel s b N o s' b' HR Hs Hf' E) as W. cbv beta iota in W.
    pose proof (Nat2Z.is_nonneg (length (tokens_left s'))).
    destruct o as [[c|]|e|x|]; try (rewrite Nat.add_0_r; nia).
    pose proof (complete_account B fuel s b N c s' b' HR Hs Hf' E) as V. destruct W as [W _].
    assert (HR' : parser_reach B s' b').
    { eapply pr_call; [apply (call_entry B ACompleteCommand)|exact HR|exact E]. }
    specialize (IH s' b' HR' ltac:(lia)). nia. }
  specialize (X k (ti_new (lex src)) b (pr_new B (lex src) b)).
  assert (T : tokens_left (ti_new (lex src)) = lex src) by reflexivity.
  rewrite T in X. fold N in X. specialize (X (Z.le_refl _)). assert (0 <= N) by (unfold N; lia). nia.
Qed.

(** ** Cases that meet the hypotheses *)
Section Witness.
#[local] Instance some_uni : Uni := fun _ => false.
(** A here-document with a substitution, two redirections on its line, nested substitutions. *)
Definition nl := [c_newline].
Definition busy : list token := lex (s_of "cat <<A >x; b `c \`d\``" ++ nl ++ s_of "${y:-$((1 + (2)))}" ++ nl ++ s_of "A" ++ nl ++ s_of "e $(f)").
Example work_witness_reach : parser_reach default_builder (ti_new busy) tt.
Proof. apply pr_new. Qed.
Example work_witness :
  length busy = 48%nat
  /\ work concrete (call default_builder ACompleteCommand 60) (ti_new busy) tt = 488%nat
  /\ script_work default_builder 60 9 (ti_new busy) tt = 960%nat.
Proof. split; [|split]; vm_compute; reflexivity. Qed.
(** The order of the bound is reached: each here-document operator on a line makes the parser set the
    rest of the line aside and hand it back, so doubling the source multiplies the work by more than
    three, not by two. *)
Definition bars (n : nat) : list token := lex (List.concat (repeat (s_of "<<A ") n)).
Example work_grows_quadratically :
  map (fun n => (length (bars n), work concrete (call default_builder ACompleteCommand 2000) (ti_new (bars n)) tt)) [5; 10; 20; 40]%nat
  = [(15, 522); (30, 1502); (60, 5037); (120, 18407)]%nat.
Proof. vm_compute. reflexivity. Qed.
End Witness.
