(** * Every builder result is used exactly once, in the order of the calls: the theorems (C52) *)
From Coq Require Import String.
From Verif Require Import Base Token Lexer Pos Ast Builder Prog Iter Located IterProofs RunLemmas ParserBase Balanced Arith
  Word Redirect Command Entry EntryWp Total Sim SimArith SimWord SimCommand Api SameParse Protocol ProtocolSound
  CoreBuilder DefaultBuilder.

Section Theorems.
Variable B : builder.

Definition rec_logger : logger (recording B) :=
  mkLogger (recording B) snd snd snd snd snd snd snd snd.
Lemma recorded_logs {A} m from (f : bst B -> (A + b_err B) * bst B) :
  logs (D := recording B) rec_logger snd m from (recorded B m from f).
Proof. intros [b lg]. unfold recorded. cbn [fst snd]. destruct (f b) as [[a|e] b']; repeat split. Qed.
Lemma rec_logging : logging rec_logger.
Proof.
  split; intros; try apply recorded_logs.
  destruct b as [b lg]. cbn. unfold recorded_unit. cbn [fst snd]. destruct (o_comments B cs b) as [[a|e] b']; reflexivity.
Qed.

(** What one call of a public method adds to the log. *)
Definition accounted (m : api) (r : api_result (recording B) m) (new : list made) : Prop :=
  new = postorders (in_result B m r) \/
  (m = ACompleteCommand /\ in_result B m r = [] /\ exists i, new = [Made MComments i []]).

Lemma adds_call m fuel : adds (recording B) rec_logger (call (recording B) m fuel) (accounted m).
Proof.
  destruct (a_knot _ _ rec_logging fuel fuel) as [Kg Kp].
  assert (HG := rec_logging).
  assert (W : forall A (p : prog (bst (recording B)) (b_err (recording B)) A) (f : A -> list made) (R : A -> list made -> Prop),
    adds _ rec_logger p (is f) -> (forall a n, n = postorders (f a) -> R a n) -> adds _ rec_logger p R).
  { intros A p f R H HR. eapply adds_mono; [exact H|]. intros a n Hn. apply HR. exact Hn. }
  destruct m; cbn [call];
  unfold p_complete_command, p_and_or_list, p_pipeline, p_command, p_simple_command, p_redirect_list, p_redirect,
    p_redirect_heredoc, p_word, p_word_preserve_trailing_whitespace, p_backticked_command_substitution, p_parameter,
    p_do_group, p_brace_group, p_subshell, p_compound_command, p_loop_command, p_if_command, p_for_command,
    p_case_command, p_maybe_function_declaration, p_function_declaration, p_skip_whitespace, p_linebreak, p_newline,
    p_peek_reserved_token, p_peek_reserved_word, p_reserved_token, p_reserved_word, p_command_group,
    p_arithmetic_substitution.
  1: { eapply adds_mono; [now apply a_complete_command|]. intros r n [H|[-> H]]; [left; exact H|right; auto]. }
  all: try (apply adds_quiet; [qleaf|intros; left; reflexivity]).
  all: (eapply W; [first [now apply a_and_or_list|now apply a_pipeline|now apply a_command|now apply a_simple_command
    |now apply a_redirect_list|now apply a_redirect|now apply a_redirect_heredoc|now apply a_word|now apply a_wptw
    |now apply a_bcs|now apply a_parameter|now apply a_do_group|now apply a_brace_group|now apply a_subshell
    |now apply a_compound|now apply a_loop_command|now apply a_if_command|now apply a_for_command|now apply a_case_command
    |now apply a_maybe_function|now apply a_fd|now apply a_command_group]|]; intros a n Hn; left; exact Hn).
Qed.

(** C52: a public method that succeeds has called the builder exactly as often as there are calls in the
    history of its result, in post-order: every value made by the builder is given to the builder again, or is
    part of the result, exactly once, after everything to its left. *)
Theorem builder_results_used_once m fuel s b log r s' b' log' :
  parser_reach (recording B) s (b, log) ->
  run concrete (call (recording B) m fuel) s (b, log) = (OOk r, s', (b', log')) ->
  exists new, log' = log ++ new /\
    map number new = seq (length log) (length new) /\
    accounted m r new.
Proof.
  intros HR E. pose proof (run_transfer (call (recording B) m fuel) s (b, log) (parser_reach_good _ _ _ HR)) as T.
  rewrite E in T. destruct T as [T _]. pose proof (adds_call m fuel (abs s) (b, log)) as H. unfold lrun in H. rewrite T in H.
  exact H.
Qed.

(** In case of an error nothing is taken back from the log. *)
Theorem builder_log_grows m fuel s b log e s' b' log' :
  parser_reach (recording B) s (b, log) ->
  run concrete (call (recording B) m fuel) s (b, log) = (OErr e, s', (b', log')) ->
  exists new, log' = log ++ new /\ map number new = seq (length log) (length new).
Proof.
  intros HR E. pose proof (run_transfer (call (recording B) m fuel) s (b, log) (parser_reach_good _ _ _ HR)) as T.
  rewrite E in T. destruct T as [T _]. pose proof (adds_call m fuel (abs s) (b, log)) as H. unfold lrun in H. rewrite T in H.
  destruct H as (new & H1 & H2 & _). eauto.
Qed.

(** ** Recording changes nothing *)
Lemma recorded_rel {A} m from (f : bst B -> (A + b_err B) * bst B) :
  bld_rel (fun st b => fst st = b) eq (graph fst) (recorded B m from f) f.
Proof. intros [b r] ? <-. unfold recorded. cbn [fst snd]. destruct (f b) as [[a|e] b']; repeat split. Qed.
Lemma recorded_unit_rel m (f : bst B -> (unit + b_err B) * bst B) :
  bld_rel (fun st b => fst st = b) eq same (recorded_unit B m f) f.
Proof. intros [b r] ? <-. unfold recorded_unit. cbn [fst snd]. destruct (f b) as [[a|e] b']; repeat split. Qed.
Definition mor_rec : bmor (recording B) B.
Proof.
  refine (mkMor (recording B) B fst fst fst fst fst fst fst
    (fun st b => fst st = b) eq _ _ _ _ _ _ _ _ _ _ _ _ _ _ _); intros;
  first [apply recorded_rel|apply recorded_unit_rel].
Defined.

(** The wrapped builder sees the same calls, and the result is the same but for the trees. *)
Theorem recording_transparent m fuel s b log :
  parser_reach B s b -> (length (tokens_left s) + 2 < fuel)%nat ->
  forall o s1 b1 o2 s2 b2 log2,
  run concrete (call B m fuel) s b = (o, s1, b1) ->
  run concrete (call (recording B) m fuel) s (b, log) = (o2, s2, (b2, log2)) ->
  abs s2 = abs s1 /\ b2 = b1 /\
  match o2, o with
  | OOk r2, OOk r => r = map_result mor_rec m r2
  | OErr e2, OErr e => e = e2
  | OPanic x2, OPanic x => x = x2
  | _, _ => False
  end.
Proof.
  intros HR Hf o s1 b1 o2 s2 b2 r2 E1 E2.
  pose proof (parser_reach_good _ _ _ HR) as G.
  pose proof (run_transfer (call B m fuel) s b G) as T1. rewrite E1 in T1. destruct T1 as [T1 _].
  pose proof (run_transfer (call (recording B) m fuel) s (b, log) G) as T2. rewrite E2 in T2. destruct T2 as [T2 _].
  pose proof (sim_call mor_rec m fuel fuel (le_n _) (abs s) (b, log) b eq_refl) as S. unfold lrun in S.
  rewrite T1, T2 in S.
  assert (NF : o2 <> OFuel).
  { intros ->.
    pose proof (entry_total (recording B) _ _ True fuel s (b, log) (call_entry (recording B) m) G (fun _ => I) Hf) as T'.
    rewrite E2 in T'. destruct T' as [_ []]. }
  destruct o2 as [a2|e2|x2|]; [| | |congruence]; destruct S as (S1 & S2 & S3); cbn in S2, S3;
  (split; [|split; auto]); auto; destruct o as [a|e|x|]; cbn in S1; try contradiction; auto.
  now rewrite (err_rel_eq _ _ S1).
Qed.
End Theorems.

(** No two calls are the same: the numbers tell them apart. *)
Lemma numbered_nodup new n : map number new = seq n (length new) -> NoDup new.
Proof. intros H. apply (NoDup_map_inv number). rewrite H. apply seq_NoDup. Qed.
(** So every call made since occurs exactly once in the histories of the values in the result. *)
Theorem builder_results_used_once_each B m fuel s b log r s' b' log' :
  parser_reach (recording B) s (b, log) -> m <> ACompleteCommand ->
  run concrete (call (recording B) m fuel) s (b, log) = (OOk r, s', (b', log')) ->
  NoDup (postorders (in_result B m r)) /\
  forall i x, (length log <= i)%nat -> nth_error log' i = Some x ->
    number x = i /\ nth_error (postorders (in_result B m r)) (i - length log) = Some x.
Proof.
  intros HR Hm E. destruct (builder_results_used_once B m fuel s b log r s' b' log' HR E) as (new & -> & H1 & [H2|[H2 _]]); [|congruence].
  rewrite <- H2. split; [eapply numbered_nodup; exact H1|]. intros i x Hi Hx. rewrite nth_error_app2 in Hx by exact Hi.
  split; [|exact Hx]. pose proof (map_nth_error number _ _ Hx) as Hn. rewrite H1 in Hn.
  assert (Hl : (i - length log < length new)%nat) by (apply nth_error_Some; congruence).
  rewrite (nth_error_nth' _ 0) in Hn by (now rewrite seq_length). rewrite seq_nth in Hn by exact Hl. injection Hn as <-. lia.
Qed.

(** ** Witness *)
Section Examples.
#[local] Instance some_uni : Uni := fun _ => false.
Definition method_of (x : made) : method := match x with Made m _ _ => m end.
Definition proto_src : list token := lex (s_of "if a; then b $(c) >f; fi").
Example protocol_witness : exists c s' log',
  run concrete (call (recording default_builder) ACompleteCommand 100) (ti_new proto_src) (tt, []) = (OOk (Some c), s', (tt, log')) /\
  map method_of log' =
    [MWord; MSimpleCommand; MPipeline; MAndOrList; MCompleteCommand;                       (* a *)
     MWord;                                                                                (* b *)
     MWord; MSimpleCommand; MPipeline; MAndOrList; MCompleteCommand; MWord;                (* c, $(c) *)
     MWord; MRedirect; MSimpleCommand; MPipeline; MAndOrList; MCompleteCommand;            (* f, >f *)
     MIfCommand; MIntoPipeable; MPipeline; MAndOrList; MCompleteCommand] /\
  log' = postorder (snd c) /\ map number log' = seq 0 23.
Proof. eexists. eexists. eexists. split; [vm_compute; reflexivity|]. repeat split. Qed.
End Examples.
