(** * A builder error stops the parse at once (C16)

    Any builder is wrapped by one that records the outcome of every call made of it.  The wrapping
    is transparent; and the record shows that no call follows a failed one, and that the parser's
    [Custom] errors are exactly the failures. *)
From Coq Require Import String.
From Verif Require Import Base Token Lexer Pos Ast Builder Prog Iter Located IterProofs ParserBase BaseRun Balanced
  BalancedSpec BalancedProofs BalancedTotal Wp
  Arith Word Redirect Command RunLemmas Entry EntryWp Total Sim SimArith SimWord SimCommand Api SameParse
  DefaultBuilder EmptyBuilder.

Section Spy.
Variable B : builder.
(** The record: one entry per call, the latest first; [Some e]: the call failed with [e]. *)
Definition record_ := list (option (b_err B)).
Definition spied {A} (f : bst B -> (A + b_err B) * bst B) (st : bst B * record_) : (A + b_err B) * (bst B * record_) :=
  match f (fst st) with
  | (inl a, b) => (inl a, (b, None :: snd st))
  | (inr e, b) => (inr e, (b, Some e :: snd st))
  end.
(** The builder [B], every call recorded. *)
Definition spy : builder :=
  mkBuilder (bst B * record_) (b_cmd B) (b_list B) (b_listable B) (b_pipeable B) (b_compound B) (b_word B)
    (b_redirect B) (b_err B)
    (fun a b c d => spied (o_complete_command B a b c d))
    (fun a b => spied (o_and_or_list B a b))
    (fun a b => spied (o_pipeline B a b))
    (fun a b => spied (o_simple_command B a b))
    (fun a b => spied (o_brace_group B a b))
    (fun a b => spied (o_subshell B a b))
    (fun a b c => spied (o_loop_command B a b c))
    (fun a b => spied (o_if_command B a b))
    (fun a b => spied (o_for_command B a b))
    (fun a b => spied (o_case_command B a b))
    (fun a => spied (o_compound_command_into_pipeable B a))
    (fun a b c => spied (o_function_declaration B a b c))
    (fun a => spied (o_comments B a))
    (fun a => spied (o_word B a))
    (fun a => spied (o_redirect B a)).

Definition no_failure (r : record_) : Prop := Forall (fun x => x = None) r.
Definition last_failed (e : b_err B) (r : record_) : Prop := exists r', r = Some e :: r' /\ no_failure r'.

Lemma spied_ok {A} (f : bst B -> (A + b_err B) * bst B) :
  bld_ok (fun st => no_failure (snd st)) (fun e st => last_failed e (snd st)) (spied f).
Proof.
  intros [b r] H. unfold spied. cbn [fst snd] in *. destruct (f b) as [[a|e] b'].
  - constructor; auto.
  - exists r. auto.
Qed.
Lemma spy_ok : builder_ok spy (fun st => no_failure (snd st)) (fun e st => last_failed e (snd st)).
Proof. split; intros; apply spied_ok. Qed.

Definition am_spy : ambient spy.
Proof.
  refine (mkAmbient spy (fun l => True) (fun _ _ => True) (fun _ => True) (fun _ => True) True True (fun _ => True) True
    (fun st => no_failure (snd st)) (fun e st => last_failed e (snd st)) _ _ _ _ _ _ _ _ _ _ _ spy_ok); auto.
Defined.

(** Spying changes nothing. *)
Lemma spied_rel {A} (f : bst B -> (A + b_err B) * bst B) :
  bld_rel (fun st b => fst st = b) eq (graph (fun x => x)) (spied f) f.
Proof. intros [b r] ? <-. unfold spied. cbn [fst snd]. destruct (f b) as [[a|e] b']; repeat split. Qed.
Definition mor_spy : bmor spy B.
Proof.
  refine (mkMor spy B (fun x => x) (fun x => x) (fun x => x) (fun x => x) (fun x => x) (fun x => x) (fun x => x)
    (fun st b => fst st = b) eq _ _ _ _ _ _ _ _ _ _ _ _ _ _ _); intros;
  rewrite ?map_cg_id, ?map_gbp_id, ?map_if_id, ?map_for_id, ?map_case_id, ?map_cwk_id, ?map_redirect_id, ?map_id by auto;
  try apply spied_rel.
  - rewrite map_id_ext; [apply spied_rel|]. intros [x y]. cbn. now rewrite map_and_or_id.
  - rewrite map_id_ext; [apply spied_rel|]. intros [x y]. reflexivity.
  - rewrite !map_id_ext; [apply spied_rel| |]; intros; [now apply map_arg_id|now apply map_env_id].
Defined.
Lemma map_result_spy m x : map_result mor_spy m x = x.
Proof. exact (map_result_id B m x). Qed.
End Spy.

(** Wrapping is transparent: the same outcome, the same tokens left, the same state of the
    wrapped builder. *)
Theorem spy_transparent B m fuel s b r :
  parser_reach B s b -> (length (tokens_left s) + 2 < fuel)%nat ->
  forall o s1 b1 o2 s2 b2 r2,
  run concrete (call B m fuel) s b = (o, s1, b1) ->
  run concrete (call (spy B) m fuel) s (b, r) = (o2, s2, (b2, r2)) ->
  o2 = o /\ abs s2 = abs s1 /\ b2 = b1.
Proof.
  intros HR Hf o s1 b1 o2 s2 b2 r2 E1 E2.
  pose proof (parser_reach_good _ _ _ HR) as G.
  pose proof (run_transfer (call B m fuel) s b G) as T1. rewrite E1 in T1. destruct T1 as [T1 _].
  pose proof (run_transfer (call (spy B) m fuel) s (b, r) G) as T2. rewrite E2 in T2. destruct T2 as [T2 _].
  pose proof (sim_call (mor_spy B) m fuel fuel (le_n _) (abs s) (b, r) b eq_refl) as S. unfold lrun in S.
  rewrite T1, T2 in S.
  assert (NF : o2 <> OFuel).
  { intros ->.
    pose proof (entry_total (spy B) _ _ True fuel s (b, r) (call_entry (spy B) m) G (fun _ => I) Hf) as T'.
    rewrite E2 in T'. destruct T' as [_ []]. }
  destruct o2 as [a2|e2|x2|]; [| | |congruence]; destruct S as (S1 & S2 & S3); cbn in S2, S3;
  (split; [|split; auto]); destruct o as [a|e|x|]; cbn in S1; try contradiction.
  - unfold graph in S1. rewrite map_result_spy in S1. now rewrite S1.
  - now rewrite (err_rel_eq _ _ S1).
  - now rewrite S1.
Qed.

(** C16: start with a record without failures.  A call that returns a [Custom e] error made
    exactly one failing builder call, the last one, and it failed with [e]; a call that returns
    anything else (a value or another error) made no failing builder call. *)
Theorem builder_error_stops_parse B m fuel s b r :
  parser_reach B s b -> no_failure B r -> (length (tokens_left s) + 2 < fuel)%nat ->
  forall o s' b' r', run concrete (call (spy B) m fuel) s (b, r) = (o, s', (b', r')) ->
  match o with
  | OErr (Custom e) => last_failed B e r'
  | _ => no_failure B r'
  end.
Proof.
  intros HR Hr Hf o s' b' r' E.
  pose proof (parser_reach_good _ _ _ HR) as G.
  pose proof (run_transfer (call (spy B) m fuel) s (b, r) G) as T. rewrite E in T. destruct T as [T _].
  pose proof (entry_wp (am_spy B) _ _ (call_entry (spy B) m) (fun _ => I) I fuel (abs s) I) as W.
  rewrite size_left in W. specialize (W ltac:(lia) (b, r) Hr). unfold lrun in W. rewrite T in W.
  destruct o as [a|[]|x|]; try apply W. contradiction.
Qed.

(** ** A builder that fails: words are refused when they are the literal "bad" *)
Section Witness.
Context (U : Uni).
Definition picky : builder :=
  mkBuilder unit unit unit unit unit unit unit unit str
    (fun _ _ _ _ st => (inl tt, st)) (fun _ _ st => (inl tt, st)) (fun _ _ st => (inl tt, st))
    (fun _ _ st => (inl tt, st)) (fun _ _ st => (inl tt, st)) (fun _ _ st => (inl tt, st))
    (fun _ _ _ st => (inl tt, st)) (fun _ _ st => (inl tt, st)) (fun _ _ st => (inl tt, st))
    (fun _ _ st => (inl tt, st)) (fun _ st => (inl tt, st)) (fun _ _ _ st => (inl tt, st))
    (fun _ st => (inl tt, st))
    (fun w st => match w with
                 | KSingle (KSimple (KLiteral l)) => if str_eqb l (s_of "bad") then (inr l, st) else (inl tt, st)
                 | _ => (inl tt, st)
                 end)
    (fun _ st => (inl tt, st)).
Definition w_src := lex (s_of "echo good; { x bad y; }; z").
Example spy_witness : 
  (exists s' , run concrete (call (spy picky) ACompleteCommand 60) (ti_new w_src) (tt, []) = (OOk (Some tt), s', (tt, [None; None; None; None; None; None])) /\
   exists s'' b'', run concrete (call (spy picky) ACompleteCommand 60) s' (tt, []) 
     = (OErr (Custom (s_of "bad")), s'', (tt, Some (s_of "bad") :: b''))).
Proof. eexists. split; [vm_compute; reflexivity|]. eexists. eexists. vm_compute. reflexivity. Qed.
End Witness.
