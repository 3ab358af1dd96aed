(** * Fuel and builders do not influence the parse (C10, C15)

    [call B m fuel] is the public method [m] of a parser over the builder [B]. *)
From Coq Require Import String.
From Verif Require Import Base Token Lexer Pos Ast Builder Prog Iter Located IterProofs ParserBase Balanced
  Arith Word Redirect Command RunLemmas Entry Total Sim SimArith SimWord SimCommand Api DefaultBuilder EmptyBuilder.

(** ** Replacing values by themselves *)
Lemma map_id_ext {A} (f : A -> A) l : (forall x, f x = x) -> map f l = l.
Proof. intros H. rewrite <- (map_id l) at 2. apply map_ext. exact H. Qed.
Lemma option_map_id {A} (f : A -> A) o : (forall x, f x = x) -> option_map f o = o.
Proof. intros H. destruct o; cbn; now rewrite ?H. Qed.
Section Id.
Context {C : Type} (f : C -> C) (Hf : forall x, f x = x).
Lemma map_cg_id g : map_cg f g = g.
Proof. destruct g. unfold map_cg. cbn. now rewrite map_id_ext. Qed.
Fixpoint map_swk_id (w : swk C) : map_swk f w = w
with map_wk_id (w : wk C) : map_wk f w = w
with map_cwk_id (w : cwk C) : map_cwk f w = w
with map_psk_id (w : psk C) : map_psk f w = w.
Proof.
  - destruct w as [?|?|s|g|?| | | | | |]; try reflexivity.
    + change (KSubst (map_psk f s) = KSubst s). now rewrite map_psk_id.
    + change (KCommandSubst (map_cg f g) = KCommandSubst g). now rewrite map_cg_id.
  - destruct w as [w|l|w]; try reflexivity.
    + change (KSimple (map_swk f w) = KSimple w). now rewrite map_swk_id.
    + change (KDoubleQuoted (map (map_swk f) l) = KDoubleQuoted l). f_equal.
      induction l as [|x l IH]; [reflexivity|]. cbn [map]. f_equal; [apply map_swk_id|apply IH].
  - destruct w as [l|w].
    + change (KConcat (map (map_wk f) l) = KConcat l). f_equal.
      induction l as [|x l IH]; [reflexivity|]. cbn [map]. f_equal; [apply map_wk_id|apply IH].
    + change (KSingle (map_wk f w) = KSingle w). now rewrite map_wk_id.
  - destruct w as [g|?|?|c p w|c p w|c p w|c p w|p w|p w|p w|p w]; try reflexivity.
    1: change (KSCommand (map_cg f g) = KSCommand g); now rewrite map_cg_id.
    all: destruct w as [w|]; [|reflexivity].
    all: match goal with |- map_psk f (?k (Some ?v)) = _ => change (k (Some (map_cwk f v)) = k (Some v)) end;
      now rewrite map_cwk_id.
Qed.
Lemma map_gbp_id g : map_gbp f g = g.
Proof. destruct g. unfold map_gbp. cbn. now rewrite !map_cg_id. Qed.
Lemma map_if_id g : map_if f g = g.
Proof.
  destruct g. unfold map_if. cbn. rewrite (map_id_ext (map_gbp f)) by apply map_gbp_id.
  now rewrite option_map_id by apply map_cg_id.
Qed.
Context {W : Type} (g : W -> W) (Hg : forall x, g x = x).
Context {R : Type} (r : R -> R) (Hr : forall x, r x = x).
Lemma map_for_id x : map_for g f x = x.
Proof.
  destruct x as [v c w p b]. unfold map_for. cbn. rewrite map_cg_id. f_equal.
  destruct w as [[[a ws] c']|]; cbn; [|reflexivity]. now rewrite (map_id_ext g).
Qed.
Lemma map_case_id x : map_case g f x = x.
Proof.
  destruct x as [v c w p b]. unfold map_case. cbn. rewrite Hg. f_equal.
  apply map_id_ext. intros [[a b' c'] d e]. unfold map_arm, map_pat. cbn. now rewrite map_cg_id, (map_id_ext g).
Qed.
Lemma map_redirect_id x : map_redirect g x = x.
Proof. destruct x; cbn; now rewrite Hg. Qed.
Lemma map_env_id x : map_env r g x = x.
Proof. destruct x; cbn; [now rewrite Hr|now rewrite option_map_id]. Qed.
Lemma map_arg_id x : map_arg r g x = x.
Proof. destruct x; cbn; now rewrite ?Hr, ?Hg. Qed.
Lemma map_sum_id x : map_sum r g x = x.
Proof. destruct x; cbn; now rewrite ?Hr, ?Hg. Qed.
Lemma map_and_or_id x : map_and_or g x = x.
Proof. destruct x; cbn; now rewrite Hg. Qed.
End Id.

(** A builder is simulated by itself. *)
Lemma bld_rel_refl {S E A} (f : S -> (A + E) * S) : bld_rel eq eq (graph (fun x => x)) f f.
Proof. intros b ? <-. destruct (f b) as [[a|e] b']; repeat split; reflexivity. Qed.
Definition mor_id (B : builder) : bmor B B.
Proof.
  refine (mkMor B B (fun x => x) (fun x => x) (fun x => x) (fun x => x) (fun x => x) (fun x => x) (fun x => x)
    eq eq _ _ _ _ _ _ _ _ _ _ _ _ _ _ _); intros;
  rewrite ?map_cg_id, ?map_gbp_id, ?map_if_id, ?map_for_id, ?map_case_id, ?map_cwk_id, ?map_redirect_id, ?map_id by auto;
  try apply bld_rel_refl.
  - rewrite map_id_ext; [apply bld_rel_refl|]. intros [x y]. cbn. now rewrite map_and_or_id.
  - rewrite map_id_ext; [apply bld_rel_refl|]. intros [x y]. reflexivity.
  - rewrite !map_id_ext; [apply bld_rel_refl| |]; intros; [now apply map_arg_id|now apply map_env_id].
Defined.
Lemma map_result_id B m x : map_result (mor_id B) m x = x.
Proof.
  destruct m; cbn in *; rewrite ?map_cg_id, ?map_if_id, ?map_for_id, ?map_case_id, ?map_id by auto; try reflexivity;
  try (now apply option_map_id).
  - apply option_map_id. intros. now apply map_sum_id.
  - destruct x. cbn. now rewrite map_gbp_id.
Qed.
Lemma err_rel_eq {E} (e1 e2 : perr E) : err_rel eq e1 e2 -> e1 = e2.
Proof. destruct e1, e2; cbn; intros H; try tauto; repeat match goal with H : _ /\ _ |- _ => destruct H end; congruence. Qed.

(** ** C10: the result of a call is determined by the tokens, whatever fuel the model is given *)

(** The same call made twice, with any two amounts of fuel that exceed the number of remaining
    tokens by three, ends in exactly the same way, with the same tokens left at the same positions
    and the same builder state. *)
Theorem parser_fuel_irrelevant B m f1 f2 s b : parser_reach B s b ->
  (length (tokens_left s) + 2 < f1)%nat -> (length (tokens_left s) + 2 < f2)%nat ->
  forall o1 s1 b1 o2 s2 b2,
  run concrete (call B m f1) s b = (o1, s1, b1) ->
  run concrete (call B m f2) s b = (o2, s2, b2) ->
  o1 = o2 /\ abs s1 = abs s2 /\ b1 = b2.
Proof.
  intros HR.
  assert (W : forall f1 f2, (length (tokens_left s) + 2 < f1)%nat -> (f1 <= f2)%nat ->
    forall o1 s1 b1 o2 s2 b2,
    run concrete (call B m f1) s b = (o1, s1, b1) -> run concrete (call B m f2) s b = (o2, s2, b2) ->
    o1 = o2 /\ abs s1 = abs s2 /\ b1 = b2).
  { intros g1 g2 H1 Hle o1 s1 b1 o2 s2 b2 E1 E2.
    pose proof (parser_terminates B _ (call B m) g1 s b (call_entry B m) HR H1 _ _ _ E1) as T.
    pose proof (parser_reach_good _ _ _ HR) as G.
    pose proof (run_transfer (call B m g1) s b G) as T1. rewrite E1 in T1. destruct T1 as [T1 _].
    pose proof (run_transfer (call B m g2) s b G) as T2. rewrite E2 in T2. destruct T2 as [T2 _].
    pose proof (sim_call (mor_id B) m g1 g2 Hle (abs s) b b eq_refl) as S. unfold lrun in S.
    rewrite T1, T2 in S. destruct o1 as [a1|e1|x1|]; [| | |congruence];
    destruct S as (S1 & S2 & S3); cbn in S2, S3; (split; [|split; assumption]);
    destruct o2 as [a2|e2|x2|]; cbn in S1; try contradiction; try congruence.
    - unfold graph in S1. rewrite map_result_id in S1. now rewrite S1.
    - now rewrite (err_rel_eq _ _ S1). }
  intros H1 H2 o1 s1 b1 o2 s2 b2 E1 E2.
  destruct (Nat.le_ge_cases f1 f2) as [H|H].
  - exact (W f1 f2 H1 H _ _ _ _ _ _ E1 E2).
  - destruct (W f2 f1 H2 H _ _ _ _ _ _ E2 E1) as (A & B' & C). repeat split; congruence.
Qed.

(** ** C15: builders *)

(** A builder none of whose methods ever returns an error, whatever it is given (a pipeline is
    only ever made of at least one command). *)
Definition succeeds {S A E} (f : S -> (A + E) * S) : Prop := forall s, exists a s', f s = (inl a, s').
Record never_fails (B : builder) : Prop := mkNeverFails {
  nf_complete_command : forall a l x c, succeeds (o_complete_command B a l x c);
  nf_and_or_list : forall a l, succeeds (o_and_or_list B a l);
  nf_pipeline : forall a l, l <> [] -> succeeds (o_pipeline B a l);
  nf_simple_command : forall a l, succeeds (o_simple_command B a l);
  nf_brace_group : forall g r, succeeds (o_brace_group B g r);
  nf_subshell : forall g r, succeeds (o_subshell B g r);
  nf_loop_command : forall k g r, succeeds (o_loop_command B k g r);
  nf_if_command : forall g r, succeeds (o_if_command B g r);
  nf_for_command : forall g r, succeeds (o_for_command B g r);
  nf_case_command : forall g r, succeeds (o_case_command B g r);
  nf_into_pipeable : forall c, succeeds (o_compound_command_into_pipeable B c);
  nf_function : forall n l c, succeeds (o_function_declaration B n l c);
  nf_comments : forall l, succeeds (o_comments B l);
  nf_word : forall w, succeeds (o_word B w);
  nf_redirect : forall r, succeeds (o_redirect B r)
}.

(** Forgetting all the values of a builder. *)
Lemma succeeds_rel {S A A2 E} (g : A -> A2) (f : S -> (A + E) * S) (h : unit -> (A2 + Empty_set) * unit) :
  succeeds f -> (forall a, h tt = (inl (g a), tt)) ->
  bld_rel (fun _ _ => True) (fun _ _ => False) (graph g) f h.
Proof.
  intros H Hh b [] _. destruct (H b) as (a & b' & ->). rewrite (Hh a). repeat split.
Qed.
Definition erase (B : builder) (H : never_fails B) : bmor B empty_builder.
Proof.
  refine (mkMor B empty_builder (fun _ => tt) (fun _ => tt) (fun _ => tt) (fun _ => tt)
    (fun _ => tt) (fun _ => tt) (fun _ => tt) (fun _ _ => True) (fun _ _ => False)
    _ _ _ _ _ _ _ _ _ _ _ _ _ _ _); intros; destruct H; try (apply succeeds_rel; [auto|reflexivity]).
  intros b [] _. destruct (nf_comments0 l b) as (a & b' & ->). destruct a. repeat split.
Defined.

(** What is left of a result when the builder's own values are forgotten: whether there was a
    command, how many commands a group has, the comments, the variable of a loop, ... *)
Definition skeleton (B : builder) (H : never_fails B) (m : api) : api_result B m -> api_result empty_builder m :=
  map_result (erase B H) m.

(** Two outcomes of the same call with different builders agree. *)
Definition same_outcome {B1 B2} (H1 : never_fails B1) (H2 : never_fails B2) (m : api)
    (o1 : outcome (b_err B1) (api_result B1 m)) (o2 : outcome (b_err B2) (api_result B2 m)) : Prop :=
  match o1, o2 with
  | OOk r1, OOk r2 => skeleton B1 H1 m r1 = skeleton B2 H2 m r2
  | OErr e1, OErr e2 => err_rel (fun _ _ => False) e1 e2
  | OPanic x1, OPanic x2 => x1 = x2
  | _, _ => False
  end.

Lemma to_empty B (H : never_fails B) m f1 f2 s b b2 o1 s1 b1 o2 s2 b2' :
  parser_reach B s b -> (length (tokens_left s) + 2 < f1)%nat -> (f1 <= f2)%nat ->
  run concrete (call B m f1) s b = (o1, s1, b1) ->
  run concrete (call empty_builder m f2) s b2 = (o2, s2, b2') ->
  out_rel (fun _ _ => False) (graph (skeleton B H m)) o1 o2 /\ abs s1 = abs s2.
Proof.
  intros HR Hf Hle E1 E2.
  pose proof (parser_terminates B _ (call B m) f1 s b (call_entry B m) HR Hf _ _ _ E1) as T.
  pose proof (parser_reach_good _ _ _ HR) as G.
  pose proof (run_transfer (call B m f1) s b G) as T1. rewrite E1 in T1. destruct T1 as [T1 _].
  pose proof (run_transfer (call empty_builder m f2) s b2 G) as T2. rewrite E2 in T2. destruct T2 as [T2 _].
  pose proof (sim_call (erase B H) m f1 f2 Hle (abs s) b b2) as S.
  assert (HRB : RB _ _ (erase B H) b b2) by exact I.
  specialize (S HRB). unfold lrun in S. rewrite T1, T2 in S.
  unfold skeleton.
  destruct o1; [| | |congruence]; destruct S as (S1 & S2 & _); auto.
Qed.

Lemma err_rel_trans {E1 E2 E3} (R1 : E1 -> E2 -> Prop) (R2 : E3 -> E2 -> Prop) e1 e2 e3 :
  (forall a b, ~ R1 a b) -> err_rel R1 e1 e2 -> err_rel R2 e3 e2 -> err_rel (fun _ _ => False) e1 e3.
Proof.
  intros H H1 H2. destruct e1, e2; cbn in H1; try contradiction; destruct e3; cbn in *; try contradiction;
  try (now apply H in H1); repeat match goal with H : _ /\ _ |- _ => destruct H end; subst; auto.
Qed.

(** C15: two parsers over the same remaining tokens, with builders that never fail, treat every
    call of every public method the same way: both succeed (and their results have the same
    skeleton) or both return the same error, and both leave the same tokens at the same positions. *)
Theorem builder_independence B1 B2 (H1 : never_fails B1) (H2 : never_fails B2) m f1 f2 s b1 b2 :
  parser_reach B1 s b1 -> parser_reach B2 s b2 ->
  (length (tokens_left s) + 2 < f1)%nat -> (length (tokens_left s) + 2 < f2)%nat ->
  forall o1 s1 b1' o2 s2 b2',
  run concrete (call B1 m f1) s b1 = (o1, s1, b1') ->
  run concrete (call B2 m f2) s b2 = (o2, s2, b2') ->
  same_outcome H1 H2 m o1 o2 /\ abs s1 = abs s2.
Proof.
  intros R1 R2 Hf1 Hf2 o1 s1 b1' o2 s2 b2' E1 E2.
  destruct (run concrete (call empty_builder m (f1 + f2)) s tt) as [[o s'] b'] eqn:E.
  destruct (to_empty B1 H1 m f1 (f1 + f2) s b1 tt _ _ _ _ _ _ R1 Hf1 ltac:(lia) E1 E) as [A1 A2].
  destruct (to_empty B2 H2 m f2 (f1 + f2) s b2 tt _ _ _ _ _ _ R2 Hf2 ltac:(lia) E2 E) as [C1 C2].
  split; [|congruence].
  destruct o1, o; cbn in A1; try contradiction; destruct o2; cbn in C1; try contradiction; cbn.
  - unfold graph in *. congruence.
  - eapply err_rel_trans; [|exact A1|exact C1]. tauto.
  - congruence.
Qed.

Lemma d_pipeline_ok a l st : l <> [] -> exists r st', d_pipeline a l st = (inl r, st').
Proof.
  intros H. unfold d_pipeline. cbv zeta. destruct (_ || _); [repeat eexists|].
  destruct (rev (map snd l)) as [|x r] eqn:E; [|repeat eexists].
  apply (f_equal (@List.length _)) in E. rewrite rev_length, map_length in E. destruct l; [congruence|discriminate].
Qed.
Lemma default_never_fails : never_fails default_builder.
Proof.
  split; intros; intros st; [repeat eexists|repeat eexists|now apply d_pipeline_ok|repeat eexists..].
Qed.
Lemma empty_never_fails : never_fails empty_builder.
Proof. split; intros; intros st; repeat eexists. Qed.

(** Validating with [EmptyBuilder] agrees with parsing with [DefaultBuilder]. *)
Corollary validation_agrees m f1 f2 ts :
  (length ts + 2 < f1)%nat -> (length ts + 2 < f2)%nat ->
  forall o1 s1 b1 o2 s2 b2,
  run concrete (call default_builder m f1) (ti_new ts) tt = (o1, s1, b1) ->
  run concrete (call empty_builder m f2) (ti_new ts) tt = (o2, s2, b2) ->
  same_outcome default_never_fails empty_never_fails m o1 o2 /\ abs s1 = abs s2.
Proof.
  intros H1 H2 o1 s1 b1 o2 s2 b2. apply builder_independence; auto; try apply pr_new.
Qed.

(** A parser whose builder never fails reports no error of the builder; in particular the
    [unwrap] of [DefaultBuilder::pipeline] is never reached. *)
Theorem no_builder_error B (H : never_fails B) m fuel s b :
  parser_reach B s b -> (length (tokens_left s) + 2 < fuel)%nat ->
  forall e s' b', run concrete (call B m fuel) s b <> (OErr (Custom e), s', b').
Proof.
  intros HR Hf e s' b' E.
  destruct (run concrete (call empty_builder m fuel) s tt) as [[o2 s2] b2] eqn:E2.
  destruct (to_empty B H m fuel fuel s b tt _ _ _ _ _ _ HR Hf (le_n _) E E2) as [A _].
  destruct o2 as [|[]| |]; exact A.
Qed.
Corollary default_pipeline_unwrap_unreachable m fuel s b :
  parser_reach default_builder s b -> (length (tokens_left s) + 2 < fuel)%nat ->
  forall s' b', run concrete (call default_builder m fuel) s b <> (OErr (Custom PipelineUnwrap), s', b').
Proof. intros. apply no_builder_error; auto. apply default_never_fails. Qed.

(** ** The theorems apply: a parse that succeeds, and one that fails, with both builders *)
Section Witness.
Context (U : Uni).
Definition w_ok := lex (s_of "if a; then b|c; fi >x # note").
Definition w_bad := lex (s_of "echo ${a%%b} && (foo").
Example same_parse_succeeds : exists c,
  fst (fst (run concrete (call default_builder ACompleteCommand 40) (ti_new w_ok) tt)) = OOk (Some c) /\
  fst (fst (run concrete (call empty_builder ACompleteCommand 50) (ti_new w_ok) tt)) = OOk (Some tt).
Proof. eexists. split; vm_compute; reflexivity. Qed.
Example same_parse_fails : exists p,
  fst (fst (run concrete (call default_builder ACompleteCommand 40) (ti_new w_bad) tt)) = OErr (Unmatched TParenOpen p) /\
  fst (fst (run concrete (call empty_builder ACompleteCommand 50) (ti_new w_bad) tt)) = OErr (Unmatched TParenOpen p).
Proof. eexists. split; vm_compute; reflexivity. Qed.
End Witness.
