(** * The parser never reads past the line it needs (C47)

    A program that reads its commands from a terminal, or a pipe, hands the parser a source of tokens
    which blocks until more have been typed.  What the parser takes from that source, and when, is then
    visible. *)
From Coq Require Import String.
From Verif Require Import Base Token Lexer LexSpec LexTheorems Pos Ast Builder Prog Iter Located IterProofs ParserBase Balanced RunLemmas BaseRun
  Arith Word Redirect Command Entry Api Total Pure DefaultBuilder
  Forms Runs BaseForms WordRuns HeredocRuns CommandRuns CompoundRuns FormsRuns FormsTheorems Reserved Gives SoundBase SoundWord SoundCommand SoundScript
  Exact ExactMethods Lazy LazyWord LazyCommand.

(** ** Specification *)

(** The tokens the parser has taken from its source and not consumed yet.  [ti_iter s] is what it has
    not taken. *)
Definition taken_ahead (s : token_iter) : list token :=
  flat_map (fun x => match x with TPTok t => [t] | TPPos _ => [] end) (ti_buf s).
(** No here-document: the body of one comes after its line. *)
Definition no_heredoc (ts : list token) : Prop := forall t, In t ts -> t <> TDLess /\ t <> TDLessDash.
(** All methods but those that look for a reserved word and may find a newline instead. *)
Definition line_method (m : api) : Prop :=
  match m with
  | ARedirectHeredoc _ | AMaybeFunction | APeekReservedWord _ | AReservedWord _ => False
  | APeekReservedToken ts | AReservedToken ts => ~ In TNewline ts
  | ACommandGroup cfg => ~ In TNewline (reserved_tokens cfg) /\ ~ In TNewline (exact_tokens cfg)
  | _ => True
  end.
(** A parser used only through these, while it succeeds. *)
Inductive session (B : builder) : token_iter -> bst B -> Prop :=
  | s_new ts b : no_heredoc ts -> session B (ti_new ts) b
  | s_call m fuel s b a s' b' : line_method m -> session B s b ->
      run concrete (call B m fuel) s b = (OOk a, s', b') -> session B s' b'.

(** ** Proofs *)
Lemma removelast_nlast l : nlast l -> ~ In TNewline (removelast l).
Proof.
  induction l as [|t l IH]; [cbn; auto|]. intros [H1 H2]. destruct l as [|u l]; [cbn; auto|].
  change (removelast (t :: u :: l)) with (t :: removelast (u :: l)). intros [->|Hi]; [discriminate (H1 eq_refl)|exact (IH H2 Hi)].
Qed.
Lemma taken_toks l : flat_map (fun x => match x with TPTok t => [t] | TPPos _ => [] end) (map TPTok l) = l.
Proof. induction l; cbn; congruence. Qed.
Lemma neat_call B fuel m : line_method m -> lz (BS := bst B) (BE := b_err B) Neat (call B m fuel) QN.
Proof.
  pose proof (neat_knot B fuel fuel) as HK.
  assert (L : forall A (p : prog (bst B) (b_err B) A) (Q : A -> ahead -> Prop), lz Loose p Q -> lz Neat p Q)
    by (intros A p Q H; eapply lz_le; [exact H|constructor]).
  destruct m; cbn [line_method call]; intros Hm; try contradiction;
    unfold p_and_or_list, p_pipeline, p_command, p_simple_command, p_redirect_list, p_redirect, p_word, p_word_preserve_trailing_whitespace,
      p_backticked_command_substitution, p_parameter, p_do_group, p_brace_group, p_subshell, p_compound_command, p_loop_command, p_if_command,
      p_for_command, p_case_command, p_function_declaration, p_skip_whitespace, p_linebreak, p_newline, p_peek_reserved_token, p_reserved_token,
      p_command_group, p_arithmetic_substitution.
  - eapply lz_mono; [apply (neat_complete B fuel _ HK)|]. intros [c|] x H; cbn in H; [|subst; exists Neat; auto with lazy].
    destruct H as (pre & l & sp & nl & b0 & b1 & _ & ->). exists Neat. destruct nl; auto with lazy.
  - apply L, (loose_and_or_list B fuel _ HK).
  - apply (neat_pipeline B fuel _ HK).
  - apply L, (loose_command B fuel _ HK).
  - apply (neat_simple_command B fuel _ HK).
  - apply (neat_redirect_list B fuel _ HK).
  - apply (neat_redirect B fuel _ HK).
  - apply (neat_word B fuel _ HK).
  - apply (neat_word_ptw B fuel _ HK).
  - apply (neat_bcs B fuel).
  - apply (neat_parameter B fuel _ HK).
  - apply (neat_do_group B fuel _ HK).
  - apply (neat_brace_group B fuel _ HK).
  - apply (neat_subshell B _ HK).
  - apply (neat_compound B fuel _ HK).
  - apply (neat_loop_command B fuel _ HK).
  - apply (neat_if_command B fuel _ HK).
  - apply (neat_for_command B fuel _ HK).
  - apply (neat_case_command B fuel _ HK).
  - apply (neat_function B fuel _ HK).
  - apply neat_skip_whitespace.
  - apply neat_linebreak.
  - apply neat_newline.
  - apply neat_peek_reserved_token. exact Hm.
  - apply neat_reserved_token. exact Hm.
  - apply (neat_command_group B _ HK). exact Hm.
  - apply neat_arithmetic.
Qed.
Lemma session_holds B s b : session B s b -> holds Neat s.
Proof.
  induction 1 as [ts b H|m fuel s b a s' b' Hm Hs IH E].
  - exists []. cbn. auto.
  - pose proof (neat_call B fuel m Hm s b IH) as G. rewrite E in G. destruct G as (c & -> & G). exact G.
Qed.
Lemma holds_taken c s : holds c s -> fits c (taken_ahead s).
Proof. intros (l & E & F & _). unfold taken_ahead. now rewrite E, taken_toks. Qed.

(** Of what has been taken and not consumed, only the last token can be a newline: the parser asks
    for nothing beyond the end of the current line, unless it has consumed that end. *)
Theorem session_lookahead B s b : session B s b -> ~ In TNewline (removelast (taken_ahead s)).
Proof. intros H. apply removelast_nlast. exact (holds_taken _ _ (session_holds B s b H)). Qed.

(** The iterator's states are among these. *)
Lemma yields_session B fuel st cs st' : yields B fuel st cs st' ->
  forall s b, st = Some (s, b) -> session B s b -> forall s' b', st' = Some (s', b') -> session B s' b'.
Proof.
  induction 1 as [st|st c st1 cs st2 E H IH]; intros s b -> Hs s' b' E'.
  - injection E' as <- <-. exact Hs.
  - cbn in E. destruct (run concrete (p_complete_command B fuel) s b) as [[[[c0|]|e|x|] s1] b1] eqn:R; try discriminate.
    injection E as <- <-. eapply IH; [reflexivity| |exact E']. eapply (s_call B ACompleteCommand fuel s b (Some c0)); [exact I|exact Hs|exact R].
Qed.
Theorem iterator_lookahead B fuel ts b cs s b' : no_heredoc ts ->
  yields B fuel (parser_iter_new B ts b) cs (Some (s, b')) -> ~ In TNewline (removelast (taken_ahead s)).
Proof.
  intros H Y. apply (session_lookahead B s b'). eapply yields_session; [exact Y|reflexivity|constructor; exact H|reflexivity].
Qed.

(** When [complete_command] tells the builder of a newline after the command, it has taken nothing
    beyond that newline. *)
Theorem newline_nothing_ahead B fuel s b c s' b' : session B s b ->
  run concrete (p_complete_command B fuel) s b = (OOk (Some c), s', b') ->
  exists pre l sep nl b0 b1, o_complete_command B pre l sep nl b0 = (inl c, b1) /\
    (nl <> None -> taken_ahead s' = []).
Proof.
  intros Hs E. pose proof (neat_complete B fuel _ (neat_knot B fuel fuel) s b (session_holds B s b Hs)) as G.
  unfold p_complete_command in E. rewrite E in G. destruct G as (c' & (pre & l & sp & nl & b0 & b1 & Eb & ->) & G).
  exists pre, l, sp, nl, b0, b1. split; [exact Eb|]. intros Hn. destruct nl; [|congruence]. exact (holds_taken _ _ G).
Qed.

(** ** What has not been taken does not matter *)
Section Frame.
Context {BS BE : Type}.
Notation prog := (prog BS BE).
Variables (next_ next_' : list token).
Hypothesis nonempty : next_ <> [].
Definition swap (s s' : token_iter) : Prop :=
  exists u, ti_iter s = u ++ next_ /\ s' = mkTI (u ++ next_') (ti_buf s) (ti_pos s).
Notation untouched s := (List.length next_ <= List.length (ti_iter s))%nat.

Lemma ub_iter s : ti_iter (updated_buffered_pos s) = ti_iter s.
Proof. unfold updated_buffered_pos. now destruct (pop_positions _ _). Qed.
Lemma ub_swap s s' : swap s s' -> swap (updated_buffered_pos s) (updated_buffered_pos s').
Proof.
  intros (u & E & ->). unfold updated_buffered_pos. cbn [ti_buf ti_pos ti_iter]. destruct (pop_positions _ _) as [buf p].
  exists u. auto.
Qed.
Lemma next_le s o s1 : ti_next s = Some (o, s1) -> (List.length (ti_iter s1) <= List.length (ti_iter s))%nat.
Proof.
  unfold ti_next, next_token_or_pos. destruct s as [iter buf p]. cbn [ti_buf ti_iter ti_pos].
  destruct buf as [|[t|q] buf]; [destruct iter as [|t ts]| |]; intros [= <- <-] || discriminate; rewrite ub_iter; cbn; lia.
Qed.
Lemma next_swap s s' o s1 : swap s s' -> ti_next s = Some (o, s1) -> untouched s1 ->
  exists s1', ti_next s' = Some (o, s1') /\ swap s1 s1'.
Proof.
  intros (u & E & ->). unfold ti_next, next_token_or_pos. destruct s as [iter buf p]. cbn [ti_buf ti_iter ti_pos] in *. subst iter.
  destruct buf as [|[t|q] buf]; [|intros [= <- <-] _|discriminate].
  - destruct u as [|t u]; cbn [app].
    + destruct next_ as [|t ts]; [congruence|]. intros [= <- <-]. rewrite ub_iter. cbn. lia.
    + intros [= <- <-] _. eexists. split; [reflexivity|]. apply ub_swap. exists u. auto.
  - eexists. split; [reflexivity|]. apply ub_swap. exists u. auto.
Qed.
Lemma pull_le buf : forall iter mb t buf1 iter1 mb1, mp_pull buf iter mb = (t, buf1, iter1, mb1) -> (List.length iter1 <= List.length iter)%nat.
Proof.
  induction buf as [|[t0|q] buf IH]; intros iter mb t buf1 iter1 mb1; cbn.
  - destruct iter; intros [= <- <- <- <-]; cbn; lia.
  - intros [= <- <- <- <-]. lia.
  - apply IH.
Qed.
Lemma pull_swap buf : forall u mb t buf1 iter1 mb1, mp_pull buf (u ++ next_) mb = (t, buf1, iter1, mb1) ->
  (List.length next_ <= List.length iter1)%nat ->
  exists u1, iter1 = u1 ++ next_ /\ mp_pull buf (u ++ next_') mb = (t, buf1, u1 ++ next_', mb1).
Proof.
  induction buf as [|[t0|q] buf IH]; intros u mb t buf1 iter1 mb1; cbn.
  - destruct u as [|t0 u]; cbn [app].
    + destruct next_ as [|t0 ts]; [congruence|]. intros [= <- <- <- <-]. cbn. lia.
    + intros [= <- <- <- <-] _. exists u. auto.
  - intros [= <- <- <- <-] _. exists u. auto.
  - apply IH.
Qed.
Lemma session_le {A} (m : mp A) : forall mb s r s1, mp_session m mb s = (r, s1) -> (List.length (ti_iter s1) <= List.length (ti_iter s))%nat.
Proof.
  induction m as [b|k IH]; intros mb s r s1; cbn.
  - intros [= <- <-]. unfold rewind, buffer_tokens_and_positions. rewrite ub_iter. cbn. lia.
  - unfold peek_next. destruct (mp_pull _ _ _) as [[[t buf1] iter1] mb1] eqn:E. intros H. apply IH in H. apply pull_le in E. cbn in H. lia.
Qed.
Lemma session_swap {A} (m : mp A) : forall mb s s' r s1, swap s s' -> mp_session m mb s = (r, s1) -> untouched s1 ->
  exists s1', mp_session m mb s' = (r, s1') /\ swap s1 s1'.
Proof.
  induction m as [b|k IH]; intros mb s s' r s1 Hs; cbn.
  - intros [= <- <-] _. eexists. split; [reflexivity|]. unfold rewind, buffer_tokens_and_positions.
    destruct Hs as (u & E & ->). apply ub_swap. exists u. auto.
  - destruct Hs as (u & E & ->). unfold peek_next. cbn [ti_buf ti_iter ti_pos]. rewrite E.
    destruct (mp_pull _ (u ++ next_) _) as [[[t buf1] iter1] mb1] eqn:Ep. intros H Hl.
    pose proof (session_le _ _ _ _ _ H) as Hle. cbn in Hle.
    destruct (pull_swap _ _ _ _ _ _ _ Ep ltac:(lia)) as (u1 & -> & ->).
    eapply IH; [|exact H|exact Hl]. exists u1. auto.
Qed.
Lemma peek_le s o s1 : ti_peek s = Some (o, s1) -> (List.length (ti_iter s1) <= List.length (ti_iter s))%nat.
Proof.
  unfold ti_peek, ti_multipeek. destruct (mp_session _ _ s) as [r s2] eqn:E. apply session_le in E.
  destruct r; [destruct (ti_buf s2) as [|[t1|q] l]; try discriminate|]; intros [= <- <-]; exact E.
Qed.
Lemma peek_swap s s' o s1 : swap s s' -> ti_peek s = Some (o, s1) -> untouched s1 ->
  exists s1', ti_peek s' = Some (o, s1') /\ swap s1 s1'.
Proof.
  intros Hs. unfold ti_peek, ti_multipeek. destruct (mp_session _ _ s) as [r s2] eqn:E. intros H Hu.
  assert (s2 = s1) as -> by (destruct r; [destruct (ti_buf s2) as [|[t1|q] l]; try discriminate|]; congruence).
  destruct (session_swap _ _ _ _ _ _ Hs E Hu) as (s1' & E' & Hs1). rewrite E'.
  assert (Eb : ti_buf s1' = ti_buf s1) by (destruct Hs1 as (u & _ & ->); reflexivity).
  destruct r as [t|]; [|injection H as <-; eauto]. rewrite Eb.
  destruct (ti_buf s1) as [|[t1|q] l]; try discriminate. injection H as <-. eauto.
Qed.
Lemma run_le {A} (p : prog A) : forall s b a s1 b1, run concrete p s b = (OOk a, s1, b1) -> (List.length (ti_iter s1) <= List.length (ti_iter s))%nat.
Proof.
  induction p as [A a|A e|A x|A|A k IH|A k IH|A k IH|A X m k IH|A ts q k IH|A X i r q IHq k IH|A X f k IH]; intros s b a1 s1 b1; cbn [run]; try discriminate.
  - intros [= <- <- <-]. lia.
  - change (it_next concrete) with ti_next. destruct (ti_next s) as [[t s2]|] eqn:E; [|discriminate]. intros H. apply IH in H. apply next_le in E. lia.
  - change (it_peek concrete) with ti_peek. destruct (ti_peek s) as [[t s2]|] eqn:E; [|discriminate]. intros H. apply IH in H. apply peek_le in E. lia.
  - apply IH.
  - change (it_multipeek concrete) with ti_multipeek. unfold ti_multipeek. destruct (mp_session m [] s) as [r s2] eqn:E. intros H. apply IH in H.
    apply session_le in E. lia.
  - change (it_buffer concrete) with ti_buffer. intros H. apply IH in H. unfold ti_buffer, buffer_tokens_and_positions in H. rewrite ub_iter in H. exact H.
  - destruct (run concrete q _ b) as [[[x|e|x|] s2] b2]; try discriminate. apply IH.
  - destruct (f b) as [[x|e] b2]; [|discriminate]. apply IH.
Qed.
Lemma run_swap {A} (p : prog A) : forall s s' b a s1 b1, swap s s' -> run concrete p s b = (OOk a, s1, b1) -> untouched s1 ->
  exists s1', run concrete p s' b = (OOk a, s1', b1) /\ swap s1 s1'.
Proof.
  induction p as [A a|A e|A x|A|A k IH|A k IH|A k IH|A X m k IH|A ts q k IH|A X i r q IHq k IH|A X f k IH]; intros s s' b a1 s1 b1 Hs; cbn [run]; try discriminate.
  - intros [= <- <- <-] _. eauto.
  - change (it_next concrete) with ti_next. destruct (ti_next s) as [[t s2]|] eqn:E; [|discriminate]. intros H Hu.
    pose proof (run_le _ _ _ _ _ _ H) as Hle. destruct (next_swap _ _ _ _ Hs E ltac:(lia)) as (s2' & -> & Hs2). eapply IH; eassumption.
  - change (it_peek concrete) with ti_peek. destruct (ti_peek s) as [[t s2]|] eqn:E; [|discriminate]. intros H Hu.
    pose proof (run_le _ _ _ _ _ _ H) as Hle. destruct (peek_swap _ _ _ _ Hs E ltac:(lia)) as (s2' & -> & Hs2). eapply IH; eassumption.
  - change (it_pos concrete) with ti_pos. replace (ti_pos s') with (ti_pos s) by (destruct Hs as (u & _ & ->); reflexivity). now apply IH.
  - change (it_multipeek concrete) with ti_multipeek. unfold ti_multipeek. destruct (mp_session m [] s) as [r s2] eqn:E. intros H Hu.
    pose proof (run_le _ _ _ _ _ _ H) as Hle. destruct (session_swap _ _ _ _ _ _ Hs E ltac:(lia)) as (s2' & -> & Hs2). eapply IH; eassumption.
  - change (it_buffer concrete) with ti_buffer. apply IH. unfold ti_buffer, buffer_tokens_and_positions. apply ub_swap.
    destruct Hs as (u & E & ->). exists u. auto.
  - destruct (run concrete q _ b) as [[[x|e|x|] s2] b2]; try discriminate. now apply IH.
  - destruct (f b) as [[x|e] b2]; [|discriminate]. now apply IH.
Qed.
End Frame.

(** Whatever a method has not taken from the source when it returns could have been anything, or
    nothing at all.  (No condition on the input, or on the state.) *)
Theorem untaken_irrelevant B m fuel u v next next' buf p b a s' b' : next <> [] ->
  run concrete (call B m fuel) (mkTI (u ++ next) buf p) b = (OOk a, s', b') -> ti_iter s' = v ++ next ->
  run concrete (call B m fuel) (mkTI (u ++ next') buf p) b = (OOk a, mkTI (v ++ next') (ti_buf s') (ti_pos s'), b').
Proof.
  intros Hn E Ei.
  assert (Hs : swap next next' (mkTI (u ++ next) buf p) (mkTI (u ++ next') buf p)) by (exists u; auto).
  destruct (run_swap next next' Hn (call B m fuel) _ _ b a s' b' Hs E) as (s1 & E1 & v1 & Ev & ->).
  - rewrite Ei, app_length. lia.
  - rewrite Ei in Ev. apply app_inv_tail in Ev. subst v1. exact E1.
Qed.

(** ** A command and the end of its line *)
(** How a command ends with its line: the separator, the newline with its comment. *)
Inductive line_end : sep_kind -> newline_ -> list token -> list token -> Prop :=
  | le_newline nl mid rest : newline_form nl mid rest -> line_end SepNewline nl mid rest
  | le_semi nl mid rest : newline_form nl mid rest -> line_end SepSemi nl (TSemi :: mid) rest
  | le_amp nl mid rest : newline_form nl mid rest -> line_end SepAmp nl (TAmp :: mid) rest.

Section Line.
Variable B : builder.
Variable P : pure B.
Notation prog := (prog (bst B) (b_err B)).
Lemma holds_good c s : holds c s -> good s.
Proof. intros (l & E & _ & _). unfold good. rewrite E. destruct l; exact I. Qed.
Lemma step {A C} (p : prog A) (f : A -> prog C) c (Q : A -> ahead -> Prop) s b x s' b' a rest : holds c s -> lz c p Q ->
  runs p (tokens_left s) a rest -> run concrete (bind p f) s b = (OOk x, s', b') ->
  exists c1 s1, Q a c1 /\ holds c1 s1 /\ tokens_left s1 = rest /\ run concrete (f a) s1 b = (OOk x, s', b').
Proof.
  intros Hs Hp Hr E. rewrite run_bind_gen in E. specialize (Hp s b Hs).
  pose proof (run_transfer p s b (holds_good _ _ Hs)) as T. destruct (run concrete p s b) as [[o s1] b1]. destruct T as [T G].
  specialize (Hr (toks (abs s)) (end_pos (abs s)) b (tokens_left_abs s)).
  replace (mkL (toks (abs s)) (end_pos (abs s))) with (abs s) in Hr by (now destruct (abs s)).
  unfold lrun in Hr. rewrite T in Hr. destruct o as [y|e|z|]; try contradiction; [|discriminate].
  destruct Hr as (-> & -> & Hr & _). destruct Hp as (c1 & HQ & H1). exists c1, s1. rewrite tokens_left_abs in Hr. auto.
Qed.
Lemma peek_runs ts : runs (peek : prog _) ts (hd_error ts) ts.
Proof. apply runs_end, runs_peek, runs_ret. Qed.
Lemma next_runs t ts : runs (next : prog _) (t :: ts) (Some t) ts.
Proof. apply runs_end, runs_next. cbn. apply runs_ret. Qed.

Lemma next_assoc {A C} (g : option token -> prog A) (k : A -> prog C) : bind (bind next g) k = bind next (fun t => bind (g t) k).
Proof. reflexivity. Qed.
Lemma last_ret {A C} (p : prog A) (g : A -> C) s b x s' b' : run concrete (bind p (fun a => ret (g a))) s b = (OOk x, s', b') ->
  exists a, run concrete p s b = (OOk a, s', b').
Proof.
  rewrite run_bind_gen. destruct (run concrete p s b) as [[[a|e|z|] s1] b1]; try discriminate. cbn. intros [= <- <- <-]. eauto.
Qed.

(** A command that ends with its line: [complete_command] returns it when it has taken exactly that
    line, the newline included, from its source. *)
Theorem line_read fuel s b ns ts l mid sep nl rest : session B s b -> (List.length (tokens_left s) + 2 < fuel)%nat ->
  newlines ns (tokens_left s) ts -> ts <> [] -> list_form B P l ts mid -> line_end sep nl mid rest ->
  exists s', run concrete (p_complete_command B fuel) s b = (OOk (Some (pu_complete_command P ns l sep (Some nl))), s', b) /\
    ti_buf s' = [] /\ ti_iter s' = rest.
Proof.
  intros Hs Hf Hn Hne Hl He.
  assert (Hr : parser_reach B s b).
  { clear -Hs. induction Hs as [ts b H|m fuel s b a s' b' Hm Hs IH E]; [constructor|]. eapply pr_call; [apply (call_entry B m)|exact IH|exact E]. }
  assert (Hc : complete_form B P ns (pu_complete_command P ns l sep (Some nl)) ts rest).
  { destruct He as [nl mid rest H|nl mid rest H|nl mid rest H].
    - now apply cp_newline with (mid := mid).
    - apply cp_semi with (mid := mid); [exact Hl|now constructor].
    - apply cp_amp with (mid := mid); [exact Hl|now constructor]. }
  destruct (complete_command_read B P fuel s b Hr Hf ns _ ts rest Hn Hne Hc) as (s' & E & Er).
  exists s'. split; [exact E|].
  assert (G : holds Clear s').
  { pose proof (neat_knot B fuel fuel) as HK.
    cbn [call] in E. unfold p_complete_command, complete_command in E.
    destruct (step _ _ Neat _ _ _ _ _ _ _ _ (session_holds B s b Hs) (neat_linebreak fuel) (runs_linebreak fuel _ _ _ Hn) E) as (c1 & s1 & -> & H1 & T1 & E1).
    clear E.
    destruct (step _ _ Neat _ _ _ _ _ _ _ _ H1 lz_peek_neat (peek_runs _) E1) as (c2 & s2 & Q2 & H2 & T2 & E2). clear E1.
    rewrite T1 in *. destruct ts as [|t ts]; [congruence|]. cbn [hd_error] in *. destruct Q2 as [_ ->].
    destruct (last_ret _ Some _ _ _ _ _ E2) as (cmd & E3). clear E2. unfold complete_command_with_leading_comments in E3.
    assert (H2' : holds Loose s2) by (eapply le_holds; [apply le_head_loose|exact H2]). clear H2.
    assert (RL : runs (and_or_list B fuel (knot B fuel fuel)) (tokens_left s2) l mid).
    { rewrite T2. destruct (forms_read B P fuel) as (_ & _ & _ & _ & _ & _ & _ & _ & _ & _ & _ & _ & _ & _ & _ & _ & _ & _ & _ & _ & _ & _ & _ & F & _).
      apply (F _ _ _ Hl fuel). }
    destruct (step _ _ Loose _ _ _ _ _ _ _ _ H2' (loose_and_or_list B fuel _ HK) RL E3) as (c4 & s4 & -> & H4 & T4 & E4). clear E3.
    destruct (step _ _ Neat _ _ _ _ _ _ _ _ H4 lz_peek_neat (peek_runs _) E4) as (c5 & s5 & Q5 & H5 & T5 & E5). clear E4.
    rewrite T4 in *.
    assert (Fin : forall (f : option newline_ -> sep_kind * option newline_) (k : sep_kind * option newline_ -> prog (b_cmd B)) s6 m,
      (forall r, exists g, k r = build g) ->
      holds Neat s6 -> tokens_left s6 = m -> newline_form nl m rest ->
      run concrete (bind (bind (newline fuel) (fun n => ret (f n))) k) s6 b = (OOk cmd, s', b) -> holds Clear s').
    { intros f k s6 m Hk H6 T6 Hm E6. rewrite run_bind_gen in E6.
      assert (RN : runs (newline fuel : prog _) (tokens_left s6) (Some nl) rest) by (rewrite T6; apply runs_newline; now constructor).
      destruct (run concrete (bind (newline fuel) (fun n => ret (f n))) s6 b) as [[[r|e|z|] s7] b7] eqn:E7; try discriminate.
      destruct (step _ _ Neat _ _ _ _ _ _ _ _ H6 (newline_clear fuel) RN E7) as (c8 & s8 & Q8 & H8 & T8 & E8). cbn in Q8. subst c8.
      cbn in E8. injection E8 as _ <- _. destruct (Hk r) as [g Eg]. rewrite Eg in E6. cbn in E6. destruct (g b7) as [[y|y] b9]; [|discriminate].
      injection E6 as _ <- _. exact H8. }
    assert (Kb : forall r : sep_kind * option newline_, exists g, (let '(sp, n) := r in build (o_complete_command B ns l sp n)) = build g)
      by (intros [sp n]; eexists; reflexivity).
    destruct He as [nl mid rest H|nl mid rest H|nl mid rest H].
    - assert (N : hd_error mid <> Some TSemi /\ hd_error mid <> Some TAmp).
      { destruct H as [? ? H|? ? ? H _|? ? H _]; (destruct ts0 as [|u ts0]; [discriminate|]); cbn [hd_error]; split; intros [= ->]; discriminate. }
      destruct N as [N1 N2].
      assert (H5' : holds Neat s5). { destruct (hd_error mid); [destruct Q5 as [_ ->]; eapply le_holds; [apply le_head|exact H5]|subst c5; exact H5]. }
      destruct (hd_error mid) as [u|]; [destruct u; try congruence|];
        eapply (Fin (fun n => (match n with Some _ => SepNewline | None => SepOther end, n)) _ s5 mid Kb H5' T5 H E5).
    - cbn [hd_error] in *. destruct Q5 as [_ ->]. rewrite next_assoc in E5.
      assert (R6 : runs (next : prog _) (tokens_left s5) (Some TSemi) mid) by (rewrite T5; apply next_runs).
      destruct (step _ _ _ _ _ _ _ _ _ _ _ H5 (lz_next_head _) R6 E5) as (c6 & s6 & [_ ->] & H6 & T6 & E6).
      exact (Fin (fun n => (SepSemi, n)) _ s6 mid Kb H6 T6 H E6).
    - cbn [hd_error] in *. destruct Q5 as [_ ->]. rewrite next_assoc in E5.
      assert (R6 : runs (next : prog _) (tokens_left s5) (Some TAmp) mid) by (rewrite T5; apply next_runs).
      destruct (step _ _ _ _ _ _ _ _ _ _ _ H5 (lz_next_head _) R6 E5) as (c6 & s6 & [_ ->] & H6 & T6 & E6).
      exact (Fin (fun n => (SepAmp, n)) _ s6 mid Kb H6 T6 H E6). }
  destruct G as (l0 & Eb & -> & _). cbn in Eb. split; [exact Eb|]. rewrite <- Er. unfold tokens_left. now rewrite Eb.
Qed.
End Line.

(** What comes after the line plays no part: the same line followed by anything else, or by the end of
    the input, gives the same command, and nothing of what follows has been taken. *)
Theorem line_suffices B (P : pure B) fuel b line next next' ns ts l mid sep nl : no_heredoc (line ++ next) -> next <> [] ->
  (List.length (line ++ next) + 2 < fuel)%nat ->
  newlines ns (line ++ next) ts -> ts <> [] -> list_form B P l ts mid -> line_end sep nl mid next ->
  exists p, run concrete (p_complete_command B fuel) (ti_new (line ++ next')) b =
    (OOk (Some (pu_complete_command P ns l sep (Some nl))), mkTI next' [] p, b).
Proof.
  intros Hh Hne Hf Hn Ht Hl He.
  destruct (line_read B P fuel (ti_new (line ++ next)) b ns ts l mid sep nl next (s_new B _ b Hh) Hf Hn Ht Hl He) as (s' & E & Eb & Ei).
  exists (ti_pos s'). rewrite <- Eb.
  exact (untaken_irrelevant B ACompleteCommand fuel line [] next next' [] pos_new b _ s' b Hne E Ei).
Qed.

(** ** Examples *)
Section Examples.
#[local] Instance some_uni : Uni := fun _ => false.
Definition after (n : nat) (src : string) : option (list token * list token) :=
  (fix go n st := match n, st with
   | O, Some (s, _) => Some (taken_ahead s, ti_iter s)
   | S n', _ => match parser_iter_next concrete default_builder 100 st with (Some (OOk _), st') => go n' st' | _ => None end
   | _, None => None end) n (parser_iter_new default_builder (lex (s_of src)) tt).
Definition nl_string : string := String (Ascii.ascii_of_nat 10) EmptyString.
(** A command and its comment: the next line is untouched. *)
Example one_line : after 1 ("a b # c" ++ nl_string ++ "d" ++ nl_string)%string = Some ([], lex (s_of ("d" ++ nl_string))).
Proof. reflexivity. Qed.
(** A command over several lines. *)
Example several_lines : after 1 ("if a" ++ nl_string ++ "then b" ++ nl_string ++ "fi" ++ nl_string ++ "d" ++ nl_string)%string
  = Some ([], lex (s_of ("d" ++ nl_string))).
Proof. reflexivity. Qed.
(** Within a line there is look-ahead. *)
Example within_a_line : after 1 ("a; b c" ++ nl_string)%string = Some ([TName (s_of "b")], lex (s_of (" c" ++ nl_string))).
Proof. reflexivity. Qed.
(** Looking for a reserved word does reach past a newline: why [line_method] leaves it out. *)
Example reserved_word_reaches_past :
  match run concrete (p_peek_reserved_word default_builder 100 [DO]) (ti_new (lex (s_of (nl_string ++ "a b")))) tt with
  | (OOk None, s, _) => taken_ahead s = [TNewline; TName (s_of "a")]
  | _ => False
  end.
Proof. reflexivity. Qed.
(** The hypotheses of [line_read] and [line_suffices] can be met. *)
Definition a_line : list token := lex (s_of (nl_string ++ "a | b && c; # d" ++ nl_string)).
Definition another : list token := lex (s_of ("e" ++ nl_string)).
Example line_suffices_witness : exists ns ts l mid sep nl,
  no_heredoc (a_line ++ another) /\ another <> [] /\ newlines ns (a_line ++ another) ts /\ ts <> [] /\
  list_form default_builder default_pure l ts mid /\ line_end sep nl mid another.
Proof.
  set (ts := tl (a_line ++ another)).
  set (s := ti_new ts).
  destruct (run concrete (call default_builder AAndOrList 100) s tt) as [[o s'] b'] eqn:E.
  assert (H : (match o with OOk _ => true | _ => false end) = true /\ tokens_left s' = lex (s_of ("; # d" ++ nl_string ++ "e" ++ nl_string))).
  { revert E. vm_compute. intros [= <- <- _]. split; reflexivity. }
  destruct H as [H1 H2]. destruct o as [l|e|x|]; [|discriminate H1..]. destruct b'.
  assert (F : list_form default_builder default_pure l ts (tokens_left s')).
  { change ts with (tokens_left s). apply (and_or_list_exact default_builder default_pure 100 s tt (pr_new _ _ _)).
    - vm_compute. lia.
    - exists s'. split; [exact E|reflexivity]. }
  rewrite H2 in F. clear E H1 H2. clearbody s.
  exists [Newline None], ts, l, (lex (s_of ("; # d" ++ nl_string ++ "e" ++ nl_string))), SepSemi, (Newline (Some (s_of "# d"))).
  split; [|split; [|split; [|split; [|split]]]].
  - clear F. intros t Ht. vm_compute in Ht. repeat destruct Ht as [<-|Ht]; try (split; discriminate). destruct Ht.
  - discriminate.
  - apply ns_cons with (mid := ts); [constructor; reflexivity|]. change ts with (skipw ts) at 2. apply ns_nil. split; discriminate.
  - discriminate.
  - exact F.
  - change (lex (s_of ("; # d" ++ nl_string ++ "e" ++ nl_string))) with (TSemi :: lex (s_of (" # d" ++ nl_string ++ "e" ++ nl_string))).
    apply le_semi. apply (nf_comment _ [TWhitespace (s_of " "); TName (s_of "d")] another); [reflexivity|]. cbn. intuition discriminate.
Qed.
End Examples.
