(** * What is written is what is parsed

    [Forms.v] describes how things are written; here the public methods of the parser and its
    iterator return them, leaving exactly the tokens after the written form. *)
From Coq Require Import String.
From Verif Require Import Base Token Lexer Ast Builder Prog Iter Located IterProofs ParserBase Balanced BalancedSpec Arith Word
  Redirect Command DefaultBuilder RunLemmas Entry Api Total Runs Pure Relex ArithSpec ArithRuns Forms BaseForms WordRuns CommandRuns
  CompoundRuns FormsRuns.

Section Script.
Variable B : builder.
Variable P : pure B.

(** The iterator, next asked before tokens from which a command is written. *)
Lemma complete_reads fuel ns c ts ts1 rest : newlines ns ts ts1 -> ts1 <> [] ->
  complete_form B P ns c ts1 rest -> runs (p_complete_command B fuel) ts (Some c) rest.
Proof.
  intros Hn He Hc. unfold p_complete_command, complete_command.
  rcall ltac:(apply runs_linebreak; exact Hn). rstep. destruct ts1 as [|t ts1]; [congruence|]. cbn [hd_error].
  destruct (forms_read B P fuel) as (_ & _ & _ & _ & _ & _ & _ & _ & _ & _ & _ & _ & _ & _ & _ & _ & _ & _ & _ & _ & _ & _ & _ & _ & H & _).
  rcall ltac:(apply (H _ _ _ _ Hc)). apply runs_ret.
Qed.
Lemma complete_reads_end fuel ns ts : newlines ns ts [] -> runs (p_complete_command B fuel) ts None [].
Proof.
  intros Hn. unfold p_complete_command, complete_command.
  rcall ltac:(apply runs_linebreak; exact Hn). rstep. cbn [hd_error].
  destruct (is_nil ns); [apply runs_ret|]. eapply runs_build; [apply (pu_comments_ok _ P)|]. apply runs_ret.
Qed.

(** A script is a list of commands up to the end of the input. *)
Definition script (g : cgroup (b_cmd B)) (ts : list token) : Prop := group B P no_delims g ts [].

Lemma no_delims_end ts : group_end no_delims ts -> ts = [].
Proof.
  intros [H|[(? & ? & _ & [])|[(? & ? & [] & _)|(? & ? & [] & _)]]]. exact H.
Qed.

Lemma script_yields fuel g cfg ts rest : group B P cfg g ts rest -> cfg = no_delims -> rest = [] ->
  forall s b, parser_reach B s b -> tokens_left s = ts -> (List.length ts + 2 < fuel)%nat ->
  exists s' , yields B fuel (Some (s, b)) (commands g) (Some (s', b)) /\
    parser_iter_next concrete B fuel (Some (s', b)) = (None, None).
Proof.
  intros H. induction H as [cfg ns ts rest Hn He|cfg ns c cs tr ts ts1 ts2 rest Hn He Hc _ IH]; intros -> ->  s b Hr Ht Hf.
  - exists s. split; [constructor|]. unfold parser_iter_next.
    destruct (runs_concrete B ACompleteCommand fuel s b None [] Hr ltac:(now rewrite Ht)) as (s' & E & _).
    { rewrite Ht. apply (complete_reads_end fuel ns). exact Hn. }
    change (run concrete (p_complete_command B fuel) s b = (OOk None, s', b)) in E. rewrite E. reflexivity.
  - assert (Hne : ts1 <> []) by (intros ->; apply He; now left).
    destruct (runs_concrete B ACompleteCommand fuel s b (Some c) ts2 Hr ltac:(now rewrite Ht)) as (s1 & E & E1).
    { rewrite Ht. eapply complete_reads; eassumption. }
    change (run concrete (p_complete_command B fuel) s b = (OOk (Some c), s1, b)) in E.
    assert (Hr1 : parser_reach B s1 b) by (eapply pr_call; [apply (call_entry B ACompleteCommand)|exact Hr|exact E]).
    pose proof (complete_command_progress B fuel s b c s1 b Hr ltac:(now rewrite Ht) E) as Hp.
    rewrite Ht, E1 in Hp.
    destruct (IH eq_refl eq_refl s1 b Hr1 E1 ltac:(lia)) as (s' & Y & N).
    exists s'. split; [|exact N]. cbn [commands]. eapply y_cons; [|exact Y].
    unfold parser_iter_next. rewrite E. reflexivity.
Qed.

(** C31: the parser's iterator, over the tokens of a written script, yields exactly its commands,
    in order, and then ends without an error (having read everything: [iterator_complete]). *)
(* A script that meets the hypotheses: [Exact.script_exact_witness]; redirects, among them here-
   documents, that meet those of [redirect_read] below: the examples of Heredocs.v. *)
Theorem script_read fuel g ts b : script g ts -> (List.length ts + 2 < fuel)%nat ->
  exists st, yields B fuel (parser_iter_new B ts b) (commands g) st /\
    parser_iter_next concrete B fuel st = (None, None).
Proof.
  intros H Hf. destruct (script_yields fuel g _ ts [] H eq_refl eq_refl (ti_new ts) b (pr_new _ _ _) eq_refl Hf) as (s & Y & N).
  eexists. split; [exact Y|exact N].
Qed.

(** The same for the other methods of the parser: before the tokens of a written form they return
    what is written and stop after it. *)
Section Methods.
Variables (fuel : nat) (s : token_iter) (b : bst B).
Hypothesis reach : parser_reach B s b.
Hypothesis enough : (List.length (tokens_left s) + 2 < fuel)%nat.
Definition reads (m : api) (a : api_result B m) (rest : list token) : Prop :=
  exists s', run concrete (call B m fuel) s b = (OOk a, s', b) /\ tokens_left s' = rest.

(** [s] stands before blanks and [ts]. *)
Definition before (ts : list token) : Prop := skipw (tokens_left s) = skipw ts.

Theorem word_read k ts rest : word_form B P k ts rest -> before ts ->
  reads AWordPreserve (Some (pu_word P k)) rest.
Proof.
  intros H E. apply (runs_concrete B AWordPreserve); auto.
  pose proof (word_form_skipw _ _ _ _ _ H) as Es.
  destruct (forms_read B P fuel) as (_ & _ & _ & _ & _ & _ & F & _).
  destruct (F _ _ _ H fuel) as [_ R]. cbn [call]. unfold p_word_preserve_trailing_whitespace, word_preserve_trailing_whitespace.
  rcall ltac:(apply R; unfold before in E; congruence). eapply runs_build; [apply (pu_word_ok _ P)|]. apply runs_ret.
Qed.
Theorem redirect_read r ts rest : redirect_form B P r ts rest -> before ts -> reads ARedirect (Some (inl r)) rest.
Proof.
  intros H E. apply (runs_concrete B ARedirect); auto.
  destruct (forms_read B P fuel) as (_ & _ & _ & _ & _ & _ & _ & F & _).
  cbn [call]. apply (F r ts rest H fuel). unfold before in E. rewrite E. now apply (redirect_form_skipw B P r ts rest).
Qed.
Theorem simple_command_read vars args ts rest : simple B P vars args ts rest -> (vars <> [] \/ args <> []) ->
  before ts -> reads ASimpleCommand (pu_simple_command P vars args) rest.
Proof.
  intros H Hn E. apply (runs_concrete B ASimpleCommand); auto.
  destruct (forms_read B P fuel) as (_ & _ & _ & _ & _ & _ & _ & _ & _ & _ & F & _).
  cbn [call]. eapply runs_simple_command; [apply F; exact H|exact E|exact Hn].
Qed.
Theorem compound_command_read c ts rest : compound B P c ts rest -> before ts -> reads ACompoundCommand c rest.
Proof.
  intros H E. apply (runs_concrete B ACompoundCommand); auto.
  destruct (forms_read B P fuel) as (_ & _ & _ & _ & _ & _ & _ & _ & _ & _ & _ & _ & _ & F & _).
  cbn [call]. eapply runs_compound_command; [apply F; exact H|exact E].
Qed.
Theorem command_read c ts rest : command_form B P c (skipw ts) rest -> before ts -> reads ACommand c rest.
Proof.
  intros H E. apply (runs_concrete B ACommand); auto.
  destruct (forms_read B P fuel) as (_ & _ & _ & _ & _ & _ & _ & _ & _ & _ & _ & F & _).
  cbn [call]. apply (F _ _ _ H fuel); [apply skipw_idem|exact E].
Qed.
Theorem pipeline_read p ts rest : pipeline_form B P p ts rest -> before ts -> reads APipeline p rest.
Proof.
  intros H E. apply (runs_concrete B APipeline); auto.
  destruct (forms_read B P fuel) as (_ & _ & _ & _ & _ & _ & _ & _ & _ & _ & _ & _ & _ & _ & _ & _ & _ & _ & _ & _ & _ & F & _).
  cbn [call]. apply (F _ _ _ H fuel). exact E.
Qed.
Theorem and_or_list_read l rest : list_form B P l (tokens_left s) rest -> reads AAndOrList l rest.
Proof.
  intros H. apply (runs_concrete B AAndOrList); auto.
  destruct (forms_read B P fuel) as (_ & _ & _ & _ & _ & _ & _ & _ & _ & _ & _ & _ & _ & _ & _ & _ & _ & _ & _ & _ & _ & _ & _ & F & _).
  cbn [call]. apply (F _ _ _ H fuel).
Qed.
Theorem complete_command_read ns c ts rest : newlines ns (tokens_left s) ts -> ts <> [] ->
  complete_form B P ns c ts rest -> reads ACompleteCommand (Some c) rest.
Proof. intros H1 H2 H3. apply (runs_concrete B ACompleteCommand); auto. eapply complete_reads; eassumption. Qed.
End Methods.
End Script.

(** ** Sources, with the default builder *)
Section Source.
Context {U : Uni}.
(** [Parser::word_preserve_trailing_whitespace] on the source [src] returns the word [w] and reads
    the whole source. *)
Definition source_word (fuel : nat) (src : str) (w : tlword) : Prop :=
  (List.length (lex src) + 2 < fuel)%nat ->
  exists s', run concrete (call default_builder AWordPreserve fuel) (ti_new (lex src)) tt
    = (OOk (Some w), s', tt) /\ tokens_left s' = [].
Lemma source_word_read fuel src k : word_form default_builder default_pure k (lex src) [] ->
  source_word fuel src (default_word k).
Proof.
  intros H Hf.
  apply (word_read default_builder default_pure fuel (ti_new (lex src)) tt (pr_new _ _ _) Hf k (lex src) [] H eq_refl).
Qed.
End Source.
