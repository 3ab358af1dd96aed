(** * The parser accepts exactly the grammar

    [FormsTheorems.v]: what is written is read.  [SoundScript.v]: what is read was written.  Here
    the two together, for scripts, for the public methods and for arithmetic expressions; and what
    follows from the two: the grammar is unambiguous, and everything outside it is reported. *)
From Coq Require Import String.
From Verif Require Import Base Token Lexer LexSpec LexTheorems Pos Ast Builder Prog Iter Located IterProofs ParserBase Balanced RunLemmas BaseRun
  Sim BalancedSpec Arith Word Redirect Command DefaultBuilder Entry Api Total Runs Pure Relex ArithSpec ArithRuns ArithExact HeredocSpec Forms
  BaseForms WordRuns HeredocRuns CommandRuns CompoundRuns FormsRuns FormsTheorems Reserved Gives SoundBase SoundWord SoundCommand SoundScript.

Section Exact.
Variable B : builder.
Variable P : pure B.

(** ** Scripts *)
(** The iterator over [ts] yields the commands [cs], in order, and then ends without an error. *)
Definition parses_to (fuel : nat) (ts : list token) (b : bst B) (cs : list (b_cmd B)) : Prop :=
  exists st, yields B fuel (parser_iter_new B ts b) cs st /\ parser_iter_next concrete B fuel st = (None, None).

Theorem script_exact fuel ts b cs : (List.length ts + 2 < fuel)%nat ->
  parses_to fuel ts b cs <-> exists g, script B P g ts /\ commands g = cs.
Proof.
  intros Hf. split.
  - intros (st & Y & N). exact (script_sound B P fuel ts b cs st Y N).
  - intros (g & H & <-). exact (script_read B P fuel g ts b H Hf).
Qed.

Lemma yields_det fuel st cs st1 : yields B fuel st cs st1 -> parser_iter_next concrete B fuel st1 = (None, None) ->
  forall cs' st2, yields B fuel st cs' st2 -> parser_iter_next concrete B fuel st2 = (None, None) -> cs = cs'.
Proof.
  intros Y N. induction Y as [st|st c st1 cs st2 E Y IH]; intros cs' st' Y' N'; inversion Y' as [|x c' st1' cs1 y E' Y1]; subst; try congruence.
  rewrite E in E'. injection E' as <- <-. f_equal. eapply IH; eassumption.
Qed.
(** The grammar assigns at most one list of commands to a sequence of tokens. *)
Theorem script_unambiguous (b : bst B) g g' ts : script B P g ts -> script B P g' ts -> commands g = commands g'.
Proof.
  intros H H'. set (fuel := (List.length ts + 3)%nat).
  destruct (script_read B P fuel g ts b H ltac:(unfold fuel; lia)) as (st & Y & N).
  destruct (script_read B P fuel g' ts b H' ltac:(unfold fuel; lia)) as (st' & Y' & N').
  exact (yields_det fuel _ _ _ Y N _ _ Y' N').
Qed.

(** Iteration comes to an end. *)
Lemma iterator_ends fuel ts b : (List.length ts + 2 < fuel)%nat ->
  exists cs st r st', yields B fuel (parser_iter_new B ts b) cs st /\
    parser_iter_next concrete B fuel st = (r, st') /\ forall c, r <> Some (OOk c).
Proof.
  intros Hf.
  enough (G : forall n cs st, yields B fuel (parser_iter_new B ts b) cs st -> (List.length ts < n + List.length cs)%nat ->
    exists cs st r st', yields B fuel (parser_iter_new B ts b) cs st /\
      parser_iter_next concrete B fuel st = (r, st') /\ forall c, r <> Some (OOk c)).
  { apply (G (S (List.length ts)) [] (parser_iter_new B ts b)); [constructor|cbn; lia]. }
  induction n as [|n IH]; intros cs st Y Hn.
  - pose proof (iterator_at_most_tokens B fuel ts b cs st Y Hf). lia.
  - destruct (parser_iter_next concrete B fuel st) as [r st'] eqn:E.
    assert (D : (exists c, r = Some (OOk c)) \/ forall c, r <> Some (OOk c)).
    { destruct r as [[c|e|x|]|]; [left; eauto|right; discriminate..]. }
    destruct D as [[c ->]|D]; [|exists cs, st, r, st'; auto].
    apply (IH (cs ++ [c]) st'); [|rewrite app_length; cbn; lia].
    clear -Y E. induction Y as [st|st c' st1 cs st2 E' Y IH]; cbn [app]; econstructor; eauto. constructor.
Qed.
(** Whatever is not a script is reported: the iterator yields an error (or meets the one panic of
    [parser_never_panics_partial]) after finitely many commands. *)
Theorem script_rejected fuel ts b : (List.length ts + 2 < fuel)%nat -> (forall g, ~ script B P g ts) ->
  exists cs st st', yields B fuel (parser_iter_new B ts b) cs st /\
    ((exists e, parser_iter_next concrete B fuel st = (Some (OErr e), st')) \/
     parser_iter_next concrete B fuel st = (Some (OPanic PS_interp_escaped), st')).
Proof.
  intros Hf Hn. destruct (iterator_ends fuel ts b Hf) as (cs & st & r & st' & Y & E & Hr).
  exists cs, st, st'. split; [exact Y|]. pose proof (iterator_complete B fuel ts b cs st Y Hf r st' E) as C.
  destruct r as [[c|e|x|]|].
  - now destruct (Hr c).
  - left. eauto.
  - right. rewrite E. f_equal. f_equal. f_equal. exact C.
  - contradiction.
  - destruct C as [-> ?]. exfalso. destruct (script_sound B P fuel ts b cs st Y E) as (g & Hg & _). exact (Hn g Hg).
Qed.

(** ** Methods *)
Section Methods.
Variables (fuel : nat) (s : token_iter) (b : bst B).
Hypothesis reach : parser_reach B s b.
Hypothesis enough : (List.length (tokens_left s) + 2 < fuel)%nat.
Notation ts := (tokens_left s).
Notation reads := (reads B fuel s b).
Lemma reads_returns m a rest : reads m a rest -> returns B fuel s b m a rest.
Proof. intros (s' & E & H). exists s', b. auto. Qed.

Theorem word_exact k rest : reads AWordPreserve (Some k) rest <->
  exists w, k = pu_word P w /\ word_form B P w (skipw ts) rest.
Proof.
  split.
  - intros H. apply reads_returns in H. exact (word_preserve_sound B P fuel s b reach (Some k) rest H).
  - intros (w & -> & H). apply (word_read B P fuel s b reach enough w (skipw ts) rest H). unfold before. now rewrite skipw_idem.
Qed.
Theorem redirect_exact r rest : reads ARedirect (Some (inl r)) rest <-> redirect_form B P r (skipw ts) rest.
Proof.
  split.
  - intros H. apply reads_returns in H. exact (redirect_sound B P fuel s b reach (Some (inl r)) rest H).
  - intros H. apply (redirect_read B P fuel s b reach enough r (skipw ts) rest H). unfold before. now rewrite skipw_idem.
Qed.
Theorem simple_command_exact c rest : reads ASimpleCommand c rest <->
  exists vars args, c = pu_simple_command P vars args /\ simple B P vars args ts rest /\ (vars <> [] \/ args <> []).
Proof.
  split.
  - intros H. apply reads_returns in H. exact (simple_command_sound B P fuel s b reach c rest H).
  - intros (vars & args & -> & H & Hn). now apply (simple_command_read B P fuel s b reach enough vars args ts rest H).
Qed.
Theorem compound_command_exact c rest : reads ACompoundCommand c rest <-> compound B P c (skipw ts) rest.
Proof.
  split.
  - intros H. apply reads_returns in H. exact (compound_command_sound B P fuel s b reach c rest H).
  - intros H. apply (compound_command_read B P fuel s b reach enough c (skipw ts) rest H). unfold before. now rewrite skipw_idem.
Qed.
Theorem command_exact c rest : reads ACommand c rest <-> command_form B P c (skipw ts) rest.
Proof.
  split.
  - intros H. apply reads_returns in H. exact (command_sound B P fuel s b reach c rest H).
  - intros H. now apply (command_read B P fuel s b reach enough c ts rest H).
Qed.
Theorem pipeline_exact p rest : reads APipeline p rest <-> pipeline_form B P p ts rest.
Proof.
  split.
  - intros H. apply reads_returns in H. exact (pipeline_sound B P fuel s b reach p rest H).
  - intros H. now apply (pipeline_read B P fuel s b reach enough p ts rest H).
Qed.
Theorem and_or_list_exact l rest : reads AAndOrList l rest <-> list_form B P l ts rest.
Proof.
  split.
  - intros H. apply reads_returns in H. exact (and_or_list_sound B P fuel s b reach l rest H).
  - intros H. now apply (and_or_list_read B P fuel s b reach enough l rest H).
Qed.
Theorem complete_command_exact c rest : reads ACompleteCommand (Some c) rest <->
  exists ns mid, newlines ns ts mid /\ mid <> [] /\ complete_form B P ns c mid rest.
Proof.
  split.
  - intros H. apply reads_returns in H. exact (complete_command_sound B P fuel s b reach (Some c) rest H).
  - intros (ns & mid & H1 & H2 & H3). now apply (complete_command_read B P fuel s b reach enough ns c mid rest H1).
Qed.

(** Arithmetic, over the whole rest of the input. *)
Theorem arithmetic_exact e : reads AArithmetic e [] <->
  exists us w, ts = us ++ w /\ blank w /\ written e us.
Proof.
  split.
  - intros H. apply reads_returns in H.
    assert (X : forall e rest, returns B fuel s b AArithmetic e rest -> exists us w, ts = us ++ w ++ rest /\ blank w /\ written e us).
    { apply (sound_of B fuel s b reach AArithmetic). apply arith_gives. }
    destruct (X _ _ H) as (us & w & E & Hw & He). rewrite app_nil_r in E. eauto.
  - intros (us & w & E & Hw & o & H). apply (runs_concrete B AArithmetic); auto. rewrite E.
    pose proof (arith_runs (BS:=bst B) (BE:=b_err B) fuel o e us w H) as R. rewrite skipw_blank_all in R by exact Hw.
    apply R. unfold follow. now rewrite skipw_blank_all.
Qed.
End Methods.
End Exact.

(** ** Arithmetic expressions *)
(** The grammar of arithmetic expressions is unambiguous. *)
Theorem arithmetic_unambiguous e e' ts : written e ts -> written e' ts -> e = e'.
Proof.
  intros H H'. set (fuel := (List.length ts + 3)%nat).
  assert (X : forall e, written e ts -> reads EmptyBuilder.empty_builder fuel (ti_new ts) tt AArithmetic e []).
  { intros e0 H0. apply (arithmetic_exact EmptyBuilder.empty_builder); [apply pr_new|unfold fuel; cbn; lia|].
    exists ts, []. split; [now rewrite app_nil_r|]. split; [constructor|exact H0]. }
  destruct (X e H) as (s1 & E1 & _), (X e' H') as (s2 & E2 & _). congruence.
Qed.

(** ** Cases the theorems speak about *)
Fixpoint iterate B fuel (n : nat) (st : parser_iter concrete B) (acc : list (b_cmd B)) :=
  match n with
  | O => None
  | S n => match parser_iter_next concrete B fuel st with
           | (Some (OOk c), st') => iterate B fuel n st' (acc ++ [c])
           | (r, _) => Some (acc, r)
           end
  end.
Lemma yields_steps B fuel n ts b : let st0 := parser_iter_new B ts b in
  iterate B fuel n st0 [] = None \/ exists cs r st st', iterate B fuel n st0 [] = Some (cs, r) /\
    yields B fuel st0 cs st /\ parser_iter_next concrete B fuel st = (r, st') /\ forall c, r <> Some (OOk c).
Proof.
  cbv zeta. set (st0 := parser_iter_new B ts b).
  enough (G : forall n acc st, yields B fuel st0 acc st -> iterate B fuel n st acc = None \/ exists cs r st1 st', iterate B fuel n st acc = Some (cs, r) /\
    yields B fuel st0 cs st1 /\ parser_iter_next concrete B fuel st1 = (r, st') /\ forall c, r <> Some (OOk c)).
  { apply G. constructor. }
  clear n. induction n as [|n IH]; intros acc st Y; [now left|]. cbn [iterate].
  destruct (parser_iter_next concrete B fuel st) as [r st'] eqn:E.
  destruct r as [[c|e|x|]|]; try (right; eexists _, _, st, st'; split; [reflexivity|]; split; [exact Y|]; split; [exact E|discriminate]).
  apply IH. clear -Y E. induction Y as [st|st c' st1 cs st2 E' Y IH]; cbn [app]; econstructor; eauto. constructor.
Qed.
Section Witness.
#[local] Instance some_uni : Uni := fun _ => false.
Definition a_script : list token := lex (s_of "if a; then b >f; fi | c && d & # e" ++ [10%N]).
Definition no_script : list token := lex (s_of "a; b 'c").
Lemma a_script_short : (List.length a_script + 2 < 100)%nat.
Proof. vm_compute. lia. Qed.
Lemma no_script_short : (List.length no_script + 2 < 100)%nat.
Proof. vm_compute. lia. Qed.
(** A script. *)
Example script_exact_witness : exists g, 
  script default_builder default_pure g a_script /\ List.length (commands g) = 1.
Proof.
  pose proof (yields_steps default_builder 100 100 a_script tt) as [H|H].
  - vm_compute in H. discriminate.
  - destruct H as (cs & r & st & st' & H & Y & E & _).
    assert (F : exists c, cs = [c] /\ r = None). { vm_compute in H. injection H as <- <-. eauto. }
    destruct F as (c & -> & ->).
    destruct (iterator_complete default_builder 100 a_script tt [c] st Y a_script_short None st' E) as [-> _].
    destruct (proj1 (script_exact default_builder default_pure 100 a_script tt [c] a_script_short) (ex_intro _ st (conj Y E))) as (g & Hg & Ec).
    exists g. split; [exact Hg|]. now rewrite Ec.
Qed.
(** Not a script: its quotation is not closed. *)
Example script_rejected_witness g : ~ script default_builder default_pure g no_script.
Proof.
  intros Hg. destruct (script_read default_builder default_pure 100 g no_script tt Hg no_script_short) as (st1 & Y1 & N1).
  pose proof (yields_steps default_builder 100 100 no_script tt) as [H|H].
  - vm_compute in H. discriminate.
  - destruct H as (cs & r & st & st' & H & Y & E & _).
    assert (F : exists e, r = Some (OErr e)). { vm_compute in H. injection H as _ <-. eauto. }
    destruct F as (e & ->). clear H. revert Y1 N1 Y E. generalize (parser_iter_new default_builder no_script tt) (commands g).
    intros st0 cs0 Y1 N1. revert cs. induction Y1 as [st0|st0 c st1 cs0 st2 E1 _ IH]; intros cs Y E; inversion Y; subst; try congruence.
    eapply IH; [exact N1| |exact E]. match goal with H1 : parser_iter_next _ _ _ ?x = _, H2 : parser_iter_next _ _ _ ?x = _ |- _ => rewrite H1 in H2; injection H2 as <- <- end. eassumption.
Qed.
(** An expression and the grammar's reading of it. *)
Example arithmetic_exact_witness : written (AAdd (APostIncr (s_of "x")) (AUnaryPlus (AVar (s_of "y")))) (lex (s_of "x+++ +y")).
Proof.
  destruct (proj1 (arithmetic_exact EmptyBuilder.empty_builder 100 (ti_new (lex (s_of "x+++ +y"))) tt (pr_new _ _ _) ltac:(vm_compute; repeat constructor)
    (AAdd (APostIncr (s_of "x")) (AUnaryPlus (AVar (s_of "y")))))) as (us & w & E & Hw & H).
  { unfold reads. eexists. split; [vm_compute; reflexivity|reflexivity]. }
  change (tokens_left (ti_new (lex ?x))) with (lex x) in E.
  assert (w = []) as ->; [|now rewrite app_nil_r in E; rewrite E].
  destruct w as [|t w] using rev_ind; [reflexivity|exfalso]. rewrite app_assoc in E.
  change (lex (s_of "x+++ +y")) with ([TName (s_of "x"); TPlus; TPlus; TPlus; TWhitespace (s_of " "); TPlus] ++ [TName (s_of "y")]) in E.
  apply app_inj_tail in E as [_ <-]. clear -Hw. 
  remember (w ++ [TName (s_of "y")]) as l eqn:El. revert w El. induction Hw as [|s l Hw IH|l Hw IH]; intros w El.
  - now destruct w.
  - destruct w as [|x w]; [discriminate|]. injection El as _ El. exact (IH w El).
  - destruct w as [|x [|y w]]; [discriminate|discriminate|]. injection El as _ _ El. exact (IH w El).
Qed.
End Witness.
