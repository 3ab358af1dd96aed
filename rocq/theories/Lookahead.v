(** * The look-ahead for functions consumes blanks only (C30) *)
From Coq Require Import String.
From Verif Require Import Base Token Pos Lexer Ast Builder Prog Iter Located IterProofs ParserBase
  DefaultBuilder RunLemmas BaseRun Entry Api Total Runs Raises Gives Relex Forms BaseForms Word Redirect Command Reserved.

(** A function declaration is ahead: the word [function], or a name and an opening parenthesis with at
    most one blank between them. *)
Definition function_ahead (us : list token) : Prop :=
  (exists rest, next_word (s_of "function") us rest) \/
  (exists n rest, us = TName n :: TParenOpen :: rest \/ exists w, us = TName n :: TWhitespace w :: TParenOpen :: rest).
Lemma function_try_ahead us : look function_try us = true <->
  exists n rest, us = TName n :: TParenOpen :: rest \/ exists w, us = TName n :: TWhitespace w :: TParenOpen :: rest.
Proof.
  split.
  - unfold function_try. destruct us as [|t us]; [discriminate|]. cbn [look hd_error tl].
    destruct t; try discriminate. destruct us as [|t us]; [discriminate|]. cbn [look hd_error tl].
    destruct t; try discriminate.
    + intros _. exists s, us. now left.
    + destruct us as [|t us]; [discriminate|]. cbn. destruct (token_eqb_spec t TParenOpen) as [->|]; [|destruct t; congruence].
      intros _. exists s, us. right. eauto.
  - intros (n & rest & [-> | (w & ->)]); reflexivity.
Qed.

Section Builder.
Variables (B : builder) (fuel : nat) (s : token_iter) (b : bst B).
Hypothesis HR : parser_reach B s b.
Hypothesis Hf : (List.length (tokens_left s) + 2 < fuel)%nat.

(** C30: no function is reported exactly when none is ahead after the blanks; then those blanks are
    consumed, nothing else is, and the builder is not called. *)
Theorem no_function_consumes_blanks_partial :
  (~ function_ahead (skipw (tokens_left s)) ->
   exists s', run concrete (call B AMaybeFunction fuel) s b = (OOk None, s', b)
     /\ tokens_left s' = skipw (tokens_left s))
  /\ (forall s' b', run concrete (call B AMaybeFunction fuel) s b = (OOk None, s', b') ->
   ~ function_ahead (skipw (tokens_left s)) /\ b' = b /\ tokens_left s' = skipw (tokens_left s)).
Proof.
  assert (D : function_ahead (skipw (tokens_left s)) \/ ~ function_ahead (skipw (tokens_left s))).
  { destruct (at_keyword_dec [FUNCTION] (tokens_left s)) as [[[k rest] [Hi Hk]]|Hk].
    - cbn [fst snd] in *. destruct Hi as [<-|[]]. left. left. exists rest. now apply next_word_keyword.
    - destruct (look function_try (skipw (tokens_left s))) eqn:E.
      + left. right. now apply function_try_ahead.
      + right. intros [[rest H]|H].
        * apply Hk. exists FUNCTION, rest. split; [now left|]. now apply next_word_keyword.
        * apply function_try_ahead in H. congruence. }
  assert (N : ~ function_ahead (skipw (tokens_left s)) ->
   exists s', run concrete (call B AMaybeFunction fuel) s b = (OOk None, s', b)
     /\ tokens_left s' = skipw (tokens_left s)).
  { intros H. apply (runs_concrete B AMaybeFunction fuel s b None (skipw (tokens_left s)) HR Hf).
    cbn [call]. unfold p_maybe_function_declaration, maybe_function_declaration.
    eapply runs_call.
    { apply runs_peek_word_no; [discriminate|]. intros (k & rest & [<-|[]] & Hk).
      apply H. left. exists rest. now apply next_word_keyword. }
    cbv beta match. rstep. destruct (look function_try (skipw (tokens_left s))) eqn:E; [|apply runs_ret].
    exfalso. apply H. right. now apply function_try_ahead. }
  split; [exact N|]. intros s' b' E. destruct D as [D|D].
  - exfalso.
    assert (Gv : gives (call B AMaybeFunction fuel) (tokens_left s) (fun r _ => r <> None)); [|exact (gives_concrete B AMaybeFunction fuel s b _ HR Gv _ _ _ E eq_refl)].
    assert (F : forall ts, gives (bind (function_declaration B fuel (knot B fuel fuel)) (fun f => ret (Some f))) ts (fun r _ => r <> None)).
    { intros ts L e b0 HL. rewrite lrun_bind. destruct (lrun _ _ _) as [[[x|x|x|] l'] b1]; auto. cbn. discriminate. }
    cbn [call]. unfold p_maybe_function_declaration, maybe_function_declaration.
    destruct (at_keyword_dec [FUNCTION] (tokens_left s)) as [[[k rest] [Hi Hk]]|Hk].
    + apply gives_bind. eapply gives_runs; [eapply runs_peek_word_yes; eauto|]. apply F.
    + apply gives_bind. eapply gives_runs; [apply runs_peek_word_no; [discriminate|exact Hk]|].
      cbv beta match. gstep. gstep. destruct D as [[rest D]|D].
      * exfalso. apply Hk. exists FUNCTION, rest. split; [now left|]. now apply next_word_keyword.
      * apply function_try_ahead in D. rewrite D. apply F.
  - destruct (N D) as (s2 & E2 & T). rewrite E in E2. injection E2 as <- <-. auto.
Qed.
End Builder.

(** That nothing at all is consumed is false: the blanks are. *)
Theorem no_function_consumes_nothing_refuted (U : Uni) :
  exists ts s', run concrete (call default_builder AMaybeFunction 60) (ti_new ts) tt = (OOk None, s', tt)
    /\ tokens_left s' <> ts /\ ts = @lex U (s_of " a").
Proof.
  exists [TWhitespace (s_of " "); TName (s_of "a")]. eexists. split; [vm_compute; reflexivity|].
  split; [|vm_compute; reflexivity]. vm_compute. discriminate.
Qed.
(** Cases: a command whose name is followed by something else, and one that is a function. *)
Example function_witness (U : Uni) :
  ~ function_ahead (skipw (@lex U (s_of "  foo bar()"))) /\ function_ahead (skipw (@lex U (s_of " foo () { a; }"))).
Proof.
  split.
  - vm_compute. intros [[r [[H|H] _]]|(n & r & [H|(w & H)])]; try discriminate H.
  - right. eexists _, _. right. eexists. vm_compute. reflexivity.
Qed.
