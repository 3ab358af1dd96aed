(** * The lexer implements the tokenisation of [LexSpec.v] *)
From Coq Require Import String.
From Verif Require Import Base Token Lexer LexSpec.
Local Open Scope N_scope.

Section LexProofs.
Context {U : Uni}.

(** ** Termination: fuel never runs out *)

Definition lsize (l : lexer) : nat :=
  (length (inner l) + match peeked l with
                      | None => 0
                      | Some (Escaped (Some _)) => 2
                      | Some _ => 1
                      end)%nat.

Lemma next_is_length c i b i' : next_is c i = (b, i') -> (length i' <= length i)%nat.
Proof.
  unfold next_is. destruct i as [|x i]; [intros [= <- <-]; auto|].
  destruct (x =? c); intros [= <- <-]; simpl; lia.
Qed.

Lemma take_blanks_length i b r : take_blanks i = (b, r) -> (length r <= length i)%nat.
Proof.
  revert b r; induction i as [|c i IH]; simpl; intros b r.
  - intros [= <- <-]; auto.
  - destruct (is_whitespace c && negb (c =? 10)).
    + destruct (take_blanks i) as [b' r']. intros [= <- <-]. specialize (IH _ _ eq_refl). lia.
    + intros [= <- <-]. simpl. lia.
Qed.

Ltac dnext :=
  repeat match goal with
  | H : context [next_is ?c ?i] |- _ =>
      let E := fresh "E" in destruct (next_is c i) as [[|] ?] eqn:E; apply next_is_length in E
  end.

Lemma next_internal_size esc l t l' :
  next_internal esc l = (t, l') ->
  match t with
  | None => l' = l /\ inner l = [] /\ peeked l = None
  | Some (Escaped (Some _)) => (lsize l' + 2 <= lsize l)%nat
  | Some _ => (lsize l' + 1 <= lsize l)%nat
  end /\ (t <> None -> peeked l' = None).
Proof.
  destruct l as [i pk]. unfold next_internal, lsize; cbn [peeked inner].
  destruct pk as [p|].
  { intros [= <- <-]; simpl. destruct p as [?|[?|]|?]; simpl; split; auto; lia. }
  destruct i as [|cur i].
  { intros [= <- <-]; simpl; intuition congruence. }
  destruct (assoc cur single_char_tokens).
  { intros [= <- <-]; simpl; split; auto; lia. }
  destruct (cur =? 92).
  { destruct i as [|c i]; intros [= <- <-]; simpl; split; auto; try lia.
    destruct (esc c); lia. }
  simpl length.
  repeat match goal with
  | |- (if ?c then _ else _) = _ -> _ => destruct c
  | |- (let (_, _) := next_is ?c ?i in _) = _ -> _ =>
      let E := fresh "E" in destruct (next_is c i) as [? ?] eqn:E; apply next_is_length in E
  | |- (let (_, _) := take_blanks ?i in _) = _ -> _ =>
      let E := fresh "E" in destruct (take_blanks i) as [? ?] eqn:E; apply take_blanks_length in E
  | |- (if ?c then _ else _) = _ -> _ => destruct c
  | |- match ?i with _ => _ end = _ -> _ => destruct i
  | |- (_, _) = (_, _) -> _ => intros [= <- <-]; simpl in *; split; [lia|auto]
  end.
Qed.

Lemma lit_loop_total esc fuel nm w l :
  (lsize l < fuel)%nat ->
  exists t l', lit_loop esc fuel nm w l = Some (Some t, l') /\ (lsize l' <= lsize l)%nat.
Proof.
  revert nm w l; induction fuel as [|f IH]; intros nm w l Hf; [lia|].
  simpl. destruct (next_internal esc l) as [t l'] eqn:E.
  apply next_internal_size in E. destruct E as [E _].
  destruct t as [[t|t|c]|].
  - eexists _, _. split; [reflexivity|]. unfold lsize in *; simpl in *; lia.
  - eexists _, _. split; [reflexivity|]. unfold lsize in *; simpl in *. destruct t; simpl; lia.
  - destruct (nm && negb (name_char c)).
    + eexists _, _. split; [reflexivity|]. unfold lsize in *; simpl in *; lia.
    + destruct (IH nm (w ++ [c]) l') as (t & l2 & H1 & H2); [lia|].
      eexists _, _. split; [exact H1|]. lia.
  - eexists _, _. split; [reflexivity|]. destruct E as [-> _]. lia.
Qed.

Lemma next_internal_lit esc l c l' : next_internal esc l = (Some (Lit c), l') -> peeked l' = None.
Proof. intros H. apply next_internal_size in H. apply H. discriminate. Qed.

Lemma next_fueled_total esc l :
  exists t l', next_fueled esc (S (length (inner l))) l = Some (t, l') /\
    match t with None => lsize l = 0%nat | Some _ => (lsize l' + 1 <= lsize l)%nat end.
Proof.
  unfold next_fueled. destruct (next_internal esc l) as [t l'] eqn:E.
  pose proof (next_internal_size _ _ _ _ E) as [S1 S2].
  destruct t as [[t|t|c]|].
  - eexists _, _. split; [reflexivity|]. simpl. lia.
  - eexists _, _. split; [reflexivity|]. simpl. unfold lsize in *; simpl in *.
    destruct t; simpl in *; lia.
  - destruct (lit_loop_total esc (S (length (inner l))) (name_start_char c) [c] l')
      as (t & l2 & H1 & H2).
    { specialize (S2 ltac:(discriminate)). unfold lsize in *. rewrite S2 in *.
      destruct l as [i [p|]]; cbn [peeked inner] in *.
      - unfold next_internal in E; cbn in E. inversion E; subst. simpl. lia.
      - lia. }
    eexists _, _. split; [exact H1|]. simpl. lia.
  - eexists _, _. split; [reflexivity|]. destruct S1 as (-> & S1 & S3).
    unfold lsize. rewrite S1, S3. reflexivity.
Qed.

Lemma lexer_next_total l :
  let (t, l') := lexer_next l in
  match t with None => lsize l = 0%nat | Some _ => (lsize l' + 1 <= lsize l)%nat end.
Proof.
  unfold lexer_next, next_with.
  destruct (next_fueled_total esc_tok l) as (t & l' & H1 & H2). rewrite H1. exact H2.
Qed.

Lemma collect_total fuel l : (lsize l < fuel)%nat -> exists ts, collect fuel l = Some ts.
Proof.
  revert l; induction fuel as [|f IH]; intros l Hf; [lia|].
  simpl. pose proof (lexer_next_total l) as H. destruct (lexer_next l) as [[t|] l'].
  - destruct (IH l') as [ts ->]; [lia|]. eexists; reflexivity.
  - eexists; reflexivity.
Qed.

Lemma lex_total s : collect (S (length s)) (lexer_new s) = Some (lex s).
Proof.
  unfold lex. destruct (collect_total (S (length s)) (lexer_new s)) as [ts ->].
  - unfold lsize; simpl. lia.
  - reflexivity.
Qed.

(** ** One step *)

Lemma operator_dec t : {operator t} + {~ operator t}.
Proof. destruct t; simpl; auto. Qed.

Lemma take_blanks_spec i b r :
  take_blanks i = (b, r) -> i = b ++ r /\ Forall blank b /\ stops blank r.
Proof.
  revert b r; induction i as [|c i IH]; simpl; intros b r.
  - intros [= <- <-]. repeat split; auto. intros c s' [=].
  - destruct (is_whitespace c && negb (c =? 10)) eqn:E.
    + destruct (take_blanks i) as [b' r']. intros [= <- <-].
      destruct (IH _ _ eq_refl) as (-> & H1 & H2).
      apply andb_true_iff in E. destruct E as [E1 E2].
      repeat split; auto. constructor; auto. split; auto.
      apply negb_true_iff, N.eqb_neq in E2. exact E2.
    + intros [= <- <-]. repeat split; auto.
      intros x s' [= <- <-] [H1 H2]. rewrite H1 in E. simpl in E.
      apply negb_false_iff, N.eqb_eq in E. auto.
Qed.

Lemma next_is_spec c i b i' :
  next_is c i = (b, i') ->
  if b then i = c :: i' else i' = i /\ (forall s, i <> c :: s).
Proof.
  unfold next_is. destruct i as [|x i].
  - intros [= <- <-]. split; auto. discriminate.
  - destruct (N.eqb_spec x c); intros [= <- <-]; subst; auto.
    split; auto. intros s [= ? ?]; auto.
Qed.

(** What [next_internal] does when nothing is pending, in terms of the specification. *)
Inductive step_spec (esc : char -> option token) (i : str) : option tol -> str -> Prop :=
  | st_end : i = [] -> step_spec esc i None []
  | st_op t r :
      operator t -> i = as_str t ++ r ->
      (forall t' s', operator t' -> i = as_str t' ++ s' ->
                     (length (as_str t') <= length (as_str t))%nat) ->
      step_spec esc i (Some (Tok t)) r
  | st_ws b r :
      i = b ++ r -> b <> [] -> Forall blank b -> stops blank r ->
      step_spec esc i (Some (Tok (TWhitespace b))) r
  | st_bs_end : i = [backslash] -> step_spec esc i (Some (Escaped None)) []
  | st_bs c r : i = backslash :: c :: r -> step_spec esc i (Some (Escaped (esc c))) r
  | st_lit c r : i = c :: r -> ordinary c -> step_spec esc i (Some (Lit c)) r.

Ltac op_longest :=
  let t' := fresh "t'" in let s' := fresh "s'" in
  intros t' s' Hop Heq;
  destruct t' as [| | | | | | | | | | | | | | | | | | | | | | | | | | | | | | | | | | | | | | | | |[]| | |];
  simpl in Hop; try contradiction; simpl in Heq |- *; try lia;
  exfalso; first [discriminate Heq
                 | injection Heq; clear Heq; intros; subst;
                   first [discriminate | congruence
                         | match goal with H : forall s, _ <> _ |- _ => eapply H; reflexivity end]].

Lemma assoc_digits d : assoc d digit_positional = None ->
  forall p s, as_str (TParamPositional p) <> 36 :: d :: s.
Proof.
  unfold digit_positional, assoc.
  repeat (match goal with |- context [d =? ?k] => destruct (N.eqb_spec d k); [discriminate|] end).
  intros _ p s; destruct p; simpl; intros [= ? ?]; auto.
Qed.

Lemma assoc_digit_str d p : assoc d digit_positional = Some p ->
  as_str (TParamPositional p) = [36; d].
Proof.
  unfold digit_positional, assoc.
  repeat (match goal with |- context [d =? ?k] =>
            destruct (N.eqb_spec d k); [intros [= <-]; subst; reflexivity|] end).
  discriminate.
Qed.

Lemma next_internal_step esc i t l' :
  next_internal esc (mkLexer i None) = (t, l') -> step_spec esc i t (inner l').
Proof.
  unfold next_internal; simpl peeked; simpl inner.
  destruct i as [|cur i]; [intros [= <- <-]; constructor; auto|].
  unfold single_char_tokens, assoc at 1.
  repeat (match goal with
  | |- context [if cur =? ?k then _ else _] =>
      destruct (N.eqb_spec cur k) as [->|?];
      [try (intros [= <- <-]; simpl inner; apply st_op; simpl; [exact I|reflexivity|op_longest])|]
  end).
  - (* backslash *)
    destruct i as [|c i]; intros [= <- <-]; simpl inner.
    + apply st_bs_end; reflexivity.
    + apply st_bs; reflexivity.
  - destruct (next_is 59 i) as [[|] i1] eqn:E; apply next_is_spec in E;
      intros [= <- <-]; simpl inner; [subst|destruct E as [-> E]];
      apply st_op; simpl; auto; op_longest.
  - destruct (next_is 38 i) as [[|] i1] eqn:E; apply next_is_spec in E;
      intros [= <- <-]; simpl inner; [subst|destruct E as [-> E]];
      apply st_op; simpl; auto; op_longest.
  - destruct (next_is 124 i) as [[|] i1] eqn:E; apply next_is_spec in E;
      intros [= <- <-]; simpl inner; [subst|destruct E as [-> E]];
      apply st_op; simpl; auto; op_longest.
  - destruct i as [|d i].
    + intros [= <- <-]; simpl inner. apply st_op; simpl; auto. op_longest.
    + destruct (assoc d digit_positional) as [p|] eqn:E; intros [= <- <-]; simpl inner.
      * apply st_op; [exact I|rewrite (assoc_digit_str _ _ E); reflexivity|].
        rewrite (assoc_digit_str _ _ E). op_longest.
      * apply st_op; [exact I|reflexivity|].
        intros t' s' Hop Heq. pose proof (assoc_digits _ E) as H.
        destruct t'; simpl in Hop; try contradiction; try (simpl in *; discriminate Heq);
          try (simpl; lia).
        exfalso. apply (H p []). destruct p; simpl in Heq |- *; injection Heq; intros; subst; reflexivity.
  - destruct (next_is 60 i) as [[|] i1] eqn:E; apply next_is_spec in E; [subst|destruct E as [-> E]].
    + destruct (next_is 45 i1) as [[|] i2] eqn:E2; apply next_is_spec in E2;
        intros [= <- <-]; simpl inner; [subst|destruct E2 as [-> E2]];
        apply st_op; simpl; auto; op_longest.
    + destruct (next_is 38 i) as [[|] i2] eqn:E2; apply next_is_spec in E2;
        [subst; intros [= <- <-]; simpl inner; apply st_op; simpl; auto; op_longest|
         destruct E2 as [-> E2]].
      destruct (next_is 62 i) as [[|] i3] eqn:E3; apply next_is_spec in E3;
        [subst|destruct E3 as [-> E3]]; intros [= <- <-]; simpl inner;
        apply st_op; simpl; auto; op_longest.
  - destruct (next_is 38 i) as [[|] i1] eqn:E; apply next_is_spec in E;
      [subst; intros [= <- <-]; simpl inner; apply st_op; simpl; auto; op_longest|
       destruct E as [-> E]].
    destruct (next_is 62 i) as [[|] i2] eqn:E2; apply next_is_spec in E2;
      [subst; intros [= <- <-]; simpl inner; apply st_op; simpl; auto; op_longest|
       destruct E2 as [-> E2]].
    destruct (next_is 124 i) as [[|] i3] eqn:E3; apply next_is_spec in E3;
      [subst|destruct E3 as [-> E3]]; intros [= <- <-]; simpl inner;
      apply st_op; simpl; auto; op_longest.
  - destruct (is_whitespace cur) eqn:Ews.
    + destruct (take_blanks i) as [b r] eqn:E. apply take_blanks_spec in E.
      destruct E as (-> & H1 & H2). intros [= <- <-]; simpl inner.
      apply st_ws; auto; [discriminate|]. constructor; auto. split; auto.
    + intros [= <- <-]; simpl inner. apply st_lit; auto.
      split; [auto|]. split; [auto|].
      intros t s Hop Heq.
      destruct t as [| | | | | | | | | | | | | | | | | | | | | | | | | | | | | | | | | | | | | | | | |[]| | |];
        simpl in Hop; try contradiction; simpl in Heq; injection Heq; intros; congruence.
Qed.

End LexProofs.
