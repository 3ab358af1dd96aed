(** * The walk over words, parameters and substitutions *)
From Coq Require Import String.
From Verif Require Import Base Token Pos Ast Prog Located RunLemmas ParserBase BaseRun
  Balanced BalancedSpec BalancedProofs BalancedTotal Builder Wp Arith WpArith Word.

Section WpWord.
Context {B : builder} (am : ambient B).
Notation prog := (prog (bst B) (b_err B)).
Notation ok l := (Inv am l).
Notation wp := (wp am).
Notation dn := (dn am).
Notation sdn := (sdn am).
Lemma wp_sdn {A} (p : prog A) l (Q : A -> located -> Prop) :
  wp p l (fun _ l' => sdn l l') ->
  (forall a l', ok l' -> (size l' < size l)%nat -> Q a l') -> wp p l Q.
Proof. intros H HQ. eapply wp_mono; [exact H|]. intros a l' [H1 H2]. auto. Qed.

Lemma wp_parameter_inner l : ok l -> wp parameter_inner l (fun _ l' => sdn l l').
Proof.
  intros Hl. unfold parameter_inner. wstep. wstep. wstep. wstep. dl l.
  - apply wp_throw. now apply eof_nil.
  - assert (T : TokAt am t p) by okk.
    destruct t; try (wstep; split; [okk|sz]); try (apply wp_throw; exact T).
    destruct (from_str_radix_u u32_max 10 s); [wstep; split; [okk|sz]|apply wp_throw; exact T].
Qed.

Variable fuel : nat.
Variable M : nat.
Hypothesis HM : (M + 2 < fuel)%nat.
Variable K : knots (bst B) (b_err B) (b_cmd B).
Hypothesis KG : forall cfg l, ok l -> (size l < M)%nat -> wp (k_group K cfg) l (fun _ l' => dn l l').
Hypothesis KP : forall l, ok l -> (size l <= M)%nat -> wp (k_param K) l (fun _ l' => sdn l l').

Lemma wp_backticked l : ok l -> (size l <= M)%nat ->
  wp (backticked_raw fuel K) l (fun _ l' => sdn l l').
Proof.
  intros Hl Hs. unfold backticked_raw. wstep. wstep. wstep. wstep. wstep.
  apply wp_create_token_iter; [sz|exact Hl|]. intros i l1 H1 He H2 H3 H4. wstep.
  apply wp_sub; [now right|]. apply wp_dn; [apply KG; [exact H2|sz]|]. intros g l2 _ _. wstep. split; [okk|sz].
Qed.

Lemma wp_interp delim start_pos :
  match delim with Some (o, _) => TokAt am o start_pos /\ opener o | None => HD am end ->
  forall n words buf l, ok l -> (size l <= M)%nat -> (size l < n)%nat ->
  wp (word_interp_loop fuel K delim start_pos n words buf) l (fun _ l' => dn l l').
Proof.
  intros Hd. induction n as [|n IH]; intros words buf l Hl Hs Hf; [lia|].
  cbn [word_interp_loop]. wstep. wstep.
  destruct (otoken_eqb (l_hd l) (option_map snd delim)).
  { wstep. wstep. wstep. split; [okk|]. rewrite size_tl. lia. }
  assert (REC : forall words buf l1, ok l1 -> (size l1 < size l)%nat ->
    wp (word_interp_loop fuel K delim start_pos n words buf) l1 (fun _ l' => dn l l')).
  { intros words' buf' l1 H1 H2. apply wp_dn; [apply IH; [okk|lia|lia]|].
    intros a l' H3 H4. split; [okk|lia]. }
  clear IH. dl l.
  { wstep. wstep. red_l. destruct delim as [[o c]|].
    - apply wp_throw. split; [apply Hd|]. split; [apply Hd|]. intros _. now apply eof_nil.
    - wstep. dnn. }
  set (body := fun t' : token => match t' with
         | TBackslash => q <- peek ;;
                if dq_special q || otoken_eqb q (option_map snd delim) then
                  e0 <- next ;;
                  match e0 with
                  | Some e0 =>
                      word_interp_loop fuel K delim start_pos n
                        (flush words buf ++ [KEscaped (as_str e0)]) []
                  | None => panic PS_interp_escaped
                  end
                else
                  word_interp_loop fuel K delim start_pos n words (buf ++ as_str TBackslash)
         | _ => word_interp_loop fuel K delim start_pos n words (buf ++ as_str t')
         end).
  assert (BODY : wp (body t) (mkL ts e) (fun _ l' => dn (mkL ((t, p) :: ts) e) l')).
  { unfold body.
    assert (Hplain : wp (word_interp_loop fuel K delim start_pos n words (buf ++ as_str t)) (mkL ts e)
       (fun _ l' => dn (mkL ((t, p) :: ts) e) l')) by (apply REC; [okk|sz]).
    destruct t; try exact Hplain. clear Hplain.
    wstep. wstep. dt ts.
    - destruct delim as [[o c]|]; cbn [dq_special option_map otoken_eqb orb snd].
      + apply REC; [okk|sz].
      + wstep. wstep. red_l. apply wp_panic_hd; [exact Hd|]. apply (shape_end _ am Hd). exact (inv_shape _ am Hd _ Hl).
    - destruct (dq_special (Some t) || otoken_eqb (Some t) (option_map snd delim)).
      + wstep. wstep. red_l. apply REC; [okk|sz].
      + apply REC; [okk|sz]. }
  destruct t; try (wstep; wstep; red_l; exact BODY).
  - wstep. apply wp_sdn; [apply wp_backticked; [okk|sz]|]. intros w l1 H1 H2. apply REC; [okk|sz].
  - wstep. apply wp_sdn; [apply KP; [okk|sz]|]. intros w l1 H1 H2. apply REC; [okk|sz].
  - wstep. apply wp_sdn; [apply KP; [okk|sz]|]. intros w l1 H1 H2. apply REC; [okk|sz].
Qed.

Lemma wp_interpolated delim start_pos l :
  match delim with Some (o, _) => TokAt am o start_pos /\ opener o | None => HD am end ->
  ok l -> (size l <= M)%nat ->
  wp (word_interpolated_raw fuel K delim start_pos) l (fun _ l' => dn l l').
Proof. intros Hd Hl Hs. apply wp_interp; auto. sz. Qed.

(** The loop returns its accumulator unchanged, or it has consumed something. *)
Lemma wp_word_loop delim : forall n words l, ok l -> (size l <= M)%nat -> (size l < n)%nat ->
  wp (word_loop fuel K delim n words) l
     (fun ws l' => dn l l' /\ (ws = words \/ (size l' < size l)%nat)).
Proof.
  induction n as [|n IH]; intros words l Hl Hs Hf; [lia|].
  cbn [word_loop]. wstep. wstep.
  assert (REC : forall words' l1, ok l1 -> (size l1 < size l)%nat ->
    wp (word_loop fuel K delim n words') l1
      (fun ws l' => dn l l' /\ (ws = words \/ (size l' < size l)%nat))).
  { intros words' l1 H1 H2. eapply wp_mono; [apply IH; [okk|lia|lia]|].
    intros a l' [[H3 H4] _]. split; [split; [okk|lia]|right; lia]. }
  clear IH.
  destruct (match delim with Some _ => otoken_eqb (l_hd l) delim | None => false end).
  { wstep. split; [dnn|auto]. }
  dl l.
  { cbn. wstep. split; [dnn|auto]. }
  destruct (word_class_of (Some t)) eqn:E.
  - (* consumed *)
    wstep. wstep. wstep. wstep. red_l.
    destruct t; try discriminate E; try (apply REC; [solve [okk]|sz]).
    + (* backslash *)
      wstep. wstep. dt ts.
      * wstep. split; [dnn|auto].
      * destruct t; try (apply REC; [solve [okk]|sz]). wstep. split; [dnn|auto].
    + (* single quote *)
      wstep. apply wp_collect_balanced; [sz|okk| |].
      { cbn. split; [unfold closer; tauto|eapply tok_cons; exact Hl]. }
      intros xs l1 H1 H2 _. apply REC; [okk|sz].
    + (* double quote *)
      wstep. apply wp_dn; [apply wp_interpolated; [split; [eapply tok_cons; exact Hl|unfold opener; tauto]|okk|sz]|].
      intros xs l1 H1 H2. apply REC; [okk|sz].
  - wstep. apply wp_sdn; [apply wp_backticked; [okk|sz]|]. intros w l1 H1 H2. apply REC; [okk|sz].
  - wstep. apply wp_sdn; [apply KP; [okk|sz]|]. intros w l1 H1 H2. apply REC; [okk|sz].
  - wstep. split; [dnn|auto].
Qed.

Definition some_lt {A} (l : located) (o : option A) (l' : located) : Prop :=
  dn l l' /\ (o <> None -> (size l' < size l)%nat).

Lemma wp_word_raw_with_delim delim l : ok l -> (size l <= M)%nat ->
  wp (word_raw_with_delim fuel K delim) l (fun w l' => some_lt l w l').
Proof.
  intros Hl Hs. unfold word_raw_with_delim. wstep. wstep. wstep. wstep.
  destruct (otoken_eqb (l_hd l0) (Some TPound)).
  - wstep. split; [dnn|congruence].
  - wstep. eapply wp_mono; [apply wp_word_loop; [okk|sz|sz]|].
    intros ws l1 [[H1 H2] H3]. wstep. split; [dnn|]. intros Hne.
    destruct H3 as [->|H3]; [elim Hne; reflexivity|sz].
Qed.

Lemma wp_word_raw l : ok l -> (size l <= M)%nat ->
  wp (word_raw fuel K) l (fun w l' => some_lt l w l').
Proof. apply wp_word_raw_with_delim. Qed.

Lemma wp_capture_literals : forall n words l, ok l -> (size l <= M)%nat -> (size l < n)%nat ->
  wp (capture_literals n words : prog (list (wk (b_cmd B)) * bool)) l (fun _ l' => dn l l').
Proof.
  induction n as [|n IH]; intros words l Hl Hs Hf; [lia|].
  cbn [capture_literals]. wstep. wstep.
  assert (REC : forall words' l1, ok l1 -> (size l1 < size l)%nat ->
    wp (capture_literals n words' : prog (list (wk (b_cmd B)) * bool)) l1 (fun _ l' => dn l l')).
  { intros words' l1 H1 H2. eapply wp_mono; [apply IH; [okk|lia|lia]|].
    intros a l' [H3 H4]. split; [okk|lia]. }
  clear IH. dl l; [cbn; wstep; dnn|].
  destruct (subst_class_of (Some t)).
  - wstep. dnn.
  - wstep. wstep. destruct (look _ _).
    + wstep. wstep. red_l. wstep. wstep. red_l.
      destruct ts as [|[t2 p2] ts]; cbn [tl]; apply REC; [okk|sz|okk|sz].
    + wstep. dnn.
  - wstep. wstep. red_l. apply REC; [okk|sz].
  - wstep. dnn.
Qed.

Lemma wp_capture_words : forall n words l, ok l -> (size l <= M)%nat -> (size l < n)%nat ->
  wp (capture_words fuel K n words) l (fun _ l' => dn l l').
Proof.
  induction n as [|n IH]; intros words l Hl Hs Hf; [lia|].
  cbn [capture_words]. wstep. apply wp_dn; [apply wp_capture_literals; [okk|sz|sz]|].
  intros [ws1 stop] l1 H1 H2. destruct stop; [wstep; dnn|].
  wstep. eapply wp_mono; [apply wp_word_raw_with_delim; [okk|sz]|].
  intros w l2 [[H3 H4] H5]. destruct w as [[ws|w]|].
  - specialize (H5 ltac:(discriminate)). apply wp_dn; [apply IH; [okk|sz|sz]|]. intros a l3 H6 H7. dnn.
  - specialize (H5 ltac:(discriminate)). apply wp_dn; [apply IH; [okk|sz|sz]|]. intros a l3 H6 H7. dnn.
  - wstep. dnn.
Qed.

Lemma wp_subst_word pos l : ok l -> (size l <= M)%nat -> TokAt am TCurlyOpen pos ->
  wp (parameter_substitution_word_raw fuel K pos) l (fun _ l' => dn l l').
Proof.
  intros Hl Hs Hp. unfold parameter_substitution_word_raw. wstep.
  apply wp_dn; [apply wp_capture_words; [okk|sz|sz]|]. intros ws l1 H1 H2. wstep. wstep.
  - wstep. dnn.
  - apply wp_throw. split; [exact Hp|]. split; [unfold opener; tauto|congruence].
Qed.

Lemma wp_subst_body pm pos l : ok l -> (size l <= M)%nat -> TokAt am TCurlyOpen pos ->
  wp (parameter_substitution_body_raw fuel K pm pos) l (fun _ l' => dn l l').
Proof.
  intros Hl Hs Hp. unfold parameter_substitution_body_raw. wstep.
  assert (P : forall hc l1, ok l1 -> (size l1 <= size l)%nat ->
    wp (op_pos <- getpos ;;
  t <- next ;;
  match t with
  | Some ((TDash | TEquals | TQuestion | TPlus) as op) =>
      word <- parameter_substitution_word_raw fuel K pos ;;
      match subst_of_op op hc pm word with
      | Some s => ret (KSubst s)
      | None => panic PS_subst_op
      end
  | Some TCurlyClose => ret (KParam pm)
  | Some t => throw (BadSubst t op_pos)
  | None => throw (Unmatched TCurlyOpen pos)
  end) l1 (fun _ l' => dn l l')).
  { intros hc l1 Hl1 Hs1. wstep. wstep. wstep. wstep. dl l1.
    - apply wp_throw. split; [exact Hp|]. split; [unfold opener; tauto|congruence].
    - assert (T : TokAt am t p) by okk.
      destruct t; try (apply wp_throw; exact T).
      { wstep. dnn. }
      all: wstep; (apply wp_dn; [apply wp_subst_word; [okk|sz|exact Hp]|]; intros w l2 H1 H2);
        unfold subst_of_op;
        destruct (param_eqb pm PmPound && negb hc && match w with None => true | Some _ => false end);
        cbn; wstep; dnn. }
  wstep; apply P; auto; sz.
Qed.

Lemma wp_subshell_internal b l : ok l -> (size l <= M)%nat ->
  wp (subshell_internal K b) l (fun _ l' => sdn l l').
Proof.
  intros Hl Hs. unfold subshell_internal. wstep. wstep. wstep. wstep. wstep.
  apply wp_dn; [apply KG; [okk|sz]|]. intros g l1 H1 H2. wstep. wstep. dl l1.
  - apply wp_throw. split; [exact Ht|]. split; [unfold opener; tauto|]. intros _. now apply eof_nil.
  - destruct t; try (solve [wstep]).
    destruct (b || negb (is_nil (commands g))).
    + wstep. wstep. red_l. wstep. split; [okk|sz].
    + wstep.
Qed.

Lemma wp_paren_substitution l : ok l -> (size l <= M)%nat ->
  wp (paren_substitution fuel K) l (fun _ l' => dn l l').
Proof.
  intros Hl Hs. unfold paren_substitution. wstep. wstep. destruct (look _ _).
  - assert (END : forall subst l1, ok l1 -> (size l1 <= size l)%nat ->
      wp (skip_whitespace fuel ;;
          eat TParenClose ;;
          skip_whitespace fuel ;;
          eat TParenClose ;;
          ret (KSubst (KSArith subst : psk (b_cmd B)))) l1 (fun _ l' => dn l l')).
    { intros s l1 H1 H2. wstep. wstep. wstep. wstep. wstep. wstep. wstep. wstep. wstep. dnn. }
    wstep. wstep. wstep. wstep. wstep. apply wp_skip_ws; [sz|okk|]. intros l0 Hok9 Hs9 _ _ _.
    wstep. wstep. wstep.
    destruct (otoken_eqb (l_hd l0) (Some TParenClose)).
    + wstep. apply END; [okk|sz].
    + wstep. apply wp_dn; [apply wp_arithmetic_substitution; [okk|sz]|]. intros a l1 H1 H2.
      wstep. apply END; [okk|sz].
  - wstep. apply wp_sdn; [apply wp_subshell_internal; [okk|sz]|]. intros g l1 H1 H2. wstep. dnn.
Qed.

Lemma wp_curly_substitution pos l : ok l -> (size l <= M)%nat -> TokAt am TCurlyOpen pos ->
  wp (curly_substitution fuel K pos) l (fun _ l' => dn l l').
Proof.
  intros Hl Hs Hp. unfold curly_substitution. wstep. wstep. wstep.
  assert (T : ok (l_tl l)) by okk. assert (S : (size (l_tl l) <= size l)%nat) by (rewrite size_tl; lia).
  apply wp_sdn; [apply wp_parameter_inner; exact T|]. intros pm l1 H1 H2. wstep. wstep.
  assert (G : wp (if param_eqb PmPound pm then
        match l_hd l1 with
        | Some TColon | Some TDash | Some TEquals | Some TQuestion | Some TPlus
        | Some TCurlyClose => parameter_substitution_body_raw fuel K pm pos
        | _ =>
            p' <- parameter_inner ;;
            eat TCurlyClose ;;
            ret (KSubst (KSLen p'))
        end
      else parameter_substitution_body_raw fuel K pm pos) l1 (fun _ l' => dn l l')).
  { assert (G1 : wp (parameter_substitution_body_raw fuel K pm pos) l1 (fun _ l' => dn l l')).
    { apply wp_dn; [apply wp_subst_body; [okk|sz|exact Hp]|]. intros a l2 H3 H4. dnn. }
    assert (G2 : wp (p' <- parameter_inner ;;
            eat TCurlyClose ;;
            ret (KSubst (KSLen p' : psk (b_cmd B)))) l1 (fun _ l' => dn l l')).
    { wstep. apply wp_sdn; [apply wp_parameter_inner; okk|]. intros pm2 l2 H3 H4. wstep. wstep. wstep. dnn. }
    destruct (param_eqb PmPound pm); auto.
    destruct (l_hd l1) as [t|]; auto. destruct t; auto. }
  dl l1.
  - exact G.
  - destruct t; try exact G.
    + (* # *)
      clear G. wstep. wstep. red_l. wstep. wstep; wstep;
        (apply wp_dn; [apply wp_subst_word; [okk|sz|exact Hp]|]; intros a l2 H3 H4; wstep; dnn).
    + clear G. wstep. wstep. red_l. wstep. wstep; wstep;
        (apply wp_dn; [apply wp_subst_word; [okk|sz|exact Hp]|]; intros a l2 H3 H4; wstep; dnn).
Qed.

Lemma wp_substitution l : ok l -> (size l <= M)%nat ->
  wp (parameter_substitution_raw fuel K) l (fun _ l' => dn l l').
Proof.
  intros Hl Hs. unfold parameter_substitution_raw. wstep. wstep. wstep. wstep. dl l; [wstep|].
  destruct t; try (solve [wstep]).
  - apply wp_paren_substitution; [okk|sz].
  - apply wp_curly_substitution; [okk|sz|]. okk.
Qed.

End WpWord.

Section WpParam.
Context {B : builder} (am : ambient B).
Notation ok l := (Inv am l).
Notation wp := (wp am).
Variable fuel : nat.
Variable M : nat.
Hypothesis HM : (M + 2 < fuel)%nat.
Variable K : knots (bst B) (b_err B) (b_cmd B).
Hypothesis KG : forall cfg l, ok l -> (S (size l) < M)%nat -> wp (k_group K cfg) l (fun _ l' => dn am l l').
Hypothesis KP : forall l, ok l -> (size l < M)%nat -> wp (k_param K) l (fun _ l' => sdn am l l').

(** [parameter_raw] consumes a token before any recursive call. *)
Lemma wp_parameter_raw l : ok l -> (size l <= M)%nat ->
  wp (parameter_raw fuel K) l (fun _ l' => sdn am l l').
Proof.
  intros Hl Hs. unfold parameter_raw. wstep. wstep. wstep. wstep. dl l; [apply wp_throw; now apply eof_nil|].
  assert (T : TokAt am t p) by okk.
  destruct t; try (apply wp_throw; exact T).
  - wstep. wstep.
    assert (P : forall l, ok l -> (size l <= M - 1)%nat -> (1 <= M)%nat ->
      wp (parameter_substitution_raw fuel K) l (fun _ l' => dn am l l')).
    { intros l Hl' Hs' HM'. apply wp_substitution with (M := (M - 1)%nat); auto; try lia.
      - intros; apply KG; auto; lia.
      - intros; apply KP; auto; lia. }
    dt ts.
    + wstep. split; [okk|sz].
    + destruct t; try (wstep; split; [solve [okk]|sz]);
      try (wstep; apply wp_sdn; [apply wp_parameter_inner; okk|]; intros pm l2 H3 H4; wstep; split; [okk|sz]).
      all: apply wp_dn; [apply P; [okk|sz|sz]|]; intros a l2 H1 H2; split; [okk|sz].
  - wstep. split; [okk|sz].
Qed.
End WpParam.
