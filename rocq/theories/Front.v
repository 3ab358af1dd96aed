(** * A call of the parser only takes tokens from the front *)
From Coq Require Import String.
From Verif Require Import Base Token Lexer LexSpec LexTheorems Pos Ast Builder Prog Iter Located IterProofs RunLemmas
  ParserBase Balanced BalancedTotal Wp Arith Word Redirect WpRedirect Command Entry Total Api
  DefaultBuilder.

(** ** Specification *)
(** [xs] is [ys] with some elements left out. *)
Inductive part {A} : list A -> list A -> Prop :=
  | part_nil : part [] []
  | part_keep x xs ys : part xs ys -> part (x :: xs) (x :: ys)
  | part_skip x xs ys : part xs ys -> part xs (x :: ys).
Definition no_heredoc (ts : list token) : Prop := ~ In TDLess ts /\ ~ In TDLessDash ts.

Lemma part_refl {A} (xs : list A) : part xs xs.
Proof. induction xs; constructor; auto. Qed.
Lemma part_trans {A} (xs ys zs : list A) : part xs ys -> part ys zs -> part xs zs.
Proof.
  intros H1 H2. revert xs H1. induction H2 as [|x ys zs H IH|x ys zs H IH]; intros ws H1; auto.
  - inversion H1; subst; constructor; auto.
  - constructor. auto.
Qed.
Lemma part_app {A} (a b c d : list A) : part a b -> part c d -> part (a ++ c) (b ++ d).
Proof. induction 1; intros; simpl; auto; constructor; auto. Qed.
Lemma part_none {A} (xs : list A) : part [] xs.
Proof. induction xs; constructor; auto. Qed.
Lemma part_suffix {A} (pre xs : list A) : part xs (pre ++ xs).
Proof. induction pre; simpl; [apply part_refl|]. now constructor. Qed.
Lemma part_length {A} (xs ys : list A) : part xs ys -> (length xs <= length ys)%nat.
Proof. induction 1; simpl; lia. Qed.
Lemma part_filter {A} f (xs ys : list A) : part xs ys -> part (filter f xs) (filter f ys).
Proof. induction 1; simpl; try destruct (f x); auto; try constructor; auto. Qed.

Notation left l := (map fst (toks l)).
Lemma tail_part l l' : tail_of l l' -> part (left l') (left l).
Proof. intros (_ & pre & E). rewrite E, map_app. apply part_suffix. Qed.
Lemma tail_none l l' : tail_of l l' -> no_heredoc (left l) -> no_heredoc (left l').
Proof.
  intros (_ & pre & E) [H1 H2]. rewrite E, map_app in H1, H2. split; intros X; [apply H1|apply H2]; apply in_or_app; auto.
Qed.

Section Front.
Variable fuel : nat.
Section Gen.
Context {BS BE : Type}.
Notation prog := (prog BS BE).
(** What a program does to the stream. *)
Definition went (l : located) {A} (o : outcome BE A) (l' : located) : Prop :=
  match o with
  | OOk _ => part (left l') (left l) /\ (no_heredoc (left l) -> tail_of l l')
  | OErr _ => part (inked (left l')) (inked (left l)) /\ (no_heredoc (left l) -> tail_of l l')
  | _ => True
  end.
Definition front {A} (p : prog A) : Prop :=
  forall l b, (size l < fuel)%nat -> match lrun p l b with (o, l', _) => went l o l' end.

Lemma went_size l {A} (a : A) l' : went l (OOk a) l' -> (size l' <= size l)%nat.
Proof. intros [H _]. apply part_length in H. rewrite !map_length in H. exact H. Qed.
Lemma went_refl l {A} (o : outcome BE A) : went l o l.
Proof. destruct o; simpl; auto using part_refl, tail_refl. Qed.
Lemma went_tail l l' {A} (o : outcome BE A) : tail_of l l' -> went l o l'.
Proof. intros H. destruct o; simpl; auto; split; auto; [|apply part_filter]; now apply tail_part. Qed.
Lemma went_trans l l1 l2 {A C} (a : A) (o : outcome BE C) : went l (OOk a) l1 -> went l1 o l2 -> went l o l2.
Proof.
  intros [H1 T1] H2.
  assert (T : forall (P : Prop), P /\ (no_heredoc (left l1) -> tail_of l1 l2) -> no_heredoc (left l) -> tail_of l l2).
  { intros P [_ T2] N. specialize (T1 N). eapply tail_trans; [exact T1|]. apply T2. eapply tail_none; eauto. }
  destruct o; simpl in *; auto; (split; [|eapply T, H2]); destruct H2 as [H2 _];
    [|apply (part_filter (fun t => match t with TWhitespace _ => false | _ => true end)) in H1]; eapply part_trans; eauto.
Qed.
Lemma front_bind {A C} (p : prog A) (f : A -> prog C) : front p -> (forall a, front (f a)) -> front (bind p f).
Proof.
  intros Hp Hf l b Hs. rewrite lrun_bind. specialize (Hp l b Hs).
  destruct (lrun p l b) as [[[a|e|s|] l'] b']; auto.
  assert (Hs' : (size l' < fuel)%nat) by (apply went_size in Hp; lia).
  specialize (Hf a l' b' Hs'). destruct (lrun (f a) l' b') as [[o l2] b2]. eapply went_trans; eauto.
Qed.
Lemma front_ret {A} (a : A) : front (ret a).
Proof. intros l b _. apply went_refl. Qed.
Lemma front_throw {A} e : front (throw e : prog A).
Proof. intros l b _. apply (went_refl l (A := A)). Qed.
Lemma front_panic {A} s : front (panic s : prog A).
Proof. intros l b _. exact I. Qed.
Lemma front_fuel {A} : front (outoffuel : prog A).
Proof. intros l b _. exact I. Qed.
Lemma front_next : front (next : prog _).
Proof. intros l b _. rewrite lrun_next. apply went_tail, tail_tl. Qed.
Lemma front_peek : front (peek : prog _).
Proof. intros l b _. rewrite lrun_peek. apply went_refl. Qed.
Lemma front_getpos : front (getpos : prog _).
Proof. intros l b _. rewrite lrun_getpos. apply went_refl. Qed.
Lemma front_multipeek {D} (m : mp D) : front (multipeek m : prog _).
Proof. intros l b _. rewrite lrun_multipeek. apply went_refl. Qed.
Lemma front_build {D} (f : BS -> (D + BE) * BS) : front (build f).
Proof. intros l b _. rewrite lrun_build. destruct (f b) as [[r|e] b']; apply (went_refl l (A := D)). Qed.
(** A program on an iterator of its own, after which the old one is always put back. *)
Lemma front_sub {D} i (q : prog D) : front (sub_iter i true q).
Proof.
  intros l b _. rewrite lrun_sub. destruct (lrun q (l_make i) b) as [[[a|e|s|] l'] b']; try exact I;
    apply (went_refl l (A := D)).
Qed.
End Gen.

Ltac fleaf :=
  lazymatch goal with
  | |- front (ret _) => apply front_ret
  | |- front (throw _) => apply front_throw
  | |- front (panic _) => apply front_panic
  | |- front outoffuel => apply front_fuel
  | |- front next => apply front_next
  | |- front peek => apply front_peek
  | |- front getpos => apply front_getpos
  | |- front (multipeek _) => apply front_multipeek
  | |- front (build _) => apply front_build
  | |- front (sub_iter _ true _) => apply front_sub
  end.
Ltac fhyp := match goal with H : _ |- _ => apply H end.
Ltac fstep :=
  lazymatch goal with
  | |- front (bind _ _) => apply front_bind; [|intros ?]
  | |- front (match ?x with _ => _ end) => destruct x
  | |- forall _, _ => intros ?
  | |- _ => first [fleaf | fhyp]
  end.
Ltac ftac := repeat fstep.

Section Base.
Context {BS BE : Type}.
Notation prog := (prog BS BE).
Lemma front_unexpected {A} : front (unexpected : prog A).
Proof. unfold unexpected, make_unexpected_err. ftac. Qed.
Lemma front_eat t : front (eat t : prog _).
Proof. unfold eat. ftac. apply front_unexpected. Qed.
Lemma front_eat_maybe t : front (eat_maybe t : prog _).
Proof. unfold eat_maybe. ftac. Qed.
Lemma front_skip_blanks : forall n, front (skip_blanks n : prog _).
Proof. induction n; cbn [skip_blanks]; ftac. Qed.
Lemma front_skip_whitespace f : front (skip_whitespace f : prog _).
Proof.
  unfold skip_whitespace. generalize f at 2 as n. induction n; cbn [skip_whitespace_loop]; ftac. apply front_skip_blanks.
Qed.
Lemma front_take_comment : forall n acc, front (take_comment n acc : prog _).
Proof. induction n; intros; cbn [take_comment]; ftac. Qed.
Lemma front_newline f : front (newline f : prog _).
Proof. unfold newline. pose proof front_skip_whitespace. pose proof front_take_comment. ftac. Qed.
Lemma front_linebreak f : front (linebreak f : prog _).
Proof.
  unfold linebreak. pose proof (front_newline f). generalize (@nil newline_). generalize f at 2 as n.
  induction n; intros; cbn [linebreak_loop]; ftac.
Qed.
Lemma front_prt f ts : front (peek_reserved_token f ts : prog _).
Proof.
  pose proof (front_skip_whitespace f).
  assert (front (skip_whitespace f ;; reserved_token_tries f 1 ts : prog _)) by (cbn [reserved_token_tries]; ftac).
  assert (front (reserved_token_tries f 2 ts : prog _)) by (cbn [reserved_token_tries]; ftac).
  unfold peek_reserved_token. destruct ts; [ftac|]. destruct (existsb _ _); auto.
Qed.
Lemma front_prw f ts : front (peek_reserved_word f ts : prog _).
Proof. unfold peek_reserved_word. pose proof front_skip_whitespace. ftac. Qed.
Lemma front_rtr f ts : front (reserved_token_res f ts : prog _).
Proof. unfold reserved_token_res, make_unexpected_err. pose proof (front_prt f ts). ftac. Qed.
Lemma front_rt f ts : front (reserved_token f ts : prog _).
Proof. unfold reserved_token. pose proof (front_rtr f ts). ftac. Qed.
Lemma front_rw f ts : front (reserved_word f ts : prog _).
Proof. unfold reserved_word. pose proof (front_prw f ts). ftac. Qed.
Lemma front_balanced_next b : front (balanced_next b : prog _).
Proof. unfold balanced_next. ftac. Qed.
Lemma front_collect f d : front (collect_balanced f d : prog _).
Proof.
  unfold collect_balanced, balanced_new. pose proof front_balanced_next.
  assert (forall n b acc, front (balanced_collect n b acc : prog _)).
  { induction n; intros; cbn [balanced_collect]; ftac. }
  ftac.
Qed.
Lemma front_iter f p : front (create_token_iter f p : prog _).
Proof.
  unfold create_token_iter, balanced_new. pose proof front_balanced_next.
  assert (forall n b all cs c, front (chunks_loop n b all cs c : prog _)).
  { induction n; intros; cbn [chunks_loop]; ftac. }
  ftac.
Qed.
End Base.

Ltac fleaf ::=
  lazymatch goal with
  | |- front (ret _) => apply front_ret
  | |- front (throw _) => apply front_throw
  | |- front (panic _) => apply front_panic
  | |- front outoffuel => apply front_fuel
  | |- front next => apply front_next
  | |- front peek => apply front_peek
  | |- front getpos => apply front_getpos
  | |- front (multipeek _) => apply front_multipeek
  | |- front (build _) => apply front_build
  | |- front (sub_iter _ true _) => apply front_sub
  | |- front unexpected => apply front_unexpected
  | |- front (eat _) => apply front_eat
  | |- front (eat_maybe _) => apply front_eat_maybe
  | |- front (skip_whitespace _) => apply front_skip_whitespace
  | |- front (newline _) => apply front_newline
  | |- front (linebreak _) => apply front_linebreak
  | |- front (peek_reserved_token _ _) => apply front_prt
  | |- front (peek_reserved_word _ _) => apply front_prw
  | |- front (reserved_token_res _ _) => apply front_rtr
  | |- front (reserved_token _ _) => apply front_rt
  | |- front (reserved_word _ _) => apply front_rw
  | |- front (balanced_next _) => apply front_balanced_next
  | |- front (collect_balanced _ _) => apply front_collect
  | |- front (create_token_iter _ _) => apply front_iter
  end.

Section Arith.
Context {BS BE : Type}.
Notation prog := (prog BS BE).
Variable f : nat.
Section Knot.
Variable K : arith_knots BS BE.
Hypothesis K1 : front (k_subst K).
Hypothesis K2 : front (k_assig K).
Hypothesis K3 : front (k_ternary K).
Hypothesis K4 : front (k_pow K).
Hypothesis K5 : front (k_unary K).
Lemma front_var : front (arith_var f : prog _).
Proof. unfold arith_var. ftac. Qed.
Lemma front_unary : front (arith_unary_misc f K).
Proof.
  assert (front (arith_post_incr f K)) by (unfold arith_post_incr; pose proof front_var; ftac).
  unfold arith_unary_misc. pose proof front_var. ftac.
Qed.
Lemma front_pow : front (arith_pow f K).
Proof. unfold arith_pow. pose proof front_unary. ftac. Qed.
Lemma front_binop p op : front p -> front (arith_binop f p op : prog _).
Proof.
  intros H. unfold arith_binop.
  assert (forall n e, front (arith_binop_loop f p op n e)) by (induction n; intros; cbn [arith_binop_loop]; ftac). ftac.
Qed.
Lemma front_ineq : front (arith_ineq f K).
Proof.
  assert (front (arith_shift f K)) by (do 3 apply front_binop; apply front_pow). unfold arith_ineq.
  assert (forall n e, front (arith_ineq_loop f K n e)) by (induction n; intros; cbn [arith_ineq_loop]; ftac). ftac.
Qed.
Lemma front_eq : front (arith_eq f K).
Proof.
  pose proof front_ineq. unfold arith_eq.
  assert (forall n e, front (arith_eq_loop f K n e)) by (induction n; intros; cbn [arith_eq_loop]; ftac). ftac.
Qed.
Lemma front_ternary : front (arith_ternary f K).
Proof. assert (front (arith_logical_or f K)) by (do 5 apply front_binop; apply front_eq). unfold arith_ternary. ftac. Qed.
Lemma front_assig : front (arith_assig f K).
Proof. unfold arith_assig. pose proof front_var. pose proof front_ternary. ftac. Qed.
Lemma front_seq : front (arithmetic_substitution_ f K).
Proof.
  unfold arithmetic_substitution_. pose proof front_assig.
  assert (forall n acc, front (arith_seq_loop f K n acc)) by (induction n; intros; cbn [arith_seq_loop]; ftac). ftac.
Qed.
End Knot.
Lemma front_arith : front (arithmetic_substitution f : prog _).
Proof.
  unfold arithmetic_substitution.
  assert (H : forall n, let K := arith_knot f n : arith_knots BS BE in
    front (k_subst K) /\ front (k_assig K) /\ front (k_ternary K) /\ front (k_pow K) /\ front (k_unary K)).
  { induction n as [|n (H1 & H2 & H3 & H4 & H5)]; cbn [arith_knot k_subst k_assig k_ternary k_pow k_unary].
    - repeat split; apply front_fuel.
    - repeat split; auto using front_seq, front_assig, front_ternary, front_pow, front_unary. }
  apply H.
Qed.
End Arith.

Section Word.
Context {BS BE C : Type}.
Notation prog := (prog BS BE).
Variable f : nat.
Variable K : knots BS BE C.
Hypothesis KG : forall cfg, front (k_group K cfg).
Hypothesis KP : front (k_param K).
Lemma front_backticked : front (backticked_raw f K).
Proof. unfold backticked_raw. ftac. Qed.
Lemma front_interp : forall n d p ws buf, front (word_interp_loop f K d p n ws buf).
Proof.
  induction n as [|n IH]; intros; cbn [word_interp_loop]; [ftac|]. pose proof front_backticked.
  apply front_bind; [ftac|]. intros p'. destruct (otoken_eqb _ _); [ftac|].
  match goal with |- front (match p' with Some _ => _ | None => ?d end) => 
    let H := fresh in assert (H : front d) by ftac; revert H; generalize d; intros D HD end.
  destruct p' as [t|]; [|assumption]. destruct t; try assumption; ftac.
Qed.
Lemma front_interpolated d p : front (word_interpolated_raw f K d p).
Proof. apply front_interp. Qed.
Lemma front_word_loop : forall d n ws, front (word_loop f K d n ws).
Proof. induction n; intros; cbn [word_loop]; pose proof front_backticked; pose proof front_interpolated; ftac. Qed.
Lemma front_word_delim d : front (word_raw_with_delim f K d).
Proof. unfold word_raw_with_delim. pose proof front_word_loop. ftac. Qed.
Lemma front_word_raw : front (word_raw f K).
Proof. apply front_word_delim. Qed.
Lemma front_inner : front (parameter_inner : prog _).
Proof. unfold parameter_inner. ftac. Qed.
Lemma front_capture_literals : forall n (ws : list (wk C)), front (capture_literals n ws : prog _).
Proof. induction n; intros; cbn [capture_literals]; ftac. Qed.
Lemma front_capture : forall n ws, front (capture_words f K n ws).
Proof. induction n; intros; cbn [capture_words]; pose proof front_capture_literals; pose proof front_word_delim; ftac. Qed.
Lemma front_psub_word p : front (parameter_substitution_word_raw f K p).
Proof. unfold parameter_substitution_word_raw. pose proof front_capture. ftac. Qed.
Lemma front_psub_body q p : front (parameter_substitution_body_raw f K q p).
Proof. unfold parameter_substitution_body_raw. pose proof front_psub_word. ftac. Qed.
Lemma front_subshell_internal e : front (subshell_internal K e).
Proof. unfold subshell_internal. ftac. Qed.
Lemma front_paren : front (paren_substitution f K).
Proof. unfold paren_substitution. pose proof front_subshell_internal. pose proof (front_arith (BS:=BS) (BE:=BE) f). ftac. Qed.
Lemma front_curly p : front (curly_substitution f K p).
Proof. unfold curly_substitution. pose proof front_psub_word. pose proof front_psub_body. pose proof front_inner. ftac. Qed.
Lemma front_psub : front (parameter_substitution_raw f K).
Proof. unfold parameter_substitution_raw. pose proof front_paren. pose proof front_curly. ftac. Qed.
Lemma front_param : front (parameter_raw f K).
Proof. unfold parameter_raw. pose proof front_psub. pose proof front_inner. ftac. Qed.
End Word.

Section Redirect.
Variable B : builder.
Notation prog := (prog (bst B) (b_err B)).
Variable K : knots (bst B) (b_err B) (b_cmd B).
Hypothesis KG : forall cfg, front (k_group K cfg).
Hypothesis KP : front (k_param K).
Notation am := (am_total B True True).
Hypothesis Hfuel : (2 < fuel)%nat.

Lemma front_wpt : front (word_preserve_trailing_whitespace B fuel K).
Proof. unfold word_preserve_trailing_whitespace. pose proof (front_word_raw fuel K KP). ftac. Qed.
Lemma front_word : front (word B fuel K).
Proof. unfold word. pose proof front_wpt. ftac. Qed.
Lemma front_delim_tokens : forall n acc, front (delim_tokens_loop B fuel n acc).
Proof. induction n; intros; cbn [delim_tokens_loop]; ftac. Qed.
Lemma front_saved : forall n acc, front (saved_tokens_loop B fuel n acc).
Proof. induction n; intros; cbn [saved_tokens_loop]; ftac. Qed.
Lemma front_heredoc_line st d : forall n line p, front (heredoc_line B st d n line p).
Proof. induction n; intros; cbn [heredoc_line]; ftac. Qed.
Lemma front_heredoc_lines st d : forall n acc, front (heredoc_lines B fuel st d n acc).
Proof. induction n; intros; cbn [heredoc_lines]; pose proof front_heredoc_line; ftac. Qed.

(** The part of [redirect_heredoc] after the operator; [l0] is the stream before it. *)
Definition among (l0 : located) {A} (p : prog A) (l : located) (Q : A -> located -> Prop) : Prop :=
  forall b, match lrun p l b with
  | (OOk a, l', _) => Q a l'
  | (OErr _, l', _) => part (inked (left l')) (inked (left l0))
  | _ => True
  end.
Lemma among_bind l0 {A C} (p : prog A) (f : A -> prog C) l Q :
  among l0 p l (fun a l1 => among l0 (f a) l1 Q) -> among l0 (bind p f) l Q.
Proof.
  intros H b. rewrite lrun_bind. specialize (H b). destruct (lrun p l b) as [[[a|e|s|] l'] b']; auto. apply H.
Qed.
Lemma among_front l0 {A} (p : prog A) l (Q : A -> located -> Prop) : front p -> (size l < fuel)%nat ->
  part (inked (left l)) (inked (left l0)) -> (forall a l', part (left l') (left l) -> (size l' <= size l)%nat -> Q a l') ->
  among l0 p l Q.
Proof.
  intros Hp Hs H0 HQ b. specialize (Hp l b Hs). destruct (lrun p l b) as [[[a|e|s|] l'] b']; auto.
  - pose proof (went_size _ _ _ Hp). apply HQ; auto. apply Hp.
  - destruct Hp as [Hp _]. eapply part_trans; eauto.
Qed.
Lemma among_wp l0 {A} (p : prog A) l (P : A -> located -> Prop) (Q : A -> located -> Prop) : front p -> (size l < fuel)%nat ->
  part (inked (left l)) (inked (left l0)) -> wp am p l P -> (forall a l', P a l' -> Q a l') -> among l0 p l Q.
Proof.
  intros Hp Hs H0 Hw HQ b. specialize (Hp l b Hs). specialize (Hw b I). destruct (lrun p l b) as [[[a|e|s|] l'] b']; auto.
  - apply HQ, Hw.
  - destruct Hp as [Hp _]. eapply part_trans; eauto.
Qed.
Lemma part_inked (xs ys : list token) : part xs ys -> part (inked xs) (inked ys).
Proof. apply part_filter. Qed.

Lemma front_heredoc fd : front (redirect_heredoc B fuel K fd).
Proof.
  intros l b Hs. unfold redirect_heredoc. rewrite lrun_bind, lrun_peek.
  assert (REST : forall strip b, ~ no_heredoc (left l) ->
    match lrun (skip_whitespace fuel ;;
      delim_tokens <- delim_tokens_loop B fuel fuel [] ;;
      '(delim, quoted) <- sub_iter (FromTokens delim_tokens) true (delim_loop B fuel fuel false []) ;;
      match delim with
      | [] => unexpected
      | _ =>
          saved_pos <- getpos ;;
          saved_tokens <- saved_tokens_loop B fuel fuel [] ;;
          heredoc_start_pos <- getpos ;;
          heredoc <- heredoc_lines B fuel strip delim fuel [] ;;
          buffer saved_tokens saved_pos ;;
          body <- (if quoted : bool then
                     ret (KSingle (KSimple (KLiteral (concat_tokens (flat_map fst heredoc)))))
                   else
                     ws <- sub_iter (FromChunks heredoc_start_pos heredoc) false
                             (word_interpolated_raw fuel K None heredoc_start_pos) ;;
                     ret (heredoc_body_word ws)) ;;
          w <- build (o_word B body) ;;
          build (o_redirect B (RHeredoc fd w))
      end) (l_tl l) b with (o, l', _) => went l o l' end).
  { intros strip b0 N.
    assert (A : forall p : prog (b_redirect B), among l p (l_tl l) (fun _ l' => part (left l') (left l)) ->
      match lrun p (l_tl l) b0 with (o, l', _) => went l o l' end).
    { intros p H. specialize (H b0). destruct (lrun p (l_tl l) b0) as [[[a|e|s|] l'] b']; simpl; auto; split; tauto. }
    apply A. clear A b0 b.
    assert (Hs1 : (size (l_tl l) < fuel)%nat) by (rewrite size_tl; lia).
    pose proof (tail_part _ _ (tail_tl l)) as T1. revert Hs1 T1. generalize (l_tl l). intros l1 Hs1 T1.
    apply among_bind, among_front; [ftac|exact Hs1|now apply part_inked|]. intros _ l2 T2 H2.
    pose proof (part_trans _ _ _ T2 T1) as T2'. clear T2. assert (Hs2 : (size l2 < fuel)%nat) by lia. clear H2 T1 Hs1 l1.
    apply among_bind, among_front; [apply front_delim_tokens|exact Hs2|now apply part_inked|]. intros dts l3 T3 H3.
    pose proof (part_trans _ _ _ T3 T2') as T3'. clear T3. assert (Hs3 : (size l3 < fuel)%nat) by lia. clear H3 T2' Hs2 l2.
    apply among_bind. intros b. rewrite lrun_sub.
    destruct (lrun (delim_loop B fuel fuel false []) _ b) as [[[[delim quoted]|e|s|] l'] b1]; auto; [|now apply part_inked].
    clear b b1 l'. destruct delim as [|c delim].
    { apply among_front; [ftac|exact Hs3|now apply part_inked|]. intros _ l' T _. eapply part_trans; eauto. }
    apply among_bind. intros b. rewrite lrun_getpos. clear b.
    apply among_bind. eapply among_wp; [apply front_saved|exact Hs3|now apply part_inked|
      apply (wp_saved_tokens am I fuel 0 Hfuel); [exact Hs3|exact Hs3]|].
    intros sts l4 (HT4 & H4 & HS4 & _). cbn [app] in HS4. cbn [length] in H4.
    assert (Hs4 : (size l4 < fuel)%nat) by lia.
    pose proof (part_trans _ _ _ (tail_part _ _ HT4) T3') as T4.
    apply among_bind. intros b. rewrite lrun_getpos. clear b.
    apply among_bind. eapply among_wp; [apply front_heredoc_lines|exact Hs4|now apply part_inked|
      apply (wp_heredoc_lines am fuel 0 Hfuel); [exact Hs4|exact Hs4|left; now left]|].
    intros cs l5 (HT5 & H5 & junk & HJ & _). unfold chunk_sum in H5 at 2. cbn [flat_map length] in H5.
    cbn [flat_map inked filter app] in HJ.
    assert (TB : part (left (l_buffer sts (l_pos l3) l5)) (left l)).
    { unfold l_buffer. cbn [toks]. rewrite map_app, locate_fst. eapply part_trans; [|exact T3']. rewrite HS4.
      apply part_app; [apply part_refl|]. now apply tail_part. }
    assert (TH : part (inked (flat_map fst cs)) (inked (left l))).
    { eapply part_trans; [|apply part_inked, T4]. rewrite HJ. rewrite <- (app_nil_r (inked (flat_map fst cs))) at 1.
      apply part_app; [apply part_refl|apply part_none]. }
    apply among_bind. intros b. rewrite lrun_buffer. clear b.
    assert (HB : forall w b, match lrun (w <- build (o_word B w) ;; build (o_redirect B (RHeredoc fd w))) (l_buffer sts (l_pos l3) l5) b with
      | (OOk _, l', _) => part (left l') (left l)
      | (OErr _, l', _) => part (inked (left l')) (inked (left l))
      | _ => True end).
    { intros w b. rewrite lrun_bind, lrun_build. destruct (o_word B w b) as [[r|e] b']; [|now apply part_inked].
      rewrite lrun_build. destruct (o_redirect B _ b') as [[r'|e] b2]; [assumption|now apply part_inked]. }
    apply among_bind. destruct quoted.
    { intros b. rewrite lrun_ret. intros b'. apply HB. }
    intros b. rewrite lrun_bind, lrun_sub.
    pose proof (front_interpolated fuel K KP None (l_pos l4) (l_make (FromChunks (l_pos l4) cs)) b) as F.
    assert (HF : (size (l_make (FromChunks (l_pos l4) cs)) < fuel)%nat) by (rewrite size_make; lia).
    specialize (F HF).
    destruct (lrun (word_interpolated_raw _ _ _ _) _ b) as [[[ws|e|s|] l'] b']; auto.
    - rewrite lrun_ret. intros b2. apply HB.
    - destruct F as [F _]. rewrite make_chunks_fst in F. eapply part_trans; eauto. }
  assert (E : forall t, l_hd l = Some t -> t = TDLess \/ t = TDLessDash -> ~ no_heredoc (left l)).
  { intros t. destruct l as [[|[t0 p] ts] e]; cbn [l_hd toks]; [discriminate|]. intros [= <-] Ht [N1 N2].
    destruct Ht as [-> | ->]; [apply N1|apply N2]; now left. }
  assert (U : forall f : bool -> prog (b_redirect B), match lrun (bind (unexpected : prog bool) f) l b with (o, l', _) => went l o l' end).
  { intros f. unfold unexpected, make_unexpected_err. rewrite !lrun_bind, lrun_getpos, lrun_bind, lrun_next, lrun_ret, lrun_throw.
    apply (went_tail l (l_tl l) (A := b_redirect B)), tail_tl. }
  assert (NX : forall (s : bool) f b, lrun (bind (bind next (fun _ => ret s)) f : prog (b_redirect B)) l b = lrun (f s) (l_tl l) b).
  { intros s f b0. rewrite !lrun_bind, lrun_next, lrun_ret. reflexivity. }
  destruct (l_hd l) as [t|] eqn:Eh; [|apply U].
  destruct t; try apply U; rewrite NX; apply REST; eapply E; eauto.
Qed.

Lemma front_get_path : front (get_path B fuel K).
Proof. unfold get_path. pose proof (front_word_raw fuel K KP). ftac. Qed.
Lemma front_get_dup_path : front (get_dup_path B fuel K).
Proof. unfold get_dup_path. pose proof (front_word_raw fuel K KP). ftac. Qed.
Lemma front_redirect_op op fd : front (redirect_op B fuel K op fd).
Proof. unfold redirect_op. pose proof front_get_path. pose proof front_get_dup_path. ftac. Qed.
Lemma front_redirect_after fd w : front (redirect_after B fuel K fd w).
Proof. unfold redirect_after. pose proof front_redirect_op. pose proof front_heredoc. ftac. Qed.
Lemma front_redirect : front (redirect B fuel K).
Proof. unfold redirect. pose proof (front_word_raw fuel K KP). pose proof front_redirect_after. ftac. Qed.
Lemma front_redirect_list : front (redirect_list B fuel K).
Proof.
  unfold redirect_list. pose proof front_redirect.
  assert (forall n acc, front (redirect_list_loop B fuel K n acc)) by (induction n; intros; cbn [redirect_list_loop]; ftac). ftac.
Qed.
Lemma front_backticked_sub : front (backticked_command_substitution B fuel K).
Proof. unfold backticked_command_substitution. pose proof (front_backticked fuel K). ftac. Qed.
Lemma front_parameter : front (parameter B fuel K).
Proof. unfold parameter. pose proof (front_param fuel K KG KP). ftac. Qed.

(** ** Commands *)
Ltac cleaf :=
  pose proof front_redirect; pose proof front_redirect_list; pose proof front_word.
Lemma front_vars : forall n vs, front (simple_vars_loop B fuel K n vs).
Proof. induction n; intros; cbn [simple_vars_loop]; cleaf; ftac. Qed.
Lemma front_args : forall n vs, front (simple_args_loop B fuel K n vs).
Proof. induction n; intros; cbn [simple_args_loop]; cleaf; ftac. Qed.
Lemma front_simple : front (simple_command B fuel K).
Proof. unfold simple_command. pose proof front_vars. pose proof front_args. ftac. Qed.
Lemma front_command_group cfg : front (command_group B K cfg).
Proof. unfold command_group. ftac. Qed.
Lemma front_do : front (do_group B fuel K).
Proof. unfold do_group. pose proof front_command_group. ftac. Qed.
Lemma front_brace : front (brace_group B fuel K).
Proof. unfold brace_group. pose proof front_command_group. ftac. Qed.
Lemma front_subshell : front (subshell B K).
Proof. apply (front_subshell_internal K KG). Qed.
Lemma front_next_type : front (next_compound_command_type B fuel).
Proof. unfold next_compound_command_type. ftac. Qed.
Lemma front_loop : front (loop_command B fuel K).
Proof. unfold loop_command. pose proof front_command_group. pose proof front_do. ftac. Qed.
Lemma front_if : front (if_command B fuel K).
Proof.
  pose proof front_command_group.
  assert (forall p n cs, front (if_loop B fuel K p n cs)) by (induction n; intros; cbn [if_loop]; ftac).
  unfold if_command. ftac.
Qed.
Lemma front_for : front (for_command B fuel K).
Proof.
  cleaf. pose proof front_do.
  assert (forall n acc, front (words_loop B fuel K n acc)) by (induction n; intros; cbn [words_loop]; ftac).
  assert (forall p c, front (for_words B fuel K p c)) by (intros; unfold for_words; ftac).
  unfold for_command. ftac.
Qed.
Lemma front_case : front (case_command B fuel K).
Proof.
  cleaf.
  assert (forall p n acc, front (patterns_loop B fuel K p n acc)) by (induction n; intros; cbn [patterns_loop]; ftac).
  assert (forall p n acc, front (arms_loop B fuel K p n acc)) by (induction n; intros; cbn [arms_loop]; ftac).
  unfold case_command. ftac.
Qed.
Lemma front_compound_kw kw : front (compound_command_kw B fuel K kw).
Proof.
  cleaf. pose proof front_if. pose proof front_loop. pose proof front_for. pose proof front_case. pose proof front_brace.
  pose proof front_subshell. unfold compound_command_kw. ftac.
Qed.
Lemma front_compound : front (compound_command B fuel K).
Proof. unfold compound_command. pose proof front_next_type. pose proof front_compound_kw. ftac. Qed.
Lemma front_function : front (function_declaration B fuel K).
Proof.
  pose proof (front_subshell_internal K KG). pose proof front_compound.
  assert (forall b, front (function_parens B fuel K b)) by (intros; unfold function_parens; ftac).
  assert (front (function_declaration_internal B fuel K)) by (unfold function_declaration_internal; ftac).
  unfold function_declaration. ftac.
Qed.
Lemma front_maybe_function : front (maybe_function_declaration B fuel K).
Proof. unfold maybe_function_declaration. pose proof front_function. ftac. Qed.
Lemma front_command : front (command B fuel K).
Proof.
  unfold command. pose proof front_next_type. pose proof front_compound_kw. pose proof front_maybe_function.
  pose proof front_simple. ftac.
Qed.
Lemma front_pipeline : front (pipeline B fuel K).
Proof.
  pose proof front_command.
  assert (forall n acc, front (pipeline_loop B fuel K n acc)) by (induction n; intros; cbn [pipeline_loop]; ftac).
  unfold pipeline. ftac.
Qed.
Lemma front_and_or : front (and_or_list B fuel K).
Proof.
  pose proof front_pipeline.
  assert (forall n acc, front (and_or_loop B fuel K n acc)) by (induction n; intros; cbn [and_or_loop]; ftac).
  unfold and_or_list. ftac.
Qed.
Lemma front_complete_with cs : front (complete_command_with_leading_comments B fuel K cs).
Proof. unfold complete_command_with_leading_comments. pose proof front_and_or. ftac. Qed.
Lemma front_complete : front (complete_command B fuel K).
Proof. unfold complete_command. pose proof front_complete_with. ftac. Qed.
Lemma front_group cfg : front (command_group_internal B fuel K cfg).
Proof.
  pose proof front_complete_with.
  assert (forall cfg, front (found_delim B fuel cfg)) by (intros; unfold found_delim; ftac).
  assert (forall n acc, front (command_group_loop B fuel K cfg n acc)) by (induction n; intros; cbn [command_group_loop]; ftac).
  unfold command_group_internal. ftac.
Qed.
End Redirect.

Lemma front_knot B : (2 < fuel)%nat -> forall n, (forall cfg, front (k_group (knot B fuel n) cfg)) /\ front (k_param (knot B fuel n)).
Proof.
  intros Hf. induction n as [|n [H1 H2]]; cbn [knot k_group k_param].
  - split; intros; apply front_fuel.
  - split; [intros; now apply front_group|now apply front_param].
Qed.
End Front.

(** ** Every public method *)
Lemma front_call B m fuel : (2 < fuel)%nat -> front fuel (call B m fuel).
Proof.
  intros Hf. destruct (front_knot fuel B Hf fuel) as [H1 H2].
  destruct m; cbn [call].
  - now apply front_complete.
  - now apply front_and_or.
  - now apply front_pipeline.
  - now apply front_command.
  - now apply front_simple.
  - now apply front_redirect_list.
  - now apply front_redirect.
  - now apply front_heredoc.
  - now apply front_word.
  - now apply front_wpt.
  - now apply front_backticked_sub.
  - now apply front_parameter.
  - now apply front_do.
  - now apply front_brace.
  - now apply front_subshell.
  - now apply front_compound.
  - now apply front_loop.
  - now apply front_if.
  - now apply front_for.
  - now apply front_case.
  - now apply front_maybe_function.
  - now apply front_function.
  - apply front_skip_whitespace.
  - apply front_linebreak.
  - apply front_newline.
  - apply front_prt.
  - apply front_prw.
  - apply front_rt.
  - apply front_rw.
  - now apply front_command_group.
  - apply front_arith.
Qed.

(** The call returned: with a value or with an error. *)
Definition returned {E A} (o : outcome E A) : Prop :=
  match o with OOk _ | OErr _ => True | OPanic _ | OFuel => False end.
Definition succeeded {E A} (o : outcome E A) : Prop :=
  match o with OOk _ => True | _ => False end.

Lemma call_went B m fuel s b o s' b' : good s -> (length (tokens_left s) + 2 < fuel)%nat ->
  run concrete (call B m fuel) s b = (o, s', b') -> went (abs s) o (abs s') /\ good s'.
Proof.
  intros G Hf E. pose proof (run_transfer (call B m fuel) s b G) as T. rewrite E in T. destruct T as [T G'].
  split; [|exact G']. rewrite <- tokens_left_abs, map_length in Hf.
  assert (Hs : (size (abs s) < fuel)%nat) by (unfold size; lia).
  pose proof (front_call B m fuel ltac:(lia) (abs s) b Hs) as F. unfold lrun in F. rewrite T in F. exact F.
Qed.

(** C53: whatever method is called, in whatever state, with whatever builder, and whether it succeeds or
    fails: it takes some tokens off the front, and leaves the rest as it was. *)
Theorem calls_take_from_the_front B m fuel s b o s' b' :
  parser_reach B s b -> (length (tokens_left s) + 2 < fuel)%nat ->
  run concrete (call B m fuel) s b = (o, s', b') -> returned o ->
  no_heredoc (tokens_left s) -> exists taken, tokens_left s = taken ++ tokens_left s'.
Proof.
  intros HR Hf E Ho N. destruct (call_went B m fuel s b o s' b' (parser_reach_good _ _ _ HR) Hf E) as [W _].
  rewrite <- tokens_left_abs in N.
  assert (T : tail_of (abs s) (abs s')) by (destruct o; try contradiction; now apply W).
  destruct T as (_ & pre & T). exists (map fst pre). rewrite <- !tokens_left_abs, T. apply map_app.
Qed.

(** C53: with here-documents, a method that succeeds takes tokens out and leaves the others in order; one that
    fails may do so with the blanks of a here-document changed. *)
Theorem calls_never_invent_tokens B m fuel s b o s' b' :
  parser_reach B s b -> (length (tokens_left s) + 2 < fuel)%nat ->
  run concrete (call B m fuel) s b = (o, s', b') -> returned o ->
  (succeeded o -> part (tokens_left s') (tokens_left s)) /\ part (inked (tokens_left s')) (inked (tokens_left s)).
Proof.
  intros HR Hf E Ho. destruct (call_went B m fuel s b o s' b' (parser_reach_good _ _ _ HR) Hf E) as [W _].
  rewrite <- !tokens_left_abs. destruct o; try contradiction; simpl in *.
  - destruct W as [W _]. split; auto. now apply part_filter.
  - split; [tauto|apply W].
Qed.

(** ** Any number of calls on one source *)
(** States reached by calls that returned, values or errors. *)
Inductive history (B : builder) (ts : list token) : token_iter -> bst B -> Prop :=
  | h_new b : history B ts (ti_new ts) b
  | h_call m fuel s b o s' b' : history B ts s b -> (length (tokens_left s) + 2 < fuel)%nat ->
      run concrete (call B m fuel) s b = (o, s', b') -> returned o -> history B ts s' b'.

Lemma history_tail B ts s b : no_heredoc ts -> history B ts s b -> good s /\ tail_of (abs (ti_new ts)) (abs s).
Proof.
  intros N. induction 1 as [b|m fuel s b o s' b' H [G T] Hf E Ho].
  - split; [exact I|apply tail_refl].
  - destruct (call_went B m fuel s b o s' b' G Hf E) as [W G']. split; [exact G'|].
    assert (N' : no_heredoc (left (abs s))).
    { eapply tail_none; [exact T|]. rewrite tokens_left_abs. unfold tokens_left, ti_new. simpl. exact N. }
    eapply tail_trans; [exact T|]. destruct o; try contradiction; now apply W.
Qed.

(** C53: over any number of calls, failed ones included, the source is what was read followed by what is left,
    and the position of the parser is that of the end of what was read. *)
Theorem history_reads_a_prefix (U : Uni) B src s b : no_heredoc (lex src) -> history B (lex src) s b ->
  exists read, src = read ++ concat_tokens (tokens_left s) /\ ti_pos s = text_pos read.
Proof.
  intros N H. destruct (history_tail _ _ _ _ N H) as [G (HE & pre & HT)].
  assert (A : abs (ti_new (lex src)) = mkL (locate (lex src) pos_new) (advance_all pos_new (lex src))) by reflexivity.
  rewrite A in HE, HT. cbn [toks end_pos] in HE, HT.
  exists (concat_tokens (map fst pre)).
  assert (L : lex src = map fst pre ++ tokens_left s).
  { rewrite <- tokens_left_abs, <- map_app, <- HT. symmetry. apply locate_fst. }
  split.
  - rewrite <- (lex_lossless src) at 1. rewrite L. unfold concat_tokens. apply flat_map_app.
  - rewrite <- (l_pos_abs s G). unfold l_pos. pose proof (lex_newline_free src) as F.
    destruct (toks (abs s)) as [|[t p] ts] eqn:Et.
    + rewrite HE. change pos_new with (text_pos []). rewrite advance_all_text by exact F. cbn [app].
      rewrite <- tokens_left_abs, Et in L. cbn [map] in L. now rewrite app_nil_r in L; rewrite L.
    + assert (X : nth_error (locate (lex src) (text_pos [])) (length pre) = Some (t, p)).
      { change (text_pos []) with pos_new. rewrite HT. rewrite nth_error_app2 by lia. now rewrite Nat.sub_diag. }
      apply locate_text in X; [|exact F]. destruct X as [_ ->]. cbn [app]. rewrite L.
      rewrite <- (map_length fst pre), firstn_app, Nat.sub_diag, firstn_all. simpl. now rewrite app_nil_r.
Qed.

(** ** Cases that meet the hypotheses *)
Section Witness.
#[local] Instance some_uni : Uni := fun _ => false.
Definition script : list token := lex (s_of "a $(b ${1c d}) e; f").
(** A failing call in the middle of a script: what is left is the rest after the error. *)
Example front_witness : no_heredoc script /\
  exists e s, run concrete (call default_builder ACompleteCommand 60) (ti_new script) tt = (OErr e, s, tt) /\
    concat_tokens (tokens_left s) = s_of " d}) e; f" /\ history default_builder script s tt.
Proof.
  split.
  - split; intros H; vm_compute in H; intuition discriminate.
  - eexists _, _. split; [vm_compute; reflexivity|]. split; [vm_compute; reflexivity|].
    eapply (h_call default_builder _ ACompleteCommand 60 (ti_new script) tt); [apply h_new|vm_compute; lia|vm_compute; reflexivity|exact I].
Qed.
Definition nl := [c_newline].
(** With a here-document, the rest of its line is left. *)
Example heredoc_witness : exists r s,
  run concrete (call default_builder (ARedirectHeredoc None) 60)
    (ti_new (lex (s_of "<<A; b" ++ nl ++ s_of "body" ++ nl ++ s_of "A" ++ nl ++ s_of "c"))) tt = (OOk r, s, tt) /\
  concat_tokens (tokens_left s) = s_of "; b" ++ nl ++ s_of "c".
Proof. eexists _, _. split; vm_compute; reflexivity. Qed.
(** A finding: a call that fails inside the body of a here-document does not put the rest of the script back; the
    following calls read the rest of the body, and nothing after that. *)
Example heredoc_error_loses_script : exists e s,
  run concrete (call default_builder ACompleteCommand 60)
    (ti_new (lex (s_of "cat <<A; b" ++ nl ++ s_of "x ${1c y}" ++ nl ++ s_of "A" ++ nl ++ s_of "c"))) tt = (OErr e, s, tt) /\
  concat_tokens (tokens_left s) = s_of " y}" ++ nl.
Proof. eexists _, _. split; vm_compute; reflexivity. Qed.
End Witness.
