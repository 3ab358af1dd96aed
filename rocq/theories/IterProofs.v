(** * The token iterator refines its specification: C06 - C09 *)
From Coq Require Import String.
From Verif Require Import Base Token Lexer LexSpec LexProofs LexTheorems Pos Ast Prog Iter Located.

(** ** Abstraction: a [TokenIter] denotes the located list of the tokens it will yield *)

Fixpoint den (buf : list token_or_pos) (p : spos) (iter : list token) : located :=
  match buf with
  | [] => mkL (locate iter p) (advance_all p iter)
  | TPTok t :: buf' =>
      let d := den buf' (advance p t) iter in mkL ((t, p) :: toks d) (end_pos d)
  | TPPos q :: buf' => den buf' q iter
  end.

Definition abs (s : token_iter) : located := den (ti_buf s) (ti_pos s) (ti_iter s).

(** At rest the buffer never starts with a position marker. *)
Definition good (s : token_iter) : Prop :=
  match ti_buf s with TPPos _ :: _ => False | _ => True end.

Lemma l_pos_abs s : good s -> l_pos (abs s) = ti_pos s.
Proof.
  destruct s as [iter [|[t|q] buf] p]; unfold abs, good, l_pos; simpl; try tauto.
  destruct iter; reflexivity.
Qed.

Lemma updated_abs s : abs (updated_buffered_pos s) = abs s /\ good (updated_buffered_pos s).
Proof.
  destruct s as [iter buf p]. unfold updated_buffered_pos, abs, good. simpl.
  revert p; induction buf as [|[t|q] buf IH]; intros p; simpl; auto.
Qed.

Lemma next_abs s : good s ->
  exists t s', ti_next s = Some (t, s') /\ l_next (abs s) = Some (t, abs s') /\ good s'.
Proof.
  destruct s as [iter [|[t|q] buf] p]; unfold good; simpl; intros H; try contradiction.
  - destruct iter as [|t iter]; unfold ti_next, next_token_or_pos; simpl.
    + eexists _, _. split; [reflexivity|]. split; [reflexivity|exact I].
    + eexists _, _. split; [reflexivity|]. split; [reflexivity|exact I].
  - unfold ti_next, next_token_or_pos; simpl. eexists _, _. split; [reflexivity|].
    destruct (updated_abs (mkTI iter buf (advance p t))) as [E G]. rewrite E. split; [|exact G].
    unfold abs, l_next; simpl. destruct (den buf (advance p t) iter); reflexivity.
Qed.

Lemma den_app_iter buf p t iter : den (buf ++ [TPTok t]) p iter = den buf p (t :: iter).
Proof.
  revert p; induction buf as [|[x|q] buf IH]; intros p; simpl; auto.
  rewrite IH. reflexivity.
Qed.

Definition strip (s : token_iter) : list token := map fst (toks (abs s)).

Lemma locate_fst ts p : map fst (locate ts p) = ts.
Proof. revert p; induction ts; intros p; simpl; congruence. Qed.

Lemma strip_indep buf iter p q : map fst (toks (den buf p iter)) = map fst (toks (den buf q iter)).
Proof.
  revert p q; induction buf as [|[t|x] buf IH]; intros p q; simpl; auto.
  - now rewrite !locate_fst.
  - f_equal; auto.
Qed.

(** One pull: entries move from the stream to the look-ahead buffer. *)
Lemma mp_pull_spec buf iter mb p :
  match mp_pull buf iter mb with
  | (t, buf', iter', mb') =>
      t = hd_error (map fst (toks (den buf p iter))) /\
      map fst (toks (den buf' p iter')) = tl (map fst (toks (den buf p iter))) /\
      (exists extra, mb' = mb ++ extra) /\
      forall q, den (mb' ++ buf') q iter' = den (mb ++ buf) q iter
  end.
Proof.
  revert mb; induction buf as [|[t|x] buf IH]; intros mb; simpl.
  - destruct iter as [|t iter]; simpl.
    + repeat split; auto. exists []. now rewrite app_nil_r.
    + rewrite !locate_fst. repeat split; auto; [eexists; reflexivity|].
      intros q. rewrite !app_nil_r. apply den_app_iter.
  - repeat split; [apply strip_indep|eexists; reflexivity|]. intros q. now rewrite <- app_assoc.
  - specialize (IH (mb ++ [TPPos x])).
    destruct (mp_pull buf iter (mb ++ [TPPos x])) as [[[t buf'] iter'] mb'].
    destruct IH as (H1 & H2 & [e ->] & H4). repeat split.
    + rewrite H1. f_equal. apply strip_indep.
    + rewrite H2. f_equal. apply strip_indep.
    + eexists. now rewrite <- app_assoc.
    + intros q. rewrite H4. now rewrite <- app_assoc.
Qed.

Lemma mp_session_spec {B} (m : mp B) mb s :
  let (r, s') := mp_session m mb s in
  r = look m (strip s) /\ abs s' = den (mb ++ ti_buf s) (ti_pos s) (ti_iter s) /\ good s'.
Proof.
  revert mb s; induction m as [b|k IH]; intros mb s; simpl.
  - unfold rewind, buffer_tokens_and_positions.
    destruct (updated_abs (mkTI (ti_iter s) (mb ++ ti_buf s) (ti_pos s))) as [E G].
    rewrite E. auto.
  - unfold peek_next. pose proof (mp_pull_spec (ti_buf s) (ti_iter s) mb (ti_pos s)) as H.
    destruct (mp_pull (ti_buf s) (ti_iter s) mb) as [[[t buf'] iter'] mb'].
    destruct H as (H1 & H2 & _ & H4).
    specialize (IH t mb' (mkTI iter' buf' (ti_pos s))).
    destruct (mp_session (k t) mb' (mkTI iter' buf' (ti_pos s))) as [r s'].
    destruct IH as (H5 & H6 & H7). repeat split; auto.
    + rewrite H5. unfold strip, abs at 2. rewrite <- H1.
      f_equal. unfold strip, abs; simpl. exact H2.
    + rewrite H6. simpl. apply H4.
Qed.

Lemma multipeek_abs {B} (m : mp B) s :
  let (r, s') := ti_multipeek B m s in
  (r, abs s') = l_multipeek B m (abs s) /\ good s'.
Proof.
  unfold ti_multipeek, l_multipeek. pose proof (mp_session_spec m [] s) as H.
  destruct (mp_session m [] s) as [r s']. destruct H as (-> & H2 & H3).
  split; auto. rewrite H2. reflexivity.
Qed.

Lemma peek_abs s : good s ->
  exists t s', ti_peek s = Some (t, s') /\ l_peek (abs s) = Some (t, abs s') /\ good s'.
Proof.
  destruct s as [iter [|[t|q] buf] p]; unfold good; simpl; intros H; try contradiction.
  - destruct iter as [|t iter]; unfold ti_peek, l_peek; simpl; eexists _, _; repeat split.
  - unfold ti_peek, l_peek; simpl; eexists _, _; repeat split.
Qed.

Lemma buffer_abs ts q s : good s ->
  abs (ti_buffer ts q s) = l_buffer ts q (abs s) /\ good (ti_buffer ts q s).
Proof.
  intros _. unfold ti_buffer, buffer_tokens_and_positions.
  match goal with |- context [updated_buffered_pos ?x] => destruct (updated_abs x) as [E G] end.
  rewrite E. split; [|exact G]. clear.
  unfold abs, l_buffer; simpl. revert q; induction ts as [|t ts IH]; intros q; simpl.
  - destruct (den _ _ _); reflexivity.
  - rewrite IH. reflexivity.
Qed.

Lemma make_abs i : abs (ti_make i) = l_make i /\ good (ti_make i).
Proof.
  destruct i as [ts|p chunks]; simpl; [split; reflexivity|].
  induction chunks as [|[ts q] chunks [IH1 IH2]]; simpl.
  - split; [reflexivity|exact I].
  - destruct (buffer_abs ts q (buffer_chunks chunks (ti_with_position [] p)) IH2) as [E G].
    rewrite E, IH1. split; auto.
Qed.

(** ** Transfer: every program behaves the same on both *)

Section Transfer.
Context {BS BE : Type}.

Theorem run_transfer {A} (p : prog BS BE A) (s : token_iter) (b : BS) :
  good s ->
  match run concrete p s b with
  | (o, s', b') => run located_ops p (abs s) b = (o, abs s', b') /\ good s'
  end.
Proof.
  revert s b.
  induction p as [A a|A e|A x|A|A k IH|A k IH|A k IH|A B m k IH|A ts q k IH|A B i r q IHq k IH|A B f k IH];
    intros s b G; cbn [run].
  - auto.
  - auto.
  - auto.
  - auto.
  - destruct (next_abs s G) as (t & s' & E1 & E2 & G'). cbn [concrete it_next located_ops].
    rewrite E1, E2. apply IH; auto.
  - destruct (peek_abs s G) as (t & s' & E1 & E2 & G'). cbn [concrete it_peek located_ops].
    rewrite E1, E2. apply IH; auto.
  - cbn [concrete it_pos located_ops]. rewrite l_pos_abs by auto. apply IH; auto.
  - cbn [concrete it_multipeek located_ops].
    pose proof (multipeek_abs m s) as H. destruct (ti_multipeek B m s) as [x s'].
    destruct H as [H1 H2]. rewrite <- H1. apply IH; auto.
  - cbn [concrete it_buffer located_ops]. destruct (buffer_abs ts q s G) as [E G'].
    rewrite <- E. apply IH; auto.
  - cbn [concrete it_make located_ops].
    destruct (make_abs i) as [E G']. specialize (IHq (ti_make i) b G').
    destruct (run concrete q (ti_make i) b) as [[o s'] b'].
    destruct IHq as [E2 G2]. rewrite E in E2. rewrite E2.
    destruct o as [x|e|x|]; auto.
    + apply IH; auto.
    + destruct r; auto.
  - destruct (f b) as [[x|e] b']; auto. apply IH; auto.
Qed.
End Transfer.

(** ** C09: histories of operations *)

(** The operations a client of [TokenIter] can perform.  [Look n]: a look-ahead session peeking
    [n] tokens. *)
Inductive op := ONext | OPeek | OLook (n : nat) | OBuffer (ts : list token) (p : spos).

(** What the client sees: the tokens returned. *)
Fixpoint look_n (n : nat) (acc : list (option token)) : mp (list (option token)) :=
  match n with
  | O => MRet acc
  | S n' => MPeekNext (fun t => look_n n' (acc ++ [t]))
  end.

(** One operation on an iterator implementation: the results, the position reported afterwards,
    the new state; [None] is a panic. *)
Definition do_op (I : iterops) (o : op) (s : it I) : option (list (option token) * spos * it I) :=
  match o with
  | ONext => match it_next I s with Some (t, s') => Some ([t], it_pos I s', s') | None => None end
  | OPeek => match it_peek I s with Some (t, s') => Some ([t], it_pos I s', s') | None => None end
  | OLook n => let (r, s') := it_multipeek I _ (look_n n []) s in Some (r, it_pos I s', s')
  | OBuffer ts p => let s' := it_buffer I ts p s in Some ([], it_pos I s', s')
  end.

Fixpoint do_ops (I : iterops) (os : list op) (s : it I)
  : option (list (list (option token) * spos) * it I) :=
  match os with
  | [] => Some ([], s)
  | o :: os' =>
      match do_op I o s with
      | Some (r, p, s') =>
          match do_ops I os' s' with
          | Some (rs, s'') => Some ((r, p) :: rs, s'')
          | None => None
          end
      | None => None
      end
  end.

Lemma do_op_transfer o s : good s ->
  exists r p s', do_op concrete o s = Some (r, p, s') /\
    do_op located_ops o (abs s) = Some (r, p, abs s') /\ good s'.
Proof.
  intros G. destruct o as [| |n|ts p]; cbn [do_op].
  - destruct (next_abs s G) as (t & s' & E1 & E2 & G'). cbn [concrete located_ops it_next it_pos].
    rewrite E1, E2. eexists _, _, _. rewrite l_pos_abs by auto. auto.
  - destruct (peek_abs s G) as (t & s' & E1 & E2 & G'). cbn [concrete located_ops it_peek it_pos].
    rewrite E1, E2. eexists _, _, _. rewrite l_pos_abs by auto. auto.
  - cbn [concrete located_ops it_multipeek it_pos].
    pose proof (multipeek_abs (look_n n []) s) as H. destruct (ti_multipeek _ _ s) as [x s'].
    destruct H as [H1 H2]. rewrite <- H1. eexists _, _, _. rewrite l_pos_abs by auto. auto.
  - cbn [concrete located_ops it_buffer it_pos]. destruct (buffer_abs ts p s G) as [E G'].
    rewrite <- E. eexists _, _, _. rewrite l_pos_abs by auto. auto.
Qed.

(** C09: from any fresh iterator (over any tokens, at any position), no sequence of operations
    panics; and (with C07, C08) all results and positions are those of the specification. *)
Theorem token_iter_refines ts p os :
  exists rs s', do_ops concrete os (ti_with_position ts p) = Some (rs, s') /\
    do_ops located_ops os (mkL (locate ts p) (advance_all p ts)) = Some (rs, abs s').
Proof.
  assert (H : forall os s, good s -> exists rs s', do_ops concrete os s = Some (rs, s') /\
    do_ops located_ops os (abs s) = Some (rs, abs s')).
  { clear. induction os as [|o os IH]; intros s G; simpl.
    - eexists _, _; auto.
    - destruct (do_op_transfer o s G) as (r & p & s1 & E1 & E2 & G1). rewrite E1, E2.
      destruct (IH s1 G1) as (rs & s2 & E3 & E4). rewrite E3, E4. eexists _, _; auto. }
  apply (H os (ti_with_position ts p)). exact I.
Qed.

Corollary token_iter_never_panics ts p os : do_ops concrete os (ti_with_position ts p) <> None.
Proof. destruct (token_iter_refines ts p os) as (rs & s' & E & _). congruence. Qed.

(** States reachable by a history. *)
Definition reachable (s : token_iter) : Prop :=
  exists ts p os rs, do_ops concrete os (ti_with_position ts p) = Some (rs, s).

Lemma reachable_good s : reachable s -> good s.
Proof.
  intros (ts & p & os & rs & H).
  assert (G : good (ti_with_position ts p)) by exact I.
  revert H G. generalize (ti_with_position ts p). revert rs.
  induction os as [|o os IH]; intros rs s0 H G; simpl in H.
  - congruence.
  - destruct (do_op_transfer o s0 G) as (r & q & s1 & E1 & _ & G1). rewrite E1 in H.
    destruct (do_ops concrete os s1) as [[rs' s']|] eqn:E; [|discriminate].
    injection H as _ <-. eapply IH; eauto.
Qed.

(** ** C07, C08: what the iterator yields *)

(** Draining: all tokens [next] still yields, each with the position reported just before, and
    the position at the end.  [None]: a panic, or more than [fuel] tokens. *)
Fixpoint drain (fuel : nat) (s : token_iter) : option (list (token * spos) * spos) :=
  match fuel with
  | O => None
  | S f =>
      match ti_next s with
      | None => None
      | Some (None, _) => Some ([], ti_pos s)
      | Some (Some t, s') =>
          match drain f s' with
          | Some (l, e) => Some ((t, ti_pos s) :: l, e)
          | None => None
          end
      end
  end.

Lemma drain_abs fuel s : good s -> (length (toks (abs s)) < fuel)%nat ->
  drain fuel s = Some (toks (abs s), end_pos (abs s)).
Proof.
  revert s; induction fuel as [|f IH]; intros s G L; [lia|]. simpl.
  destruct (next_abs s G) as (t & s' & E1 & E2 & G'). rewrite E1.
  pose proof (l_pos_abs s G) as Hp. unfold l_next, l_pos in *.
  destruct (abs s) as [ts e]; simpl in *. destruct ts as [|[t1 p1] ts].
  - injection E2 as <- E2. subst. reflexivity.
  - injection E2 as <- E2. rewrite IH; rewrite <- ?E2; simpl in *; auto; try lia. congruence.
Qed.

(** C07: a look-ahead session returns the tokens that come next (and [None] past the end), and
    changes neither the tokens nor the positions yielded afterwards. *)
Theorem multipeek_pure s n : reachable s ->
  exists l e, (forall f, (length l < f)%nat -> drain f s = Some (l, e)) /\
    let (r, s') := ti_multipeek _ (look_n n []) s in
    r = map (fun i => nth_error (map fst l) i) (seq 0 n) /\
    ti_pos s' = ti_pos s /\
    (forall f, (length l < f)%nat -> drain f s' = Some (l, e)).
Proof.
  intros R. apply reachable_good in R. exists (toks (abs s)), (end_pos (abs s)).
  split; [intros f; apply drain_abs; auto|].
  pose proof (multipeek_abs (look_n n []) s) as H. destruct (ti_multipeek _ _ s) as [r s'].
  destruct H as [H G]. unfold l_multipeek in H. injection H as -> H.
  split; [|split].
  - generalize (map fst (toks (abs s))). intros l.
    assert (E : forall acc k m, look (look_n k acc) m =
              acc ++ map (fun i => nth_error m i) (seq 0 k)).
    { clear. intros acc k; revert acc; induction k as [|k IH]; intros acc m; simpl.
      - now rewrite app_nil_r.
      - rewrite IH. rewrite <- app_assoc. f_equal. cbn [app seq map]. f_equal.
        rewrite <- seq_shift, map_map. apply map_ext. intros i.
          destruct m; destruct i; reflexivity. }
    apply (E []).
  - rewrite <- !l_pos_abs by auto. now rewrite H.
  - intros f L. rewrite <- H. rewrite drain_abs; auto. now rewrite H.
Qed.

(** The same for [peek]: the token that [next] would return, and nothing changes. *)
Theorem peek_pure s : reachable s ->
  exists l e s', (forall f, (length l < f)%nat -> drain f s = Some (l, e)) /\
    ti_peek s = Some (hd_error (map fst l), s') /\
    ti_pos s' = ti_pos s /\
    (forall f, (length l < f)%nat -> drain f s' = Some (l, e)).
Proof.
  intros R. apply reachable_good in R.
  destruct (peek_abs s R) as (t & s' & E1 & E2 & G').
  exists (toks (abs s)), (end_pos (abs s)), s'.
  unfold l_peek in E2. injection E2 as E2 E3.
  split; [intros f; apply drain_abs; auto|]. split; [|split].
  - rewrite E1, <- E2. destruct (toks (abs s)) as [|[? ?] ?]; reflexivity.
  - rewrite <- !l_pos_abs by auto. now rewrite E3.
  - intros f L. rewrite E3. rewrite drain_abs; auto. now rewrite <- E3.
Qed.

(** C08 *)
Theorem buffering s ts p : reachable s ->
  exists l e, (forall f, (length l < f)%nat -> drain f s = Some (l, e)) /\
    (forall f, (length ts + length l < f)%nat ->
       drain f (ti_buffer ts p s) = Some (locate ts p ++ l, e)).
Proof.
  intros R. apply reachable_good in R. exists (toks (abs s)), (end_pos (abs s)).
  split; [intros f; apply drain_abs; auto|].
  intros f L. destruct (buffer_abs ts p s R) as [E G]. rewrite drain_abs; auto; rewrite E; auto.
  simpl. rewrite app_length. assert (H : length (locate ts p) = length ts); [|lia].
  clear. revert p; induction ts; intros; simpl; auto.
Qed.

(** ** C06 *)

(** The position reached after reading the text [s] from the start of a source. *)
Fixpoint last_line (s : str) : str :=
  match s with
  | [] => []
  | c :: s' => if existsb (N.eqb c_newline) s' then last_line s' else if N.eqb c c_newline then s' else s
  end.
Definition text_pos (s : str) : spos :=
  mkPos (str_len s) (1 + count_char c_newline s) (1 + str_len (last_line s)).

Lemma last_line_app_nl s w : existsb (N.eqb c_newline) w = true -> last_line (s ++ w) = last_line w.
Proof.
  intros H. induction s as [|c s IH]; auto. cbn [app last_line].
  rewrite existsb_app, H, orb_true_r. exact IH.
Qed.
Lemma last_line_app s w : existsb (N.eqb c_newline) w = false -> last_line (s ++ w) = last_line s ++ w.
Proof.
  intros H. induction s as [|c s IH]; cbn [app last_line].
  - destruct w as [|c w]; cbn [existsb last_line] in *; auto.
    apply orb_false_iff in H. destruct H as [H1 H2].
    rewrite H2. rewrite N.eqb_sym in H1. now rewrite H1.
  - rewrite existsb_app, H, orb_false_r. destruct (existsb (N.eqb c_newline) s); auto.
    destruct (N.eqb c c_newline); auto.
Qed.

Lemma count_existsb w : count_char c_newline w = 0%nat -> existsb (N.eqb c_newline) w = false.
Proof.
  induction w as [|c w IH]; cbn [count_char existsb]; auto. rewrite (N.eqb_sym c_newline c).
  destruct (N.eqb c c_newline); [discriminate|]. auto.
Qed.

Definition newline_free_words (t : token) : Prop :=
  match t with TName s | TLiteral s | TWhitespace s => count_char c_newline s = 0%nat | _ => True end.

Lemma advance_text_pos s t : newline_free_words t ->
  advance (text_pos s) t = text_pos (s ++ as_str t).
Proof.
  intros H. unfold advance, text_pos; simpl. unfold tok_len.
  rewrite str_len_app, count_char_app.
  destruct t as [| | | | | | | | | | | | | | | | | | | | | | | | | | | | | | | | | | | | | | | | |[]|w|w|w];
    try (rewrite last_line_app by reflexivity; rewrite str_len_app; simpl; f_equal; lia);
    try (simpl in H; unfold tok_newlines; rewrite H; simpl;
         rewrite last_line_app by (apply count_existsb; exact H); rewrite str_len_app; simpl in *;
         rewrite H; f_equal; lia).
  rewrite last_line_app_nl by reflexivity. simpl. f_equal; lia.
Qed.

Section C06.
Context {U : Uni}.

Lemma lexable_newline_free t : lexable t -> newline_free_words t.
Proof.
  assert (Hb : forall w, Forall blank w -> count_char c_newline w = 0%nat).
  { intros w H. apply count_char_0. intros Hin. rewrite Forall_forall in H.
    destruct (H _ Hin) as [_ Hc]. apply Hc; reflexivity. }
  assert (Hn : forall w, Forall ordinary w -> count_char c_newline w = 0%nat).
  { intros w H. apply count_char_0. intros Hin. rewrite Forall_forall in H.
    destruct (H _ Hin) as [Hc _]. discriminate Hc. }
  destruct t; simpl; auto.
  - intros [_ H]. auto.
  - destruct s as [|c w]; [contradiction|]. intros (H1 & _ & H2). apply Hn. constructor; auto.
  - destruct s as [|c w]; [contradiction|]. intros (H1 & H2). apply Hn. constructor.
    + apply H1.
    + eapply Forall_impl; [|exact H2]. intros a. apply id_char_ordinary.
Qed.

(** Positions of the tokens of a lexed source, in terms of the text before them. *)
Lemma locate_text ts s i t p : Forall newline_free_words ts ->
  nth_error (locate ts (text_pos s)) i = Some (t, p) ->
  nth_error ts i = Some t /\ p = text_pos (s ++ concat_tokens (firstn i ts)).
Proof.
  revert s i; induction ts as [|t1 ts IH]; intros s i F; simpl.
  - destruct i; discriminate.
  - inversion F; subst. destruct i as [|i]; simpl.
    + intros [= <- <-]. now rewrite app_nil_r.
    + rewrite advance_text_pos by auto. intros H. apply IH in H; auto.
      destruct H as [H ->]. split; auto. now rewrite <- app_assoc.
Qed.

Lemma advance_all_text ts s : Forall newline_free_words ts ->
  advance_all (text_pos s) ts = text_pos (s ++ concat_tokens ts).
Proof.
  revert s; induction ts as [|t ts IH]; intros s F; simpl.
  - now rewrite app_nil_r.
  - inversion F; subst. unfold advance_all in *. simpl. rewrite advance_text_pos by auto.
    rewrite IH by auto. now rewrite <- app_assoc.
Qed.

Lemma lex_newline_free s : Forall newline_free_words (lex s).
Proof.
  apply Forall_forall. intros t H. apply lexable_newline_free. eapply lex_lexable; eauto.
Qed.

(** Number of tokens consumed by a history that never buffers. *)
Definition no_buffer (o : op) : Prop := match o with OBuffer _ _ => False | _ => True end.
Definition nexts (os : list op) : nat :=
  length (filter (fun o => match o with ONext => true | _ => false end) os).

(** C06: whatever look-ahead happens in between, after [n] calls of [next] on the tokens of a
    source the reported position is that of the text of the first [n] tokens. *)
Theorem position_tracks_text src os rs s' :
  Forall no_buffer os ->
  do_ops concrete os (ti_new (lex src)) = Some (rs, s') ->
  ti_pos s' = text_pos (concat_tokens (firstn (nexts os) (lex src))).
Proof.
  intros F H.
  destruct (token_iter_refines (lex src) pos_new os) as (rs2 & s2 & E1 & E2).
  unfold ti_new in H. unfold ti_with_position in E1. rewrite E1 in H. injection H as -> ->.
  assert (G : good s').
  { apply reachable_good. eexists _, _, _, _. exact E1. }
  rewrite <- l_pos_abs by auto. clear E1 G.
  pose proof (lex_newline_free src) as NF. revert NF E2.
  change pos_new with (text_pos []) at 1 2.
  assert (HH : forall ts pre rs l, Forall newline_free_words ts ->
     do_ops located_ops os (mkL (locate ts (text_pos pre)) (advance_all (text_pos pre) ts)) = Some (rs, l) ->
     l_pos l = text_pos (pre ++ concat_tokens (firstn (nexts os) ts))).
  { clear -F. induction F as [|o os Ho F IH]; intros ts pre rs l NF H.
    - simpl in H. injection H as <- <-. unfold nexts; simpl. rewrite app_nil_r.
      destruct ts; reflexivity.
    - cbn [do_ops] in H. destruct o as [| |n|]; simpl in Ho; try contradiction;
        cbn [do_op located_ops it_next it_peek it_multipeek] in H.
      + unfold l_next in H. destruct ts as [|t ts]; cbn [toks locate] in H.
        * destruct (do_ops _ _ _) as [[rs1 s1]|] eqn:E in H; [|discriminate].
          injection H as _ <-. specialize (IH [] pre _ _ NF E). rewrite firstn_nil in *. exact IH.
        * inversion NF; subst.
          destruct (do_ops _ _ _) as [[rs1 s1]|] eqn:E in H; [|discriminate].
          injection H as _ <-. cbn [end_pos] in E.
          assert (Ea : advance_all (text_pos pre) (t :: ts) = advance_all (text_pos (pre ++ as_str t)) ts).
          { unfold advance_all; simpl. now rewrite advance_text_pos. }
          rewrite Ea in E. rewrite advance_text_pos in E by auto.
          apply IH in E; auto. rewrite E. unfold nexts; simpl. now rewrite <- app_assoc.
      + unfold l_peek in H.
        destruct (do_ops _ _ _) as [[rs1 s1]|] eqn:E in H; [|discriminate].
        injection H as _ <-. eapply IH; eauto.
      + unfold l_multipeek in H.
        destruct (do_ops _ _ _) as [[rs1 s1]|] eqn:E in H; [|discriminate].
        injection H as _ <-. eapply IH; eauto. }
  intros NF E2. exact (HH _ [] _ _ NF E2).
Qed.
End C06.

(** ** Concrete cases *)

Example history_example :
  do_ops concrete [ONext; OLook 3; OBuffer [TName (s_of "x"); TSemi] (mkPos 7 8 9); OLook 4; ONext; OPeek;
                   ONext; ONext; ONext]
    (ti_new (lex (U := fun _ => false) (s_of "ab; c"))) =
  Some ([([Some (TName (s_of "ab"))], mkPos 2 1 3);
         ([Some TSemi; Some (TWhitespace (s_of " ")); Some (TName (s_of "c"))], mkPos 2 1 3);
         ([], mkPos 7 8 9);
         ([Some (TName (s_of "x")); Some TSemi; Some TSemi; Some (TWhitespace (s_of " "))], mkPos 7 8 9);
         ([Some (TName (s_of "x"))], mkPos 8 8 10);
         ([Some TSemi], mkPos 8 8 10);
         ([Some TSemi], mkPos 2 1 3);
         ([Some TSemi], mkPos 3 1 4);
         ([Some (TWhitespace (s_of " "))], mkPos 4 1 5)],
        mkTI [] [TPTok (TName (s_of "c"))] (mkPos 4 1 5)).
Proof. vm_compute. reflexivity. Qed.

Example text_pos_example : text_pos (s_of "ab" ++ [10%N] ++ s_of "cde") = mkPos 6 2 4.
Proof. reflexivity. Qed.
