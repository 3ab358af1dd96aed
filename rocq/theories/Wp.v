(** * Weakest preconditions for parser programs on the specification iterator

    [wp am p l Q]: started on the stream [l], the program [p] never runs out of fuel; if it
    returns a value, [Q] holds of it and of the remaining stream; if it fails, the error is
    acceptable; and it panics only where [am] permits.  What is acceptable is a parameter
    ([ambient]), so that one walk over the parser gives termination, panic freedom, the meaning of
    error positions and the discipline of builder calls. *)
From Verif Require Import Base Token Pos Ast Builder Prog Located RunLemmas ParserBase BaseRun
  Balanced BalancedSpec BalancedProofs BalancedTotal.

Definition size (l : located) : nat := length (toks l).

(** A call of the builder started in a good state ends in a good state or fails acceptably. *)
Definition bld_ok {S E : Type} (I : S -> Prop) (C : E -> S -> Prop) {R} (f : S -> (R + E) * S) : Prop :=
  forall b, I b -> match f b with (inl _, b') => I b' | (inr e, b') => C e b' end.

(** Every method of the builder is like that; a pipeline is only ever built of at least one
    command. *)
Record builder_ok (B : builder) (BInv : bst B -> Prop) (CustOk : b_err B -> bst B -> Prop) : Prop :=
  mkBuilderOk {
  bo_complete_command : forall a b c d, bld_ok BInv CustOk (o_complete_command B a b c d);
  bo_and_or_list : forall a b, bld_ok BInv CustOk (o_and_or_list B a b);
  bo_pipeline : forall a b, b <> [] -> bld_ok BInv CustOk (o_pipeline B a b);
  bo_simple_command : forall a b, bld_ok BInv CustOk (o_simple_command B a b);
  bo_brace_group : forall a b, bld_ok BInv CustOk (o_brace_group B a b);
  bo_subshell : forall a b, bld_ok BInv CustOk (o_subshell B a b);
  bo_loop_command : forall a b c, bld_ok BInv CustOk (o_loop_command B a b c);
  bo_if_command : forall a b, bld_ok BInv CustOk (o_if_command B a b);
  bo_for_command : forall a b, bld_ok BInv CustOk (o_for_command B a b);
  bo_case_command : forall a b, bld_ok BInv CustOk (o_case_command B a b);
  bo_into_pipeable : forall a, bld_ok BInv CustOk (o_compound_command_into_pipeable B a);
  bo_function_declaration : forall a b c, bld_ok BInv CustOk (o_function_declaration B a b c);
  bo_comments : forall a, bld_ok BInv CustOk (o_comments B a);
  bo_word : forall a, bld_ok BInv CustOk (o_word B a);
  bo_redirect : forall a, bld_ok BInv CustOk (o_redirect B a)
}.

(** Here-documents change the stream: the rest of the line is put back in front of what follows the
    body, and the body (with [<<-], without tabs) becomes a stream of its own.  Blanks aside, the new stream
    consists of a part [b] of the old one and its tail [d]; what is cut out in between follows a newline. *)
Definition inked (ts : list token) : list token :=
  filter (fun t => match t with TWhitespace _ => false | _ => true end) ts.
Definition ends_line (ts : list token) : Prop := ts = [] \/ exists ts', ts = ts' ++ [TNewline].
Definition shortened (xs ys : list token) : Prop :=
  exists a b c d, inked xs = a ++ b ++ c ++ d /\ inked ys = b ++ d /\ (c = [] \/ ends_line b).

Record ambient (B : builder) := mkAmbient {
  Inv : located -> Prop;              (* streams that can occur *)
  TokAt : token -> spos -> Prop;      (* this token is at this position *)
  PosOk : spos -> Prop;               (* a position of a token, or the end *)
  Eof : located -> Prop;              (* the input may be reported to have ended *)
  HD : Prop;                          (* the input has a here-document operator *)
  Pan : Prop;                         (* a here-document may end in a backslash *)
  Shape : list token -> Prop;         (* what is known of the tokens if there are here-documents *)
  Direct : Prop;                      (* a compound command's method may be called before blanks *)
  BInv : bst B -> Prop;               (* builder states while no builder call has failed *)
  CustOk : b_err B -> bst B -> Prop;  (* errors of builder calls *)
  inv_suffix : forall pre ts e, Inv (mkL (pre ++ ts) e) -> Inv (mkL ts e);
  inv_tok : forall l t p, Inv l -> In (t, p) (toks l) -> TokAt t p;
  inv_pos : forall l, Inv l -> PosOk (l_pos l);
  inv_hd : forall l t p, Inv l -> In (t, p) (toks l) -> t = TDLess \/ t = TDLessDash -> HD;
  hd_inv : HD -> forall l, Shape (map fst (toks l)) -> Inv l;
  inv_shape : HD -> forall l, Inv l -> Shape (map fst (toks l));
  shape_short : forall xs ys, Shape xs -> shortened xs ys -> Shape ys;
  shape_end : HD -> Shape [TBackslash] -> Pan;
  inv_tick : forall q0 body q rest e sub,
    Inv (mkL ((TBacktick, q0) :: body ++ (TBacktick, q) :: rest) e) -> content TBacktick (map fst body) ->
    map fst (toks sub) = unescape (map fst body) ->
    end_pos sub = l_pos (mkL rest e) ->
    (contiguous (l_pos (mkL (body ++ (TBacktick, q) :: rest) e)) body ->
     toks sub = unescape_located body) ->
    Inv sub;
  eof_nil : forall e, Inv (mkL [] e) -> Eof (mkL [] e);
  eof_tick : forall q0 ts e, Inv (mkL ((TBacktick, q0) :: ts) e) -> forall l, Eof l;
  bk : builder_ok B BInv CustOk
}.
Arguments Inv {B}. Arguments TokAt {B}. Arguments PosOk {B}. Arguments Eof {B}. Arguments HD {B}. Arguments Pan {B}. Arguments Shape {B}. Arguments Direct {B}.
Arguments BInv {B}. Arguments CustOk {B}.

Lemma bk_complete_command {B} (am : ambient B) a b c d : bld_ok (BInv am) (CustOk am) (o_complete_command B a b c d).
Proof. apply (bo_complete_command _ _ _ (bk _ am)). Qed.
Lemma bk_and_or_list {B} (am : ambient B) a b : bld_ok (BInv am) (CustOk am) (o_and_or_list B a b).
Proof. apply (bo_and_or_list _ _ _ (bk _ am)). Qed.
Lemma bk_pipeline {B} (am : ambient B) a b : b <> [] -> bld_ok (BInv am) (CustOk am) (o_pipeline B a b).
Proof. apply (bo_pipeline _ _ _ (bk _ am)). Qed.
Lemma bk_simple_command {B} (am : ambient B) a b : bld_ok (BInv am) (CustOk am) (o_simple_command B a b).
Proof. apply (bo_simple_command _ _ _ (bk _ am)). Qed.
Lemma bk_brace_group {B} (am : ambient B) a b : bld_ok (BInv am) (CustOk am) (o_brace_group B a b).
Proof. apply (bo_brace_group _ _ _ (bk _ am)). Qed.
Lemma bk_subshell {B} (am : ambient B) a b : bld_ok (BInv am) (CustOk am) (o_subshell B a b).
Proof. apply (bo_subshell _ _ _ (bk _ am)). Qed.
Lemma bk_loop_command {B} (am : ambient B) a b c : bld_ok (BInv am) (CustOk am) (o_loop_command B a b c).
Proof. apply (bo_loop_command _ _ _ (bk _ am)). Qed.
Lemma bk_if_command {B} (am : ambient B) a b : bld_ok (BInv am) (CustOk am) (o_if_command B a b).
Proof. apply (bo_if_command _ _ _ (bk _ am)). Qed.
Lemma bk_for_command {B} (am : ambient B) a b : bld_ok (BInv am) (CustOk am) (o_for_command B a b).
Proof. apply (bo_for_command _ _ _ (bk _ am)). Qed.
Lemma bk_case_command {B} (am : ambient B) a b : bld_ok (BInv am) (CustOk am) (o_case_command B a b).
Proof. apply (bo_case_command _ _ _ (bk _ am)). Qed.
Lemma bk_into_pipeable {B} (am : ambient B) a : bld_ok (BInv am) (CustOk am) (o_compound_command_into_pipeable B a).
Proof. apply (bo_into_pipeable _ _ _ (bk _ am)). Qed.
Lemma bk_function_declaration {B} (am : ambient B) a b c : bld_ok (BInv am) (CustOk am) (o_function_declaration B a b c).
Proof. apply (bo_function_declaration _ _ _ (bk _ am)). Qed.
Lemma bk_comments {B} (am : ambient B) a : bld_ok (BInv am) (CustOk am) (o_comments B a).
Proof. apply (bo_comments _ _ _ (bk _ am)). Qed.
Lemma bk_word {B} (am : ambient B) a : bld_ok (BInv am) (CustOk am) (o_word B a).
Proof. apply (bo_word _ _ _ (bk _ am)). Qed.
Lemma bk_redirect {B} (am : ambient B) a : bld_ok (BInv am) (CustOk am) (o_redirect B a).
Proof. apply (bo_redirect _ _ _ (bk _ am)). Qed.

(** Which keyword an [IncompleteCmd] error can ask for, for which command (the [until] loop
    calls itself [while], parse.rs 1885). *)
Definition incomplete_ok (cmd kw : str) : Prop :=
  In (cmd, kw) [(DO, DONE); (WHILE, DO); (IF, THEN); (IF, FI); (FOR, IN); (FOR, DO); (CASE, IN);
                (CASE, ESAC)].

Section Wp.
Context {B : builder} (am : ambient B).
Notation prog := (prog (bst B) (b_err B)).

(** The command named [c] starts at [p]: its keyword is there ([until] for the loop that calls itself
    [while]), or blanks are (in front of the keyword, when a method is called by itself). *)
Definition spells (w : str) (t : token) : Prop := t = TName w \/ t = TLiteral w.
Definition blank_start (t : token) : Prop := t = TBackslash \/ exists w, t = TWhitespace w.
Definition cmd_at (c : str) (p : spos) : Prop :=
  PosOk am p /\ exists t, TokAt am t p /\
    (Direct am /\ blank_start t \/ spells c t \/ (c = WHILE /\ spells UNTIL t)).

(** The acceptable errors, with [l] still to be read. *)
Definition err_ok (l : located) (e : perr (b_err B)) : Prop :=
  match e with
  | BadFd a b => PosOk am a /\ PosOk am b
  | BadIdent s p => TokAt am (TLiteral s) p
  | BadSubst t p | Unexpected t p => TokAt am t p
  | Unmatched t p => TokAt am t p /\ opener t /\ (t <> TCurlyOpen -> Eof am l)
  | IncompleteCmd c p k q => cmd_at c p /\ PosOk am q /\ incomplete_ok c k
  | UnexpectedEOF => Eof am l
  | Custom _ => False
  end.

Definition wp {A} (p : prog A) (l : located) (Q : A -> located -> Prop) : Prop :=
  forall b, BInv am b ->
  match lrun p l b with
  | (OOk a, l', b') => BInv am b' /\ Q a l'
  | (OErr (Custom e), _, b') => CustOk am e b'
  | (OErr e, l', b') => BInv am b' /\ (HD am \/ err_ok l' e)
  | (OPanic s, _, b') => BInv am b' /\ HD am /\ Pan am /\ s = PS_interp_escaped
  | (OFuel, _, _) => False
  end.

Lemma wp_bind {A C} (p : prog A) (f : A -> prog C) l Q :
  wp p l (fun a l' => wp (f a) l' Q) -> wp (bind p f) l Q.
Proof.
  intros H b Hb. rewrite lrun_bind. specialize (H b Hb).
  destruct (lrun p l b) as [[[a|e|x|] l'] b']; auto.
  destruct H as [Hb' H]. exact (H b' Hb').
Qed.
Lemma wp_mono {A} (p : prog A) l (Q Q' : A -> located -> Prop) :
  wp p l Q -> (forall a l', Q a l' -> Q' a l') -> wp p l Q'.
Proof.
  intros H HQ b Hb. specialize (H b Hb). destruct (lrun p l b) as [[[a|e|x|] l'] b']; auto.
  destruct H; auto.
Qed.
Lemma wp_ret {A} (a : A) l (Q : A -> located -> Prop) : Q a l -> wp (ret a) l Q.
Proof. intros H b Hb. rewrite lrun_ret. auto. Qed.
Lemma wp_throw {A} e l (Q : A -> located -> Prop) : err_ok l e -> wp (throw e) l Q.
Proof. intros H b Hb. rewrite lrun_throw. destruct e; simpl in *; tauto. Qed.
Lemma wp_throw_hd {A} e l (Q : A -> located -> Prop) : HD am -> (forall c, e <> Custom c) -> wp (throw e) l Q.
Proof. intros H Hc b Hb. rewrite lrun_throw. destruct e; auto. edestruct Hc; eauto. Qed.
Lemma wp_panic_hd {A} l (Q : A -> located -> Prop) : HD am -> Pan am -> wp (panic PS_interp_escaped) l Q.
Proof. intros H Hp b Hb. rewrite lrun_panic. auto. Qed.
Lemma wp_next l (Q : option token -> located -> Prop) : Q (l_hd l) (l_tl l) -> wp next l Q.
Proof. intros H b Hb. rewrite lrun_next. auto. Qed.
Lemma wp_peek l (Q : option token -> located -> Prop) : Q (l_hd l) l -> wp peek l Q.
Proof. intros H b Hb. rewrite lrun_peek. auto. Qed.
Lemma wp_getpos l (Q : spos -> located -> Prop) : Q (l_pos l) l -> wp getpos l Q.
Proof. intros H b Hb. rewrite lrun_getpos. auto. Qed.
Lemma wp_multipeek {R} (m : mp R) l (Q : R -> located -> Prop) :
  Q (look m (map fst (toks l))) l -> wp (multipeek m) l Q.
Proof. intros H b Hb. rewrite lrun_multipeek. auto. Qed.
Lemma wp_buffer ts p l (Q : unit -> located -> Prop) : Q tt (l_buffer ts p l) -> wp (buffer ts p) l Q.
Proof. intros H b Hb. rewrite lrun_buffer. auto. Qed.
Lemma wp_sub {R} i r (q : prog R) l (Q : R -> located -> Prop) :
  HD am \/ (forall l, Eof am l) -> wp q (l_make i) (fun a _ => Q a l) -> wp (sub_iter i r q) l Q.
Proof.
  intros He H b Hb. rewrite lrun_sub. specialize (H b Hb).
  destruct (lrun q (l_make i) b) as [[[a|e|x|] l'] b']; auto.
  destruct e; auto; destruct H as [H1 [H2|H2]]; (split; [exact H1|]); auto; destruct He as [He|He]; auto;
    right; cbn [err_ok] in *; auto.
  split; [apply H2|split; [apply H2|auto]].
Qed.
Lemma wp_build {R} (f : bst B -> (R + b_err B) * bst B) l (Q : R -> located -> Prop) :
  bld_ok (BInv am) (CustOk am) f -> (forall r, Q r l) -> wp (build f) l Q.
Proof.
  intros H HQ b Hb. rewrite lrun_build. specialize (H b Hb).
  destruct (f b) as [[r|e] b']; auto.
Qed.

Notation ok l := (Inv am l).

Lemma inv_tl l : ok l -> ok (l_tl l).
Proof.
  destruct l as [[|x ts] e]; auto. unfold l_tl; simpl. intros H.
  apply (inv_suffix _ am [x]). exact H.
Qed.
Lemma size_tl l : size (l_tl l) = pred (size l).
Proof. destruct l as [[|x ts] e]; reflexivity. Qed.

Lemma inv_cons t p ts e : ok (mkL ((t, p) :: ts) e) -> ok (mkL ts e).
Proof. apply (inv_suffix _ am [(t, p)]). Qed.
Lemma tok_cons t p ts e : ok (mkL ((t, p) :: ts) e) -> TokAt am t p.
Proof. intros H. eapply inv_tok; [exact H|]. simpl; auto. Qed.
Lemma inv_suffix_ex l l' : ok l -> (exists pre, toks l = pre ++ toks l') -> end_pos l' = end_pos l -> ok l'.
Proof.
  destruct l as [ts e], l' as [ts' e']; simpl. intros H [pre ->] ->. eapply inv_suffix; eauto.
Qed.

Lemma wp_unexpected {A} l (Q : A -> located -> Prop) : ok l -> wp unexpected l Q.
Proof.
  intros Hl b Hb. destruct l as [ts e]. rewrite lrun_unexpected.
  destruct ts as [|[t p] r]; cbn; split; auto; right; [now apply eof_nil|eapply tok_cons; eauto].
Qed.
Lemma wp_make_unexpected l (Q : perr (b_err B) -> located -> Prop) :
  ok l -> (forall e l', ok l' -> (size l' <= size l)%nat -> err_ok l' e -> Q e l') ->
  wp make_unexpected_err l Q.
Proof.
  intros Hl HQ b Hb. destruct l as [[|[t p] r] e]; cbn.
  - split; auto. apply HQ; simpl; auto. now apply eof_nil.
  - split; auto. apply HQ; [eapply inv_cons; eauto|unfold size; simpl; lia|eapply tok_cons; eauto].
Qed.

(** The stream got no longer. *)
Definition dn (l l' : located) : Prop := ok l' /\ (size l' <= size l)%nat.
Definition sdn (l l' : located) : Prop := ok l' /\ (size l' < size l)%nat.

Lemma wp_eat t l (Q : unit -> located -> Prop) :
  ok l -> (forall p ts e, l = mkL ((t, p) :: ts) e -> ok (mkL ts e) -> TokAt am t p -> Q tt (mkL ts e)) ->
  wp (eat t) l Q.
Proof.
  intros Hl HQ b Hb. destruct l as [ts e]. rewrite lrun_eat. destruct ts as [|[t' p] r].
  - cbn. split; auto. right. now apply eof_nil.
  - destruct (token_eqb_spec t' t) as [->|].
    + split; auto. eapply HQ; [reflexivity|eapply inv_cons; eauto|eapply tok_cons; eauto].
    + cbn. split; auto. right. eapply tok_cons; eauto.
Qed.
Lemma wp_eat_maybe t l (Q : bool -> located -> Prop) :
  ok l ->
  (forall p ts e, l = mkL ((t, p) :: ts) e -> ok (mkL ts e) -> TokAt am t p -> Q true (mkL ts e)) ->
  (l_hd l <> Some t -> Q false l) ->
  wp (eat_maybe t) l Q.
Proof.
  intros Hl H1 H2 b Hb. destruct l as [ts e]. rewrite lrun_eat_maybe. destruct ts as [|[t' p] r].
  - split; auto. apply H2. discriminate.
  - destruct (token_eqb_spec t' t) as [->|].
    + split; auto. eapply H1; [reflexivity|eapply inv_cons; eauto|eapply tok_cons; eauto].
    + split; auto. apply H2. cbn. congruence.
Qed.

Section Fuel.
Variable fuel : nat.

Lemma wp_skip_ws l (Q : unit -> located -> Prop) :
  (size l < fuel)%nat -> ok l ->
  (forall l', ok l' -> (size l' <= size l)%nat -> ws_free (toks l') ->
              toks l' = skip_ws (toks l) -> end_pos l' = end_pos l -> Q tt l') ->
  wp (skip_whitespace fuel) l Q.
Proof.
  intros Hf Hl HQ b Hb. destruct l as [ts e]. rewrite lrun_skip_ws by exact Hf. split; auto.
  pose proof (skip_ws_length ts) as L. destruct (skip_ws_suffix ts) as [pre E].
  apply HQ; simpl; auto.
  - apply (inv_suffix _ am pre). now rewrite <- E.
  - apply skip_ws_free.
Qed.

Lemma wp_newline l (Q : option newline_ -> located -> Prop) :
  (size l < fuel)%nat -> ok l ->
  (forall x l', ok l' -> (size l' < size l)%nat -> Q (Some x) l') ->
  (forall l', ok l' -> (size l' <= size l)%nat -> ws_free (toks l') -> Q None l') ->
  wp (newline fuel) l Q.
Proof.
  intros Hf Hl H1 H2 b Hb. destruct l as [ts e]. rewrite lrun_newline by exact Hf.
  destruct (nl ts) as [[x r]|] eqn:E.
  - split; auto. apply H1; [|apply (nl_length _ _ _ E)].
    destruct (nl_suffix _ _ _ E) as [pre E']. apply (inv_suffix _ am pre). now rewrite <- E'.
  - split; auto. pose proof (skip_ws_length ts) as L. destruct (skip_ws_suffix ts) as [pre E'].
    apply H2; auto; [apply (inv_suffix _ am pre); now rewrite <- E'|apply skip_ws_free].
Qed.

Lemma wp_linebreak l (Q : list newline_ -> located -> Prop) :
  (size l < fuel)%nat -> ok l ->
  (forall xs l', ok l' -> (size l' <= size l)%nat -> ws_free (toks l') -> Q xs l') ->
  wp (linebreak fuel) l Q.
Proof.
  intros Hf Hl H1 b Hb. destruct l as [ts e].
  destruct (linebreaks_total ts) as (xs & r & E). rewrite (lrun_linebreak fuel ts e b xs r Hf E).
  split; auto. pose proof (linebreaks_length _ _ _ E) as L. destruct (linebreaks_suffix _ _ _ E) as [pre E'].
  apply H1; [apply (inv_suffix _ am pre); now rewrite <- E'|unfold size; simpl; lia|].
  apply (linebreaks_free _ _ _ E).
Qed.

Lemma wp_peek_reserved_word words l (Q : option str -> located -> Prop) :
  (size l < fuel)%nat -> ok l ->
  (forall l', ok l' -> (size l' <= size l)%nat ->
     (words <> [] -> ws_free (toks l') /\ toks l' = skip_ws (toks l)) -> (words = [] -> l' = l) ->
     Q (match words with [] => None | _ => rw_found words (map fst (toks l')) end) l') ->
  wp (peek_reserved_word fuel words) l Q.
Proof.
  intros Hf Hl HQ. unfold peek_reserved_word. destruct words as [|w ws].
  - apply wp_ret. apply HQ; auto. congruence.
  - apply wp_bind. apply wp_skip_ws; auto. intros l' H1 H2 H3 H4 H5. apply wp_multipeek.
    rewrite look_rw. apply HQ; auto. congruence.
Qed.

Lemma wp_reserved_word words l (Q : option str -> located -> Prop) :
  (size l < fuel)%nat -> ok l -> words <> [] ->
  (forall w l1 l', rw_found words (map fst (toks l1)) = Some w -> toks l1 = skip_ws (toks l) ->
     In w words -> ok l' -> (size l' < size l)%nat -> Q (Some w) l') ->
  (forall l', rw_found words (map fst (toks l')) = None -> toks l' = skip_ws (toks l) ->
     ok l' -> (size l' <= size l)%nat -> Q None l') ->
  wp (reserved_word fuel words) l Q.
Proof.
  intros Hf Hl Hw H1 H2. unfold reserved_word. apply wp_bind. apply wp_peek_reserved_word; auto.
  intros l' Hl' Hs Hfree _. destruct words as [|w0 ws]; [congruence|].
  destruct (Hfree ltac:(discriminate)) as [Hfr Heq].
  destruct (rw_found (w0 :: ws) (map fst (toks l'))) as [w|] eqn:E.
  - destruct (rw_found_in _ _ _ E) as [Hin Hne]. apply wp_bind, wp_next, wp_ret.
    eapply H1; eauto; [apply inv_tl; auto|].
    rewrite size_tl. assert (size l' <> 0)%nat; [|lia].
    unfold size. destruct (toks l'); simpl in *; congruence.
  - apply wp_ret. eapply H2; eauto.
Qed.

Lemma cmd_at_found words w c l ts : ok l -> Direct am \/ ws_free (toks l) -> rw_found words (map fst ts) = Some w -> ts = skip_ws (toks l) ->
  w = c \/ c = WHILE /\ w = UNTIL -> cmd_at c (l_pos l).
Proof.
  intros Hl Hd Hf -> Hw. split; [apply inv_pos; exact Hl|].
  destruct l as [[|[t p] r] e]; [discriminate Hf|]. exists t. unfold l_pos. cbn [toks] in *.
  split; [apply (inv_tok _ am (mkL ((t, p) :: r) e)); [exact Hl|now left]|].
  assert (Hs : (Direct am /\ blank_start t) \/ skip_ws ((t, p) :: r) = (t, p) :: r).
  { destruct Hd as [Hd|Hd]; [|right; exact Hd].
    destruct t; auto; left; (split; [exact Hd|]); [now left|right; eauto]. }
  destruct Hs as [Hs|Hs]; [now left|]. rewrite Hs in Hf. right.
  assert (Hk : spells w t).
  { cbn [map fst] in Hf. unfold rw_found in Hf. destruct t; try discriminate Hf.
    all: assert (Hx : find (fun w => str_eqb w s) words = Some w)
      by (destruct (map fst r) as [|d ?]; [exact Hf|destruct (is_word_delimiter d); [exact Hf|discriminate]]);
      apply find_some in Hx as [_ Hx]; destruct (str_eqb_spec w s) as [->|]; [unfold spells; auto|discriminate]. }
  destruct Hw as [->|[-> ->]]; auto.
Qed.

Lemma wp_peek_reserved_token tokens l (Q : option token -> located -> Prop) :
  (size l < fuel)%nat -> ok l -> existsb is_whitespace_tok tokens = false ->
  (forall l', ok l' -> (size l' <= size l)%nat ->
     (tokens <> [] -> ws_free (toks l')) ->
     Q (match tokens with [] => None | _ => rt_found tokens (map fst (toks l')) end) l') ->
  wp (peek_reserved_token fuel tokens) l Q.
Proof.
  intros Hf Hl Hw HQ b Hb. destruct l as [ts e]. rewrite lrun_peek_reserved_token by auto.
  split; auto. pose proof (skip_ws_length ts) as L. destruct (skip_ws_suffix ts) as [pre E].
  destruct tokens as [|t0 tokens].
  - replace (rt_found [] (map fst (skip_ws ts))) with (@None token)
      by (destruct (map fst (skip_ws ts)); reflexivity).
    apply HQ; auto. congruence.
  - apply (HQ (mkL (skip_ws ts) e)); auto.
    + apply (inv_suffix _ am pre). now rewrite <- E.
    + intros _. apply skip_ws_free.
Qed.

Lemma wp_reserved_token_res tokens l (Q : token + perr (b_err B) -> located -> Prop) :
  (size l < fuel)%nat -> ok l -> existsb is_whitespace_tok tokens = false -> tokens <> [] ->
  (forall t l', In t tokens -> ok l' -> (size l' < size l)%nat -> Q (inl t) l') ->
  (forall e l', ok l' -> (size l' <= size l)%nat -> err_ok l' e -> Q (inr e) l') ->
  wp (reserved_token_res fuel tokens) l Q.
Proof.
  intros Hf Hl Hw Hne H1 H2. unfold reserved_token_res. apply wp_bind.
  apply wp_peek_reserved_token; auto. intros l' Hl' Hs _. destruct tokens as [|t0 ts0]; [congruence|].
  destruct (rt_found (t0 :: ts0) (map fst (toks l'))) as [t|] eqn:E.
  - destruct (rt_found_in _ _ _ E) as [Hin [r Hr]].
    apply wp_bind, wp_next. destruct l' as [[|[t1 p1] ts] e]; [discriminate|].
    simpl in Hr. injection Hr as -> _. cbn. apply wp_ret. apply H1; [exact Hin|eapply inv_cons; eauto|].
    unfold size in *. simpl in *. lia.
  - apply wp_bind, wp_peek. apply wp_bind.
    assert (K : forall l2, ok l2 -> (size l2 <= size l)%nat ->
      wp (e <- make_unexpected_err;; ret (inr e)) l2 Q).
    { intros l2 Hl2 Hs2. apply wp_bind. apply wp_make_unexpected; auto. intros e l3 Hl3 Hs3 He.
      apply wp_ret. apply H2; auto. lia. }
    destruct (existsb (fun t => otoken_eqb (Some t) (l_hd l')) (t0 :: ts0)).
    + apply wp_bind, wp_next, wp_ret. apply K; [apply inv_tl; auto|]. rewrite size_tl. lia.
    + apply wp_ret. apply K; auto.
Qed.

Lemma wp_reserved_token tokens l (Q : token -> located -> Prop) :
  (size l < fuel)%nat -> ok l -> existsb is_whitespace_tok tokens = false -> tokens <> [] ->
  (forall t l', In t tokens -> ok l' -> (size l' < size l)%nat -> Q t l') ->
  wp (reserved_token fuel tokens) l Q.
Proof.
  intros Hf Hl Hw Hne H1. unfold reserved_token. apply wp_bind. apply wp_reserved_token_res; auto.
  - intros t l' H2 H3 H4. apply wp_ret. auto.
  - intros e l' H2 H3 H4. apply wp_throw. auto.
Qed.

(** Balanced collections. *)
Lemma wp_collect_balanced d l (Q : list token -> located -> Prop) :
  (size l < fuel)%nat -> ok l ->
  match d with Some (X, p) => closer X /\ TokAt am (opener_of X) p | None => True end ->
  (forall ts l', ok l' -> (length ts + size l' <= size l)%nat ->
     (d = None -> toks l <> [] -> (size l' < size l)%nat) -> Q ts l') ->
  wp (collect_balanced fuel d) l Q.
Proof.
  intros Hf Hl Hd HQ b Hb.
  destruct (@collect_balanced_total (bst B) (b_err B) fuel d l b Hf) as
    [(ts & l' & E & H1 & H2 & H3 & H4)|(t & p & l' & E & H0 & He & Ho & H1)].
  - destruct d as [[X p]|]; tauto.
  - rewrite E. split; auto. apply HQ; auto. eapply inv_suffix_ex; eauto.
  - rewrite E. split; auto. right. cbn. split; [|split; [exact Ho|intros _]].
    2: { destruct l' as [ts' e']. cbn in H0. subst ts'. apply eof_nil. destruct l as [ts0 e0]. cbn in *. subst. apply (inv_suffix _ am ts0). now rewrite app_nil_r. }
    destruct H1 as [(X & -> & ->)|H1].
    + apply Hd.
    + eapply inv_tok; eauto.
Qed.

Definition tail_of (l l' : located) : Prop := end_pos l' = end_pos l /\ exists pre, toks l = pre ++ toks l'.
Lemma tail_refl l : tail_of l l.
Proof. split; [reflexivity|now exists []]. Qed.
Lemma tail_trans a b c : tail_of a b -> tail_of b c -> tail_of a c.
Proof.
  intros [E1 [x X]] [E2 [y Y]]. split; [congruence|]. exists (x ++ y). now rewrite X, Y, app_assoc.
Qed.
Lemma tail_tl l : tail_of l (l_tl l).
Proof. destruct l as [[|x ts] e]; [apply tail_refl|]. split; [reflexivity|now exists [x]]. Qed.
Lemma inv_tail l l' : ok l -> tail_of l l' -> ok l'.
Proof. intros H [E P]. eapply inv_suffix_ex; eauto. Qed.

(** The same when there are here-documents. *)
Lemma wp_collect_balanced_hd d l (Q : list token -> located -> Prop) :
  (size l < fuel)%nat -> HD am -> match d with Some (X, p) => closer X | None => True end ->
  (forall ts l', tail_of l l' -> (length ts + size l' <= size l)%nat ->
     (d = None -> map fst (toks l) = ts ++ map fst (toks l') /\ (toks l <> [] -> (size l' < size l)%nat)) -> Q ts l') ->
  wp (collect_balanced fuel d) l Q.
Proof.
  intros Hf Hh Hd HQ b Hb.
  destruct (@collect_balanced_total (bst B) (b_err B) fuel d l b Hf Hd) as
    [(ts & l' & E & H1 & H2 & H3 & H4)|(t & p & l' & E & _)].
  - rewrite E. split; auto. apply HQ; auto; [split; auto|]. intros ->. split; [|auto].
    destruct (@collect_piece_total (bst B) (b_err B) fuel l b ts l' b Hf E) as [pre [-> ->]]. now rewrite map_app.
  - rewrite E. split; auto.
Qed.
Lemma wp_unexpected_hd {A} l (Q : A -> located -> Prop) : HD am -> wp unexpected l Q.
Proof. intros H b Hb. destruct l as [ts e]. rewrite lrun_unexpected. destruct ts as [|[t p] r]; cbn; auto. Qed.

Lemma wp_create_token_iter p l (Q : new_iter -> located -> Prop) :
  (S (size l) < fuel)%nat -> ok (mkL ((TBacktick, p) :: toks l) (end_pos l)) ->
  (forall i l', ok l' -> (forall l, Eof am l) -> ok (l_make i) -> (size l' < size l)%nat -> (size (l_make i) < size l)%nat ->
     Q i l') ->
  wp (create_token_iter fuel p) l Q.
Proof.
  intros Hf Hl0 HQ b Hb. pose proof (tok_cons _ _ _ _ Hl0) as Hp. pose proof (inv_cons _ _ _ _ Hl0) as Hl.
  destruct (@create_token_iter_total (bst B) (b_err B) fuel p l b Hf) as
    [(i & body & q & rest & E & E1 & E2 & E3 & E4 & E5)|(t & q & l' & E & H0 & He & Ho & H1)].
  - rewrite E. split; auto. destruct l as [ts e]. cbn [toks end_pos] in *. subst ts.
    apply HQ.
    + apply (inv_suffix _ am (body ++ [(TBacktick, q)])). rewrite <- app_assoc. exact Hl.
    + eapply eof_tick; exact Hl0.
    + eapply inv_tick; eauto.
    + unfold size. simpl. rewrite app_length. simpl. lia.
    + unfold size at 1. pose proof (f_equal (@length token) E3) as L.
      rewrite map_length in L. rewrite L. pose proof (unescape_length (map fst body)) as L2.
      rewrite map_length in L2. unfold size. simpl. rewrite app_length. simpl. lia.
  - rewrite E. split; auto. right. cbn. split; [|split; [exact Ho|intros _]].
    2: { destruct l' as [ts' e']. cbn in H0. subst ts'. apply eof_nil. destruct l as [ts0 e0]. cbn in *. subst. apply (inv_suffix _ am ts0). now rewrite app_nil_r. }
    destruct H1 as [[= -> ->]|H1]; auto. eapply inv_tok; [exact Hl|exact H1].
Qed.

Lemma wp_collect_bbr p l (Q : list token -> located -> Prop) :
  (S (size l) < fuel)%nat -> HD am ->
  (forall ts l', (size l' <= size l)%nat -> Q ts l') ->
  wp (collect_bbr fuel p) l Q.
Proof.
  intros Hf Hhd HQ b Hb.
  destruct (@collect_bbr_total (bst B) (b_err B) fuel p l b Hf) as
    [(ts & l' & E & E1)|(t & q & l' & E)]; rewrite E; split; auto.
Qed.

End Fuel.
End Wp.
