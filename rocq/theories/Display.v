(** * Error messages (C44) *)
From Coq Require Import String.
From Verif Require Import Base Token Lexer Pos Ast Builder Prog Iter Located IterProofs LexSpec LexTheorems RunLemmas
  ParserBase BaseRun Balanced BalancedSpec BalancedProofs BalancedTotal Wp Arith Word WpWord Redirect Command
  Entry EntryWp Total Api DefaultBuilder ArithSpec ArithLiterals Seams Quotes.

(** ** Model *)
(** [Display for usize] (core library): the decimal digits. *)
Definition display_nat (n : nat) : str := show_N (N.of_nat n).
(** token.rs 179-183: [Display for Token]. *)
Definition display_token (t : token) : str := as_str t.
(** parse.rs 186-190: [Display for SourcePos]. *)
Definition display_pos (p : spos) : str := display_nat (line p) ++ s_of ":" ++ display_nat (col p).
(** parse.rs 142-178: [Display for ParseError<T>]; [display_custom] is [Display for T]. *)
Definition display_error {E} (display_custom : E -> str) (e : perr E) : str :=
  match e with
  | BadFd a b => s_of "file descriptor found between lines " ++ display_pos a ++ s_of " - " ++ display_pos b ++
                 s_of " cannot possibly be a valid"
  | BadIdent id p => s_of "not a valid identifier " ++ display_pos p ++ s_of ": " ++ id
  | BadSubst t p => s_of "bad substitution " ++ display_pos p ++ s_of ": invalid token: " ++ display_token t
  | Unmatched t p => s_of "unmatched `" ++ display_token t ++ s_of "` starting on line " ++ display_pos p
  | IncompleteCmd c p kw q => s_of "did not find `" ++ kw ++ s_of "` keyword on line " ++ display_pos q ++
                              s_of ", in `" ++ c ++ s_of "` command which starts on line " ++ display_pos p
  | Unexpected TNewline p => s_of "found unexpected token on line " ++ display_pos p ++ s_of ": \n"
  | Unexpected t p => s_of "found unexpected token on line " ++ display_pos p ++ s_of ": " ++ display_token t
  | UnexpectedEOF => s_of "unexpected end of input"
  | Custom e => display_custom e
  end.
(** parse.rs 125-140: [ParseError::cause]: the builder's own error. *)
Definition cause {E} (e : perr E) : option E := match e with Custom e => Some e | _ => None end.

(** ** Specification: what a message tells *)
Definition place (p : spos) : nat * nat := (line p, col p).
Inductive report :=
  | RBadFd (a b : nat * nat)
  | RBadIdent (id : str) (p : nat * nat)
  | RBadSubst (t : str) (p : nat * nat)
  | RUnmatched (t : str) (p : nat * nat)
  | RIncomplete (cmd : str) (p : nat * nat) (kw : str) (q : nat * nat)
  | RUnexpected (t : str) (p : nat * nat)
  | REOF.
Definition report_of {E} (e : perr E) : option report :=
  match e with
  | BadFd a b => Some (RBadFd (place a) (place b))
  | BadIdent id p => Some (RBadIdent id (place p))
  | BadSubst t p => Some (RBadSubst (as_str t) (place p))
  | Unmatched t p => Some (RUnmatched (as_str t) (place p))
  | IncompleteCmd c p k q => Some (RIncomplete c (place p) k (place q))
  | Unexpected t p => Some (RUnexpected (as_str t) (place p))
  | UnexpectedEOF => Some REOF
  | Custom _ => None
  end.
(** Errors as the parser makes them from the lexer's tokens: no token reads [\n], and the commands and
    keywords it names hold no backquote. *)
Definition usual {E} (e : perr E) : Prop :=
  match e with
  | Unexpected t _ => as_str t <> s_of "\n"
  | IncompleteCmd c _ k _ => ~ In 96%N c /\ ~ In 96%N k
  | _ => True
  end.

(** ** Reading a message back *)
Lemma span_unique (P : char -> Prop) : forall a1 a2 b1 b2, Forall P a1 -> Forall P a2 ->
  (forall c r, b1 = c :: r -> ~ P c) -> (forall c r, b2 = c :: r -> ~ P c) -> a1 ++ b1 = a2 ++ b2 -> a1 = a2 /\ b1 = b2.
Proof.
  induction a1 as [|c a1 IH]; intros [|d a2] b1 b2 H1 H2 N1 N2 E; cbn [app] in E.
  - auto.
  - inversion H2; subst. exfalso. eapply N1; eauto.
  - inversion H1; subst. exfalso. eapply N2; eauto.
  - injection E as <- E. inversion H1; inversion H2; subst. destruct (IH a2 b1 b2) as [-> ->]; auto.
Qed.
Definition digit (c : char) : Prop := (48 <= c <= 57)%N.
Lemma display_nat_digits n : Forall digit (display_nat n).
Proof. unfold display_nat. rewrite show_N_dec. apply dec_digits. Qed.
Lemma display_nat_inj m n : display_nat m = display_nat n -> m = n.
Proof.
  unfold display_nat. rewrite !show_N_dec. intros E. pose proof (dec_value (N.of_nat m)) as V. rewrite E in V.
  pose proof (numeral_unique 10 _ _ _ ltac:(lia) V (dec_value (N.of_nat n))). lia.
Qed.
Ltac not_digit := let D1 := fresh in let D2 := fresh in intros [D1 D2]; vm_compute in D1, D2; first [now apply D1 | now apply D2].
Definition no_digit (r : str) : Prop := forall c r', r = c :: r' -> ~ digit c.
Lemma no_digit_cons c r : ~ digit c -> no_digit (c :: r).
Proof. now intros H ? ? [= <- _]. Qed.
Lemma pos_unique p1 p2 r1 r2 : no_digit r1 -> no_digit r2 -> display_pos p1 ++ r1 = display_pos p2 ++ r2 ->
  place p1 = place p2 /\ r1 = r2.
Proof.
  intros N1 N2 E. unfold display_pos in E. rewrite <- !app_assoc in E.
  assert (K : forall r, no_digit (s_of ":" ++ r)) by (intros r; apply no_digit_cons; not_digit).
  apply (span_unique digit) in E; [|apply display_nat_digits|apply display_nat_digits|apply K|apply K].
  destruct E as [E1 E]. apply app_inv_head in E.
  apply (span_unique digit) in E; [|apply display_nat_digits|apply display_nat_digits|exact N1|exact N2].
  destruct E as [E2 E]. apply display_nat_inj in E1. apply display_nat_inj in E2. unfold place. now rewrite E1, E2.
Qed.
Lemma pos_chars p : Forall (fun c => digit c \/ c = 58%N) (display_pos p).
Proof.
  unfold display_pos. apply Forall_app. split; [|apply Forall_app; split].
  - eapply Forall_impl; [|apply display_nat_digits]. auto.
  - constructor; [now right|constructor].
  - eapply Forall_impl; [|apply display_nat_digits]. auto.
Qed.
(** A position at the end of a message, after a character that is neither a digit nor a colon. *)
Lemma last_pos_unique a1 a2 c p1 p2 : ~ (digit c \/ c = 58%N) ->
  (a1 ++ [c]) ++ display_pos p1 = (a2 ++ [c]) ++ display_pos p2 -> a1 = a2 /\ place p1 = place p2.
Proof.
  intros Hc E. apply (f_equal (@rev _)) in E. rewrite !rev_app_distr in E. cbn [rev app] in E.
  apply (span_unique (fun c => digit c \/ c = 58%N)) in E.
  - destruct E as [E1 E2]. injection E2 as E2. split.
    + rewrite <- (rev_involutive a1), E2. apply rev_involutive.
    + apply (f_equal (@rev _)) in E1. rewrite !rev_involutive in E1.
      apply (pos_unique p1 p2 [] []); [easy|easy|now rewrite !app_nil_r].
  - apply Forall_rev, pos_chars.
  - apply Forall_rev, pos_chars.
  - now intros ? ? [= <- _].
  - now intros ? ? [= <- _].
Qed.

Definition unexpected_text (t : token) : str := match t with TNewline => s_of "\n" | _ => as_str t end.
Lemma display_unexpected {E} (dc : E -> str) t p : display_error dc (Unexpected t p) =
  s_of "found unexpected token on line " ++ display_pos p ++ s_of ": " ++ unexpected_text t.
Proof. destruct t; reflexivity. Qed.
Lemma unexpected_text_other t : t <> TNewline -> unexpected_text t = as_str t.
Proof. intros H. destruct t; try reflexivity. congruence. Qed.
Lemma unexpected_text_inj t1 t2 : as_str t1 <> s_of "\n" -> as_str t2 <> s_of "\n" ->
  unexpected_text t1 = unexpected_text t2 -> as_str t1 = as_str t2.
Proof.
  intros H1 H2 E. destruct (token_eqb_spec t1 TNewline) as [->|N1]; destruct (token_eqb_spec t2 TNewline) as [->|N2].
  - reflexivity.
  - rewrite (unexpected_text_other t2 N2) in E. exfalso. apply H2. symmetry. exact E.
  - rewrite (unexpected_text_other t1 N1) in E. exfalso. apply H1. exact E.
  - rewrite (unexpected_text_other t1 N1), (unexpected_text_other t2 N2) in E. exact E.
Qed.

Ltac nodig := apply no_digit_cons; not_digit.
Definition first3 (m : str) := firstn 3 m.
(** The message of an error of the parser itself tells its kind, the lines and columns, and the text of
    the token, identifier, command and keyword it names: two errors with the same message differ at most
    in the byte offsets and in how the token was classified. *)
Theorem message_identifies {E} (dc : E -> str) (e1 e2 : perr E) : cause e1 = None -> cause e2 = None -> usual e1 -> usual e2 ->
  display_error dc e1 = display_error dc e2 -> report_of e1 = report_of e2.
Proof.
  intros C1 C2 U1 U2 H.
  destruct e1 as [a b|id p|t p|t p|c p k q|t p| |e]; destruct e2 as [a' b'|id' p'|t' p'|t' p'|c' p' k' q'|t' p'| |e']; try discriminate;
    rewrite ?display_unexpected in H; try (exfalso; apply (f_equal first3) in H; lazy in H; discriminate); cbn [display_error report_of] in *.
  - apply app_inv_head in H. apply pos_unique in H; [|nodig|nodig]. destruct H as [-> H]. apply app_inv_head in H.
    apply pos_unique in H; [|nodig|nodig]. now destruct H as [-> _].
  - apply app_inv_head in H. apply pos_unique in H; [|nodig|nodig]. destruct H as [-> H]. apply app_inv_head in H. now rewrite H.
  - apply app_inv_head in H. apply pos_unique in H; [|nodig|nodig]. destruct H as [-> H]. apply app_inv_head in H. unfold display_token in H. now rewrite H.
  - apply app_inv_head in H. unfold display_token in H.
    change (s_of "` starting on line ") with (s_of "` starting on line" ++ [32%N]) in H. rewrite !app_assoc in H.
    apply last_pos_unique in H; [|unfold digit; lia]. destruct H as [H ->]. apply app_inv_tail in H. now rewrite H.
  - apply app_inv_head in H. destruct U1 as [U1c U1k], U2 as [U2c U2k].
    assert (K : forall s, ~ In 96%N s -> Forall (fun c => c <> 96%N) s).
    { intros s Hs. apply Forall_forall. intros x Hx ->. contradiction. }
    apply (span_unique (fun c => c <> 96%N)) in H; [|now apply K|now apply K|now intros ? ? [= <- _]|now intros ? ? [= <- _]].
    destruct H as [-> H]. apply app_inv_head in H. apply pos_unique in H; [|nodig|nodig]. destruct H as [-> H]. apply app_inv_head in H.
    apply (span_unique (fun c => c <> 96%N)) in H; [|now apply K|now apply K|now intros ? ? [= <- _]|now intros ? ? [= <- _]].
    destruct H as [-> H]. apply app_inv_head in H.
    assert (P : place p = place p') by (apply (pos_unique p p' [] []); [easy|easy|now rewrite !app_nil_r]). now rewrite P.
  - apply app_inv_head in H. apply pos_unique in H; [|nodig|nodig]. destruct H as [-> H]. apply app_inv_head in H.
    now rewrite (unexpected_text_inj t t').
  - reflexivity.
Qed.

(** What a message reads like: the positions, as line and column in decimal, in the order in which one reads
    them in the source for a descriptor, and next to the keyword and the command they belong to. *)
Definition place_text (p : nat * nat) (s : str) : Prop :=
  exists a b, s = a ++ s_of ":" ++ b /\ numeral_value 10 a (N.of_nat (fst p)) /\ numeral_value 10 b (N.of_nat (snd p)).
Definition prose (s : str) : Prop := Forall (fun c => ~ digit c) s.
Definition in_backquotes (s : str) : str := [96%N] ++ s ++ [96%N].
Definition told (r : report) (m : str) : Prop :=
  match r with
  | RBadFd a b => exists x s y t z, m = x ++ s ++ y ++ t ++ z /\ place_text a s /\ place_text b t /\ prose x /\ prose y /\ prose z
  | RBadIdent w p | RBadSubst w p => exists x s y, m = x ++ s ++ y ++ w /\ place_text p s /\ prose x /\ prose y
  | RUnexpected w p => exists x s y w', m = x ++ s ++ y ++ w' /\ place_text p s /\ prose x /\ prose y /\
      w' = (if str_eqb w [c_newline] then s_of "\n" else w)
  | RUnmatched w p => exists x y s, m = x ++ in_backquotes w ++ y ++ s /\ place_text p s /\ prose x /\ prose y
  | RIncomplete c p k q => exists x y s z w t, m = x ++ in_backquotes k ++ y ++ s ++ z ++ in_backquotes c ++ w ++ t /\
      place_text q s /\ place_text p t /\ prose x /\ prose y /\ prose z /\ prose w
  | REOF => prose m
  end.
Lemma place_text_display p : place_text (place p) (display_pos p).
Proof.
  exists (display_nat (line p)), (display_nat (col p)). split; [reflexivity|]. unfold display_nat. rewrite !show_N_dec. split; apply dec_value.
Qed.
Lemma prose_check s : forallb (fun c => negb ((48 <=? c) && (c <=? 57))%N) s = true -> prose s.
Proof.
  intros H. apply Forall_forall. rewrite forallb_forall in H. intros c Hc [D1 D2]. specialize (H c Hc).
  apply N.leb_le in D1, D2. now rewrite D1, D2 in H.
Qed.
Theorem message_tells {E} (dc : E -> str) (e : perr E) r : report_of e = Some r ->
  (forall t p, e = Unexpected t p -> as_str t = [c_newline] -> t = TNewline) -> told r (display_error dc e).
Proof.
  intros H HN. destruct e as [a b|id p|t p|t p|c p k q|t p| |x]; cbn [report_of] in H; try discriminate; injection H as <-; cbn [told].
  - do 5 eexists. split; [reflexivity|]. split; [apply place_text_display|]. split; [apply place_text_display|].
    split; [|split]; apply prose_check; reflexivity.
  - do 3 eexists. split; [reflexivity|]. split; [apply place_text_display|]. split; apply prose_check; reflexivity.
  - do 3 eexists. split; [reflexivity|]. split; [apply place_text_display|]. split; apply prose_check; reflexivity.
  - exists (s_of "unmatched "), (s_of " starting on line "), (display_pos p). split; [|split; [apply place_text_display|split; apply prose_check; reflexivity]].
    unfold in_backquotes. rewrite <- !app_assoc. reflexivity.
  - exists (s_of "did not find "), (s_of " keyword on line "), (display_pos q), (s_of ", in "), (s_of " command which starts on line "), (display_pos p).
    split; [unfold in_backquotes; rewrite <- !app_assoc; reflexivity|]. split; [apply place_text_display|]. split; [apply place_text_display|].
    repeat split; apply prose_check; reflexivity.
  - rewrite display_unexpected. exists (s_of "found unexpected token on line "), (display_pos p), (s_of ": "), (unexpected_text t).
    split; [reflexivity|]. split; [apply place_text_display|]. split; [apply prose_check; reflexivity|]. split; [apply prose_check; reflexivity|].
    destruct (str_eqb_spec (as_str t) [c_newline]) as [X|X].
    + now rewrite (HN t p eq_refl X).
    + apply unexpected_text_other. intros ->. now apply X.
  - apply prose_check. reflexivity.
Qed.

(** ** Errors name tokens of the input *)
Section Named.
Variable B : builder.
Variable Ok : token -> Prop.
Hypothesis Ok_curly : Ok TCurlyOpen.
Hypothesis Ok_hd : forall t, Ok t -> ~ heredoc_op t.
Definition am_named : ambient B.
Proof.
  refine (mkAmbient B (fun l => forall t, In t (map fst (toks l)) -> Ok t)
    (fun t _ => Ok t) (fun _ => True) (fun _ => True) False True (fun _ => True) True (fun _ => True) (fun _ _ => True) _ _ _ _ _ _ _ _ _ _ _ (builder_ok_any B)).
  - intros pre ts e HI t Ht. apply HI. cbn [toks] in *. rewrite map_app. apply in_or_app. auto.
  - intros l t p HI Ht. apply HI. apply in_map_iff. exists (t, p). auto.
  - auto.
  - intros l t p HI Ht Hh. apply (Ok_hd t); [|exact Hh]. apply HI. apply in_map_iff. exists (t, p). auto.
  - intros [].
  - intros [].
  - auto.
  - auto.
  - intros q0 body q rest e sub HI Hc Hs _ _ t Ht. rewrite Hs in Ht. apply (unescape_incl _ _ _ (le_n _)) in Ht.
    apply HI. cbn [toks map]. right. rewrite map_app. apply in_or_app. auto.
  - auto.
  - auto.
Defined.
Lemma named_run m fuel s b : good s -> (forall t, In t (tokens_left s) -> Ok t) ->
  (List.length (tokens_left s) + 2 < fuel)%nat -> forall e s' b',
  run concrete (call B m fuel) s b = (OErr e, s', b') -> cause e = None -> err_ok am_named (abs s') e.
Proof.
  intros G HI Hf e s' b' E Hc.
  pose proof (entry_wp am_named _ (call B m) (call_entry B m) (fun _ => Ok_curly) I fuel (abs s)) as W.
  assert (Hok : Inv am_named (abs s)) by (cbn; now rewrite tokens_left_abs).
  specialize (W Hok ltac:(rewrite size_left; lia) b I).
  pose proof (run_transfer (call B m fuel) s b G) as T. rewrite E in T. destruct T as [T _].
  unfold lrun in W. rewrite T in W. destruct e; try discriminate; destruct W as [_ [[]|W]]; exact W.
Qed.
End Named.

(** The tokens and words an error names. *)
Definition names {E} (e : perr E) (t : token) : Prop :=
  match e with
  | BadSubst u _ | Unmatched u _ | Unexpected u _ => t = u
  | BadIdent id _ => t = TLiteral id
  | _ => False
  end.
(** On any stream without here-document operators, from any state, an error of any method names a token
    that was still to be read when the method was called (or the [{] that [brace_group] looks for). *)
Theorem error_names_input B m fuel s b : parser_reach B s b -> (forall t, In t (tokens_left s) -> ~ heredoc_op t) ->
  (List.length (tokens_left s) + 2 < fuel)%nat -> forall e s' b' t,
  run concrete (call B m fuel) s b = (OErr e, s', b') -> names e t -> In t (tokens_left s) \/ t = TCurlyOpen.
Proof.
  intros HR Hh Hf e s' b' t E Hn.
  pose proof (named_run B (fun t => In t (tokens_left s) \/ t = TCurlyOpen) (or_intror eq_refl)
    ltac:(intros u [Hu| ->]; [auto|intros [|]; discriminate]) m fuel s b (parser_reach_good _ _ _ HR) (fun t H => or_introl H) Hf e s' b' E) as W.
  destruct e; try contradiction; cbn in Hn; subst t; specialize (W eq_refl); first [exact W|exact (proj1 W)].
Qed.

(** ** Messages are one line *)
Definition one_line (m : str) : Prop := ~ In c_newline m.
Lemma one_line_app a b : one_line a -> one_line b -> one_line (a ++ b).
Proof. unfold one_line. rewrite in_app_iff. tauto. Qed.
Lemma one_line_pos p : one_line (display_pos p).
Proof.
  intros H. pose proof (pos_chars p) as F. rewrite Forall_forall in F. specialize (F _ H). unfold digit, c_newline in F. lia.
Qed.
Lemma count_none (c : char) s : count_char c s = 0%nat -> ~ In c s.
Proof. apply count_char_0. Qed.
Lemma one_line_token t : newline_free_words t -> t <> TNewline -> one_line (as_str t).
Proof.
  intros H N. destruct t; try congruence; try (now apply count_none);
    try match goal with p : positional |- _ => destruct p end;
    (intros Hi; vm_compute in Hi; repeat (destruct Hi as [Hi|Hi]; [discriminate|]); contradiction).
Qed.
(** The tokens of the lexer, and others without newlines in words. *)
Lemma one_line_unexpected t : newline_free_words t -> one_line (unexpected_text t).
Proof.
  intros H. destruct (token_eqb_spec t TNewline) as [->|N]; [|rewrite unexpected_text_other by assumption; now apply one_line_token].
  intros Hi. vm_compute in Hi. repeat (destruct Hi as [Hi|Hi]; [discriminate|]); contradiction.
Qed.

(** C44: the message of an error is a single line if the error is not that of a newline in a
    substitution; for the lexer's tokens (or any without newlines in their words), without
    here-document operators, with any builder, from any state. *)
Theorem message_one_line_partial B (dc : b_err B -> str) m fuel s b : parser_reach B s b ->
  Forall newline_free_words (tokens_left s) -> (forall t, In t (tokens_left s) -> ~ heredoc_op t) ->
  (List.length (tokens_left s) + 2 < fuel)%nat -> forall e s' b',
  run concrete (call B m fuel) s b = (OErr e, s', b') -> cause e = None ->
  one_line (display_error dc e) \/ exists p, e = BadSubst TNewline p.
Proof.
  intros HR HN Hh Hf e s' b' E Hc. rewrite Forall_forall in HN.
  pose proof (fun t => error_names_input B m fuel s b HR Hh Hf e s' b' t E) as Hn.
  assert (HT : forall t, names e t -> newline_free_words t).
  { intros t Ht. destruct (Hn t Ht) as [Hi| ->]; [now apply HN|exact I]. }
  pose proof (named_run B (fun t => ~ heredoc_op t) ltac:(intros [|]; discriminate) (fun t H => H) m fuel s b (parser_reach_good _ _ _ HR) Hh Hf e s' b' E Hc) as W.
  assert (L : forall x, one_line (s_of x) -> one_line (s_of x)) by auto.
  Ltac lit := let Hi := fresh in intros Hi; vm_compute in Hi; repeat (destruct Hi as [Hi|Hi]; [discriminate|]); contradiction.
  destruct e as [a b0|id p|t p|t p|c p k q|t p| |e]; try discriminate.
  - left. cbn [display_error]. repeat match goal with |- one_line (_ ++ _) => apply one_line_app end; try apply one_line_pos; lit.
  - left. cbn [display_error]. repeat match goal with |- one_line (_ ++ _) => apply one_line_app end; try apply one_line_pos; try lit.
    apply count_none. exact (HT _ eq_refl).
  - destruct (token_eqb_spec t TNewline) as [->|N]; [right; eauto|left].
    cbn [display_error]. repeat match goal with |- one_line (_ ++ _) => apply one_line_app end; try apply one_line_pos; try lit. apply one_line_token; [exact (HT _ eq_refl)|exact N].
  - left. cbn in W. destruct W as (_ & W & _).
    cbn [display_error]. repeat match goal with |- one_line (_ ++ _) => apply one_line_app end; try apply one_line_pos; try lit.
    destruct W as [->|[->|[->|[->| ->]]]]; lit.
  - left. cbn in W. destruct W as (_ & _ & W). unfold incomplete_ok in W.
    assert (K : one_line c /\ one_line k).
    { repeat (destruct W as [W|W]; [injection W as <- <-; split; lit|]). contradiction. }
    destruct K as [Kc Kk]. cbn [display_error]. repeat match goal with |- one_line (_ ++ _) => apply one_line_app end; try apply one_line_pos; try assumption; lit.
  - left. rewrite display_unexpected. repeat match goal with |- one_line (_ ++ _) => apply one_line_app end; try apply one_line_pos; try lit. apply one_line_unexpected. exact (HT _ eq_refl).
  - left. lit.
Qed.

(** C44, refuted without the exception: a newline inside [${...}] is printed as it is, and the message
    is two lines. *)
Definition split_src : str := s_of "echo ${x" ++ [c_newline] ++ s_of "}".
Theorem message_one_line_refuted (U : Uni) : exists e s',
  run concrete (call default_builder ACompleteCommand 60) (ti_new (@lex U split_src)) tt = (OErr e, s', tt) /\
  cause e = None /\ ~ one_line (display_error (fun _ => []) e).
Proof.
  eexists _, _. split; [vm_compute; reflexivity|]. split; [reflexivity|]. unfold one_line. vm_compute. tauto.
Qed.

(** ** The theorems apply *)
(** A lexer's token never reads [\n]. *)
Lemma lexable_usual (U : Uni) t : lexable t -> as_str t <> s_of "\n".
Proof.
  intros H E. pose proof (lex_display t H) as L. rewrite E in L. vm_compute in L. destruct U; discriminate.
Qed.
Section Witness.
#[local] Instance some_uni : Uni := fun _ => false.
Definition m_src : str := s_of "if a" ++ [c_newline] ++ s_of "then b & " ++ [c_newline] ++ s_of "  && c; fi".
Example message_example : exists p s',
  run concrete (call default_builder ACompleteCommand 60) (ti_new (lex m_src)) tt = (OErr (Unexpected TAndIf p), s', tt) /\
  display_error (fun _ => []) (@Unexpected default_err TAndIf p) = s_of "found unexpected token on line 3:3: &&".
Proof. eexists _, _. split; vm_compute; reflexivity. Qed.
Example message_example_meets : Forall newline_free_words (tokens_left (ti_new (lex m_src))) /\
  (forall t, In t (tokens_left (ti_new (lex m_src))) -> ~ heredoc_op t) /\ (List.length (tokens_left (ti_new (lex m_src))) + 2 < 60)%nat.
Proof.
  split; [apply lex_newline_free|]. split; [|vm_compute; lia].
  unfold heredoc_op. intros t H. vm_compute in H. repeat (destruct H as [<-|H]; [intros [|]; discriminate|]). contradiction.
Qed.
End Witness.
