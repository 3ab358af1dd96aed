(** * Integer literals in arithmetic (C19) *)
From Coq Require Import String ZifyBool.
From Verif Require Import Base Token Pos Lexer LexSpec LexTheorems Relex Seams Ast Builder Prog Iter Located IterProofs ParserBase Balanced
  BalancedSpec Arith Word Redirect Command DefaultBuilder RunLemmas Entry Api Total Runs Raises Pure ArithSpec ArithRuns
  Forms WordRuns CommandRuns FormsRuns FormsTheorems ArithTheorems.

(** The two words [0x] and [0X] without digits, which the parser reads as 0. *)
Definition bare_prefix (s : str) : Prop := s = [48%N; 120%N] \/ s = [48%N; 88%N].

Lemma from_str_inv radix c s z : (radix <= 16)%N -> c <> 43%N -> c <> 45%N ->
  from_str_radix_isize radix (c :: s) = Some z ->
  exists v, numeral_value radix (c :: s) v /\ fits v /\ z = Z.of_N v.
Proof.
  intros Hr H1 H2. unfold from_str_radix_isize, c_plus, c_minus.
  destruct (N.eqb_spec c 43); [congruence|]. destruct (N.eqb_spec c 45); [congruence|].
  destruct (digits_value radix 0 (c :: s)) as [v|] eqn:E; [|discriminate].
  destruct (_ && _)%bool eqn:F; [|discriminate]. intros [= <-].
  exists v. split; [apply digits_value_inv; auto; discriminate|]. split; [|reflexivity].
  unfold fits, isize_min, isize_max in *. lia.
Qed.

(** A literal token counts as a number exactly when it is a numeral of a value that fits. *)
Lemma literal_num_inv s z : Forall (fun c => c <> 43%N /\ c <> 45%N) s ->
  literal_num (Some (TLiteral s)) = Some z ->
  (exists v, int_literal s v /\ fits v /\ z = Z.of_N v) \/ bare_prefix s /\ z = 0%Z.
Proof.
  intros Hs. unfold literal_num.
  change (s_of "0x") with [48%N; 120%N]. change (s_of "0X") with [48%N; 88%N]. change (s_of "0") with [48%N].
  destruct s as [|c s]; [discriminate|]. inversion Hs as [|? ? [Hc1 Hc2] Hs']; subst.
  destruct (starts_with [48%N; 120%N] (c :: s) || starts_with [48%N; 88%N] (c :: s)) eqn:E.
  - destruct s as [|x s]; [cbn [starts_with orb andb] in E; destruct (48 =? c)%N; exfalso; discriminate E|].
    assert (X : c = 48%N /\ (x = 120%N \/ x = 88%N)).
    { cbn [starts_with] in E. lia. }
    destruct X as [-> Hx]. cbn [skipn]. destruct s as [|d s].
    + intros [= <-]. right. split; [|reflexivity]. unfold bare_prefix. destruct Hx as [-> | ->]; auto.
    + inversion Hs' as [|? ? _ Hs2]; subst. inversion Hs2 as [|? ? [Hd1 Hd2] _]; subst.
      intros H. apply from_str_inv in H as (v & H & Hf & ->); [|lia|assumption|assumption].
      left. exists v. split; [|now split]. now apply il_hex.
  - cbn [starts_with]. destruct (N.eqb_spec 48 c) as [<-|Hn]; cbn [andb]; intros H;
      apply from_str_inv in H as (v & H & Hf & ->); try lia; left; exists v; (split; [|now split]).
    + now apply il_oct.
    + apply il_dec; auto.
Qed.
Lemma literal_num_none s : Forall (fun c => c <> 43%N /\ c <> 45%N) s ->
  (forall v, int_literal s v -> ~ fits v) -> ~ bare_prefix s -> literal_num (Some (TLiteral s)) = None.
Proof.
  intros Hs Hv Hb. destruct (literal_num (Some (TLiteral s))) as [z|] eqn:E; [|reflexivity].
  destruct (literal_num_inv s z Hs E) as [(v & H & Hf & _)|[H _]]; [now elim (Hv v H)|contradiction].
Qed.

(** ** Literals that do not denote a number *)
Section Rejected.
Context {BS BE : Type}.
Notation prog := (prog BS BE).
Variable fuel : nat.
Variables (s : str) (rest : list token).
Hypothesis Hlit : literal_num (Some (TLiteral s)) = None.
Definition reported (x : perr BE) : Prop := exists p, x = Unexpected (TLiteral s) p.
Notation fails p := (raises (BS:=BS) (BE:=BE) reported p (TLiteral s :: rest)).
Ltac here := cbn [skipw]; cbv beta match.
Lemma skip_here : skipw (TLiteral s :: rest) = TLiteral s :: rest. Proof. reflexivity. Qed.
Lemma fails_var : fails (arith_var fuel : prog _).
Proof.
  unfold arith_var. raise_step. rewrite skip_here.
  apply raises_eat_maybe_no; [discriminate|]. raise_step. apply raises_unexpected. intros p. now exists p.
Qed.
Variable K : arith_knots BS BE.
Lemma fails_post_incr : fails (arith_post_incr fuel K).
Proof.
  unfold arith_post_incr. raise_step. rewrite skip_here.
  apply raises_eat_maybe_no; [discriminate|]. cbv beta match. apply raises_peek. cbn [hd_error]. rewrite Hlit.
  apply raises_first, fails_var.
Qed.
Lemma fails_unary : fails (arith_unary_misc fuel K).
Proof.
  unfold arith_unary_misc. raise_step. rewrite skip_here. raise_step. apply fails_post_incr.
Qed.
Lemma fails_binop (p : prog arith) op : fails p -> fails (arith_binop fuel p op).
Proof. intros H. apply raises_first, H. Qed.
Lemma fails_ternary : fails (arith_ternary fuel K).
Proof.
  apply raises_first. repeat apply fails_binop. apply raises_first, raises_first.
  repeat apply fails_binop. apply raises_first, fails_unary.
Qed.
Lemma fails_assig : fails (arith_assig fuel K).
Proof.
  unfold arith_assig. raise_step. rewrite skip_here. raise_step.
  destruct fuel as [|n] eqn:Hn; [apply raises_fuel|]. cbn [assig_try look]. rewrite <- Hn. apply fails_ternary.
Qed.
End Rejected.

Section RejectedWord.
Context (B : builder).
Notation prog := (prog (bst B) (b_err B)).
Variable fuel : nat.
Variables (s : str) (rest : list token).
Hypothesis Hlit : literal_num (Some (TLiteral s)) = None.
Lemma fails_arithmetic : raises (reported s) (arithmetic_substitution fuel : prog _) (TLiteral s :: rest).
Proof.
  unfold arithmetic_substitution. destruct fuel as [|n] eqn:Hn; [apply raises_fuel|].
  cbn [arith_knot k_subst]. rewrite <- Hn at 1. unfold arithmetic_substitution_. apply raises_first.
  rewrite Hn. cbn [arith_seq_loop]. rewrite <- Hn. raise_step. rewrite skip_here. apply raises_first, fails_assig, Hlit.
Qed.
Lemma fails_param n : raises (reported s) (k_param (knot B fuel n))
  (TDollar :: TParenOpen :: TParenOpen :: TLiteral s :: rest).
Proof.
  destruct n as [|n]; [apply raises_fuel|]. cbn [knot k_param]. unfold parameter_raw.
  repeat raise_step. unfold parameter_substitution_raw. repeat raise_step.
  unfold paren_substitution. raise_step. change (look arith_try _) with true. cbv match.
  raise_step. raise_step. raise_step. rewrite skip_here. raise_step.
  change (otoken_eqb _ _) with false. cbv match. raise_step. apply raises_first, fails_arithmetic.
Qed.
Lemma fails_word : raises (reported s) (p_word_preserve_trailing_whitespace B fuel)
  (TDollar :: TParenOpen :: TParenOpen :: TLiteral s :: rest).
Proof.
  unfold p_word_preserve_trailing_whitespace, word_preserve_trailing_whitespace, word_raw, word_raw_with_delim. repeat raise_step.
  change (otoken_eqb _ _) with false. cbv match. repeat raise_step. apply raises_first.
  destruct fuel as [|n] eqn:Hn; [apply raises_fuel|]. cbn [word_loop]. rewrite <- Hn. raise_step. cbv beta match.
  cbn [word_class_of]. apply raises_first, fails_param.
Qed.
End RejectedWord.

(** ** C19 *)
Section Source.
Context {U : Uni}.
Definition literal_source (s : str) : str := s_of "$((" ++ s ++ s_of "))".
Lemma ordinary_not_sign c : ordinary c -> c <> 43%N /\ c <> 45%N.
Proof.
  intros (_ & _ & H). split; intros ->; [apply (H TPlus [])|apply (H TDash [])]; solve [reflexivity|cbn; tauto].
Qed.
Lemma literal_source_tokens s : lexable (TLiteral s) ->
  lex (literal_source s) = [TDollar; TParenOpen; TParenOpen; TLiteral s; TParenClose; TParenClose].
Proof.
  intros Hs.
  replace (literal_source s) with (text [TDollar; TParenOpen; TParenOpen; TLiteral s; TParenClose; TParenClose])
    by (unfold literal_source; rewrite !text_cons; reflexivity).
  apply lex_relexable.
  apply relexable_loose; [exact I|exact I|cbn; tauto|]. repeat (apply relexable_closed; [reflexivity|]).
  apply relexable_loose; [exact Hs|exact I|cbn; tauto|].
  repeat (apply relexable_closed; [reflexivity|]). constructor.
Qed.
Lemma literal_no_sign s : lexable (TLiteral s) -> Forall (fun c => c <> 43%N /\ c <> 45%N) s.
Proof.
  destruct s as [|c s]; [intros []|]. intros (H1 & _ & H2).
  constructor; [now apply ordinary_not_sign|]. eapply Forall_impl; [|exact H2]. exact ordinary_not_sign.
Qed.

(** A decimal, octal or hexadecimal numeral of a value below 2^63 is read as that value. *)
Theorem arithmetic_literal s v fuel : lexable (TLiteral s) -> int_literal s v -> fits v ->
  source_word fuel (literal_source s) (TLWord (WSingle (WSimple (WSubst (SArith (Some (ALiteral (Z.of_N v)))))))).
Proof.
  intros Hs Hv Hf. apply (source_word_read fuel _ (KSingle (KSimple (KSubst (KSArith (Some (ALiteral (Z.of_N v)))))))).
  rewrite (literal_source_tokens s Hs).
  eapply (wf_word _ _ _ []); [|discriminate|reflexivity].
  apply (fs_frag _ _ _ _ _ []); [|congruence|apply fs_end; left; exact I].
  apply fr_expansion, ex_dollar. eapply (do_arith _ _ _ [TLiteral s] [TParenClose; TParenClose]); [|reflexivity|reflexivity].
  exists false. do 15 (apply ae_tighter; [lia|]). apply (ae_literal []); [constructor|now apply int_literal_denotes].
Qed.
(** Any other word that is not a name (digits out of range for the radix, a value of 2^63 or more, a
    digit the radix lacks), but for the bare prefixes, is rejected: the parse fails, and the error
    reports that word. *)
Theorem arithmetic_literal_rejected s fuel : lexable (TLiteral s) ->
  (forall v, int_literal s v -> ~ fits v) -> ~ bare_prefix s ->
  (List.length (lex (literal_source s)) + 2 < fuel)%nat ->
  exists p s' b', run concrete (call default_builder AWordPreserve fuel) (ti_new (lex (literal_source s))) tt
    = (OErr (Unexpected (TLiteral s) p), s', b').
Proof.
  intros Hs Hv Hb Hf.
  destruct (raises_concrete default_builder AWordPreserve fuel (ti_new (lex (literal_source s))) tt (reported s)) as (x & s' & b' & E & p & ->).
  - apply pr_new.
  - exact Hf.
  - rewrite literal_source_tokens by exact Hs.
    apply (fails_word default_builder fuel s). apply literal_num_none; [now apply literal_no_sign|exact Hv|exact Hb].
  - now exists p, s', b'.
Qed.
End Source.

(** ** Cases that meet the hypotheses *)
Lemma numeral_unique radix s v w : (radix <= 16)%N -> numeral_value radix s v -> numeral_value radix s w -> v = w.
Proof. intros Hr H1 H2. apply digits_value_numeral in H1, H2; auto. congruence. Qed.
Lemma int_literal_unique s v w : int_literal s v -> int_literal s w -> v = w.
Proof.
  intros H1 H2. destruct H1 as [x r v Hx H|r v H|c r v Hc H]; inversion H2 as [x' r' w' Hx' H'|r' w' H'|c' r' w' Hc' H']; subst.
  - eapply numeral_unique; [|exact H|exact H']; lia.
  - exfalso. apply digits_value_numeral in H'; [|lia]. destruct Hx as [-> | ->]; cbn in H'; discriminate.
  - congruence.
  - exfalso. apply digits_value_numeral in H; [|lia]. destruct Hx' as [-> | ->]; cbn in H; discriminate.
  - eapply numeral_unique; [|exact H|exact H']; lia.
  - congruence.
  - congruence.
  - congruence.
  - eapply numeral_unique; [|exact H|exact H']; lia.
Qed.
Section Witness.
Context {U : Uni}.
(** Every machine integer, written in decimal ... *)
Corollary arithmetic_decimal n fuel : (n < 2 ^ 63)%N ->
  source_word fuel (literal_source (dec n)) (TLWord (WSingle (WSimple (WSubst (SArith (Some (ALiteral (Z.of_N n)))))))).
Proof. intros H. apply arithmetic_literal; [apply dec_lexable|apply dec_int_literal|exact H]. Qed.
(** ... and every larger number. *)
Corollary arithmetic_decimal_rejected n fuel : (2 ^ 63 <= n)%N ->
  (List.length (lex (literal_source (dec n))) + 2 < fuel)%nat ->
  exists p s' b', run concrete (call default_builder AWordPreserve fuel) (ti_new (lex (literal_source (dec n)))) tt
    = (OErr (Unexpected (TLiteral (dec n)) p), s', b').
Proof.
  intros H. apply arithmetic_literal_rejected; [apply dec_lexable| |].
  - intros v Hv Hf. rewrite (int_literal_unique _ _ _ Hv (dec_int_literal n)) in Hf. unfold fits in Hf. lia.
  - pose proof (Seams.dec_digits n) as D. intros [E|E]; rewrite E in D; clear E;
      inversion D as [|? ? _ D2]; inversion D2 as [|? ? D3 _]; lia.
Qed.
Lemma literal_digits c s : (48 <= c <= 57)%N -> Forall (fun c => ordinary_b c = true) s -> lexable (TLiteral (c :: s)).
Proof.
  intros Hc Hs. destruct (digit_ordinary c Hc). split; [assumption|]. split; [assumption|].
  eapply Forall_impl; [|exact Hs]. intros a. apply ordinary_b_spec.
Qed.
Example hex_literal fuel :
  source_word fuel (s_of "$((0x1F))") (TLWord (WSingle (WSimple (WSubst (SArith (Some (ALiteral 31))))))).
Proof.
  apply (arithmetic_literal (s_of "0x1F") 31).
  - apply literal_digits; [cbn; lia|]. repeat constructor.
  - apply il_hex; [now left|]. apply digits_value_inv; [lia|discriminate|reflexivity].
  - reflexivity.
Qed.
Example octal_literal fuel :
  source_word fuel (s_of "$((0755))") (TLWord (WSingle (WSimple (WSubst (SArith (Some (ALiteral 493))))))).
Proof.
  apply (arithmetic_literal (s_of "0755") 493).
  - apply literal_digits; [cbn; lia|]. repeat constructor.
  - apply il_oct. apply digits_value_inv; [lia|discriminate|reflexivity].
  - reflexivity.
Qed.
(** [089]: not octal. *)
Example octal_rejected :
  exists p s' b', run concrete (call default_builder AWordPreserve 20) (ti_new (lex (s_of "$((089))"))) tt
    = (OErr (Unexpected (TLiteral (s_of "089")) p), s', b').
Proof.
  apply (arithmetic_literal_rejected (s_of "089")).
  - apply literal_digits; [cbn; lia|]. repeat constructor.
  - intros v Hv. assert (E : literal_num (Some (TLiteral (s_of "089"))) = None) by reflexivity.
    rewrite (literal_num_spec _ _ Hv) in E. unfold fits. intros Hf. destruct (N.ltb_spec v (2 ^ 63)); [discriminate|lia].
  - intros [E|E]; discriminate.
  - vm_compute. lia.
Qed.
(** The bare prefix is accepted: [$((0x))] is 0. *)
Example bare_prefix_accepted :
  (fst (fst (run concrete (call default_builder AWordPreserve 20) (ti_new (lex (s_of "$((0x))"))) tt))
    = OOk (Some (TLWord (WSingle (WSimple (WSubst (SArith (Some (ALiteral 0))))))))).
Proof. vm_compute. reflexivity. Qed.
End Witness.
