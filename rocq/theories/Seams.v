(** * Text that lexes back to the tokens it was made of: putting pieces together

    Also: the decimal numeral of a number. *)
From Coq Require Import String.
From Verif Require Import Base Token Lexer LexSpec LexProofs LexTheorems Relex ArithSpec.
Local Open Scope N_scope.

(** A single blank. *)
Definition sp : token := TWhitespace (s_of " ").

(** The text does not start with a blank. *)
Definition tight (s : str) : Prop :=
  match s with [] => True | c :: _ => is_whitespace c = false \/ c = 10 end.
(** The text starts with a character that no token continues with, blanks excepted. *)
Definition loose (s : str) : Prop :=
  match s with
  | [] => True
  | c :: _ => c = 32 \/ c = 10 \/ c = 40 \/ c = 41 \/ c = 42 \/ c = 43 \/ c = 44 \/ c = 34 \/ c = 39 \/ c = 47
              \/ c = 58 \/ c = 61 \/ c = 63 \/ c = 91 \/ c = 92 \/ c = 93 \/ c = 96 \/ c = 36 \/ c = 123
              \/ c = 125 \/ c = 126 \/ c = 35 \/ c = 37 \/ c = 64 \/ c = 94
  end.
Section Seams.
Context {U : Uni}.
Lemma relexable_sp ts : relexable ts -> tight (text ts) -> relexable (sp :: ts).
Proof.
  intros H Ht. apply rl_cons; auto.
  - split; [discriminate|]. repeat constructor. discriminate.
  - discriminate.
  - unfold apart, sp. destruct (text ts) as [|c s]; [reflexivity|]. destruct Ht as [-> | ->]; reflexivity.
Qed.
Definition no_blank (t : token) : Prop := match t with TWhitespace _ | TBackslash => False | _ => True end.
Lemma relexable_loose t ts : lexable t -> no_blank t -> loose (text ts) -> relexable ts -> relexable (t :: ts).
Proof.
  intros Hl Hb Hs H. apply rl_cons; auto; [destruct t; [..|]; cbn in Hb; try contradiction; discriminate|].
  unfold apart. destruct (text ts) as [|c s]; [reflexivity|]. cbn in Hs.
  repeat (destruct Hs as [-> |Hs]; [destruct t; cbn in Hb; try contradiction; reflexivity|]).
  subst c. destruct t; cbn in Hb; try contradiction; reflexivity.
Qed.
(** Operators that no character can make longer. *)
Definition closed_op (t : token) : bool :=
  match t with
  | TSemi | TAmp | TPipe | TLess | TGreat | TDLess | TDollar | TName _ | TLiteral _ | TWhitespace _ | TBackslash => false
  | _ => true
  end.
Lemma relexable_closed t ts : closed_op t = true -> relexable ts -> relexable (t :: ts).
Proof.
  intros Hc H. apply rl_cons; auto.
  - destruct t; try discriminate; exact I.
  - destruct t; discriminate.
  - unfold apart. destruct (text ts); [reflexivity|]. destruct t; try discriminate; reflexivity.
Qed.
End Seams.

(** The decimal numeral of [n]. *)
Definition digit_char (d : N) : char := 48 + d.
Fixpoint dec_loop (fuel : nat) (n : N) : str :=
  match fuel with
  | O => []
  | S f => if n <? 10 then [digit_char n] else dec_loop f (n / 10) ++ [digit_char (n mod 10)]
  end.
Definition dec (n : N) : str := dec_loop (S (N.to_nat (N.log2 n))) n.

Lemma dec_loop_value f : forall n, n < 2 ^ N.of_nat f -> (0 < f)%nat -> numeral_value 10 (dec_loop f n) n.
Proof.
  induction f as [|f IH]; intros n Hn Hf; [lia|]. cbn [dec_loop].
  assert (D : forall d, d < 10 -> digit_value 10 (digit_char d) d).
  { intros d Hd. split; [exact Hd|]. left. unfold digit_char. lia. }
  destruct (N.ltb_spec n 10) as [Hs|Hs].
  - constructor. now apply D.
  - assert (E : n = n / 10 * 10 + n mod 10) by (pose proof (N.div_mod n 10); lia).
    rewrite E at 3. apply nv_more; [|apply D; apply N.mod_lt; lia].
    destruct f as [|f].
    { cbn in Hn. lia. }
    apply IH; [|lia].
    apply N.div_lt_upper_bound; [lia|].
    rewrite Nat2N.inj_succ, N.pow_succ_r' in Hn. lia.
Qed.
Lemma dec_value n : numeral_value 10 (dec n) n.
Proof.
  apply dec_loop_value; [|lia].
  rewrite Nat2N.inj_succ, N2Nat.id. destruct (N.eq_dec n 0) as [-> |Hn]; [cbn; lia|].
  apply N.log2_spec. lia.
Qed.
Lemma dec_digits n : Forall (fun c => 48 <= c <= 57) (dec n).
Proof.
  unfold dec. generalize (S (N.to_nat (N.log2 n))) as f. intros f. revert n.
  induction f as [|f IH]; intros n; cbn; [constructor|].
  assert (D : forall d, d < 10 -> 48 <= digit_char d <= 57) by (intros d Hd; unfold digit_char; lia).
  destruct (N.ltb_spec n 10); [constructor; [now apply D|constructor]|].
  apply Forall_app. split; [apply IH|]. constructor; [|constructor]. apply D. apply N.mod_lt. lia.
Qed.
(** No superfluous zero in front. *)
Lemma dec_loop_first f n : n < 2 ^ N.of_nat f -> n <> 0 -> exists c s, dec_loop f n = c :: s /\ c <> 48.
Proof.
  revert n. induction f as [|f IH]; intros n Hn H0; [cbn in Hn; lia|]. cbn [dec_loop].
  destruct (N.ltb_spec n 10) as [Hs|Hs].
  - eexists _, _. split; [reflexivity|]. unfold digit_char. lia.
  - destruct (IH (n / 10)) as (c & s & -> & Hc).
    + apply N.div_lt_upper_bound; [lia|]. rewrite Nat2N.inj_succ, N.pow_succ_r' in Hn. lia.
    + intros E. apply N.div_small_iff in E; lia.
    + eexists _, _. split; [reflexivity|exact Hc].
Qed.
Lemma dec_int_literal n : int_literal (dec n) n.
Proof.
  destruct (N.eq_dec n 0) as [-> |Hn].
  - apply (il_oct []). apply nv_one. split; [lia|]. left. cbn. lia.
  - assert (F : n < 2 ^ N.of_nat (S (N.to_nat (N.log2 n)))).
    { rewrite Nat2N.inj_succ, N2Nat.id. apply N.log2_spec. lia. }
    destruct (dec_loop_first _ n F Hn) as (c & s & E & Hc).
    pose proof (dec_value n) as V. unfold dec in *. rewrite E in *. now apply il_dec.
Qed.
Section Lex.
Context {U : Uni}.
Lemma digit_ordinary c : 48 <= c <= 57 -> ordinary c /\ ~ id_start c.
Proof.
  intros H. assert (E : In c [48;49;50;51;52;53;54;55;56;57]) by (cbn; lia).
  repeat (destruct E as [<- |E]; [split; [now apply ordinary_b_spec|intros [_ [Hi|Hi]]; discriminate Hi]|]). contradiction.
Qed.
Lemma dec_lexable n : lexable (TLiteral (dec n)).
Proof.
  pose proof (dec_digits n) as H. pose proof (dec_value n) as V. destruct (dec n) as [|c s].
  - inversion V as [|? ? ? ? ? ? E]. now destruct s.
  - inversion H as [|? ? H1 H2]; subst. destruct (digit_ordinary c H1). split; [assumption|]. split; [assumption|].
    eapply Forall_impl; [|exact H2]. intros a Ha. now apply digit_ordinary.
Qed.
End Lex.
