(** * Every written form of an arithmetic expression parses to that expression *)
From Coq Require Import String ZifyBool.
From Verif Require Import Base Token Pos Ast Prog Located ParserBase Arith Runs ArithSpec.

Section ArithRuns.
Context {BS BE : Type}.
Notation prog := (prog BS BE).
Variable fuel : nat.

(** ** Literals *)
Lemma to_digit_spec radix c d : (radix <= 16)%N -> digit_value radix c d -> to_digit radix c = Some d.
Proof.
  intros Hr (Hd & H). unfold to_digit.
  destruct H as [[H ->]|[[H ->]|[H ->]]].
  - replace ((48 <=? c) && (c <=? 57))%N with true by lia.
    replace (c - 48 <? radix)%N with true by lia. reflexivity.
  - replace ((48 <=? c) && (c <=? 57))%N with false by lia.
    replace ((97 <=? c) && (c <=? 122))%N with true by lia.
    replace (c - 87)%N with (c - 97 + 10)%N by lia.
    replace (c - 97 + 10 <? radix)%N with true by lia. reflexivity.
  - replace ((48 <=? c) && (c <=? 57))%N with false by lia.
    replace ((97 <=? c) && (c <=? 122))%N with false by lia.
    replace ((65 <=? c) && (c <=? 90))%N with true by lia.
    replace (c - 55)%N with (c - 65 + 10)%N by lia.
    replace (c - 65 + 10 <? radix)%N with true by lia. reflexivity.
Qed.
Lemma to_digit_inv radix c d : (radix <= 16)%N -> to_digit radix c = Some d -> digit_value radix c d.
Proof.
  intros Hr. unfold to_digit, digit_value.
  destruct ((48 <=? c) && (c <=? 57))%N eqn:E1.
  { destruct (c - 48 <? radix)%N eqn:E; [|discriminate]. intros [= <-]. lia. }
  destruct ((97 <=? c) && (c <=? 122))%N eqn:E2.
  { destruct (c - 87 <? radix)%N eqn:E; [|discriminate]. intros [= <-]. lia. }
  destruct ((65 <=? c) && (c <=? 90))%N eqn:E3; [|discriminate].
  destruct (c - 55 <? radix)%N eqn:E; [|discriminate]. intros [= <-]. lia.
Qed.
Lemma digits_value_snoc radix s : forall acc c,
  digits_value radix acc (s ++ [c]) =
  match digits_value radix acc s with
  | Some v => match to_digit radix c with Some d => Some (v * radix + d)%N | None => None end
  | None => None
  end.
Proof.
  induction s as [|x s IH]; intros acc c; cbn [app digits_value].
  - destruct (to_digit radix c); reflexivity.
  - destruct (to_digit radix x); [apply IH|reflexivity].
Qed.
Lemma digits_value_numeral radix s v : (radix <= 16)%N ->
  numeral_value radix s v -> digits_value radix 0 s = Some v.
Proof.
  intros Hr. induction 1 as [c d H|s c v d Hs IH H].
  - cbn [digits_value]. rewrite (to_digit_spec _ _ _ Hr H). reflexivity.
  - rewrite digits_value_snoc, IH, (to_digit_spec _ _ _ Hr H). reflexivity.
Qed.
Lemma numeral_nonempty radix s v : numeral_value radix s v -> s <> [].
Proof. destruct 1; [discriminate|]. now destruct s. Qed.
Lemma digits_value_inv radix s v : (radix <= 16)%N -> s <> [] ->
  digits_value radix 0 s = Some v -> numeral_value radix s v.
Proof.
  intros Hr. revert v. induction s as [|c s IH] using rev_ind; intros v Hn H; [congruence|].
  rewrite digits_value_snoc in H. destruct s as [|x s].
  - cbn [digits_value app] in *. destruct (to_digit radix c) eqn:E; [|discriminate]. injection H as <-.
    replace (0 * radix + n)%N with n by lia. constructor. now apply to_digit_inv.
  - destruct (digits_value radix 0 (x :: s)) eqn:E1; [|discriminate].
    destruct (to_digit radix c) eqn:E; [|discriminate]. injection H as <-.
    apply nv_more; [apply IH; [discriminate|reflexivity]|now apply to_digit_inv].
Qed.
Lemma digit_not_sign radix c s : digits_value radix 0 (c :: s) <> None -> c <> 43%N /\ c <> 45%N.
Proof. split; intros ->; apply H; cbn; unfold to_digit; cbn; reflexivity. Qed.
Lemma from_str_numeral radix s v : (radix <= 16)%N -> numeral_value radix s v ->
  from_str_radix_isize radix s = if (v <? 2 ^ 63)%N then Some (Z.of_N v) else None.
Proof.
  intros Hr H. pose proof (numeral_nonempty _ _ _ H) as Hn.
  apply digits_value_numeral in H; [|exact Hr]. unfold from_str_radix_isize.
  destruct s as [|c s]; [congruence|].
  destruct (digit_not_sign radix c s ltac:(congruence)) as [H1 H2].
  unfold c_plus, c_minus.
  destruct (N.eqb_spec c 43); [congruence|]. destruct (N.eqb_spec c 45); [congruence|].
  rewrite H. unfold isize_min, isize_max.
  destruct (N.ltb_spec v (2 ^ 63)%N).
  - replace (_ && _)%bool with true by lia. reflexivity.
  - replace (_ && _)%bool with false by lia. reflexivity.
Qed.
Lemma literal_num_spec s v : int_literal s v ->
  literal_num (Some (TLiteral s)) = if (v <? 2 ^ 63)%N then Some (Z.of_N v) else None.
Proof.
  intros [x r u Hx H|r u H|c r u Hc H]; unfold literal_num.
  - pose proof (numeral_nonempty _ _ _ H) as Hn.
    replace (_ || _) with true by (destruct Hx as [-> | ->]; reflexivity).
    cbn [skipn]. destruct r; [congruence|]. now apply from_str_numeral.
  - assert (E : starts_with (s_of "0x") (48%N :: r) || starts_with (s_of "0X") (48%N :: r) = false).
    { pose proof (digits_value_numeral 8 _ _ ltac:(lia) H) as D.
      destruct r as [|x r]; [reflexivity|].
      change (((120 =? x)%N && true) || ((88 =? x)%N && true) = false).
      destruct (N.eqb_spec 120%N x) as [<-|]; [cbn in D; discriminate|].
      destruct (N.eqb_spec 88%N x) as [<-|]; [cbn in D; discriminate|]. reflexivity. }
    rewrite E. cbn [starts_with s_of andb]. apply from_str_numeral; [lia|exact H].
  - assert (E : forall q, starts_with (48%N :: q) (c :: r) = false).
    { intros q. cbn [starts_with]. destruct (N.eqb_spec 48 c); [congruence|reflexivity]. }
    change (s_of "0x") with [48%N; 120%N]. change (s_of "0X") with [48%N; 88%N].
    change (s_of "0") with [48%N]. rewrite !E. cbn [orb]. apply from_str_numeral; [lia|exact H].
Qed.

(** What a literal token denotes, exactly. *)
Lemma from_str_signed radix s z : (radix <= 16)%N ->
  from_str_radix_isize radix s = Some z <-> signed_value radix s z /\ in_range z.
Proof.
  intros Hr. unfold from_str_radix_isize, in_range, isize_min, isize_max, c_plus, c_minus. split.
  - destruct s as [|c s]; [discriminate|].
    assert (D : forall neg ds, ds <> [] ->
      match digits_value radix 0 ds with
      | Some v => let z := if neg : bool then (- Z.of_N v)%Z else Z.of_N v in
                  if ((- 2 ^ 63 <=? z) && (z <=? 2 ^ 63 - 1))%Z then Some z else None
      | None => None
      end = Some z -> (exists v, numeral_value radix ds v /\ z = if neg then (- Z.of_N v)%Z else Z.of_N v) /\ (- 2 ^ 63 <= z < 2 ^ 63)%Z).
    { intros neg ds Hn. destruct (digits_value radix 0 ds) as [v|] eqn:E; [|discriminate]. cbv zeta.
      destruct (_ && _)%bool eqn:F; [|discriminate]. intros [= <-].
      split; [exists v; split; [now apply digits_value_inv|reflexivity]|lia]. }
    destruct (N.eqb_spec c 43) as [->|]; [|destruct (N.eqb_spec c 45) as [->|]].
    + destruct s as [|d s]; [discriminate|]. intros H. apply (D false (d :: s) ltac:(discriminate)) in H as [(v & Hv & ->) Hz]. split; [now constructor|exact Hz].
    + destruct s as [|d s]; [discriminate|]. intros H. apply (D true (d :: s) ltac:(discriminate)) in H as [(v & Hv & ->) Hz]. split; [now constructor|exact Hz].
    + intros H. apply (D false (c :: s) ltac:(discriminate)) in H as [(v & Hv & ->) Hz]. split; [now constructor|exact Hz].
  - intros [H Hz].
    assert (D : forall ds v, numeral_value radix ds v -> ds <> [] /\ digits_value radix 0 ds = Some v).
    { intros ds v Hv. split; [now apply (numeral_nonempty radix ds v)|now apply digits_value_numeral]. }
    inversion H as [ds v Hv|ds v Hv|ds v Hv]; subst; destruct (D _ _ Hv) as [Hn Ed].
    + destruct s as [|c s]; [congruence|]. destruct (digit_not_sign radix c s ltac:(congruence)) as [H1 H2].
      destruct (N.eqb_spec c 43); [congruence|]. destruct (N.eqb_spec c 45); [congruence|].
      rewrite Ed. cbv zeta. replace (_ && _)%bool with true by lia. reflexivity.
    + cbn [N.eqb Pos.eqb]. destruct ds as [|d ds]; [congruence|]. rewrite Ed. cbv zeta. replace (_ && _)%bool with true by lia. reflexivity.
    + cbn [N.eqb Pos.eqb]. destruct ds as [|d ds]; [congruence|]. rewrite Ed. cbv zeta. replace (_ && _)%bool with true by lia. reflexivity.
Qed.
Lemma not_hex_prefix c s : (c <> 48%N \/ forall x r, s = x :: r -> x <> 120%N /\ x <> 88%N) ->
  starts_with (s_of "0x") (c :: s) || starts_with (s_of "0X") (c :: s) = false.
Proof.
  intros H. change (s_of "0x") with [48%N; 120%N]. change (s_of "0X") with [48%N; 88%N]. cbn [starts_with].
  destruct (N.eqb_spec 48 c) as [<-|]; [|reflexivity]. destruct H as [H|H]; [congruence|].
  destruct s as [|x s]; [reflexivity|]. destruct (H x s eq_refl) as [H1 H2]. cbn [starts_with andb].
  destruct (N.eqb_spec 120 x); [congruence|]. destruct (N.eqb_spec 88 x); [congruence|]. reflexivity.
Qed.
Lemma octal_not_hex s v : numeral_value 8 (48%N :: s) v -> forall x r, s = x :: r -> x <> 120%N /\ x <> 88%N.
Proof.
  intros H x r ->. pose proof (digits_value_numeral 8 _ _ ltac:(lia) H) as D.
  split; intros ->; cbn in D; discriminate.
Qed.
Lemma literal_num_denotes s z : literal_num (Some (TLiteral s)) = Some z <-> literal_denotes s z.
Proof.
  unfold literal_num. split.
  - destruct s as [|c s]; [discriminate|].
    destruct (starts_with (s_of "0x") (c :: s) || starts_with (s_of "0X") (c :: s)) eqn:E.
    + assert (X : exists x r, c = 48%N /\ s = x :: r /\ (x = 120%N \/ x = 88%N)).
      { change (s_of "0x") with [48%N; 120%N] in E. change (s_of "0X") with [48%N; 88%N] in E. cbn [starts_with] in E.
        destruct (N.eqb_spec 48 c) as [<-|]; [|discriminate]. destruct s as [|x s]; [discriminate|].
        exists x, s. repeat split. cbn [starts_with andb] in E. lia. }
      destruct X as (x & r & -> & -> & Hx). cbn [skipn]. destruct r as [|d r].
      * intros [= <-]. now constructor.
      * intros H. apply from_str_signed in H as [H Hz]; [|lia]. now apply ld_hex.
    + change (starts_with (s_of "0") (c :: s)) with ((48 =? c)%N && true).
      destruct (N.eqb_spec 48 c) as [<-|Hn]; cbn [andb]; intros H; apply from_str_signed in H as [H Hz]; try lia.
      * now apply ld_oct.
      * apply ld_dec; auto.
  - intros [x Hx|x r u Hx H Hz|r u H Hz|c r u Hc H Hz].
    + destruct Hx as [-> | ->]; reflexivity.
    + replace (_ || _) with true by (destruct Hx as [-> | ->]; reflexivity).
      cbn [skipn]. destruct r; [exfalso; inversion H; subst; now apply numeral_nonempty in H0|]. apply from_str_signed; [lia|auto].
    + assert (Hv : exists v, numeral_value 8 (48%N :: r) v) by (inversion H; subst; eauto). destruct Hv as [v Hv].
      rewrite not_hex_prefix by (right; now apply (octal_not_hex r v)).
      change (starts_with (s_of "0") (48%N :: r)) with true. apply from_str_signed; [lia|auto].
    + rewrite not_hex_prefix by now left.
      change (starts_with (s_of "0") (c :: r)) with ((48 =? c)%N && true).
      destruct (N.eqb_spec 48 c); [congruence|]. apply from_str_signed; [lia|auto].
Qed.
Lemma int_literal_denotes s v : int_literal s v -> fits v -> literal_denotes s (Z.of_N v).
Proof.
  intros H Hf. apply literal_num_denotes. rewrite (literal_num_spec _ _ H). unfold fits in Hf. now replace (v <? 2 ^ 63)%N with true by lia.
Qed.

(** ** First tokens *)
Definition starts15 (t : token) : bool :=
  match t with TLiteral _ | TName _ | TDollar | TParenOpen => true | _ => false end.
Definition starts14 (t : token) : bool :=
  starts15 t || match t with TBang | TTilde | TPlus | TDash => true | _ => false end.
Lemma starts15_14 t : starts15 t = true -> starts14 t = true.
Proof. unfold starts14. now intros ->. Qed.

Lemma aexpr_first k o e ts : aexpr k o e ts ->
  exists w t r, ts = w ++ t :: r /\ blank w /\ starts14 t = true /\ (k = 15%nat -> starts15 t = true).
Proof.
  assert (V : forall v ts, variable v ts -> exists t r, ts = t :: r /\ starts15 t = true).
  { intros v us []; eexists _, _; split; reflexivity. }
  induction 1 as [k o e ts Hk H IH|w s z Hw Hl|w v ts Hw Hv|w v ts w' Hw Hv Hw'|w v ts w' Hw Hv Hw'
    |w o e ts w' Hw He IH Hw'|w w' v ts Hw Hw' Hv|w w' v ts Hw Hw' Hv|w t c o e ts Hw Hu He IH Hd
    |w o e ts Hw He IH|w o e ts Hw He IH
    |o1 e1 ts1 w o2 e2 ts2 H1 IH1 Hw H2 IH2|k op c o1 e1 ts1 w o2 e2 ts2 Ho H1 IH1 Hw H2 IH2 Hd
    |o1 g ts1 w1 o2 b ts2 w2 o3 e ts3 H1 IH1 Hw1 H2 IH2 Hw2 H3 IH3|w v ts1 w' o e ts2 Hw Hv Hw' H IH
    |w v ts1 w' t c o e ts2 Hw Hv Hw' Ho H IH|o e ts o' es tss H IH Hs].
  - destruct IH as (w & t & r & E & Hw & Ht & _). exists w, t, r. repeat split; auto. lia.
  - exists w, (TLiteral s), []. auto.
  - destruct (V _ _ Hv) as (t & r & -> & Ht). exists w, t, r. repeat split; auto. now apply starts15_14.
  - destruct (V _ _ Hv) as (t & r & -> & Ht). exists w, t, (r ++ w' ++ [TPlus; TPlus]).
    repeat split; auto. now apply starts15_14.
  - destruct (V _ _ Hv) as (t & r & -> & Ht). exists w, t, (r ++ w' ++ [TDash; TDash]).
    repeat split; auto. now apply starts15_14.
  - exists w, TParenOpen, (ts ++ w' ++ [TParenClose]). auto.
  - exists w, TPlus, (TPlus :: w' ++ ts). repeat split; auto. discriminate.
  - exists w, TDash, (TDash :: w' ++ ts). repeat split; auto. discriminate.
  - exists w, t, ts. repeat split; auto; [now destruct Hu|discriminate].
  - exists w, TPlus, (TDash :: ts). repeat split; auto. discriminate.
  - exists w, TDash, (TPlus :: ts). repeat split; auto. discriminate.
  - destruct IH1 as (w0 & t & r & -> & Hw0 & Ht & _).
    exists w0, t, (r ++ w ++ TStar :: TStar :: ts2). rewrite <- app_assoc. repeat split; auto. discriminate.
  - destruct IH1 as (w0 & t & r & -> & Hw0 & Ht & _).
    exists w0, t, (r ++ w ++ op ++ ts2). rewrite <- app_assoc. repeat split; auto.
    intros ->. inversion Ho.
  - destruct IH1 as (w0 & t & r & -> & Hw0 & Ht & _).
    eexists w0, t, (r ++ _). rewrite <- app_assoc. repeat split; auto. discriminate.
  - destruct (V _ _ Hv) as (t & r & -> & Ht). eexists w, t, (r ++ _). repeat split; auto. now apply starts15_14.
  - destruct (V _ _ Hv) as (t0 & r & -> & Ht). eexists w, t0, (r ++ _). repeat split; auto. now apply starts15_14.
  - destruct IH as (w0 & t & r & -> & Hw0 & Ht & _). exists w0, t, (r ++ tss).
    rewrite <- app_assoc. repeat split; auto. discriminate.
Qed.
Lemma starts14_solid t : starts14 t = true -> solid t = true.
Proof. destruct t; cbn; congruence. Qed.
(** The head of a written expression: a blank or a starting token. *)
Lemma aexpr_hd k o e ts t : aexpr k o e ts -> hd_error ts = Some t ->
  (exists s, t = TWhitespace s) \/ t = TBackslash \/ starts14 t = true.
Proof.
  intros H E. destruct (aexpr_first _ _ _ _ H) as (w & t' & r & -> & Hw & Ht & _).
  destruct Hw; cbn in E; injection E as <-; eauto.
Qed.
Lemma aexpr_skipw k o e ts rest : aexpr k o e ts ->
  exists t r, skipw (ts ++ rest) = t :: r /\ starts14 t = true /\ (k = 15%nat -> starts15 t = true).
Proof.
  intros H. destruct (aexpr_first _ _ _ _ H) as (w & t & r & -> & Hw & Ht & H15).
  exists t, (r ++ rest). rewrite <- app_assoc, skipw_blank by auto. cbn [app].
  rewrite skipw_solid by now apply starts14_solid. auto.
Qed.

(** ** What may follow an expression *)
Definition cont (t : token) : option nat :=
  match t with
  | TComma => Some 0
  | TQuestion => Some 2
  | TOrIf => Some 3 | TAndIf => Some 4 | TPipe => Some 5 | TCaret => Some 6 | TAmp => Some 7
  | TEquals | TBang => Some 8
  | TLess | TGreat => Some 9
  | TDLess | TDGreat => Some 10
  | TPlus | TDash => Some 11
  | TStar | TSlash | TPercent => Some 12
  | _ => None
  end%nat.
Definition follow (k : nat) (o : bool) (rest : list token) : Prop :=
  match skipw rest with
  | [] => True
  | t :: r =>
      (forall l, cont t = Some l -> (l < k)%nat) /\
      (o = true -> t = TPlus \/ t = TDash -> hd_error r <> Some t) /\
      ((k <= 13)%nat -> t = TStar -> hd_error r <> Some TStar)
  end.
Lemma follow_mono k k' o rest : follow k o rest -> (k <= k')%nat -> follow k' o rest.
Proof.
  unfold follow. destruct (skipw rest) as [|t r]; auto. intros (H1 & H2 & H3) Hk. repeat split; auto.
  - intros l E. specialize (H1 l E). lia.
  - intros Hk'. apply H3. lia.
Qed.

(** ** The look-ahead for assignments *)
Fixpoint dropsp (ts : list token) : list token :=
  match ts with TWhitespace _ :: r => dropsp r | _ => ts end.
Definition assign_op_ahead (ts : list token) : bool :=
  match dropsp ts with
  | (TStar | TSlash | TPercent | TPlus | TDash | TDLess | TDGreat | TAmp | TPipe | TCaret) :: r =>
      otoken_eqb (hd_error r) (Some TEquals)
  | TEquals :: r => negb (otoken_eqb (hd_error r) (Some TEquals))
  | _ => false
  end.
Fixpoint assig_ahead (ts : list token) : bool :=
  match ts with
  | TDollar :: r => assig_ahead r
  | TName _ :: r => assign_op_ahead r
  | _ => false
  end.
Lemma look_assig_op n : forall ts, look (assig_try_op n) ts = None \/
  look (assig_try_op n) ts = Some (assign_op_ahead ts).
Proof.
  induction n as [|n IH]; intros ts; [now left|]. cbn [assig_try_op look].
  destruct ts as [|t ts]; [now right|]. cbn [hd_error tl].
  destruct t; try (now right). exact (IH ts).
Qed.
Lemma look_assig n0 n : forall ts, look (assig_try n0 n) ts = None \/
  look (assig_try n0 n) ts = Some (assig_ahead ts).
Proof.
  induction n as [|n IH]; intros ts; [now left|]. cbn [assig_try look].
  destruct ts as [|t ts]; [now right|]. cbn [hd_error tl].
  destruct t; try (now right); [exact (IH ts)|]. apply look_assig_op.
Qed.
Lemma op_ahead_blank w t r : blank w -> assign_op_ahead (t :: r) = false ->
  assign_op_ahead (w ++ t :: r) = false.
Proof.
  intros Hw H. induction Hw as [|s w Hw IH|w Hw IH]; auto.
Qed.
Lemma op_ahead_follow o rest : follow 2 o rest -> assign_op_ahead rest = false.
Proof.
  intros H. destruct (skipw_decomp rest) as (w & Hw & E). rewrite E. unfold follow in H.
  pose proof (skipw_idem rest) as Hi. destruct (skipw rest) as [|t r].
  - rewrite app_nil_r. clear -Hw. induction Hw; auto.
  - apply op_ahead_blank; auto. destruct H as (H & _ & _).
    destruct t; try reflexivity; try (specialize (H _ eq_refl); lia).
    exfalso. apply (f_equal (@List.length token)) in Hi. cbn [skipw List.length] in Hi.
    destruct (skipw_decomp r) as (w2 & _ & E2). rewrite E2 in Hi at 2. rewrite app_length in Hi. lia.
Qed.

Lemma not_assig k o e ts : aexpr k o e ts -> (2 <= k)%nat -> forall rest,
  assign_op_ahead rest = false -> assig_ahead (skipw (ts ++ rest)) = false.
Proof.
  assert (V : forall w v ts rest, blank w -> variable v ts -> assign_op_ahead rest = false ->
     assig_ahead (skipw ((w ++ ts) ++ rest)) = false).
  { intros w v us rest Hw Hv Hr. rewrite <- app_assoc, skipw_blank by auto. destruct Hv; exact Hr. }
  assert (W : forall w t r rest, blank w -> solid t = true ->
     (match t with TName _ | TDollar => false | _ => true end) = true ->
     assig_ahead (skipw ((w ++ t :: r) ++ rest)) = false).
  { intros w t r rest Hw Hs Ht. rewrite <- app_assoc, skipw_blank by auto. cbn [app].
    rewrite skipw_solid by auto. destruct t; try reflexivity; discriminate. }
  induction 1 as [k o e ts Hk H IH|w s z Hw Hl|w v ts Hw Hv|w v ts w' Hw Hv Hw'|w v ts w' Hw Hv Hw'
    |w o e ts w' Hw He IH Hw'|w w' v ts Hw Hw' Hv|w w' v ts Hw Hw' Hv|w t c o e ts Hw Hu He IH Hd
    |w o e ts Hw He IH|w o e ts Hw He IH
    |o1 e1 ts1 w o2 e2 ts2 H1 IH1 Hw H2 IH2|k op c o1 e1 ts1 w o2 e2 ts2 Ho H1 IH1 Hw H2 IH2 Hd
    |o1 g ts1 w1 o2 b ts2 w2 o3 e ts3 H1 IH1 Hw1 H2 IH2 Hw2 H3 IH3|w v ts1 w' o e ts2 Hw Hv Hw' H IH
    |w v ts1 w' t c o e ts2 Hw Hv Hw' Ho H IH|o e ts o' es tss H IH Hs]; intros Hk2 rest Hr; try lia.
  - apply IH; auto.
  - now apply W.
  - eapply V; eauto.
  - rewrite app_assoc, <- app_assoc. eapply V; eauto. rewrite <- app_assoc.
    apply op_ahead_blank; auto.
  - rewrite app_assoc, <- app_assoc. eapply V; eauto. rewrite <- app_assoc.
    apply op_ahead_blank; auto.
  - now apply W.
  - now apply W.
  - now apply W.
  - destruct Hu; now apply W.
  - now apply W.
  - now apply W.
  - rewrite <- app_assoc. apply IH1; [lia|]. rewrite <- app_assoc. now apply op_ahead_blank.
  - rewrite <- app_assoc. apply IH1; [exact Hk2|]. rewrite <- !app_assoc.
    assert (Hh : hd_error (ts2 ++ rest) <> Some TEquals).
    { pose proof (aexpr_hd _ _ _ _ TEquals H2) as A. 
      destruct ts2 as [|t2 ts2]; [|intros E; destruct (A E) as [[s ?]|[?|?]]; discriminate].
      exfalso. destruct (aexpr_first _ _ _ _ H2) as (w0 & t & r & E & _). destruct w0; discriminate. }
    destruct (otoken_eqb_spec (hd_error (ts2 ++ rest)) (Some TEquals)) as [|Hne]; [contradiction|].
    destruct Ho; apply op_ahead_blank; auto; unfold assign_op_ahead; cbn [dropsp app];
      destruct (otoken_eqb_spec (hd_error (ts2 ++ rest)) (Some TEquals)); congruence.
  - rewrite <- app_assoc. apply IH1; [lia|]. rewrite <- app_assoc. now apply op_ahead_blank.
Qed.

(** ** The parser's levels *)
Notation knots_n n := (@arith_knot BS BE fuel n).
Definition lvl (n k : nat) : prog arith :=
  let K := knots_n n in
  match k with
  | 0 => arithmetic_substitution_ fuel K
  | 1 => arith_assig fuel K
  | 2 => arith_ternary fuel K
  | 3 => arith_logical_or fuel K
  | 4 => arith_logical_and fuel K
  | 5 => arith_bitwise_or fuel K
  | 6 => arith_bitwise_xor fuel K
  | 7 => arith_bitwise_and fuel K
  | 8 => arith_eq fuel K
  | 9 => arith_ineq fuel K
  | 10 => arith_shift fuel K
  | 11 => arith_add fuel K
  | 12 => arith_mult fuel K
  | 13 => arith_pow fuel K
  | 14 => arith_unary_misc fuel K
  | _ => arith_post_incr fuel K
  end%nat.
Definition opt (k : nat) (t : token) : option (arith -> arith -> arith) :=
  match k, t with
  | 3, TOrIf => Some ALogicalOr
  | 4, TAndIf => Some ALogicalAnd
  | 5, TPipe => Some ABitwiseOr
  | 6, TCaret => Some ABitwiseXor
  | 7, TAmp => Some ABitwiseAnd
  | 10, TDLess => Some AShiftLeft
  | 10, TDGreat => Some AShiftRight
  | 11, TPlus => Some AAdd
  | 11, TDash => Some ASub
  | 12, TStar => Some AMult
  | 12, TSlash => Some ADiv
  | 12, TPercent => Some AModulo
  | _, _ => None
  end%nat.
Definition loop (n k m : nat) (e : arith) : prog arith :=
  match k with
  | 8 => arith_eq_loop fuel (knots_n n) m e
  | 9 => arith_ineq_loop fuel (knots_n n) m e
  | 3 => arith_binop_loop fuel (lvl n 4)
          (fun t => match t with TOrIf => Some ALogicalOr | _ => None end) m e
  | 4 => arith_binop_loop fuel (lvl n 5)
          (fun t => match t with TAndIf => Some ALogicalAnd | _ => None end) m e
  | 5 => arith_binop_loop fuel (lvl n 6)
          (fun t => match t with TPipe => Some ABitwiseOr | _ => None end) m e
  | 6 => arith_binop_loop fuel (lvl n 7)
          (fun t => match t with TCaret => Some ABitwiseXor | _ => None end) m e
  | 7 => arith_binop_loop fuel (lvl n 8)
          (fun t => match t with TAmp => Some ABitwiseAnd | _ => None end) m e
  | 10 => arith_binop_loop fuel (lvl n 11)
          (fun t => match t with TDLess => Some AShiftLeft | TDGreat => Some AShiftRight
                               | _ => None end) m e
  | 11 => arith_binop_loop fuel (lvl n 12)
          (fun t => match t with TPlus => Some AAdd | TDash => Some ASub | _ => None end) m e
  | _ => arith_binop_loop fuel (lvl n 13)
          (fun t => match t with TStar => Some AMult | TSlash => Some ADiv
                               | TPercent => Some AModulo | _ => None end) m e
  end%nat.
Ltac levels k Hk :=
  assert (k = 3 \/ k = 4 \/ k = 5 \/ k = 6 \/ k = 7 \/ k = 8 \/ k = 9 \/ k = 10 \/ k = 11 \/ k = 12)%nat
    as Hlev by (clear -Hk; lia); clear Hk;
  destruct Hlev as [->|[->|[->|[->|[->|[->|[->|[->|[->| ->]]]]]]]]].
Lemma lvl_loop n k : (3 <= k <= 12)%nat -> lvl n k = (e <- lvl n (S k) ;; loop n k fuel e).
Proof. intros Hk. levels k Hk; reflexivity. Qed.

Lemma loop_stop n k m e ts : (3 <= k <= 12)%nat -> skipw ts = ts ->
  (forall t, hd_error ts = Some t -> cont t <> Some k) -> runs (loop n k m e) ts e ts.
Proof.
  intros Hk Hs Hc. destruct m as [|m]; [levels k Hk; apply runs_fuel|].
  levels k Hk; cbn [loop arith_binop_loop arith_eq_loop arith_ineq_loop]; rstep; rewrite Hs; rstep;
    (destruct ts as [|t ts]; [apply runs_ret|]); specialize (Hc t eq_refl); cbn [hd_error];
    destruct t; try apply runs_ret; exfalso; now apply Hc.
Qed.
Lemma loop_op n k op c m e x ts2 mid y rest : binop k op c -> 
  hd_error ts2 <> Some TEquals ->
  runs (lvl n (S k)) ts2 x mid ->
  (forall m, runs (loop n k m (c e x)) mid y rest) ->
  runs (loop n k m e) (op ++ ts2) y rest.
Proof.
  intros Ho Hne H1 H2. destruct m as [|m]; [destruct Ho; apply runs_fuel|].
  assert (E : hd_error ts2 <> Some TEquals -> forall C (f : bool -> prog C) c r,
     runs (f false) ts2 c r -> runs (bind (eat_maybe TEquals) f) ts2 c r).
  { intros. now apply runs_eat_maybe_no. }
  specialize (E Hne).
  destruct Ho; cbn [loop arith_binop_loop arith_eq_loop arith_ineq_loop app]; rstep;
    rewrite skipw_solid by reflexivity; rstep; cbn [hd_error]; rstep; try rstep;
    try (apply E); (eapply runs_call; [exact H1|exact (H2 m)]).
Qed.

(** ** Main induction *)
Definition parses (k : nat) (o : bool) (e : arith) (ts : list token) : Prop :=
  forall n rest ts0, skipw ts0 = skipw (ts ++ rest) ->
  (follow k o rest -> exists r', runs (lvl n k) ts0 e r' /\ skipw r' = skipw rest /\
                               ((k <= 13)%nat -> r' = skipw rest)) /\
  ((3 <= k <= 12)%nat -> follow (S k) o rest ->
     forall c r, (forall m, runs (loop n k m e) (skipw rest) c r) -> runs (lvl n k) ts0 c r).

Definition parses_seq (o : bool) (es : list arith) (tss : list token) : Prop :=
  forall n rest, follow 0 o rest ->
  exists ts0, skipw (tss ++ rest) = TComma :: ts0 /\
  forall acc m, runs (arith_seq_loop fuel (knots_n n) m acc) ts0 (acc ++ es) (skipw rest).

Lemma follow_skipw k o rest : follow k o (skipw rest) <-> follow k o rest.
Proof. unfold follow. now rewrite skipw_idem. Qed.

(** From the result of the tighter level. *)
Lemma chain_done k o e ts : (3 <= k <= 12)%nat ->
  (forall n rest ts0, skipw ts0 = skipw (ts ++ rest) -> follow (S k) o rest ->
     forall c r, (forall m, runs (loop n k m e) (skipw rest) c r) -> runs (lvl n k) ts0 c r) ->
  parses k o e ts.
Proof.
  intros Hk H n rest ts0 E. split; [|intros _; now apply H].
  intros Hf. exists (skipw rest). split; [|split; [apply skipw_idem|auto]].
  apply (H n rest ts0 E).
  - eapply follow_mono; [exact Hf|lia].
  - intros m. apply loop_stop; [exact Hk|apply skipw_idem|].
    unfold follow in Hf. intros t Ht Hc. destruct (skipw rest) as [|t' r']; [discriminate|].
    cbn in Ht. injection Ht as ->. destruct Hf as (Hf & _). specialize (Hf _ Hc). lia.
Qed.
Lemma follow_op k op c w ts2 o1 o2 e2 rest : binop k op c -> blank w -> aexpr (S k) o2 e2 ts2 ->
  (o1 = true -> not_doubled op ts2) -> follow (S k) o1 (w ++ op ++ ts2 ++ rest).
Proof.
  intros Ho Hw H2 Hd. unfold follow. rewrite skipw_blank by auto.
  assert (Hh : forall t, hd_error (ts2 ++ rest) = Some t -> hd_error ts2 = Some t).
  { destruct ts2; auto. exfalso.
    destruct (aexpr_first _ _ _ _ H2) as (w0 & t & r & E & _). destruct w0; discriminate. }
  destruct Ho; cbn [app]; rewrite skipw_solid by reflexivity.
  all: split; [cbn; intros l [= <-]; lia|]; split; [|intros _ Es; try discriminate].
  all: try (intros _ [Es|Es]; discriminate).
  - intros H1 _ Hx. apply Hh in Hx. exact (Hd H1 TPlus eq_refl (or_introl eq_refl) Hx).
  - intros H1 _ Hx. apply Hh in Hx. exact (Hd H1 TDash eq_refl (or_intror eq_refl) Hx).
  - intros Hx. apply Hh in Hx. destruct (aexpr_hd _ _ _ _ _ H2 Hx) as [[s ?]|[?|?]]; discriminate.
Qed.
Lemma follow_solid k o w t r : blank w -> solid t = true -> (forall l, cont t = Some l -> (l < k)%nat) ->
  (match t with TPlus | TDash | TStar => false | _ => true end = true) ->
  follow k o (w ++ t :: r).
Proof.
  intros Hw Hs Hc Ht. unfold follow. rewrite skipw_blank, skipw_solid by auto. split; [exact Hc|].
  split; [intros _ [H|H]; subst; discriminate|intros; subst; discriminate].
Qed.

Lemma lvl_skip_unary n ts0 ts : skipw ts0 = ts -> forall e r,
  runs (p <- peek ;;
        match p with
        | Some TBang => next ;; e <- k_unary (knots_n n) ;; ret (ALogicalNot e)
        | Some TTilde => next ;; e <- k_unary (knots_n n) ;; ret (ABitwiseNot e)
        | Some TPlus =>
            next ;;
            q <- peek ;;
            match q with
            | Some TDash => next ;; e <- k_unary (knots_n n) ;; ret (AUnaryPlus (AUnaryMinus e))
            | Some TPlus => next ;; v <- arith_var fuel ;; ret (APreIncr v)
            | _ => e <- k_unary (knots_n n) ;; ret (AUnaryPlus e)
            end
        | Some TDash =>
            next ;;
            q <- peek ;;
            match q with
            | Some TPlus => next ;; e <- k_unary (knots_n n) ;; ret (AUnaryMinus (AUnaryPlus e))
            | Some TDash => next ;; v <- arith_var fuel ;; ret (APreDecr v)
            | _ => e <- k_unary (knots_n n) ;; ret (AUnaryMinus e)
            end
        | _ => arith_post_incr fuel (knots_n n)
        end) ts e r -> runs (lvl n 14) ts0 e r.
Proof. intros <- e r H. cbn [lvl]. unfold arith_unary_misc. rstep. exact H. Qed.

Lemma runs_var {C} w v ts (f : str -> prog C) rest c r : blank w -> variable v ts ->
  runs (f v) rest c r -> runs (bind (arith_var fuel) f) (w ++ ts ++ rest) c r.
Proof.
  intros Hw Hv H. unfold arith_var. rstep. rstep. rewrite skipw_blank by auto.
  destruct Hv; cbn [app]; rewrite skipw_solid by reflexivity; rstep.
  - apply runs_eat_maybe_no; [discriminate|]. rstep. rstep. rstep. rstep. rstep. exact H.
  - rstep. rstep. rstep. rstep. rstep. rstep. exact H.
Qed.
Lemma runs_var' {C} ts0 v ts (f : str -> prog C) rest c r : skipw ts0 = skipw (ts ++ rest) ->
  variable v ts ->
  runs (f v) rest c r -> runs (bind (arith_var fuel) f) ts0 c r.
Proof.
  intros E Hv H. unfold arith_var. rstep. rstep. rewrite E.
  destruct Hv; cbn [app]; rewrite skipw_solid by reflexivity; rstep.
  - apply runs_eat_maybe_no; [discriminate|]. rstep. rstep. rstep. rstep. rstep. exact H.
  - rstep. rstep. rstep. rstep. rstep. rstep. exact H.
Qed.

Scheme aexpr_mind := Induction for aexpr Sort Prop
  with aseq_mind := Induction for aseq Sort Prop.

Lemma runs_at15 n ts0 x xs : skipw ts0 = x :: xs -> x <> TParenOpen ->
  forall e r, 
  runs ((t <- peek ;;
    match literal_num t with
    | Some z => next ;; ret (ALiteral z)
    | None =>
        v <- arith_var fuel ;;
        skip_whitespace fuel ;;
        pi <- multipeek post_incr_try ;;
        if pi : bool then
          p <- peek ;;
          match p with
          | Some TPlus => next ;; eat TPlus ;; ret (APostIncr v)
          | Some TDash => next ;; eat TDash ;; ret (APostDecr v)
          | _ => unexpected
          end
        else ret (AVar v)
    end) : prog arith) (x :: xs) e r -> runs (lvl n 15) ts0 e r.
Proof.
  intros E Hx e r H. cbn [lvl]. unfold arith_post_incr. rstep. rewrite E.
  apply runs_eat_maybe_no; [cbn; congruence|]. exact H.
Qed.

Lemma incr_ahead rest k : follow k true rest -> look post_incr_try (skipw rest) = false.
Proof.
  unfold follow. destruct (skipw rest) as [|t r]; [reflexivity|]. intros (_ & H & _).
  destruct t; try reflexivity; cbn; (destruct (otoken_eqb_spec (hd_error r) (Some TPlus)) || idtac);
   (destruct (otoken_eqb_spec (hd_error r) (Some TDash)) || idtac); auto; exfalso; apply H; auto.
Qed.

Lemma parses_up k o e ts : (k < 15)%nat -> aexpr (S k) o e ts -> parses (S k) o e ts -> parses k o e ts.
Proof.
  intros Hk He H.
  assert (k = 0 \/ k = 1 \/ k = 2 \/ 3 <= k <= 12 \/ k = 13 \/ k = 14)%nat
    as [->|[->|[->|[H3|[->| ->]]]]] by lia.
  - (* 0 *)
    intros n rest ts0 E. split; [|intros Hx; exfalso; lia]. intros Hf.
    destruct (aexpr_skipw _ _ _ _ rest He) as (t & u & Et & Ht & _).
    destruct (H n rest (skipw ts0)) as [H1 _]; [now rewrite skipw_idem|].
    destruct (H1 (follow_mono _ _ _ _ Hf (Nat.le_succ_diag_r _))) as (r' & Hr & Er & Er').
    specialize (Er' ltac:(lia)). subst r'.
    exists (skipw rest). split; [|split; [apply skipw_idem|auto]].
    cbn [lvl]. unfold arithmetic_substitution_.
    eapply runs_call with (a := [e]) (mid := skipw rest); [|rstep].
    destruct fuel as [|m] eqn:Ef; [apply runs_fuel|]. rewrite <- Ef at 1. cbn [arith_seq_loop].
    rewrite <- Ef. rstep. eapply runs_call; [exact Hr|].
    apply runs_eat_maybe_no; [|apply runs_ret].
    unfold follow in Hf. destruct (skipw rest) as [|t' r']; [discriminate|]. cbn [hd_error].
    intros [= ->]. destruct Hf as (Hf & _). specialize (Hf _ eq_refl). lia.
  - (* 1 *)
    intros n rest ts0 E. split; [|intros Hx; exfalso; lia]. intros Hf.
    destruct (H n rest (skipw ts0)) as [H1 _]; [now rewrite skipw_idem|].
    destruct (H1 (follow_mono _ _ _ _ Hf (Nat.le_succ_diag_r _))) as (r' & Hr & Er & Er').
    specialize (Er' ltac:(lia)). subst r'.
    exists (skipw rest). split; [|split; [apply skipw_idem|auto]].
    cbn [lvl]. unfold arith_assig. rstep. rstep.
    destruct (look_assig fuel fuel (skipw ts0)) as [El|El]; rewrite El; [apply runs_fuel|].
    rewrite E, (not_assig _ _ _ _ He (le_n 2) rest) by (apply (op_ahead_follow o); eapply follow_mono; eauto).
    rewrite <- E. exact Hr.
  - (* 2 *)
    intros n rest ts0 E. split; [|intros Hx; exfalso; lia]. intros Hf.
    destruct (H n rest ts0 E) as [H1 _].
    destruct (H1 (follow_mono _ _ _ _ Hf (Nat.le_succ_diag_r _))) as (r' & Hr & Er & Er').
    specialize (Er' ltac:(lia)). subst r'.
    exists (skipw rest). split; [|split; [apply skipw_idem|auto]].
    cbn [lvl]. unfold arith_ternary. eapply runs_call; [exact Hr|]. rstep. rewrite skipw_idem.
    apply runs_eat_maybe_no; [|apply runs_ret].
    unfold follow in Hf. destruct (skipw rest) as [|t' r']; [discriminate|]. cbn [hd_error].
    intros [= ->]. destruct Hf as (Hf & _). specialize (Hf _ eq_refl). lia.
  - (* left-associative levels *)
    apply chain_done; [lia|]. intros n rest ts0 E Hf c r Hl.
    destruct (H n rest ts0 E) as [H1 _]. destruct (H1 Hf) as (r' & Hr & _ & Er).
    rewrite (Er ltac:(lia)) in Hr. rewrite lvl_loop by lia. eapply runs_call; [exact Hr|]. apply Hl.
  - (* 13 *)
    intros n rest ts0 E. split; [|intros Hx; exfalso; lia]. intros Hf.
    destruct (H n rest ts0 E) as [H1 _].
    destruct (H1 (follow_mono _ _ _ _ Hf (Nat.le_succ_diag_r _))) as (r' & Hr & Er & _).
    exists (skipw rest). split; [|split; [apply skipw_idem|auto]].
    cbn [lvl]. unfold arith_pow. eapply runs_call; [exact Hr|]. rstep. rewrite Er. rstep.
    assert (El : look double_star_try (skipw rest) = false).
    { unfold follow in Hf. destruct (skipw rest) as [|t r]; [reflexivity|]. destruct Hf as (_ & _ & Hf).
      destruct t; try reflexivity. cbn. specialize (Hf ltac:(lia) eq_refl).
      destruct (otoken_eqb_spec (hd_error r) (Some TStar)); congruence. }
    rewrite El. apply runs_ret.
  - (* 14 *)
    intros n rest ts0 E. split; [|intros Hx; exfalso; lia]. intros Hf.
    destruct (aexpr_skipw _ _ _ _ rest He) as (t & u & Et & _ & Hs). specialize (Hs eq_refl).
    destruct (H n rest (t :: u)) as [H1 _].
    { rewrite Et. apply skipw_solid. now apply starts14_solid, starts15_14. }
    destruct (H1 (follow_mono _ _ _ _ Hf (Nat.le_succ_diag_r _))) as (r' & Hr & Er & _).
    exists r'. split; [|split; [exact Er|lia]].
    eapply lvl_skip_unary; [reflexivity|]. rewrite E, Et. rstep.
    destruct t; try discriminate; exact Hr.
Qed.

(** Level 14 from a run of [k_unary]. *)
Lemma unary_knot n o e ts : parses 14 o e ts -> forall rest ts0, skipw ts0 = skipw (ts ++ rest) ->
  follow 14 o rest -> exists r', runs (k_unary (knots_n n)) ts0 e r' /\ skipw r' = skipw rest.
Proof.
  intros H rest ts0 E Hf. destruct n as [|n]; [exists rest; split; [apply runs_fuel|reflexivity]|].
  destruct (H n rest ts0 E) as [H1 _]. destruct (H1 Hf) as (r' & Hr & Er & _). eauto.
Qed.

Lemma parses_var w v ts : blank w -> variable v ts -> parses 15 true (AVar v) (w ++ ts).
Proof.
  intros Hw Hv n rest ts0 E. split; [|intros Hx; exfalso; lia]. intros Hf.
  exists (skipw rest). split; [|split; [apply skipw_idem|auto]].
  rewrite <- app_assoc, skipw_blank in E by auto.
  assert (Ex : exists x xs, ts ++ rest = x :: xs /\ solid x = true /\ x <> TParenOpen /\ literal_num (Some x) = None).
  { destruct Hv; eexists _, _; (split; [reflexivity|]); repeat split; discriminate. }
  destruct Ex as (x & xs & Ex & Hx & Hp & Hl). rewrite Ex in E. rewrite skipw_solid in E by auto.
  eapply runs_at15; eauto. rstep. rewrite Hl. rewrite <- Ex.
  eapply (runs_var []); [constructor|exact Hv|]. rstep. rstep. rewrite (incr_ahead _ _ Hf). apply runs_ret.
Qed.
Lemma parses_post w v ts w' t c : blank w -> variable v ts -> blank w' ->
  (t = TPlus /\ c = APostIncr v \/ t = TDash /\ c = APostDecr v) ->
  parses 15 false c (w ++ ts ++ w' ++ [t; t]).
Proof.
  intros Hw Hv Hw' Ht n rest ts0 E. split; [|intros Hx; exfalso; lia]. intros Hf.
  exists rest. split; [|split; [reflexivity|intros Hx; exfalso; lia]].
  rewrite <- app_assoc, skipw_blank in E by auto. rewrite <- !app_assoc in E.
  assert (Ex : exists x xs, ts ++ w' ++ [t; t] ++ rest = x :: xs /\ solid x = true /\ x <> TParenOpen /\ literal_num (Some x) = None).
  { destruct Hv; eexists _, _; (split; [reflexivity|]); repeat split; discriminate. }
  destruct Ex as (x & xs & Ex & Hx & Hp & Hl). rewrite Ex in E. rewrite skipw_solid in E by auto.
  eapply runs_at15; eauto. rstep. rewrite Hl. rewrite <- Ex.
  eapply (runs_var []); [constructor|exact Hv|]. rstep. rewrite skipw_blank by auto. rstep.
  destruct Ht as [[-> ->]|[-> ->]]; cbn [app]; rewrite skipw_solid by reflexivity;
    match goal with |- context [look post_incr_try ?l] => change (look post_incr_try l) with true end;
    cbv beta match; rstep; rstep; rstep; apply runs_ret.
Qed.

Theorem aexpr_parses_all :
  (forall k o e ts, aexpr k o e ts -> parses k o e ts).
Proof.
  apply (aexpr_mind (fun k o e ts _ => parses k o e ts) (fun o es tss _ => parses_seq o es tss)).
  - (* tighter *)
    intros k o e ts Hk He H. now apply parses_up.
  - (* literal *)
    intros w s z Hw Hl n rest ts0 E.
    split; [|intros Hx; exfalso; lia]. intros Hfo.
    exists rest. split; [|split; [reflexivity|intros Hx; exfalso; lia]].
    rewrite <- app_assoc, skipw_blank in E by auto. cbn [app] in E. rewrite skipw_solid in E by reflexivity.
    eapply runs_at15; [exact E|discriminate|]. rstep. rewrite (proj2 (literal_num_denotes _ _) Hl). rstep. apply runs_ret.
  - intros w v ts Hw Hv. now apply parses_var.
  - intros w v ts w' Hw Hv Hw'. eapply parses_post; eauto.
  - intros w v ts w' Hw Hv Hw'. eapply parses_post; eauto.
  - (* parentheses *)
    intros w o e ts w' Hw He H Hw'.
    intros n rest ts0 E. split; [|intros Hx; exfalso; lia]. intros Hfo.
    exists rest. split; [|split; [reflexivity|intros Hx; exfalso; lia]].
    rewrite <- app_assoc, skipw_blank in E by auto. cbn [app] in E. rewrite skipw_solid in E by reflexivity.
    cbn [lvl]. unfold arith_post_incr. rstep. rewrite E. rstep.
    destruct n as [|n]; [apply runs_fuelb|].
    destruct (H n (w' ++ TParenClose :: rest) (ts ++ w' ++ TParenClose :: rest) eq_refl) as [H1 _].
    destruct H1 as (r' & Hr & Er & _).
    { apply follow_solid; auto; discriminate. }
    rewrite <- !app_assoc. eapply runs_call; [exact Hr|]. rstep. rewrite Er.
    rewrite skipw_blank, skipw_solid by auto. rstep. apply runs_ret.
  - (* ++v *)
    intros w w' v ts Hw Hw' Hv n rest ts0 E. split; [|intros Hx; exfalso; lia]. intros Hfo.
    exists rest. split; [|split; [reflexivity|intros Hx; exfalso; lia]].
    rewrite <- app_assoc, skipw_blank in E by auto. cbn [app] in E. rewrite skipw_solid in E by reflexivity.
    eapply lvl_skip_unary; [exact E|]. rstep. rstep. rstep. rstep.
    rewrite <- app_assoc. eapply runs_var; eauto. apply runs_ret.
  - (* --v *)
    intros w w' v ts Hw Hw' Hv n rest ts0 E. split; [|intros Hx; exfalso; lia]. intros Hfo.
    exists rest. split; [|split; [reflexivity|intros Hx; exfalso; lia]].
    rewrite <- app_assoc, skipw_blank in E by auto. cbn [app] in E. rewrite skipw_solid in E by reflexivity.
    eapply lvl_skip_unary; [exact E|]. rstep. rstep. rstep. rstep.
    rewrite <- app_assoc. eapply runs_var; eauto. apply runs_ret.
  - (* unary *)
    intros w t c o e ts Hw Hu He H Hd n rest ts0 E. split; [|intros Hx; exfalso; lia]. intros Hfo.
    rewrite <- app_assoc, skipw_blank in E by auto. cbn [app] in E.
    rewrite skipw_solid in E by now destruct Hu.
    assert (Hne : exists x xs, ts = x :: xs).
    { destruct (aexpr_first _ _ _ _ He) as ([|? ?] & t' & r & -> & _); eexists _, _; reflexivity. }
    destruct Hne as (x & xs & ->).
    destruct (unary_knot n o e (x :: xs) H rest ((x :: xs) ++ rest) eq_refl Hfo) as (r' & Hr & Er).
    exists r'. split; [|split; [exact Er|intros Hx; exfalso; lia]].
    eapply lvl_skip_unary; [exact E|]. cbn [app] in Hr.
    destruct Hu; rstep; rstep; try (eapply runs_call; [exact Hr|]; apply runs_ret); rstep; cbn [app hd_error].
    + destruct (Hd (or_introl eq_refl)) as [D1 D2]. cbn [hd_error] in D1, D2.
      destruct x; try (eapply runs_call; [exact Hr|]; apply runs_ret); congruence.
    + destruct (Hd (or_intror eq_refl)) as [D1 D2]. cbn [hd_error] in D1, D2.
      destruct x; try (eapply runs_call; [exact Hr|]; apply runs_ret); congruence.
  - (* +- *)
    intros w o e ts Hw He H n rest ts0 E. split; [|intros Hx; exfalso; lia]. intros Hfo.
    rewrite <- app_assoc, skipw_blank in E by auto. cbn [app] in E. rewrite skipw_solid in E by reflexivity.
    destruct (unary_knot n o e ts H rest (ts ++ rest) eq_refl Hfo) as (r' & Hr & Er).
    exists r'. split; [|split; [exact Er|intros Hx; exfalso; lia]].
    eapply lvl_skip_unary; [exact E|]. rstep. rstep. rstep. cbn [app hd_error]. rstep.
    eapply runs_call; [exact Hr|]. apply runs_ret.
  - (* -+ *)
    intros w o e ts Hw He H n rest ts0 E. split; [|intros Hx; exfalso; lia]. intros Hfo.
    rewrite <- app_assoc, skipw_blank in E by auto. cbn [app] in E. rewrite skipw_solid in E by reflexivity.
    destruct (unary_knot n o e ts H rest (ts ++ rest) eq_refl Hfo) as (r' & Hr & Er).
    exists r'. split; [|split; [exact Er|intros Hx; exfalso; lia]].
    eapply lvl_skip_unary; [exact E|]. rstep. rstep. rstep. cbn [app hd_error]. rstep.
    eapply runs_call; [exact Hr|]. apply runs_ret.
  - (* ** *)
    intros o1 e1 ts1 w o2 e2 ts2 H1 P1 Hw H2 P2.
    intros n rest ts0 E. split; [|intros Hx; exfalso; lia]. intros Hfo.
    exists (skipw rest). split; [|split; [apply skipw_idem|auto]].
    rewrite <- app_assoc in E. destruct (P1 n _ _ E) as [P1' _].
    destruct P1' as (r' & Hr & Er & _).
    { unfold follow. rewrite <- app_assoc, skipw_blank by auto. cbn [app]. rewrite skipw_solid by reflexivity.
      split; [intros l [= <-]; lia|]. split; [intros _ [|]; discriminate|lia]. }
    cbn [lvl]. unfold arith_pow. eapply runs_call; [exact Hr|]. rstep. rewrite Er. 
    rewrite <- app_assoc, skipw_blank by auto. cbn [app]. rewrite skipw_solid by reflexivity. rstep.
    match goal with |- context [look double_star_try ?l] => change (look double_star_try l) with true end.
    cbv beta match. rstep. rstep.
    destruct n as [|n]; [apply runs_fuelb|].
    destruct (P2 n rest (ts2 ++ rest) eq_refl) as [P2' _]. destruct (P2' Hfo) as (r2 & Hr2 & _ & Er2).
    rewrite (Er2 ltac:(lia)) in Hr2.
    eapply runs_call; [exact Hr2|]. apply runs_ret.
  - (* binary *)
    intros k op c o1 e1 ts1 w o2 e2 ts2 Ho H1 P1 Hw H2 P2 Hd.
    assert (Hk : (3 <= k <= 12)%nat) by (destruct Ho; lia).
    apply chain_done; [exact Hk|]. intros n rest ts0 E Hfo c' r Hl.
    rewrite <- !app_assoc in E. destruct (P1 n _ _ E) as [_ P1'].
    apply (P1' Hk); [now apply (follow_op k op c w ts2 o1 o2 e2 rest)|].
    intros m. rewrite skipw_blank by auto.
    destruct (P2 n rest (ts2 ++ rest) eq_refl) as [P2' _].
    destruct (P2' Hfo) as (r2 & Hr2 & _ & Er2).
    rewrite (Er2 ltac:(lia)) in Hr2.
    rewrite skipw_solid_hd by now destruct Ho.
    eapply loop_op; eauto. intros Ex.
    destruct ts2 as [|x ts2].
    { destruct (aexpr_first _ _ _ _ H2) as ([|? ?] & t' & r0 & E0 & _); discriminate. }
    destruct (aexpr_hd _ _ _ _ TEquals H2 Ex) as [[? ?]|[?|?]]; discriminate.
  - (* ?: *)
    intros o1 g ts1 w1 o2 b ts2 w2 o3 e ts3 H1 P1 Hw1 H2 P2 Hw2 H3 P3.
    intros n rest ts0 E. split; [|intros Hx; exfalso; lia]. intros Hfo.
    exists (skipw rest). split; [|split; [apply skipw_idem|auto]].
    rewrite <- app_assoc in E. destruct (P1 n _ _ E) as [P1' _].
    destruct P1' as (r' & Hr & Er & _).
    { rewrite <- app_assoc. cbn [app]. apply follow_solid; auto. intros l [= <-]. lia. }
    cbn [lvl]. unfold arith_ternary. eapply runs_call; [exact Hr|]. rstep. rewrite Er.
    rewrite <- app_assoc, skipw_blank by auto. cbn [app]. rewrite skipw_solid by reflexivity. rstep.
    destruct n as [|n]; [apply runs_fuelb|].
    rewrite <- !app_assoc. cbn [app].
    destruct (P2 n (w2 ++ TColon :: ts3 ++ rest) _ eq_refl) as [P2' _].
    destruct P2' as (r2 & Hr2 & Er2 & _). { apply follow_solid; auto. discriminate. }
    eapply runs_call; [exact Hr2|]. rstep. rewrite Er2, skipw_blank, skipw_solid by auto. rstep.
    destruct (P3 n rest _ eq_refl) as [P3' _]. destruct (P3' Hfo) as (r3 & Hr3 & _ & Er3).
    rewrite (Er3 ltac:(lia)) in Hr3. eapply runs_call; [exact Hr3|]. apply runs_ret.
  - (* = *)
    intros w v ts1 w' o e ts2 Hw Hv Hw' H P.
    intros n rest ts0 E. split; [|intros Hx; exfalso; lia]. intros Hfo.
    exists (skipw rest). split; [|split; [apply skipw_idem|auto]].
    rewrite <- app_assoc, skipw_blank in E by auto. rewrite <- !app_assoc in E. cbn [app] in E.
    assert (Hne : hd_error (ts2 ++ rest) <> Some TEquals).
    { intros Ex. destruct ts2 as [|x ts2].
      { destruct (aexpr_first _ _ _ _ H) as ([|? ?] & t' & r0 & E0 & _); discriminate. }
      destruct (aexpr_hd _ _ _ _ TEquals H Ex) as [[? ?]|[?|?]]; discriminate. }
    rewrite (skipw_solid_hd ts1) in E by now destruct Hv.
    cbn [lvl]. unfold arith_assig. rstep. rstep. rewrite E.
    destruct (look_assig fuel fuel (ts1 ++ w' ++ TEquals :: ts2 ++ rest)) as [El|El]; rewrite El; [apply runs_fuel|].
    replace (assig_ahead _) with true.
    2:{ symmetry. assert (Ea : assign_op_ahead (w' ++ TEquals :: ts2 ++ rest) = true).
        { clear -Hw' Hne. unfold assign_op_ahead. induction Hw' as [|t w' [s ->] Hw' IH]; cbn [app dropsp]; auto.
          destruct (otoken_eqb_spec (hd_error (ts2 ++ rest)) (Some TEquals)); [contradiction|reflexivity]. }
        destruct Hv; exact Ea. }
    eapply (runs_var []); [constructor|exact Hv|]. rstep.
    replace (skipw (w' ++ TEquals :: ts2 ++ rest)) with (TEquals :: ts2 ++ rest).
    2:{ clear -Hw'. induction Hw' as [|t w' [s ->] Hw' IH]; [reflexivity|]. exact IH. }
    rstep. rstep.
    destruct n as [|n]; [apply runs_fuelb|].
    destruct (P n rest _ eq_refl) as [P' _]. destruct (P' Hfo) as (r2 & Hr2 & _ & Er2).
    rewrite (Er2 ltac:(lia)) in Hr2. eapply runs_call; [exact Hr2|]. apply runs_ret.
  - (* op= *)
    intros w v ts1 w' t c o e ts2 Hw Hv Hw' Ho H P.
    intros n rest ts0 E. split; [|intros Hx; exfalso; lia]. intros Hfo.
    exists (skipw rest). split; [|split; [apply skipw_idem|auto]].
    rewrite <- app_assoc, skipw_blank in E by auto. rewrite <- !app_assoc in E. cbn [app] in E.
    rewrite (skipw_solid_hd ts1) in E by now destruct Hv.
    cbn [lvl]. unfold arith_assig. rstep. rstep. rewrite E.
    destruct (look_assig fuel fuel (ts1 ++ w' ++ t :: TEquals :: ts2 ++ rest)) as [El|El]; rewrite El; [apply runs_fuel|].
    replace (assig_ahead _) with true.
    2:{ symmetry. assert (Ea : assign_op_ahead (w' ++ t :: TEquals :: ts2 ++ rest) = true).
        { clear -Hw' Ho. unfold assign_op_ahead. induction Hw' as [|u w' [s ->] Hw' IH]; cbn [app dropsp]; auto.
          destruct Ho; reflexivity. }
        destruct Hv; exact Ea. }
    eapply (runs_var []); [constructor|exact Hv|]. rstep.
    replace (skipw (w' ++ t :: TEquals :: ts2 ++ rest)) with (t :: TEquals :: ts2 ++ rest).
    2:{ clear -Hw' Ho. induction Hw' as [|u w' [s ->] Hw' IH]; [destruct Ho; reflexivity|]. exact IH. }
    rstep.
    destruct n as [|n]; [destruct Ho; rstep; rstep; rstep; apply runs_fuelb|].
    destruct (P n rest _ eq_refl) as [P' _]. destruct (P' Hfo) as (r2 & Hr2 & _ & Er2).
    rewrite (Er2 ltac:(lia)) in Hr2.
    destruct Ho; rstep; rstep; rstep; (eapply runs_call; [exact Hr2|]); apply runs_ret.
  - (* , *)
    intros o e ts o' es tss H P Hs Q.
    intros n rest ts0 E. split; [|intros Hx; exfalso; lia]. intros Hfo.
    exists (skipw rest). split; [|split; [apply skipw_idem|auto]].
    rewrite <- app_assoc in E.
    destruct (Q n rest Hfo) as (us & Eus & Q').
    assert (Hf1 : follow 1 o (tss ++ rest)).
    { unfold follow. rewrite Eus. split; [intros l [= <-]; lia|]. split; [intros _ [|]; discriminate|discriminate]. }
    destruct (P n (tss ++ rest) (skipw ts0)) as [P' _]; [now rewrite skipw_idem|].
    destruct (P' Hf1) as (r2 & Hr2 & _ & Er2). rewrite (Er2 ltac:(lia)), Eus in Hr2.
    cbn [lvl]. unfold arithmetic_substitution_.
    eapply runs_call with (a := e :: es) (mid := skipw rest).
    2:{ destruct es; [inversion Hs|]. apply runs_ret. }
    destruct fuel as [|m] eqn:Ef; [apply runs_fuel|]. rewrite <- Ef at 1. cbn [arith_seq_loop].
    rewrite <- Ef in *. rstep. eapply runs_call; [exact Hr2|]. rstep. cbv beta match. exact (Q' [e] m).
  - (* last element *)
    intros w o e ts Hw H P n rest Hfo. exists (ts ++ rest).
    split; [rewrite <- app_assoc, skipw_blank by auto; reflexivity|].
    intros acc [|m]; [apply runs_fuel|]. cbn [arith_seq_loop].
    destruct (P n rest (skipw (ts ++ rest))) as [P' _]; [now rewrite skipw_idem|].
    destruct (P' (follow_mono _ _ _ _ Hfo (Nat.le_succ_diag_r _))) as (r2 & Hr2 & _ & Er2).
    rewrite (Er2 ltac:(lia)) in Hr2. rstep. eapply runs_call; [exact Hr2|].
    apply runs_eat_maybe_no; [|apply runs_ret].
    unfold follow in Hfo. destruct (skipw rest) as [|t' r']; [discriminate|]. cbn [hd_error].
    intros [= ->]. destruct Hfo as (Hf & _). specialize (Hf _ eq_refl). lia.
  - intros w o e ts o' es tss Hw H P Hs Q n rest Hfo. exists (ts ++ tss ++ rest).
    split; [rewrite <- app_assoc, skipw_blank by auto; cbn [app]; now rewrite <- app_assoc|].
    intros acc [|m]; [apply runs_fuel|]. cbn [arith_seq_loop].
    destruct (Q n rest Hfo) as (us & Eus & Q').
    assert (Hf1 : follow 1 o (tss ++ rest)).
    { unfold follow. rewrite Eus. split; [intros l [= <-]; lia|]. split; [intros _ [|]; discriminate|discriminate]. }
    destruct (P n (tss ++ rest) (skipw (ts ++ tss ++ rest))) as [P' _]; [now rewrite skipw_idem|].
    destruct (P' Hf1) as (r2 & Hr2 & _ & Er2). rewrite (Er2 ltac:(lia)), Eus in Hr2.
    rstep. eapply runs_call; [exact Hr2|]. rstep. cbv beta match.
    specialize (Q' (acc ++ [e]) m). rewrite <- app_assoc in Q'. exact Q'.
Qed.

(** A whole expression, in a place where it ends. *)
Theorem arith_runs_at o e ts rest ts0 : aexpr 0 o e ts -> follow 0 o rest -> skipw ts0 = skipw (ts ++ rest) ->
  runs (arithmetic_substitution fuel : prog arith) ts0 e (skipw rest).
Proof.
  intros H Hf E. unfold arithmetic_substitution.
  pose proof (aexpr_parses_all _ _ _ _ H) as P.
  generalize fuel at 2 as n. intros [|n]; [apply runs_fuel|].
  destruct (P n rest ts0 E) as [P' _]. destruct (P' Hf) as (r & Hr & _ & Er).
  rewrite (Er ltac:(lia)) in Hr. exact Hr.
Qed.
Theorem arith_runs o e ts rest : aexpr 0 o e ts -> follow 0 o rest ->
  runs (arithmetic_substitution fuel : prog arith) (ts ++ rest) e (skipw rest).
Proof. intros H Hf. exact (arith_runs_at o e ts rest _ H Hf eq_refl). Qed.
End ArithRuns.

(** A case of [arith_runs]: [x - 2 ** y] before the parenthesis that closes it. *)
Example arith_runs_witness :
  aexpr 0 true (ASub (AVar (s_of "x")) (APow (ALiteral 2) (AVar (s_of "y"))))
    [TName (s_of "x"); TWhitespace (s_of " "); TDash; TLiteral (s_of "2"); TStar; TStar; TName (s_of "y")] /\
  follow 0 true [TWhitespace (s_of " "); TParenClose; TParenClose].
Proof.
  split.
  - do 11 (apply ae_tighter; [lia|]).
    apply (ae_binary 11 [TDash] ASub true (AVar (s_of "x")) [TName (s_of "x")] [TWhitespace (s_of " ")] true
      (APow (ALiteral 2) (AVar (s_of "y"))) [TLiteral (s_of "2"); TStar; TStar; TName (s_of "y")]).
    + constructor.
    + do 4 (apply ae_tighter; [lia|]). apply (ae_var [] (s_of "x") [TName (s_of "x")]); constructor.
    + repeat constructor.
    + apply ae_tighter; [lia|].
      apply (ae_pow false (ALiteral 2) [TLiteral (s_of "2")] [] true (AVar (s_of "y")) [TName (s_of "y")]).
      * apply ae_tighter; [lia|]. apply (ae_literal [] (s_of "2") 2); [constructor|].
        apply literal_num_denotes. reflexivity.
      * constructor.
      * do 2 (apply ae_tighter; [lia|]). apply (ae_var [] (s_of "y") [TName (s_of "y")]); constructor.
    + intros _ t [= <-] _. discriminate.
  - cbn. split; [discriminate|]. split; [intros _ [X|X]; discriminate|discriminate].
Qed.
