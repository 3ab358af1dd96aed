(** * When does the text of a token list lex back to the same tokens?

    [relexable ts]: every token is one the lexer can yield, and no token runs into the text after
    it.  Then [lex] applied to the text gives [ts]. *)
From Coq Require Import String.
From Verif Require Import Base Token Lexer LexSpec LexProofs LexTheorems.
Local Open Scope N_scope.

Definition text (ts : list token) : str := concat (map as_str ts).
Lemma text_app a b : text (a ++ b) = text a ++ text b.
Proof. unfold text. now rewrite map_app, concat_app. Qed.
Lemma text_cons t ts : text (t :: ts) = as_str t ++ text ts.
Proof. reflexivity. Qed.

(** The character [c] would make a longer operator of [t]. *)
Definition extends (t : token) (c : char) : bool :=
  match t with
  | TSemi => c =? 59
  | TAmp => c =? 38
  | TPipe => c =? 124
  | TLess => (c =? 60) || (c =? 38) || (c =? 62)
  | TGreat => (c =? 38) || (c =? 62) || (c =? 124)
  | TDLess => c =? 45
  | TDollar => is_digit10 c
  | _ => false
  end.
Lemma extends_spec t t' c s s' : operator t -> operator t' -> extends t c = false ->
  as_str t ++ c :: s = as_str t' ++ s' -> (List.length (as_str t') <= List.length (as_str t))%nat.
Proof.
  intros Ho Ho' He E.
  destruct (Nat.le_gt_cases (List.length (as_str t')) (List.length (as_str t))) as [H|H]; [exact H|exfalso].
  assert (P : exists r, as_str t' = as_str t ++ c :: r).
  { revert E H. generalize (as_str t) (as_str t'). clear.
    intros a; induction a as [|x a IH]; intros [|y b] E H; cbn in *; try lia; injection E as -> E.
    - eauto.
    - destruct (IH b E ltac:(lia)) as [r ->]. eauto. }
  destruct P as [r P]. clear E H.
  destruct t as [| | | | | | | | | | | | | | | | | | | | | | | | | | | | | | | | | | | | | | | | |[]| | |]; cbn in Ho; try contradiction;
  destruct t' as [| | | | | | | | | | | | | | | | | | | | | | | | | | | | | | | | | | | | | | | | |[]| | |]; cbn in Ho'; try contradiction;
  cbn in P; try discriminate; injection P as <-; cbn in He; discriminate.
Qed.

Section Relex.
Context {U : Uni}.

Definition ordinary_b (c : char) : bool :=
  negb (is_whitespace c) &&
  match assoc c single_char_tokens with
  | Some _ => false
  | None => negb ((c =? 92) || (c =? 59) || (c =? 38) || (c =? 124) || (c =? 36) || (c =? 60) || (c =? 62))
  end.
Lemma assoc_none {A} c (l : list (char * A)) : assoc c l = None -> forall k v, In (k, v) l -> c <> k.
Proof.
  induction l as [|[k v] l IH]; cbn; intros H k' v' Hin; [contradiction|].
  destruct (N.eqb_spec c k); [discriminate|]. destruct Hin as [E|Hin]; [congruence|eauto].
Qed.
Lemma ordinary_b_spec c : ordinary_b c = true <-> ordinary c.
Proof.
  unfold ordinary_b, ordinary. split.
  - intros H. apply andb_true_iff in H as [H1 H2]. apply negb_true_iff in H1. split; [exact H1|].
    destruct (assoc c single_char_tokens) eqn:E; [discriminate|].
    pose proof (assoc_none c _ E) as HA.
    apply negb_true_iff in H2. repeat (apply orb_false_iff in H2 as [H2 ?]).
    repeat match goal with H : (_ =? _) = false |- _ => apply N.eqb_neq in H end.
    split; [assumption|]. intros t s Ho Ht.
    assert (HF : Forall (fun kv => c <> fst kv) single_char_tokens).
    { apply Forall_forall. intros [k v] Hin. exact (HA k v Hin). }
    clear HA E. unfold single_char_tokens in HF.
    repeat match goal with H : Forall _ (_ :: _) |- _ => apply Forall_cons_iff in H as [? H] end. cbn [fst] in *.
    destruct t as [| | | | | | | | | | | | | | | | | | | | | | | | | | | | | | | | | | | | | | | | |[]| | |]; cbn in Ho; try contradiction;
      cbn in Ht; injection Ht as <- _; congruence.
  - intros (H1 & H2 & H3). rewrite H1. cbn [negb andb].
    assert (forall t, operator t -> hd_error (as_str t) <> Some c).
    { intros t Ho E. destruct (as_str t) as [|x w] eqn:Et; [discriminate|]. cbn in E. injection E as ->.
      eapply H3; eauto. }
    destruct (assoc c single_char_tokens) as [t|] eqn:E.
    + exfalso. assert (In (c, t) single_char_tokens).
      { clear -E. induction single_char_tokens as [|[k v] l IH]; [discriminate|]. cbn in E.
        destruct (N.eqb_spec c k); [injection E as ->; subst; now left|right; auto]. }
      assert (operator t /\ hd_error (as_str t) = Some c).
      { unfold single_char_tokens in H0. cbn in H0.
        repeat (destruct H0 as [H0|H0]; [injection H0 as <- <-; split; [exact I|reflexivity]|]). contradiction. }
      destruct H4 as [Ho Hh]. exact (H t Ho Hh).
    + apply negb_true_iff. repeat (apply orb_false_iff; split); apply N.eqb_neq; intros ->.
      * now apply H2.
      * now apply (H TSemi I).
      * now apply (H TAmp I).
      * now apply (H TPipe I).
      * now apply (H TDollar I).
      * now apply (H TLess I).
      * now apply (H TGreat I).
Qed.

(** The token [t] does not run into the text [s] after it. *)
Definition apart (t : token) (s : str) : bool :=
  match s with
  | [] => true
  | c :: _ =>
      match t with
      | TWhitespace _ => negb (is_whitespace c) || (c =? 10)
      | TName _ => negb (ordinary_b c && name_char c)
      | TLiteral _ => negb (ordinary_b c)
      | t => negb (extends t c)
      end
  end.

(** A token of one character, what the lexer yields for it alone. *)
Definition single (t : token) : Prop := lexable t /\ exists c, as_str t = [c].

Inductive relexable : list token -> Prop :=
  | rl_nil : relexable []
  | rl_backslash_end : relexable [TBackslash]
  | rl_backslash t ts : single t -> relexable ts -> relexable (TBackslash :: t :: ts)
  | rl_cons t ts : lexable t -> t <> TBackslash -> apart t (text ts) = true -> relexable ts ->
      relexable (t :: ts).

Lemma apart_stops t (P : char -> Prop) s : (forall c r, s = c :: r -> P c -> apart t s = false) ->
  apart t s = true -> stops P s.
Proof. intros H Ha c r E HP. rewrite (H c r E HP) in Ha. discriminate. Qed.

Lemma relexable_Lexes ts : relexable ts -> Lexes (text ts) ts.
Proof.
  induction 1 as [| |t ts [Hl [c Hc]] Hr IH|t ts Hl Hb Ha Hr IH].
  - apply Lex_end.
  - apply Lex_backslash_end.
  - change (text (TBackslash :: t :: ts)) with (backslash :: as_str t ++ text ts). rewrite Hc.
    cbn [app]. constructor; auto. rewrite <- Hc. rewrite <- lex_maximal_munch. now apply lex_display.
  - rewrite text_cons.
    assert (Op : operator t -> Lexes (as_str t ++ text ts) (t :: ts)).
    { intros Ho. apply Lex_operator; auto. intros t' s' Ho' E.
      destruct (text ts) as [|c s] eqn:Es.
      - rewrite app_nil_r in E. rewrite E, app_length. lia.
      - eapply (extends_spec t t' c); eauto. cbn [apart] in Ha.
        destruct t; cbn in Ho; try contradiction; now apply negb_true_iff in Ha. }
    destruct t as [| | | | | | | | | | | | | | | | | | | | | | | | | | | | | | | | | | | | | | | | |p|w|w|w]; try (apply Op; exact I).
    + congruence.
    + destruct Hl as [Hn HF]. apply Lex_blanks; auto. eapply apart_stops; [|exact Ha].
      intros c r -> [H1 H2]. cbn [apart]. rewrite H1. cbn. now apply N.eqb_neq.
    + destruct w as [|c w]; [contradiction|]. destruct Hl as (H1 & H2 & H3).
      apply (Lex_literal c w); auto. eapply apart_stops; [|exact Ha].
      intros d r -> H. cbn [apart]. apply ordinary_b_spec in H. now rewrite H.
    + destruct w as [|c w]; [contradiction|]. destruct Hl as (H1 & H2).
      apply (Lex_name c w); auto. eapply apart_stops; [|exact Ha].
      intros d r -> H. cbn [apart]. pose proof (id_char_ordinary _ H) as Ho. 
      apply (name_char_spec _ Ho) in H. apply ordinary_b_spec in Ho. now rewrite Ho, H.
Qed.

(** The text of such a list lexes back to it. *)
Theorem lex_relexable ts : relexable ts -> lex (text ts) = ts.
Proof. intros H. apply lex_maximal_munch. now apply relexable_Lexes. Qed.

End Relex.
