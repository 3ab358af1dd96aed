(** * Lexing text put together from pieces *)
From Coq Require Import String.
From Verif Require Import Base Token Lexer LexSpec LexProofs LexTheorems Relex Seams Quotes.
Local Open Scope N_scope.

Section Join.
Context {U : Uni}.
(** What the lexer yields is relexable. *)
Lemma extends_longer t c : extends t c = true -> exists t', operator t' /\ as_str t' = as_str t ++ [c].
Proof.
  destruct t; cbn; try discriminate; intros H;
    repeat match goal with H : (_ || _) = true |- _ => apply orb_true_iff in H as [H|H] end;
    try (apply N.eqb_eq in H; subst c).
  - exists TDSemi. split; [exact I|reflexivity].
  - exists TAndIf. split; [exact I|reflexivity].
  - exists TOrIf. split; [exact I|reflexivity].
  - exists TDLess. split; [exact I|reflexivity].
  - exists TLessAnd. split; [exact I|reflexivity].
  - exists TLessGreat. split; [exact I|reflexivity].
  - exists TGreatAnd. split; [exact I|reflexivity].
  - exists TDGreat. split; [exact I|reflexivity].
  - exists TClobber. split; [exact I|reflexivity].
  - exists TDLessDash. split; [exact I|reflexivity].
  - unfold is_digit10 in H. apply andb_true_iff in H as [H1 H2]. apply N.leb_le in H1, H2.
    assert (X : c = 48 \/ c = 49 \/ c = 50 \/ c = 51 \/ c = 52 \/ c = 53 \/ c = 54 \/ c = 55 \/ c = 56 \/ c = 57) by lia.
    repeat (destruct X as [-> |X]; [first [exists (TParamPositional P0); now split|exists (TParamPositional P1); now split
      |exists (TParamPositional P2); now split|exists (TParamPositional P3); now split|exists (TParamPositional P4); now split
      |exists (TParamPositional P5); now split|exists (TParamPositional P6); now split|exists (TParamPositional P7); now split
      |exists (TParamPositional P8); now split]|]).
    subst c. exists (TParamPositional P9); now split.
Qed.
Lemma Lexes_relexable s ts : Lexes s ts -> relexable ts.
Proof.
  induction 1 as [|t s ts Ho Hm HL IH|b s ts Hb HF Hs HL IH|c w s ts Hc HF Hs HL IH|c w s ts Hc Hn HF Hs HL IH| |c t s ts H1 IH1 H2 IH2];
    try (rewrite <- (Lexes_text _ _ HL) in Hs).
  - constructor.
  - assert (Es : text ts = s) by (rewrite <- (Lexes_text s ts HL); unfold text, concat_tokens; now rewrite flat_map_concat_map).
    apply rl_cons; [destruct t; cbn in Ho; try contradiction; exact I|intros ->; contradiction| |exact IH].
    rewrite Es. unfold apart. destruct s as [|c s]; [reflexivity|].
    destruct t; cbn in Ho; try contradiction;
    lazymatch goal with |- negb ?x = true => destruct x eqn:E; [|reflexivity] end; exfalso;
    apply extends_longer in E as (t' & Ho' & E'); specialize (Hm t' s Ho'); rewrite E', <- app_assoc in Hm; specialize (Hm eq_refl);
    rewrite app_length in Hm; cbn [List.length] in Hm; lia.
  - replace (concat_tokens ts) with (text ts) in Hs by (unfold text, concat_tokens; now rewrite flat_map_concat_map).
    apply rl_cons; [now split|discriminate| |exact IH]. unfold apart. destruct (text ts) as [|c r] eqn:E; [reflexivity|].
    destruct (is_whitespace c) eqn:Ew; [|reflexivity]. destruct (c =? 10) eqn:E10; [reflexivity|]. exfalso.
    apply (Hs c r eq_refl). split; [exact Ew|]. now apply N.eqb_neq.
  - replace (concat_tokens ts) with (text ts) in Hs by (unfold text, concat_tokens; now rewrite flat_map_concat_map).
    apply rl_cons; [now split|discriminate| |exact IH]. unfold apart. destruct (text ts) as [|d r] eqn:E; [reflexivity|].
    destruct (ordinary_b d) eqn:Eo; [|reflexivity]. apply ordinary_b_spec in Eo. destruct (name_char d) eqn:En; [|reflexivity].
    exfalso. apply (Hs d r eq_refl). now apply name_char_spec.
  - replace (concat_tokens ts) with (text ts) in Hs by (unfold text, concat_tokens; now rewrite flat_map_concat_map).
    apply rl_cons; [split; [exact Hc|split; [exact Hn|exact HF]]|discriminate| |exact IH]. unfold apart. destruct (text ts) as [|d r] eqn:E; [reflexivity|].
    destruct (ordinary_b d) eqn:Eo; [|reflexivity]. apply ordinary_b_spec in Eo. exfalso. exact (Hs d r eq_refl Eo).
  - constructor.
  - apply rl_backslash; [|exact IH2]. pose proof (Lexes_text _ _ H1) as E. unfold concat_tokens in E. cbn in E. rewrite app_nil_r in E.
    split; [|eauto]. apply (lex_lexable [c]). replace (lex [c]) with [t]; [now left|]. symmetry. now apply lex_maximal_munch.
Qed.
Lemma lex_is_relexable s : relexable (lex s).
Proof. apply (Lexes_relexable s). apply lex_Lexes. Qed.

(** Text [s] and tokens [ts] such that, before any text [r] satisfying [c], the lexer turns [s] into
    [ts] and goes on with [r]. *)
Definition lexes_as (s : str) (ts : list token) (c : str -> Prop) : Prop :=
  forall r, c r -> lex (s ++ r) = ts ++ lex r.
Definition any (r : str) : Prop := True.
Lemma lexes_nil c : lexes_as [] [] c.
Proof. intros r _. reflexivity. Qed.
Lemma lexes_app s ts c s' ts' c' : lexes_as s ts c -> lexes_as s' ts' c' -> (forall r, c' r -> c (s' ++ r)) ->
  lexes_as (s ++ s') (ts ++ ts') c'.
Proof. intros H1 H2 H r Hr. rewrite <- !app_assoc, (H1 _ (H r Hr)). now rewrite (H2 r Hr). Qed.
Lemma lexes_weaken s ts (c c' : str -> Prop) : lexes_as s ts c -> (forall r, c' r -> c r) -> lexes_as s ts c'.
Proof. intros H Hc r Hr. apply H. auto. Qed.
Lemma lexes_token t : lexable t -> t <> TBackslash -> lexes_as (as_str t) [t] (fun r => apart t r = true).
Proof.
  intros Hl Hb r Hr. rewrite <- (lex_text r) at 1. rewrite <- text_cons.
  apply lex_relexable. apply rl_cons; auto; [now rewrite lex_text|apply lex_is_relexable].
Qed.
Lemma lexes_closed t : closed_op t = true -> lexes_as (as_str t) [t] any.
Proof.
  intros H r _. rewrite <- (lex_text r) at 1. rewrite <- text_cons. apply lex_relexable.
  apply relexable_closed; [exact H|apply lex_is_relexable].
Qed.
Lemma lexes_backslash (c : char) : exists t, lexes_as [backslash; c] [TBackslash; t] any /\ as_str t = [c] /\ lexable t.
Proof.
  destruct (lex_single c) as (t & E & Et). exists t. split; [|split; [exact Et|]].
  - intros r _. apply lex_maximal_munch. cbn [app]. constructor; apply lex_maximal_munch; [exact E|reflexivity].
  - apply (lex_lexable [c]). rewrite E. now left.
Qed.

(** The first character decides whether a token runs into the text after it. *)
Lemma apart_hd t a b : hd_error a = hd_error b -> apart t a = apart t b.
Proof. destruct a, b; cbn; intros H; inversion H; reflexivity. Qed.
Lemma text_hd ts r : text ts <> [] -> hd_error (text ts ++ r) = hd_error (text ts).
Proof. destruct (text ts); [congruence|reflexivity]. Qed.
Lemma relexable_app a b : relexable a -> relexable b -> ~ In TBackslash a ->
  (forall t, In t a -> apart t (text b) = true) -> relexable (a ++ b).
Proof.
  intros Ha Hb. induction Ha as [| |t ts Hs Hr IH|t ts Hl Ht Ha Hr IH]; intros Hn Hj; cbn [app].
  - exact Hb.
  - elim Hn. now left.
  - elim Hn. now left.
  - apply rl_cons; auto.
    + destruct ts as [|u ts]; [apply Hj; now left|]. rewrite text_app.
      rewrite (apart_hd t _ (text (u :: ts))); [exact Ha|]. apply text_hd. rewrite text_cons. intros E.
      apply app_eq_nil in E as [E _]. inversion Hr; subst; try discriminate.
      now apply (lexable_text u).
    + apply IH; [intros H; apply Hn; now right|]. intros t' H'. apply Hj. now right.
Qed.
Lemma relexable_app_op a t b : relexable a -> relexable b -> closed_op t = true -> single t ->
  (forall u, u <> TBackslash -> lexable u -> apart u (as_str t) = true) -> relexable (a ++ t :: b).
Proof.
  intros Ha Hb Hc Hs Hj. assert (Hb' : relexable (t :: b)) by now apply relexable_closed.
  induction Ha as [| |u ts Hu Hr IH|u ts Hl Ht Ha Hr IH]; cbn [app].
  - exact Hb'.
  - now apply rl_backslash.
  - now apply rl_backslash.
  - apply rl_cons; auto. destruct ts as [|v ts].
    + cbn [app]. rewrite text_cons. rewrite (apart_hd u _ (as_str t)); [now apply Hj|]. destruct Hs as [_ [c ->]]. reflexivity.
    + rewrite text_app. rewrite (apart_hd u _ (text (v :: ts))); [exact Ha|]. apply text_hd. rewrite text_cons. intros E.
      apply app_eq_nil in E as [E _]. inversion Hr; subst; try discriminate.
      now apply (lexable_text v).
Qed.
Lemma single_quote_apart u : lexable u -> apart u (as_str TSingleQuote) = true.
Proof. destruct u; reflexivity. Qed.
Lemma lexes_single_quoted s : lexes_as (39 :: s ++ [39]) (TSingleQuote :: lex s ++ [TSingleQuote]) any.
Proof.
  intros r _. cbn [app]. rewrite <- !app_assoc. cbn [app].
  transitivity (lex (text (TSingleQuote :: lex s ++ TSingleQuote :: lex r))).
  2: { apply lex_relexable. apply relexable_closed; [reflexivity|].
    apply relexable_app_op; [apply lex_is_relexable..|reflexivity| |].
    + split; [exact I|]. now exists 39.
    + intros u _ Hu. now apply single_quote_apart. }
  f_equal. rewrite text_cons, text_app, text_cons, !lex_text. reflexivity.
Qed.
(** Text without backslashes before text that no token of it runs into. *)
Lemma lexes_text s (c : str -> Prop) : ~ In backslash s ->
  (forall r t, c r -> In t (lex s) -> apart t r = true) -> lexes_as s (lex s) c.
Proof.
  intros Hb Hc r Hr. replace (s ++ r) with (text (lex s ++ lex r)) by now rewrite text_app, !lex_text.
  apply lex_relexable. apply relexable_app; [apply lex_is_relexable..| |].
  - intros H. apply Hb. rewrite <- (lex_text s). clear Hb Hc. induction (lex s) as [|t ts IH]; [contradiction|].
    rewrite text_cons. apply in_app_iff. destruct H as [-> |H]; [left; now left|right; auto].
  - intros t Ht. rewrite lex_text. now apply Hc.
Qed.
Lemma in_text t ts c : In t ts -> In c (as_str t) -> In c (text ts).
Proof.
  induction ts as [|u ts IH]; [contradiction|]. rewrite text_cons, in_app_iff. intros [-> |H] Hc; [now left|right; auto].
Qed.
End Join.
