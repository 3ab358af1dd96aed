(** * Theorems about the lexer: C01 - C05 *)
From Coq Require Import String.
From Verif Require Import Base Token Lexer LexSpec LexProofs.
Local Open Scope N_scope.

Section LexTheorems.
Context {U : Uni}.

(** ** The state of the lexer between two calls of [next] *)

Definition lwf (l : lexer) : Prop :=
  match peeked l with
  | None | Some (Tok _) | Some (Escaped (Some _)) => True
  | Some (Escaped None) => inner l = []
  | Some (Lit c) => ordinary c
  end.

(** [SL l ts]: the tokenisation of what the state [l] stands for is [ts]. *)
Definition SL (l : lexer) (ts : list token) : Prop :=
  match peeked l with
  | None => Lexes (inner l) ts
  | Some (Tok t) => exists ts', ts = t :: ts' /\ Lexes (inner l) ts'
  | Some (Escaped None) => ts = [TBackslash]
  | Some (Escaped (Some t)) => exists ts', ts = TBackslash :: t :: ts' /\ Lexes (inner l) ts'
  | Some (Lit c) => Lexes (c :: inner l) ts
  end.

Lemma operator_nonempty t : operator t -> exists c s, as_str t = c :: s.
Proof. destruct t as [| | | | | | | | | | | | | | | | | | | | | | | | | | | | | | | | | | | | | | | | |[]| | |]; simpl; intros H; try contradiction; eexists _, _; reflexivity. Qed.

Lemma operator_stops t s : operator t -> stops ordinary (as_str t ++ s).
Proof.
  intros H c s' Heq (_ & _ & Hc).
  destruct (operator_nonempty t H) as (x & w & Hw). rewrite Hw in Heq.
  injection Heq as -> _. eapply Hc; eauto.
Qed.

Lemma blank_stops c s : blank c -> stops ordinary (c :: s).
Proof. intros [H _] x s' [= <- <-] (H' & _). congruence. Qed.

Lemma stops_nil P : stops P [].
Proof. intros c s; discriminate. Qed.

Lemma stops_weaken (P Q : char -> Prop) s : (forall c, Q c -> P c) -> stops P s -> stops Q s.
Proof. intros H Hs c s' -> HQ. eapply Hs; eauto. Qed.

Lemma id_char_ordinary c : id_char c -> ordinary c.
Proof. intros [H _]; exact H. Qed.

Lemma name_start_char_spec c : ordinary c -> (name_start_char c = true <-> id_start c).
Proof.
  intros Ho. unfold name_start_char, id_start. rewrite orb_true_iff, N.eqb_eq. tauto.
Qed.

Lemma name_char_spec c : ordinary c -> (name_char c = true <-> id_char c).
Proof.
  intros Ho. unfold name_char, name_start_char, id_char.
  rewrite !orb_true_iff, N.eqb_eq. tauto.
Qed.

Lemma step_none_peek esc i t l' :
  next_internal esc (mkLexer i None) = (t, l') -> l' = mkLexer (inner l') None.
Proof.
  intros H. destruct l' as [i' p']. apply next_internal_size in H. simpl in *.
  destruct t as [t|].
  - destruct H as [_ H]. rewrite H; [reflexivity|discriminate].
  - destruct H as [[H _] _]. injection H as -> ->. reflexivity.
Qed.

Definition word_tok (nm : bool) (w : str) : token := if nm then TName w else TLiteral w.
Definition word_char (nm : bool) : char -> Prop := if nm then id_char else ordinary.

Lemma Lexes_nil ts : Lexes [] ts -> ts = [].
Proof.
  intros H. inversion H as [|t s ts' Ho Hm Hs Hx Hy|b s ts' Hb Hf Hs Hl Hx Hy| | | |]; auto.
  - destruct (operator_nonempty _ Ho) as (? & ? & Hz). rewrite Hz in Hx. discriminate.
  - destruct b; [congruence|discriminate].
Qed.

Lemma step_nil esc t r : step_spec esc [] t r -> t = None.
Proof.
  intros H; inversion H as [|t' r' Ho Hx|b r' Hx Hb| | |]; auto; try discriminate.
  - destruct (operator_nonempty _ Ho) as (? & ? & Hz). rewrite Hz in Hx. discriminate.
  - destruct b; [congruence|discriminate].
Qed.

(** An escape function is good when it gives the token of the one-character source. *)
Definition good_esc (esc : char -> option token) : Prop :=
  forall c, exists t, esc c = Some t /\ Lexes [c] [t].

Lemma step_pending esc i t r :
  good_esc esc -> step_spec esc i (Some t) r -> (forall c, t <> Lit c) ->
  lwf (mkLexer r (Some t)) /\ stops ordinary i /\
  (forall ts, SL (mkLexer r (Some t)) ts -> Lexes i ts).
Proof.
  intros He Hs Hl. inversion Hs; subst.
  - split; [exact I|]. split; [apply operator_stops; assumption|].
    intros ts (ts' & -> & H'). apply Lex_operator; assumption.
  - split; [exact I|]. split.
    + destruct b as [|c b]; [congruence|]. inversion H2; subst. apply blank_stops; assumption.
    + intros ts (ts' & -> & H'). apply Lex_blanks; assumption.
  - split; [reflexivity|]. split.
    + intros c s' [= <- <-] (_ & H & _). apply H. reflexivity.
    + intros ts ->. apply Lex_backslash_end.
  - destruct (He c) as (t & -> & Ht). split; [exact I|]. split.
    + intros c' s' [= <- <-] (_ & H & _). apply H. reflexivity.
    + intros ts (ts' & -> & H'). apply Lex_backslash; assumption.
  - exfalso. eapply Hl. reflexivity.
Qed.

Lemma lit_loop_spec esc fuel nm w i t l' :
  good_esc esc \/ i = [] ->
  lit_loop esc fuel nm w (mkLexer i None) = Some (t, l') ->
  exists w2 s, t = Some (word_tok nm (w ++ w2)) /\ i = w2 ++ s /\
    Forall (word_char nm) w2 /\ stops (word_char nm) s /\ lwf l' /\
    (forall ts, SL l' ts -> Lexes s ts).
Proof.
  revert w i; induction fuel as [|f IH]; intros w i He; [discriminate|].
  cbn [lit_loop]. destruct (next_internal esc (mkLexer i None)) as [t1 l1] eqn:E.
  pose proof (step_none_peek _ _ _ _ E) as Hl1. apply next_internal_step in E.
  assert (Hw : forall s, stops ordinary s -> stops (word_char nm) s).
  { intros s. apply stops_weaken. destruct nm; simpl; auto using id_char_ordinary. }
  assert (Hpend : forall t2, t1 = Some t2 -> (forall c, t2 <> Lit c) ->
            Some (Some (word_tok nm w), mkLexer (inner l1) (Some t2)) = Some (t, l') ->
            exists w2 s, t = Some (word_tok nm (w ++ w2)) /\ i = w2 ++ s /\
            Forall (word_char nm) w2 /\ stops (word_char nm) s /\ lwf l' /\
            (forall ts, SL l' ts -> Lexes s ts)).
  { intros t2 -> Hn [= <- <-]. destruct He as [He| ->].
    - destruct (step_pending _ _ _ _ He E Hn) as (H1 & H2 & H3).
      exists [], i. rewrite app_nil_r. repeat split; auto.
    - apply step_nil in E. discriminate. }
  destruct t1 as [[t1|t1|c]|].
  - intros H. apply (Hpend (Tok t1)); auto. discriminate.
  - intros H. apply (Hpend (Escaped t1)); auto. discriminate.
  - inversion E; subst.
    destruct He as [He|]; [|discriminate].
    destruct (nm && negb (name_char c)) eqn:En.
    + intros [= <- <-]. apply andb_true_iff in En. destruct En as [-> En].
      apply negb_true_iff in En.
      exists [], (c :: inner l1). rewrite app_nil_r. split; [auto|]. split; [auto|].
      split; [constructor|]. split; [|split; [assumption|intros ts Hts; exact Hts]].
      intros x s' [= <- <-] Hx. simpl in Hx. apply name_char_spec in Hx; [congruence|auto].
    + intros Hr. rewrite Hl1 in Hr. apply IH in Hr; [|left; auto].
      destruct Hr as (w2 & s & -> & Hi & Hf & Hst & Hlw & Hts).
      exists (c :: w2), s. rewrite <- app_assoc. simpl. rewrite <- Hi.
      repeat split; auto. constructor; auto.
      destruct nm; simpl in *; auto. apply name_char_spec; auto.
      apply negb_false_iff in En. exact En.
  - inversion E as [Hi Hx Hr| | | | |]; subst. intros [= <- <-]. rewrite Hl1, <- Hr.
    exists [], []. rewrite app_nil_r. split; [auto|]. split; [auto|].
    split; [constructor|]. split; [apply stops_nil|]. split; [exact I|].
    intros ts Hts. exact Hts.
Qed.

(** One call of [next]. *)
Lemma next_spec esc l t l' :
  good_esc esc -> lwf l -> next_with esc l = (t, l') ->
  match t with
  | None => SL l []
  | Some t => lwf l' /\ forall ts, SL l' ts -> SL l (t :: ts)
  end.
Proof.
  intros He Hl. unfold next_with.
  destruct (next_fueled_total esc l) as (t1 & l1 & H1 & _). rewrite H1.
  intros [= -> ->]. revert H1. unfold next_fueled.
  destruct l as [i [[t1|[t1|]|c]|]]; unfold SL at 1; unfold lwf in Hl at 1; cbn [peeked inner] in *.
  - cbn. intros [= <- <-]. split; [exact I|]. intros ts Hts. exists ts. auto.
  - cbn. intros [= <- <-]. split; [exact I|]. intros ts (ts' & -> & H). exists ts'. auto.
  - cbn. intros [= <- <-]. split; [exact I|]. subst i. intros ts H. apply Lexes_nil in H. subst. reflexivity.
  - cbn [next_internal peeked inner].
    intros H. apply lit_loop_spec in H; [|auto].
    destruct H as (w2 & s & -> & -> & Hf & Hs & Hlw & Hts).
    split; [exact Hlw|]. intros ts H. unfold SL; cbn [peeked inner].
    destruct (name_start_char c) eqn:En; cbn [word_tok app].
    + apply Lex_name; auto. apply name_start_char_spec; auto.
    + apply Lex_literal; auto. rewrite <- name_start_char_spec by auto. congruence.
  - destruct (next_internal esc (mkLexer i None)) as [t1 l1] eqn:E.
    pose proof (step_none_peek _ _ _ _ E) as Hl1. apply next_internal_step in E.
    destruct t1 as [[t1|t1|c]|].
    + intros [= <- <-]. rewrite Hl1. split; [exact I|]. intros ts Hts. unfold SL in *; simpl in *.
      destruct (step_pending _ _ _ _ He E) as (_ & _ & H); [discriminate|].
      apply H. exists ts. auto.
    + destruct (step_pending _ _ _ _ He E) as (_ & _ & H); [discriminate|].
      intros [= <- <-]. split; [destruct t1; exact I|].
      intros ts Hts. unfold SL at 1; simpl. apply H. destruct t1 as [t1|]; simpl in *.
      * destruct Hts as (ts' & -> & Hts). exists ts'. auto.
      * inversion E as [| | |Hi1 Hi2 Hi3|c r Hi1 Hi2 Hi3|]; subst.
        -- rewrite <- Hi3 in Hts. unfold SL in *; simpl in *.
           apply Lexes_nil in Hts. subst. reflexivity.
        -- destruct (He c) as (t & Ht & _). congruence.
    + inversion E; subst. rewrite Hl1. intros H. apply lit_loop_spec in H; [|auto].
      destruct H as (w2 & s & -> & Hi & Hf & Hs & Hlw & Hts).
      split; [exact Hlw|]. intros ts H. unfold SL; cbn [peeked inner]. rewrite Hi.
      destruct (name_start_char c) eqn:En; cbn [word_tok app].
      * apply Lex_name; auto. apply name_start_char_spec; auto.
      * apply Lex_literal; auto. rewrite <- name_start_char_spec by auto. congruence.
    + inversion E; subst. intros [= <- <-]. simpl. constructor.
Qed.

(** lexer.rs 73-79: the nested lexer on an escaped character. *)
Lemma esc_tok_good : good_esc esc_tok.
Proof.
  intros c. unfold esc_tok, next_with, lexer_new.
  destruct (next_fueled_total (fun _ => None) (mkLexer [c] None)) as (t1 & l1 & H1 & _).
  rewrite H1. revert H1. unfold next_fueled.
  destruct (next_internal (fun _ => None) (mkLexer [c] None)) as [t2 l2] eqn:E.
  pose proof (step_none_peek _ _ _ _ E) as Hl2. apply next_internal_step in E.
  inversion E as [Hi|t r Ho Hi Hm|b r Hi Hb Hf Hs|Hi Hx Hr|c' r Hi Hx Hr|c' r Hi Ho Hx];
    subst; try discriminate.
  - intros [= <- <-]. exists t. split; [reflexivity|].
    destruct (operator_nonempty _ Ho) as (x & w & Hw).
    assert (Hnil : inner l2 = []).
    { rewrite Hw in Hi. injection Hi as _ Hi. symmetry in Hi. apply app_eq_nil in Hi. apply Hi. }
    rewrite Hi. apply Lex_operator; auto.
    + intros t' s' Ho' Heq. apply (Hm t' s'); auto. rewrite Hi. exact Heq.
    + rewrite Hnil. constructor.
  - intros [= <- <-]. exists (TWhitespace b). split; [reflexivity|].
    assert (Hnil : inner l2 = []).
    { destruct b; [congruence|]. injection Hi as _ Hi. symmetry in Hi. apply app_eq_nil in Hi. apply Hi. }
    rewrite Hi. apply Lex_blanks; auto. rewrite Hnil. constructor.
  - intros [= <- <-]. exists TBackslash. split; [reflexivity|]. injection Hi as ->. constructor.
  - injection Hi as <- Hi2. rewrite Hl2. intros H. apply lit_loop_spec in H; [|auto].
    destruct H as (w2 & s & -> & Hi3 & _). rewrite <- Hi2 in Hi3.
    symmetry in Hi3. apply app_eq_nil in Hi3. destruct Hi3 as [-> ->].
    simpl. destruct (name_start_char c) eqn:En; cbn [word_tok]; eexists; (split; [reflexivity|]).
    + apply (Lex_name c [] [] []); auto using Lex_end, stops_nil. apply name_start_char_spec; auto.
    + apply (Lex_literal c [] [] []); auto using Lex_end, stops_nil.
      rewrite <- name_start_char_spec by auto. congruence.
Qed.

Lemma collect_spec fuel l ts : lwf l -> collect fuel l = Some ts -> SL l ts.
Proof.
  revert l ts; induction fuel as [|f IH]; intros l ts Hl; [discriminate|].
  simpl. destruct (lexer_next l) as [t l'] eqn:E.
  apply (next_spec esc_tok) in E; [|apply esc_tok_good|exact Hl].
  destruct t as [t|].
  - destruct E as [Hl' E]. destruct (collect f l') as [ts'|] eqn:Ec; [|discriminate].
    intros [= <-]. apply E. apply IH; auto.
  - intros [= <-]. exact E.
Qed.

(** ** The tokenisation is unique *)

Definition all_operators : list token :=
  [ TNewline; TParenOpen; TParenClose; TCurlyOpen; TCurlyClose; TSquareOpen; TSquareClose;
    TBang; TTilde; TPound; TStar; TQuestion; TPercent; TDash; TEquals;
    TPlus; TColon; TAt; TCaret; TSlash; TComma;
    TSingleQuote; TDoubleQuote; TBacktick; TSemi; TAmp; TPipe; TAndIf; TOrIf; TDSemi;
    TLess; TGreat; TDLess; TDGreat; TGreatAnd; TLessAnd; TDLessDash; TClobber; TLessGreat;
    TDollar ] ++ map TParamPositional [P0; P1; P2; P3; P4; P5; P6; P7; P8; P9].

Definition operator_of (s : str) : option token :=
  find (fun t => str_eqb (as_str t) s) all_operators.

Lemma operator_of_spec t : operator t -> operator_of (as_str t) = Some t.
Proof.
  destruct t as [| | | | | | | | | | | | | | | | | | | | | | | | | | | | | | | | | | | | | | | | |[]| | |];
    simpl; intros H; try contradiction; reflexivity.
Qed.

Lemma operator_inj t t' : operator t -> operator t' -> as_str t = as_str t' -> t = t'.
Proof.
  intros H H' E. apply operator_of_spec in H, H'. rewrite E in H. congruence.
Qed.

Lemma operator_first t c s :
  operator t -> as_str t = c :: s -> ~ blank c /\ c <> backslash /\ ~ ordinary c.
Proof.
  intros Ho Hs. split; [|split].
  - intros [H1 H2].
    destruct t as [| | | | | | | | | | | | | | | | | | | | | | | | | | | | | | | | | | | | | | | | |[]| | |];
    simpl in Ho; try contradiction; simpl in Hs; injection Hs as <- _; try discriminate; congruence.
  - destruct t as [| | | | | | | | | | | | | | | | | | | | | | | | | | | | | | | | | | | | | | | | |[]| | |];
    simpl in Ho; try contradiction; simpl in Hs; injection Hs as <- _; discriminate.
  - intros (_ & _ & H). exact (H _ _ Ho Hs).
Qed.

Lemma span_unique (P : char -> Prop) w w' s s' :
  Forall P w -> Forall P w' -> stops P s -> stops P s' -> w ++ s = w' ++ s' -> w = w' /\ s = s'.
Proof.
  intros Hw. revert w'. induction Hw as [|c w Hc Hw IH]; intros w' Hw' Hs Hs' Heq.
  - destruct w' as [|c' w']; [auto|]. inversion Hw'; subst. exfalso. eapply Hs; [exact Heq|auto].
  - destruct w' as [|c' w'].
    + exfalso. eapply Hs'; [symmetry; exact Heq|auto].
    + inversion Hw'; subst. injection Heq as -> Heq.
      destruct (IH w') as [-> ->]; auto.
Qed.

Lemma app_inv_len_iff {A} (a b c d : list A) :
  a ++ b = c ++ d -> (length a <= length c)%nat -> (length c <= length a)%nat -> a = c /\ b = d.
Proof.
  revert c; induction a as [|x a IH]; intros [|y c]; simpl; intros H L1 L2; try lia; auto.
  injection H as -> H. destruct (IH c) as [-> ->]; auto; lia.
Qed.

Lemma blank_not_ordinary c : blank c -> ordinary c -> False.
Proof. intros [H _] [H' _]. congruence. Qed.

(** How a non-empty tokenisation may start. *)
Lemma Lexes_cons c s ts : Lexes (c :: s) ts ->
  (exists t r ts', operator t /\ c :: s = as_str t ++ r /\ ts = t :: ts' /\ (forall t' s', operator t' -> c :: s = as_str t' ++ s' ->
        (length (as_str t') <= length (as_str t))%nat) /\ Lexes r ts' /\
     ~ blank c /\ c <> backslash /\ ~ ordinary c) \/
  (exists b r ts', blank c /\ s = b ++ r /\ Forall blank b /\ stops blank r /\
     ts = TWhitespace (c :: b) :: ts' /\ Lexes r ts') \/
  (exists w r ts', id_start c /\ s = w ++ r /\ Forall id_char w /\ stops id_char r /\
     ts = TName (c :: w) :: ts' /\ Lexes r ts') \/
  (exists w r ts', ordinary c /\ ~ id_start c /\ s = w ++ r /\ Forall ordinary w /\
     stops ordinary r /\ ts = TLiteral (c :: w) :: ts' /\ Lexes r ts') \/
  (c = backslash /\ s = [] /\ ts = [TBackslash]) \/
  (exists x r t ts', c = backslash /\ s = x :: r /\ ts = TBackslash :: t :: ts' /\
     Lexes [x] [t] /\ Lexes r ts').
Proof.
  intros H. inversion H as [|t s' ts' Ho Hm Hs Hx Hy|b s' ts' Hb Hf Hs Hl Hx Hy| | | |]; subst.
  - left. exists t, s', ts'. split; [auto|]. split; [auto|]. split; [auto|].
    split. { intros t' s'' A B. apply (Hm t' s''); auto; congruence. }
    destruct (operator_nonempty _ Ho) as (x & w & Hz). rewrite Hz in Hx. injection Hx as -> _.
    split; [exact Hs|]. eapply operator_first; eauto.
  - right. left. destruct b as [|x b]; [congruence|]. simpl in Hx. injection Hx as -> <-.
    inversion Hf; subst. exists b, s', ts'. repeat (split; [now auto|]). auto.
  - right. right. left. exists w, s0, ts0. repeat (split; [now auto|]). auto.
  - right. right. right. left. exists w, s0, ts0. repeat (split; [now auto|]). auto.
  - right. right. right. right. left. auto.
  - right. right. right. right. right. exists c0, s0, t, ts0. repeat (split; [now auto|]). auto.
Qed.

Set Warnings "-unused-intro-pattern".
Theorem Lexes_deterministic s a b : Lexes s a -> Lexes s b -> a = b.
Proof.
  remember (length s) as n eqn:Hn. assert (Hle : (length s <= n)%nat) by lia. clear Hn.
  revert s a b Hle. induction n as [|n IH]; intros s a b Hle Ha Hb.
  { destruct s; [|simpl in Hle; lia]. apply Lexes_nil in Ha, Hb. congruence. }
  destruct s as [|c s]; [apply Lexes_nil in Ha, Hb; congruence|].
  simpl in Hle.
  apply Lexes_cons in Ha, Hb.
  destruct Ha as [(t & r & ts & Ho & Hs & -> & Hm & Hl & Hnb & Hnbs & Hno)|[(w & r & ts & Hc & Hs & Hw & Hst & -> & Hl)|
    [(w & r & ts & Hc & Hs & Hw & Hst & -> & Hl)|[(w & r & ts & Hc & Hni & Hs & Hw & Hst & -> & Hl)|[(Hc & Hs & ->)|
    (x & r & t & ts & Hc & Hs & -> & Hx & Hl)]]]]];
  destruct Hb as [(t' & r' & ts' & Ho' & Hs' & -> & Hm' & Hl' & Hnb' & Hnbs' & Hno')|[(w' & r' & ts' & Hc' & Hs' & Hw' & Hst' & -> & Hl')|
    [(w' & r' & ts' & Hc' & Hs' & Hw' & Hst' & -> & Hl')|[(w' & r' & ts' & Hc' & Hni' & Hs' & Hw' & Hst' & -> & Hl')|[(Hc' & Hs' & ->)|
    (x' & r' & t' & ts' & Hc' & Hs' & -> & Hx' & Hl')]]]]];
  try (exfalso; first [ contradiction | congruence
                      | destruct Hc' as [Hc1' _]; contradiction
                      | destruct Hc as [Hc1 _]; contradiction
                      | destruct Hc' as [Hc1' _]; eapply blank_not_ordinary; eassumption
                      | destruct Hc as [Hc1 _]; eapply blank_not_ordinary; eassumption
                      | eapply blank_not_ordinary; eassumption
                      | subst; destruct Hc' as [_ Hq]; apply Hq; reflexivity
                      | subst; destruct Hc as [_ Hq]; apply Hq; reflexivity
                      | subst; destruct Hc' as [? ?]; discriminate
                      | subst; destruct Hc as [? ?]; discriminate
                      | subst; destruct Hc' as [_ [Hq _]]; apply Hq; reflexivity
                      | subst; destruct Hc as [_ [Hq _]]; apply Hq; reflexivity
                      | subst; destruct Hc' as [[_ [Hq _]] _]; apply Hq; reflexivity
                      | subst; destruct Hc as [[_ [Hq _]] _]; apply Hq; reflexivity ]).
  - pose proof (Hm _ _ Ho' Hs') as L1. pose proof (Hm' _ _ Ho Hs) as L2.
    assert (E : as_str t = as_str t' /\ r = r').
    { rewrite Hs in Hs'. apply app_inv_len_iff; auto. }
    destruct E as [E ->]. apply operator_inj in E; auto. subst t'. f_equal.
    apply (IH r'); auto. destruct (operator_nonempty _ Ho) as (x & y & Hz).
    rewrite Hz in Hs. injection Hs as _ ->. rewrite app_length in Hle. lia.
  - rewrite Hs in Hs'. apply span_unique with (P := blank) in Hs'; auto. destruct Hs' as [-> ->].
    f_equal. apply (IH r'); auto. subst s. rewrite app_length in Hle. lia.
  - rewrite Hs in Hs'. apply span_unique with (P := id_char) in Hs'; auto. destruct Hs' as [-> ->].
    f_equal. apply (IH r'); auto. subst s. rewrite app_length in Hle. lia.
  - rewrite Hs in Hs'. apply span_unique with (P := ordinary) in Hs'; auto. destruct Hs' as [-> ->].
    f_equal. apply (IH r'); auto. subst s. rewrite app_length in Hle. lia.
  - reflexivity.
  - rewrite Hs in Hs'. injection Hs' as <- <-. subst s. simpl in Hle. f_equal.
    assert (E : [t] = [t']) by (apply (IH [x]); auto; simpl; lia).
    injection E as ->. f_equal. apply (IH r); auto. lia.
Qed.

(** ** C03 *)

(** The lexer computes the prescribed tokenisation... *)
Theorem lex_Lexes s : Lexes s (lex s).
Proof. pose proof (lex_total s) as H. apply collect_spec in H; [exact H|exact I]. Qed.

(** ... and nothing else. *)
Theorem lex_maximal_munch s ts : lex s = ts <-> Lexes s ts.
Proof.
  split; [intros <-; apply lex_Lexes|]. intros H. eapply Lexes_deterministic; eauto using lex_Lexes.
Qed.

(** The knot tied by [esc_tok]: the token of an escaped character is what the lexer itself yields
    first for that character alone. *)
Theorem esc_tok_eq c : esc_tok c = fst (lexer_next (lexer_new [c])).
Proof.
  destruct (esc_tok_good c) as (t & -> & Ht).
  pose proof (lex_Lexes [c]) as H. pose proof (Lexes_deterministic _ _ _ Ht H) as E.
  unfold lex in E. cbn [collect length] in E.
  destruct (lexer_next (lexer_new [c])) as [[t'|] l']; simpl; [|discriminate].
  destruct (lexer_next l') as [[t''|] l'']; simpl in E; [|congruence].
  discriminate.
Qed.

(** ** C01 *)
Lemma Lexes_text s ts : Lexes s ts -> concat_tokens ts = s.
Proof.
  induction 1; simpl; try rewrite IHLexes; try reflexivity.
  simpl in IHLexes1. rewrite app_nil_r in IHLexes1. rewrite IHLexes1, IHLexes2. reflexivity.
Qed.

Theorem lex_lossless s : concat_tokens (lex s) = s.
Proof. apply Lexes_text, lex_Lexes. Qed.

(** ** C02 *)
Lemma Lexes_nonempty s ts : Lexes s ts -> Forall (fun t => as_str t <> []) ts.
Proof.
  induction 1; repeat constructor; auto; try discriminate.
  - destruct (operator_nonempty t H) as (? & ? & ->). discriminate.
  - inversion IHLexes1; auto.
Qed.

Lemma Lexes_length s ts : Lexes s ts -> (length ts <= length s)%nat.
Proof.
  induction 1; simpl; rewrite ?app_length; try lia.
  - destruct (operator_nonempty t H) as (? & ? & ->). simpl. lia.
  - destruct b; [congruence|]. simpl. lia.
Qed.

Theorem lex_tokens_nonempty s t : In t (lex s) -> as_str t <> [].
Proof.
  intros H. pose proof (Lexes_nonempty _ _ (lex_Lexes s)) as F.
  rewrite Forall_forall in F. apply F, H.
Qed.

Theorem lex_length s : (length (lex s) <= length s)%nat.
Proof. apply Lexes_length, lex_Lexes. Qed.

(** ** C04 *)

(** Tokens the lexer can yield. *)
Definition lexable (t : token) : Prop :=
  match t with
  | TName (c :: w) => id_start c /\ Forall id_char w
  | TLiteral (c :: w) => ordinary c /\ ~ id_start c /\ Forall ordinary w
  | TWhitespace w => w <> [] /\ Forall blank w
  | TName [] | TLiteral [] => False
  | _ => True
  end.

Theorem lex_display t : lexable t -> lex (as_str t) = [t].
Proof.
  intros H. apply lex_maximal_munch.
  destruct (operator_dec t) as [Ho|Hno].
  - rewrite <- (app_nil_r (as_str t)). apply Lex_operator; auto using Lex_end.
    rewrite app_nil_r. intros t' s' _ ->. rewrite app_length. lia.
  - destruct t; simpl in Hno; try (exfalso; tauto); simpl in H |- *.
    + apply Lex_backslash_end.
    + destruct H. rewrite <- (app_nil_r s) at 1. apply Lex_blanks; auto using stops_nil, Lex_end.
    + destruct s as [|c w]; [contradiction|]. destruct H as (H1 & H2 & H3).
      rewrite <- (app_nil_r w) at 1. apply Lex_literal; auto using stops_nil, Lex_end.
    + destruct s as [|c w]; [contradiction|]. destruct H as (H1 & H2).
      rewrite <- (app_nil_r w) at 1. apply Lex_name; auto using stops_nil, Lex_end.
Qed.

(** Conversely every token the lexer yields is of that form. *)
Theorem lex_lexable s t : In t (lex s) -> lexable t.
Proof.
  intros Hin. revert t Hin. apply Forall_forall.
  pose proof (lex_Lexes s) as H. induction H; try (constructor; [|assumption]).
  - constructor.
  - destruct t; simpl in *; auto; contradiction.
  - simpl; auto.
  - simpl; auto.
  - simpl; auto.
  - repeat constructor.
  - constructor; [exact I|]. constructor; [|assumption]. inversion IHLexes1; auto.
Qed.

(** ** C05 *)

(** The state after [n] calls of [next]. *)
Fixpoint after (n : nat) (l : lexer) : lexer :=
  match n with
  | O => l
  | S n' => after n' (snd (lexer_next l))
  end.

Lemma after_lwf n l : lwf l -> lwf (after n l).
Proof.
  revert l; induction n as [|n IH]; intros l H; simpl; auto. apply IH.
  destruct (lexer_next l) as [t l'] eqn:E. simpl.
  pose proof (next_spec _ _ _ _ esc_tok_good H E) as Hs.
  destruct t; [apply Hs|].
  unfold lexer_next, next_with in E.
  destruct (next_fueled_total esc_tok l) as (t & l1 & H1 & H2). rewrite H1 in E.
  injection E as -> ->. unfold next_fueled in H1.
  destruct (next_internal esc_tok l) as [t l2] eqn:E2. apply next_internal_size in E2.
  destruct t as [[]|]; try discriminate.
  - exfalso. destruct E2 as [E2 _]. lia.
  - injection H1 as ->. destruct E2 as [[-> _] _]. exact H.
Qed.

(** In every state reached from a fresh lexer, [size_hint] = (lo, Some hi) satisfies
    lo <= tokens left <= hi + 2. *)
Theorem lexer_size_hint_partial s n fuel ts :
  collect fuel (after n (lexer_new s)) = Some ts ->
  let (lo, hi) := lexer_size_hint (after n (lexer_new s)) in
  (lo <= length ts)%nat /\ exists h, hi = Some h /\ (length ts <= h + 2)%nat.
Proof.
  intros H. pose proof (after_lwf n (lexer_new s) I) as Hw.
  apply collect_spec in H; [|exact Hw].
  unfold lexer_size_hint, SL, lwf in *.
  destruct (after n (lexer_new s)) as [i [[t|[t|]|c]|]]; simpl in *.
  - destruct H as (ts' & -> & H). apply Lexes_length in H. simpl. split; [lia|]. eexists; split; [reflexivity|lia].
  - destruct H as (ts' & -> & H). apply Lexes_length in H. simpl. split; [lia|]. eexists; split; [reflexivity|lia].
  - subst ts. simpl. split; [lia|]. eexists; split; [reflexivity|lia].
  - pose proof (Lexes_length _ _ H) as L. simpl in L. split; [|eexists; split; [reflexivity|lia]].
    destruct ts; [|simpl; lia]. apply Lexes_text in H. discriminate.
  - apply Lexes_length in H. split; [lia|]. eexists; split; [reflexivity|lia].
Qed.

(** For a lexer from which nothing was read, the bounds are right. *)
Theorem lexer_size_hint_fresh s :
  let (lo, hi) := lexer_size_hint (lexer_new s) in
  (lo <= length (lex s))%nat /\ exists h, hi = Some h /\ (length (lex s) <= h)%nat.
Proof. simpl. split; [lia|]. eexists; split; [reflexivity|apply lex_length]. Qed.

(** The upper bound [tokens left <= hi] claimed by [size_hint] is false, and so is [hi + 1]:
    after the first token of [a\;] two tokens are left and [hi] is 0; after the first token of
    [a;] one token is left and [hi] is 0. *)
Theorem lexer_size_hint_upper_refuted :
  (let l := after 1 (lexer_new (s_of "a;")) in
   lexer_size_hint l = (1%nat, Some 0%nat) /\ collect 9 l = Some [TSemi]) /\
  (let l := after 1 (lexer_new (s_of "a\;")) in
   lexer_size_hint l = (1%nat, Some 0%nat) /\ collect 9 l = Some [TBackslash; TSemi]).
Proof. vm_compute. auto. Qed.

(** ** Totality *)

(** The lexer reads any source to its end. *)
Theorem lexer_terminates s : collect (S (length s)) (lexer_new s) = Some (lex s).
Proof. apply lex_total. Qed.

(** Once exhausted it stays exhausted ([impl FusedIterator]-like behaviour; lexer.rs 18: the
    source is fused). *)
Theorem lexer_fused l : fst (lexer_next l) = None -> snd (lexer_next l) = l.
Proof.
  unfold lexer_next, next_with.
  destruct (next_fueled_total esc_tok l) as (t & l1 & H1 & H2). rewrite H1. simpl. intros ->.
  unfold next_fueled in H1.
  destruct (next_internal esc_tok l) as [t l2] eqn:E2. apply next_internal_size in E2.
  destruct t as [[]|]; try discriminate.
  - exfalso. destruct E2 as [E2 _]. lia.
  - injection H1 as ->. apply E2.
Qed.

End LexTheorems.

(** A concrete case: the tokenisation of a source using every rule. *)
Example lex_example :
  lex (U := fun _ => false) (s_of "foo=1 \$x>>|;;&$9a  a_1\") =
  [TName (s_of "foo"); TEquals; TLiteral (s_of "1"); TWhitespace (s_of " "); TBackslash; TDollar;
   TName (s_of "x"); TDGreat; TPipe; TDSemi; TAmp; TParamPositional P9; TName (s_of "a");
   TWhitespace (s_of "  "); TName (s_of "a_1"); TBackslash].
Proof. vm_compute. reflexivity. Qed.

Example lexable_example : lexable (U := fun _ => false) (TName (s_of "ab_1")) /\
  lexable (U := fun _ => false) (TLiteral (s_of "1a")).
Proof.
  assert (H : forall c, In c (s_of "ab_1") -> ordinary c).
  { intros c Hc. simpl in Hc. split; [|split].
    - decompose [or] Hc; subst; try reflexivity; contradiction.
    - decompose [or] Hc; subst; try discriminate; contradiction.
    - intros t s Ho E. destruct (operator_nonempty t Ho) as (x & w & Hx).
      assert (x = c) by congruence. subst x.
      destruct t as [| | | | | | | | | | | | | | | | | | | | | | | | | | | | | | | | | | | | | | | | |[]| | |];
        simpl in Ho; try contradiction; simpl in Hx; injection Hx as <- _;
        decompose [or] Hc; try discriminate; contradiction. }
  assert (H1 : id_start (U := fun _ => false) 97).
  { split; [apply H; simpl; tauto|right; reflexivity]. }
  simpl. split.
  - split; [exact H1|].
    repeat apply Forall_cons; try apply Forall_nil; (split; [apply H; simpl; tauto|]);
      first [left; reflexivity|right; left; reflexivity|right; right; reflexivity].
  - split; [apply H; simpl; tauto|]. split; [intros [_ [E|E]]; discriminate E|].
    constructor; [apply H; simpl; tauto|constructor].
Qed.
