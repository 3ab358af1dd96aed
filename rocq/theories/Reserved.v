(** * Reserved words and tokens are recognised only as complete words (C29) *)
From Coq Require Import String.
From Verif Require Import Base Token Pos Lexer Ast Builder Prog Iter Located IterProofs ParserBase
  DefaultBuilder RunLemmas BaseRun Entry Api Total Runs Raises Gives Relex Forms BaseForms Command.

(** The tokens that end a word: operators, newlines and blanks. *)
Definition ends_word (t : token) : Prop :=
  In t [TNewline; TParenOpen; TParenClose; TSemi; TAmp; TLess; TGreat; TPipe; TAndIf; TOrIf; TDSemi;
        TDLess; TDGreat; TGreatAnd; TLessAnd; TDLessDash; TClobber; TLessGreat]
  \/ exists w, t = TWhitespace w.
Theorem word_delimiters t : is_word_delimiter t = true <-> ends_word t.
Proof.
  split.
  - destruct t; cbn; intros H; try discriminate H; try (now right; eexists); left; cbn; tauto.
  - intros [H|[w ->]]; [|reflexivity]. cbn in H.
    repeat (destruct H as [<-|H]; [reflexivity|]). contradiction.
Qed.
(** A token stands alone when nothing or a token that ends words follows. *)
Definition alone (rest : list token) : Prop := rest = [] \/ exists t rest', rest = t :: rest' /\ ends_word t.
Lemma alone_delimited rest : alone rest <-> delimited rest.
Proof.
  split.
  - intros [->|(t & r & -> & H)]; [exact I|]. now apply word_delimiters.
  - destruct rest as [|t r]; [now left|]. intros H. right. exists t, r. split; [reflexivity|]. now apply word_delimiters.
Qed.
(** The word [k] is next: an unquoted token spelling [k], standing alone. *)
Definition next_word (k : str) (us rest : list token) : Prop :=
  (us = TName k :: rest \/ us = TLiteral k :: rest) /\ alone rest.
Lemma next_word_keyword k ts rest : next_word k (skipw ts) rest <-> keyword k ts rest.
Proof.
  split.
  - intros [[E|E] A]; apply alone_delimited in A; [now apply kw_name|now apply kw_literal].
  - intros [us r E D|us r E D]; apply alone_delimited in D; split; auto.
Qed.

Lemma at_keyword_dec ks ts : {kr | In (fst kr) ks /\ keyword (fst kr) ts (snd kr)} + {~ at_keyword ks ts}.
Proof.
  destruct (skipw ts) as [|t rest] eqn:E.
  { right. intros (k & r & Hi & H). destruct H as [ts' r H D|ts' r H D]; rewrite H in E; discriminate. }
  assert (D : delimited rest \/ ~ delimited rest).
  { destruct rest as [|u r]; cbn; [now left|]. destruct (is_word_delimiter u); [now left|now right]. }
  assert (D' : {delimited rest} + {~ delimited rest}).
  { destruct rest as [|u r]; cbn; [now left|]. destruct (is_word_delimiter u); [now left|now right]. }
  destruct D' as [D'|D'].
  2:{ right. intros (k & r & Hi & H). destruct H as [ts' r H D2|ts' r H D2]; rewrite H in E; injection E as _ ->; contradiction. }
  destruct t; try (right; intros (k & r & Hi & H); destruct H as [ts' r H D2|ts' r H D2]; rewrite H in E; discriminate).
  - destruct (in_dec str_dec s ks) as [Hi|Hi].
    + left. exists (s, rest). split; [exact Hi|]. now apply kw_literal.
    + right. intros (k & r & Hk & H). destruct H as [ts' r H D2|ts' r H D2]; rewrite H in E; [discriminate|].
      injection E as -> _. contradiction.
  - destruct (in_dec str_dec s ks) as [Hi|Hi].
    + left. exists (s, rest). split; [exact Hi|]. now apply kw_name.
    + right. intros (k & r & Hk & H). destruct H as [ts' r H D2|ts' r H D2]; rewrite H in E; [|discriminate].
      injection E as -> _. contradiction.
Qed.
Lemma at_token_dec tks ts : {tr | In (fst tr) tks /\ skipw ts = fst tr :: snd tr /\ delimited (snd tr)} + {~ at_token tks ts}.
Proof.
  destruct (skipw ts) as [|t rest] eqn:E.
  { right. intros (k & r & Hi & H & D). congruence. }
  assert (D' : {delimited rest} + {~ delimited rest}).
  { destruct rest as [|u r]; cbn; [now left|]. destruct (is_word_delimiter u); [now left|now right]. }
  destruct D' as [D'|D']; [|right; intros (k & r & Hi & H & D); congruence].
  destruct (in_dec token_dec t tks) as [Hi|Hi].
  - left. exists (t, rest). auto.
  - right. intros (k & r & Hk & H & D). congruence.
Qed.

Section Builder.
Variables (B : builder) (fuel : nat) (s : token_iter) (b : bst B).
Hypothesis HR : parser_reach B s b.
Hypothesis Hf : (List.length (tokens_left s) + 2 < fuel)%nat.

(** The check answers [k] exactly when [k] is one of the words asked for and is next after blanks;
    whatever the answer, only the blanks are consumed. *)
Theorem peek_word_exact ws : ws <> [] ->
  exists r s', run concrete (call B (APeekReservedWord ws) fuel) s b = (OOk r, s', b)
    /\ tokens_left s' = skipw (tokens_left s)
    /\ forall k, r = Some k <-> In k ws /\ exists rest, next_word k (skipw (tokens_left s)) rest.
Proof.
  intros Hn. destruct (at_keyword_dec ws (tokens_left s)) as [[[k rest] [Hi Hk]]|Hk]; cbn [fst snd] in *.
  - destruct (runs_concrete B (APeekReservedWord ws) fuel s b (Some k) (skipw (tokens_left s)) HR Hf) as (s' & E & T).
    { eapply runs_peek_word_yes; eauto. }
    exists (Some k), s'. split; [exact E|]. split; [exact T|].
    intros k'. split.
    + intros [= <-]. split; [exact Hi|]. exists rest. now apply next_word_keyword.
    + intros (_ & rest' & H). apply next_word_keyword in Hk. destruct H as [H _], Hk as [Hk _].
      destruct H as [H|H], Hk as [Hk|Hk]; rewrite H in Hk; congruence.
  - destruct (runs_concrete B (APeekReservedWord ws) fuel s b None (skipw (tokens_left s)) HR Hf) as (s' & E & T).
    { now apply runs_peek_word_no. }
    exists None, s'. split; [exact E|]. split; [exact T|].
    intros k'. split; [discriminate|]. intros (Hi & rest & H). elim Hk. exists k', rest. split; [exact Hi|].
    now apply next_word_keyword.
Qed.
(** Asking for no word finds none and consumes nothing, not even blanks. *)
Theorem peek_no_word :
  exists s', run concrete (call B (APeekReservedWord []) fuel) s b = (OOk None, s', b) /\ tokens_left s' = tokens_left s.
Proof. apply (runs_concrete B (APeekReservedWord []) fuel s b None); auto. cbn [call]. apply runs_ret. Qed.
(** [reserved_word] consumes the word it found and nothing after it, or only blanks. *)
Theorem take_word_exact ws : ws <> [] ->
  (exists k rest s', In k ws /\ next_word k (skipw (tokens_left s)) rest
     /\ run concrete (call B (AReservedWord ws) fuel) s b = (OOk (Some k), s', b) /\ tokens_left s' = rest)
  \/ (exists s', (forall k rest, In k ws -> ~ next_word k (skipw (tokens_left s)) rest)
     /\ run concrete (call B (AReservedWord ws) fuel) s b = (OOk None, s', b) /\ tokens_left s' = skipw (tokens_left s)).
Proof.
  intros Hn. destruct (at_keyword_dec ws (tokens_left s)) as [[[k rest] [Hi Hk]]|Hk]; cbn [fst snd] in *.
  - left. destruct (runs_concrete B (AReservedWord ws) fuel s b (Some k) rest HR Hf) as (s' & E & T).
    { eapply runs_reserved_word; eauto. }
    exists k, rest, s'. split; [exact Hi|]. split; [now apply next_word_keyword|auto].
  - right. destruct (runs_concrete B (AReservedWord ws) fuel s b None (skipw (tokens_left s)) HR Hf) as (s' & E & T).
    { cbn [call]. unfold p_reserved_word, reserved_word. eapply runs_call; [now apply runs_peek_word_no|]. apply runs_ret. }
    exists s'. split; [|auto]. intros k rest Hi H. apply Hk. exists k, rest. split; [exact Hi|]. now apply next_word_keyword.
Qed.
(** The same for reserved tokens such as braces. *)
Theorem peek_token_exact tks : tks <> [] -> Forall (fun t => solid t = true) tks ->
  exists r s', run concrete (call B (APeekReservedToken tks) fuel) s b = (OOk r, s', b)
    /\ tokens_left s' = skipw (tokens_left s)
    /\ forall t, r = Some t <-> In t tks /\ exists rest, skipw (tokens_left s) = t :: rest /\ alone rest.
Proof.
  intros Hn Hs. destruct (at_token_dec tks (tokens_left s)) as [[[k rest] (Hi & Hk & D)]|Hk]; cbn [fst snd] in *.
  - destruct (runs_concrete B (APeekReservedToken tks) fuel s b (Some k) (k :: rest) HR Hf) as (s' & E & T).
    { eapply runs_peek_token_yes; eauto. }
    exists (Some k), s'. split; [exact E|]. split; [congruence|].
    intros k'. split.
    + intros [= <-]. split; [exact Hi|]. exists rest. split; [exact Hk|]. now apply alone_delimited.
    + intros (_ & rest' & H & _). congruence.
  - destruct (runs_concrete B (APeekReservedToken tks) fuel s b None (skipw (tokens_left s)) HR Hf) as (s' & E & T).
    { now apply runs_peek_token_no. }
    exists None, s'. split; [exact E|]. split; [exact T|].
    intros k'. split; [discriminate|]. intros (Hi & rest & H & A). elim Hk. exists k', rest. split; [exact Hi|].
    split; [exact H|]. now apply alone_delimited.
Qed.
(** [reserved_token] consumes the token it found; when there is none it fails. *)
Theorem take_token_exact tks : tks <> [] -> Forall (fun t => solid t = true) tks ->
  (exists t rest s', In t tks /\ skipw (tokens_left s) = t :: rest /\ alone rest
     /\ run concrete (call B (AReservedToken tks) fuel) s b = (OOk t, s', b) /\ tokens_left s' = rest)
  \/ (exists x s' b', (forall t rest, In t tks -> skipw (tokens_left s) = t :: rest -> ~ alone rest)
     /\ run concrete (call B (AReservedToken tks) fuel) s b = (OErr x, s', b')
     /\ (x = UnexpectedEOF \/ exists t p, x = Unexpected t p)).
Proof.
  intros Hn Hs. destruct (at_token_dec tks (tokens_left s)) as [[[k rest] (Hi & Hk & D)]|Hk]; cbn [fst snd] in *.
  - left. destruct (runs_concrete B (AReservedToken tks) fuel s b k rest HR Hf) as (s' & E & T).
    { cbn [call]. unfold p_reserved_token, reserved_token. eapply runs_call; [eapply runs_reserved_token; eauto|]. apply runs_ret. }
    exists k, rest, s'. repeat split; auto. now apply alone_delimited.
  - right. destruct (raises_concrete B (AReservedToken tks) fuel s b
      (fun x => x = UnexpectedEOF \/ exists t p, x = Unexpected t p) HR Hf) as (x & s' & b' & E & HE).
    { cbn [call]. unfold p_reserved_token, reserved_token, reserved_token_res.
      apply raises_assoc. eapply raises_after; [now apply runs_peek_token_no|].
      cbv beta match. apply raises_assoc, raises_peek.
      assert (G : forall ts, raises (fun x => x = UnexpectedEOF \/ exists t p, x = Unexpected t p)
         (bind (bind make_unexpected_err (fun e => ret (inr e : token + perr (b_err B))))
             (fun r => match r with inl t => ret t | inr e => throw e end) : Prog.prog (bst B) (b_err B) token) ts).
      { intros ts L e b0 HL. unfold make_unexpected_err. destruct L as [|[t p] L]; cbn.
        - now left.
        - right. now exists t, p. }
      destruct (existsb _ tks).
      - apply raises_assoc, raises_assoc, raises_next, raises_retb, G.
      - apply raises_assoc, raises_retb, G. }
    exists x, s', b'. split; [|auto]. intros t rest Hi H A. apply Hk. exists t, rest.
    split; [exact Hi|]. split; [exact H|]. now apply alone_delimited.
Qed.
End Builder.

(** Cases: a keyword at the end of input, before an operator, glued to more text, quoted. *)
Definition asks (src : str) (U : Uni := fun _ => false) :=
  fst (fst (run concrete (call default_builder (APeekReservedWord [s_of "for"; s_of "if"]) 100) (ti_new (lex src)) tt)).
Example word_witness : asks (s_of "  if") = OOk (Some (s_of "if")) /\ asks (s_of " for;") = OOk (Some (s_of "for"))
  /\ asks (s_of "if=1") = OOk None /\ asks (s_of "'if'") = OOk None /\ asks (s_of "iffy") = OOk None.
Proof. repeat split; vm_compute; reflexivity. Qed.
