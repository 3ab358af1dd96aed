(** * What the lexer takes from its source of characters (C47)

    [Lexer.v] models the lexer's [Peekable<Fuse<I>>] by the characters it has yet to consume.  Here the
    [Peekable] is modelled with its slot, so that one can tell which characters have been taken from the
    source [I]; and the two are shown to agree. *)
From Coq Require Import String.
From Verif Require Import Base Token Lexer LexSpec LexProofs LexTheorems Pos Ast Builder Prog Iter Located IterProofs RunLemmas Pure Entry Command Relex Forms BaseForms DefaultBuilder Pure Lazy LazyLine.
Local Open Scope N_scope.

(** lexer.rs 19, [std::iter::Peekable] over a fused iterator: [source] is what the iterator has yet to
    yield; [slot] holds the result of a peek, if there was one. *)
Record peekable := mkPk { source : list char; slot : option (option char) }.
(** [Peekable::next] *)
Definition pk_next (i : peekable) : option char * peekable :=
  match slot i with
  | Some v => (v, mkPk (source i) None)
  | None => match source i with
            | [] => (None, i)
            | c :: s => (Some c, mkPk s None)
            end
  end.
(** [Peekable::peek] *)
Definition pk_peek (i : peekable) : option char * peekable :=
  match slot i with
  | Some v => (v, i)
  | None => match source i with
            | [] => (None, mkPk [] (Some None))
            | c :: s => (Some c, mkPk s (Some (Some c)))
            end
  end.

(** lexer.rs 18-21: [struct Lexer]. *)
Record lexer2 := mkLexer2 { chars : peekable; peeked2 : option tol }.
(** lexer.rs 25-30: [Lexer::new]. *)
Definition lexer2_new (s : str) : lexer2 := mkLexer2 (mkPk s None) None.

(** lexer.rs 33-39: [next_is]. *)
Definition next_is2 (c : char) (i : peekable) : bool * peekable :=
  let (x, i1) := pk_peek i in
  match x with
  | Some x => if x =? c then (true, snd (pk_next i1)) else (false, i1)
  | None => (false, i1)
  end.

(** lexer.rs 174-181: the loop collecting whitespace; [fuel] bounds its iterations. *)
Fixpoint take_blanks2 (fuel : nat) (i : peekable) : str * peekable :=
  match fuel with
  | O => ([], i)
  | S fuel' =>
      let (x, i1) := pk_peek i in
      match x with
      | Some c =>
          if is_whitespace c && negb (c =? 10)
          then let (b, r) := take_blanks2 fuel' (snd (pk_next i1)) in (c :: b, r)
          else ([], i1)
      | None => ([], i1)
      end
  end.

Section Lexer2.
Context {U : Uni}.

(** lexer.rs 41-190: [next_internal]; see [Lexer.next_internal] for [esc]. *)
Definition next_internal2 (esc : char -> option token) (l : lexer2) : option tol * lexer2 :=
  match peeked2 l with
  | Some p => (Some p, mkLexer2 (chars l) None)
  | None =>
    let (cur, i) := pk_next (chars l) in
    match cur with
    | None => (None, mkLexer2 i None)
    | Some cur =>
      let ret t i' := (Some (Tok t), mkLexer2 i' None) in
      match assoc cur single_char_tokens with
      | Some t => ret t i
      | None =>
        if cur =? 92 (* \ *) then
          let (c, i') := pk_next i in
          (Some (Escaped (match c with Some c => esc c | None => None end)), mkLexer2 i' None)
        else if cur =? 59 (* ; *) then
          let (b, i') := next_is2 59 i in if b : bool then ret TDSemi i' else ret TSemi i'
        else if cur =? 38 (* & *) then
          let (b, i') := next_is2 38 i in if b : bool then ret TAndIf i' else ret TAmp i'
        else if cur =? 124 (* | *) then
          let (b, i') := next_is2 124 i in if b : bool then ret TOrIf i' else ret TPipe i'
        else if cur =? 36 (* $ *) then
          let (d, i1) := pk_peek i in
          match match d with Some d => assoc d digit_positional | None => None end with
          | Some p => ret (TParamPositional p) (snd (pk_next i1))
          | None => ret TDollar i1
          end
        else if cur =? 60 (* < *) then
          let (b, i1) := next_is2 60 i in
          if b : bool then
            let (b2, i2) := next_is2 45 i1 in
            if b2 : bool then ret TDLessDash i2 else ret TDLess i2
          else
            let (b2, i2) := next_is2 38 i1 in
            if b2 : bool then ret TLessAnd i2
            else
              let (b3, i3) := next_is2 62 i2 in
              if b3 : bool then ret TLessGreat i3 else ret TLess i3
        else if cur =? 62 (* > *) then
          let (b, i1) := next_is2 38 i in
          if b : bool then ret TGreatAnd i1
          else
            let (b2, i2) := next_is2 62 i1 in
            if b2 : bool then ret TDGreat i2
            else
              let (b3, i3) := next_is2 124 i2 in
              if b3 : bool then ret TClobber i3 else ret TGreat i3
        else if is_whitespace cur then
          let (b, i') := take_blanks2 (S (S (List.length (source i)))) i in ret (TWhitespace (cur :: b)) i'
        else (Some (Lit cur), mkLexer2 i None)
      end
    end
  end.

(** lexer.rs 223-251: the loop of [next] collecting a word. *)
Fixpoint lit_loop2 (esc : char -> option token) (fuel : nat) (is_name : bool) (word : str)
    (l : lexer2) : option (option token * lexer2) :=
  match fuel with
  | O => None
  | S fuel' =>
      let finish (l' : lexer2) :=
        Some (Some (if is_name then TName word else TLiteral word), l') in
      let (t, l') := next_internal2 esc l in
      match t with
      | Some (Tok t) => finish (mkLexer2 (chars l') (Some (Tok t)))
      | Some (Escaped t) => finish (mkLexer2 (chars l') (Some (Escaped t)))
      | Some (Lit c) =>
          if is_name && negb (name_char c)
          then Some (Some (TName word), mkLexer2 (chars l') (Some (Lit c)))
          else lit_loop2 esc fuel' is_name (word ++ [c]) l'
      | None => finish l'
      end
  end.

(** lexer.rs 196-253: [Lexer::next]; the fuel is [Lexer.next_with]'s. *)
Definition unconsumed (i : peekable) : list char :=
  match slot i with Some (Some c) => c :: source i | _ => source i end.
Definition lexer2_next (l : lexer2) : option token * lexer2 :=
  let (t, l') := next_internal2 esc_tok l in
  match t with
  | None => (None, l')
  | Some (Tok t) => (Some t, l')
  | Some (Escaped t) => (Some TBackslash, mkLexer2 (chars l') (option_map Tok t))
  | Some (Lit c) =>
      match lit_loop2 esc_tok (S (List.length (unconsumed (chars l)))) (name_start_char c) [c] l' with
      | Some r => r
      | None => (None, l)
      end
  end.

(** ** The two models agree *)
Definition pwf (i : peekable) : Prop := slot i = Some None -> source i = [].
Definition of2 (l : lexer2) : lexer := mkLexer (unconsumed (chars l)) (peeked2 l).

Lemma pk_next_abs i : pwf i -> pwf (snd (pk_next i)) /\ slot (snd (pk_next i)) = None /\
  fst (pk_next i) = hd_error (unconsumed i) /\ unconsumed (snd (pk_next i)) = tl (unconsumed i).
Proof.
  destruct i as [s [[c|]|]]; unfold pwf, pk_next, unconsumed; cbn; intros H.
  - repeat split; discriminate.
  - rewrite (H eq_refl). repeat split; discriminate.
  - destruct s; cbn; repeat split; discriminate.
Qed.
Lemma pk_peek_abs i : pwf i -> pwf (snd (pk_peek i)) /\
  fst (pk_peek i) = hd_error (unconsumed i) /\ unconsumed (snd (pk_peek i)) = unconsumed i.
Proof.
  destruct i as [s [[c|]|]]; unfold pwf, pk_peek, unconsumed; cbn; intros H.
  - repeat split; discriminate.
  - pose proof (H eq_refl) as ->. repeat split.
  - destruct s; cbn; repeat split; discriminate.
Qed.
Lemma next_is_abs c i : pwf i -> pwf (snd (next_is2 c i)) /\
  next_is c (unconsumed i) = (fst (next_is2 c i), unconsumed (snd (next_is2 c i))).
Proof.
  intros H. unfold next_is2. destruct (pk_peek_abs i H) as (H1 & H2 & H3). destruct (pk_peek i) as [x i1]. cbn in H1, H2, H3. subst x.
  destruct (pk_next_abs i1 H1) as (G1 & _ & _ & G4). rewrite H3 in G4.
  unfold next_is. destruct (unconsumed i) as [|x r]; cbn [hd_error tl] in *; [cbn; now rewrite H3|].
  destruct (x =? c); cbn; [now rewrite G4|now rewrite H3].
Qed.
Lemma take_blanks_abs : forall fuel i, pwf i -> (List.length (unconsumed i) < fuel)%nat -> pwf (snd (take_blanks2 fuel i)) /\
  take_blanks (unconsumed i) = (fst (take_blanks2 fuel i), unconsumed (snd (take_blanks2 fuel i))).
Proof.
  induction fuel as [|fuel IH]; intros i H Hl; [lia|]. cbn [take_blanks2].
  destruct (pk_peek_abs i H) as (H1 & H2 & H3). destruct (pk_peek i) as [x i1]. cbn in H1, H2, H3. subst x.
  destruct (pk_next_abs i1 H1) as (G1 & _ & _ & G4). rewrite H3 in G4.
  destruct (unconsumed i) as [|x r] eqn:E; cbn [hd_error tl take_blanks] in *; [cbn; now rewrite H3|].
  destruct (is_whitespace x && negb (x =? 10)); [|cbn; now rewrite H3].
  assert (Hf : (List.length (unconsumed (snd (pk_next i1))) < fuel)%nat) by (rewrite G4; cbn in Hl; lia).
  destruct (IH _ G1 Hf) as [I1 I2]. destruct (take_blanks2 fuel (snd (pk_next i1))) as [b i2] eqn:Eb. cbn in I1, I2 |- *.
  rewrite <- G4, I2. auto.
Qed.
Lemma len_unconsumed i : (List.length (unconsumed i) <= S (List.length (source i)))%nat.
Proof. unfold unconsumed. destruct (slot i) as [[c|]|]; cbn; lia. Qed.

(** A newline is taken last. *)
Definition newlinish (t : tol) : Prop := t = Tok TNewline \/ t = Escaped (Some TNewline).
Definition drained (p : option tol) (i : peekable) : Prop := forall t, p = Some t -> newlinish t -> slot i = None.
Definition lwf2 (l : lexer2) : Prop := pwf (chars l) /\ drained (peeked2 l) (chars l).

Ltac use_next_is := match goal with
  | |- context [next_is2 ?c ?i] => let E := fresh in let N := fresh in
      match goal with H : pwf i |- _ => destruct (next_is_abs c i H) as [N E]; rewrite E end;
      destruct (next_is2 c i) as [[|] ?]; cbn [fst snd] in N |- *; clear E
  end.
Lemma internal_abs esc l : lwf2 l ->
  next_internal esc (of2 l) = (fst (next_internal2 esc l), of2 (snd (next_internal2 esc l))) /\
  pwf (chars (snd (next_internal2 esc l))) /\ peeked2 (snd (next_internal2 esc l)) = None /\
  drained (fst (next_internal2 esc l)) (chars (snd (next_internal2 esc l))).
Proof.
  intros [Hw Hd]. unfold next_internal, next_internal2. destruct l as [i [p|]]; cbn [of2 peeked peeked2 chars inner].
  { cbn. auto. }
  cbn in Hw, Hd. destruct (pk_next_abs i Hw) as (H1 & Hs & H2 & H3).
  destruct (pk_next i) as [cur i1]. cbn in H1, Hs, H2, H3. subst cur.
  destruct (unconsumed i) as [|cur r] eqn:Eu; cbn [hd_error tl] in *.
  { unfold of2. cbn. rewrite H3, Eu. split; [|split; [|split]]; auto. intros t Ht. discriminate. }
  assert (D : forall t i2, t <> TNewline -> drained (Some (Tok t)) i2) by (intros t i2 N x [= <-] [E|E]; congruence).
  destruct (assoc cur single_char_tokens) as [t|] eqn:Ea.
  { unfold of2. cbn. rewrite H3. split; [reflexivity|split; [exact H1|split; [reflexivity|]]]. intros x _ _. exact Hs. }
  unfold of2. cbn [chars peeked2]. subst r.
  destruct (cur =? 92).
  { destruct (pk_next_abs i1 H1) as (G1 & Gs & G2 & G3). destruct (pk_next i1) as [c i2]. cbn in G1, Gs, G2, G3. subst c.
    destruct (unconsumed i1) as [|c r1]; cbn [hd_error tl fst snd chars peeked2] in *; rewrite G3; (split; [|split; [|split]]); auto; intros x _ _; exact Gs. }
  repeat match goal with |- context [cur =? ?k] => destruct (cur =? k); [repeat use_next_is; cbn [fst snd chars peeked2]; try solve [(split; [|split; [|split]]); auto; apply D; discriminate]|] end.
  - destruct (pk_peek_abs i1 H1) as (G1 & G2 & G3). destruct (pk_peek i1) as [d i2]. cbn in G1, G2, G3. subst d.
    destruct (pk_next_abs i2 G1) as (N1 & _ & _ & N4). rewrite G3 in N4.
    destruct (unconsumed i1) as [|d r1]; cbn [hd_error tl] in *; [cbn; rewrite G3; (split; [|split; [|split]]); auto; apply D; discriminate|].
    destruct (assoc d digit_positional); cbn [fst snd chars peeked2]; [rewrite N4|rewrite G3]; (split; [|split; [|split]]); auto; apply D; discriminate.
  - destruct (is_whitespace cur).
    + pose proof (len_unconsumed i1) as Hl. destruct (take_blanks_abs (S (S (List.length (source i1)))) i1 H1 ltac:(lia)) as [N E]. rewrite E.
      destruct (take_blanks2 _ _) as [b i2]. cbn [fst snd chars peeked2] in *. (split; [|split; [|split]]); auto. apply D. discriminate.
    + cbn. (split; [|split; [|split]]); auto. intros x [= <-] [E|E]; discriminate.
Qed.
Lemma loop_abs esc nm : forall fuel w l, lwf2 l ->
  match lit_loop2 esc fuel nm w l with
  | Some (t, l') => lit_loop esc fuel nm w (of2 l) = Some (t, of2 l') /\ lwf2 l' /\ t <> Some TNewline
  | None => lit_loop esc fuel nm w (of2 l) = None
  end.
Proof.
  induction fuel as [|fuel IH]; intros w l H; [reflexivity|]. cbn [lit_loop2 lit_loop].
  destruct (internal_abs esc l H) as (E & Hw & Hp & Hd). rewrite E. destruct (next_internal2 esc l) as [t l']. cbn [fst snd] in *.
  assert (N : forall u, Some (if nm then TName u else TLiteral u) <> Some TNewline) by (destruct nm; discriminate).
  destruct t as [[t|t|c]|].
  - unfold of2, lwf2. cbn. split; [reflexivity|split; [split|]]; auto.
  - unfold of2, lwf2. cbn. split; [reflexivity|split; [split|]]; auto.
  - destruct (nm && negb (name_char c)).
    + unfold of2, lwf2. cbn. split; [reflexivity|split; [split|]]; auto. discriminate.
    + apply IH. split; [exact Hw|]. rewrite Hp. intros x Hx. discriminate.
  - unfold lwf2. rewrite Hp. split; [reflexivity|split; [split; [exact Hw|intros x Hx; discriminate]|apply N]].
Qed.
Theorem lexer2_next_same l : lwf2 l ->
  lexer_next (of2 l) = (fst (lexer2_next l), of2 (snd (lexer2_next l))) /\ lwf2 (snd (lexer2_next l)) /\
  (fst (lexer2_next l) = Some TNewline -> slot (chars (snd (lexer2_next l))) = None /\ peeked2 (snd (lexer2_next l)) = None).
Proof.
  intros H. unfold lexer_next, next_with, next_fueled, lexer2_next.
  destruct (internal_abs esc_tok l H) as (E & Hw & Hp & Hd). rewrite E. destruct (next_internal2 esc_tok l) as [t l']. cbn [fst snd] in *.
  destruct t as [[t|t|c]|].
  - cbn. unfold lwf2. rewrite Hp. split; [reflexivity|split; [split; [exact Hw|intros x Hx; discriminate]|]]. intros [= ->]. split; [|reflexivity]. apply (Hd _ eq_refl). now left.
  - cbn. unfold of2, lwf2. cbn. split; [reflexivity|split; [split; [exact Hw|]|discriminate]].
    intros x Hx [-> | ->]; (destruct t as [t|]; [|discriminate]); cbn in Hx; [|discriminate]. injection Hx as ->.
    apply (Hd _ eq_refl). now right.
  - cbn [of2 inner]. assert (H' : lwf2 l') by (split; [exact Hw|rewrite Hp; intros x Hx; discriminate]).
    pose proof (loop_abs esc_tok (name_start_char c) (S (List.length (unconsumed (chars l)))) [c] l' H') as L.
    destruct (lit_loop2 _ _ _ _ _) as [[t l2]|] eqn:E2; [destruct L as (-> & L2 & L3); cbn; split; [reflexivity|split; [exact L2|intros X; elim (L3 X)]]|].
    exfalso. destruct (next_fueled_total esc_tok (of2 l)) as (t1 & l1 & T & _). unfold next_fueled in T. rewrite E in T. cbn [fst snd of2 inner] in T. fold (of2 l') in T. rewrite L in T. discriminate.
  - cbn. unfold lwf2. rewrite Hp. split; [reflexivity|split; [split; [exact Hw|intros x Hx; discriminate]|discriminate]].
Qed.

(** ** Taking tokens one by one *)
(** [n] calls of [next]. *)
Fixpoint draw (n : nat) (l : lexer2) : list token * lexer2 :=
  match n with
  | O => ([], l)
  | S n' => match lexer2_next l with
            | (Some t, l') => let (ts, l2) := draw n' l' in (t :: ts, l2)
            | (None, l') => ([], l')
            end
  end.
Lemma collect_more f : forall l r g, collect f l = Some r -> (f <= g)%nat -> collect g l = Some r.
Proof.
  induction f as [|f IH]; intros l r g H Hg; [discriminate|]. destruct g as [|g]; [lia|]. cbn in H |- *.
  destruct (lexer_next l) as [[t|] l']; [|exact H]. destruct (collect f l') as [r'|] eqn:E; [|discriminate].
  rewrite (IH _ _ g E ltac:(lia)). exact H.
Qed.
Lemma collect_same f g l r r' : collect f l = Some r -> collect g l = Some r' -> r = r'.
Proof.
  intros H G. apply (collect_more _ _ _ (f + g)) in H; [|lia]. apply (collect_more _ _ _ (f + g)) in G; [|lia]. congruence.
Qed.
(** The tokens drawn are the first of those the lexer yields, and those left are what it yields later. *)
Lemma draw_prefix : forall n l fuel all, lwf2 l -> collect fuel (of2 l) = Some all -> (n <= List.length all)%nat ->
  (fst (draw n l) = firstn n all) /\ lwf2 (snd (draw n l)) /\
  (exists fuel', collect fuel' (of2 (snd (draw n l))) = Some (skipn n all)) /\
  (n <> 0%nat -> last (fst (draw n l)) TSemi = TNewline -> slot (chars (snd (draw n l))) = None /\ peeked2 (snd (draw n l)) = None).
Proof.
  induction n as [|n IH]; intros l fuel all Hw Hc Hn.
  - cbn. split; [reflexivity|split; [exact Hw|split; [now exists fuel|now intros []]]].
  - destruct fuel as [|fuel]; [discriminate|]. cbn [collect] in Hc. destruct (lexer2_next_same l Hw) as (E & Hw' & Hnl).
    rewrite E in Hc. cbn [draw]. destruct (lexer2_next l) as [[t|] l']; cbn [fst snd] in *; [|injection Hc as <-; cbn in Hn; lia].
    destruct (collect fuel (of2 l')) as [all'|] eqn:E'; [|discriminate]. injection Hc as <-. cbn in Hn.
    destruct (IH l' fuel all' Hw' E' ltac:(lia)) as (I1 & I2 & I3 & I4).
    destruct (draw n l') as [ts l2] eqn:Ed. cbn [fst snd firstn skipn] in *. subst ts.
    split; [reflexivity|split; [exact I2|split; [exact I3|]]]. intros _ Hl.
    destruct n as [|n]; [cbn in Ed; injection Ed as <-; apply Hnl; cbn in Hl; now subst|].
    apply I4; [discriminate|]. destruct all' as [|u all']; [cbn in Hn; lia|]. exact Hl.
Qed.

(** When the token just yielded is a newline, the characters taken from the source are exactly those of
    the tokens yielded, and the lexer is as good as new: it holds nothing and goes on as a new lexer on the
    rest of the source would. *)
Theorem newline_token_last s pre next : lex s = pre ++ TNewline :: next ->
  exists l, draw (S (List.length pre)) (lexer2_new s) = (pre ++ [TNewline], l) /\
    l = lexer2_new (source (chars l)) /\ s = text (pre ++ [TNewline]) ++ source (chars l) /\ lex (source (chars l)) = next.
Proof.
  intros E. assert (H0 : lwf2 (lexer2_new s)) by (split; [intros X; discriminate|intros t X; discriminate]).
  assert (Ef : firstn (S (List.length pre)) (lex s) = pre ++ [TNewline]).
  { rewrite E. change (S (List.length pre)) with (1 + List.length pre)%nat. rewrite Nat.add_comm, firstn_app_2. reflexivity. }
  assert (Es : skipn (S (List.length pre)) (lex s) = next).
  { rewrite E. change (TNewline :: next) with ([TNewline] ++ next). rewrite app_assoc, skipn_app.
    rewrite skipn_all2, app_length by (rewrite app_length; cbn; lia). change (List.length [TNewline]) with 1%nat. now replace (S (List.length pre) - (List.length pre + 1))%nat with 0%nat by lia. }
  destruct (draw_prefix (S (List.length pre)) (lexer2_new s) _ (lex s) H0 (lex_total s)) as (H1 & H2 & (g & H3) & H4).
  { rewrite E, app_length. cbn. lia. }
  rewrite Ef in H1. rewrite Es in H3. destruct (draw (S (List.length pre)) (lexer2_new s)) as [ts l]. cbn [fst snd] in *. subst ts.
  destruct (H4 ltac:(discriminate)) as [H5 H6]; [apply last_last|].
  destruct l as [[src sl] pk]. cbn in H5, H6. subst sl pk.
  assert (Hx : lex src = next) by exact (collect_same _ _ _ _ _ (lex_total src) H3).
  eexists. split; [reflexivity|]. cbn. split; [reflexivity|split; [|exact Hx]].
  rewrite <- (lex_lossless s), concat_tokens_text, E. change (TNewline :: next) with ([TNewline] ++ next).
  rewrite app_assoc, text_app. f_equal. rewrite <- Hx, <- concat_tokens_text. apply lex_lossless.
Qed.

(** ** The parser on a source of characters *)
(** A command whose line ends in a newline: the parser has called the lexer once per token of the line, and
    the lexer has taken the characters of the line from the source, and no other. *)
Theorem line_of_characters B (P : pure B) fuel b s line next ns ts l mid sep nl :
  lex s = line ++ TNewline :: next -> no_heredoc (lex s) -> (List.length (lex s) + 2 < fuel)%nat ->
  newlines ns (lex s) ts -> ts <> [] -> list_form B P l ts mid -> line_end sep nl mid next ->
  exists s' lx, run concrete (p_complete_command B fuel) (ti_new (lex s)) b =
      (OOk (Some (pu_complete_command P ns l sep (Some nl))), s', b) /\
    draw (List.length (lex s) - List.length (ti_iter s')) (lexer2_new s) = (line ++ [TNewline], lx) /\
    s = text (line ++ [TNewline]) ++ source (chars lx) /\ lx = lexer2_new (source (chars lx)) /\
    ti_buf s' = [] /\ ti_iter s' = lex (source (chars lx)).
Proof.
  intros E Hh Hf Hn Ht Hl He.
  destruct (line_read B P fuel (ti_new (lex s)) b ns ts l mid sep nl next (s_new B _ b Hh) Hf Hn Ht Hl He) as (s' & R & Eb & Ei).
  destruct (newline_token_last s line next E) as (lx & D & D1 & D2 & D3).
  exists s', lx. rewrite Ei. split; [exact R|]. replace (List.length (lex s) - List.length next)%nat with (S (List.length line)).
  - rewrite D, D3. auto.
  - rewrite E, app_length. cbn. lia.
Qed.
End Lexer2.

(** ** Examples *)
Section Examples.
#[local] Existing Instance LazyLine.some_uni.
(** Between tokens of a line the lexer holds what it has looked at: here the semicolon. *)
Example holds_lookahead : draw 1 (lexer2_new (s_of "ab;c")) =
  ([TName (s_of "ab")], mkLexer2 (mkPk [] (Some (Some 99))) (Some (Tok TSemi))).
Proof. reflexivity. Qed.
(** The hypotheses of [line_of_characters] can be met. *)
Definition two_lines : str := s_of (LazyLine.nl_string ++ "a | b && c; # d" ++ LazyLine.nl_string ++ "e" ++ LazyLine.nl_string)%string.
Example line_of_characters_witness : exists line ns ts l mid sep nl,
  lex two_lines = line ++ TNewline :: LazyLine.another /\ no_heredoc (lex two_lines) /\ newlines ns (lex two_lines) ts /\ ts <> [] /\
  list_form default_builder default_pure l ts mid /\ line_end sep nl mid LazyLine.another.
Proof.
  destruct LazyLine.line_suffices_witness as (ns & ts & l & mid & sep & nl & H1 & _ & H3 & H4 & H5 & H6).
  assert (E : lex two_lines = LazyLine.a_line ++ LazyLine.another) by reflexivity.
  exists (removelast LazyLine.a_line), ns, ts, l, mid, sep, nl. rewrite E. split; [reflexivity|auto].
Qed.
End Examples.
