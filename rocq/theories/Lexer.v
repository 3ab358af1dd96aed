(** * The lexer (src/lexer.rs) *)
From Verif Require Import Base Token.
Local Open Scope N_scope.

(** lexer.rs 8-13: [enum TokenOrLiteral]. *)
Inductive tol :=
  | Tok (t : token)
  | Escaped (t : option token)
  | Lit (c : char).

(** lexer.rs 18-21: [struct Lexer].  The [Peekable<Fuse<I>>] is the list of characters not yet
    consumed (for a finite character source). *)
Record lexer := mkLexer { inner : list char; peeked : option tol }.

(** lexer.rs 25-30: [Lexer::new]. *)
Definition lexer_new (s : str) : lexer := mkLexer s None.

(** lexer.rs 33-39: [next_is], on the characters left. *)
Definition next_is (c : char) (i : list char) : bool * list char :=
  match i with
  | x :: i' => if x =? c then (true, i') else (false, i)
  | [] => (false, [])
  end.

(** lexer.rs 52-66, 81-83, 107-112: the arms of the match mapping one character to one token
    whatever follows. *)
Definition single_char_tokens : list (char * token) :=
  [ (10, TNewline); (33, TBang); (126, TTilde); (35, TPound); (42, TStar); (63, TQuestion);
    (37, TPercent); (45, TDash); (61, TEquals); (43, TPlus); (58, TColon); (64, TAt);
    (94, TCaret); (47, TSlash); (44, TComma);
    (39, TSingleQuote); (34, TDoubleQuote); (96, TBacktick);
    (40, TParenOpen); (41, TParenClose); (123, TCurlyOpen); (125, TCurlyClose);
    (91, TSquareOpen); (93, TSquareClose) ].

Fixpoint assoc {A} (c : char) (l : list (char * A)) : option A :=
  match l with
  | [] => None
  | (k, v) :: l' => if c =? k then Some v else assoc c l'
  end.

(** lexer.rs 117-129: the digit after a dollar. *)
Definition digit_positional : list (char * positional) :=
  [ (48, P0); (49, P1); (50, P2); (51, P3); (52, P4);
    (53, P5); (54, P6); (55, P7); (56, P8); (57, P9) ].

(** lexer.rs 174-181: the loop collecting whitespace (not newlines). *)
Fixpoint take_blanks (i : list char) : str * list char :=
  match i with
  | c :: i' =>
      if is_whitespace c && negb (c =? 10)
      then let (b, r) := take_blanks i' in (c :: b, r)
      else ([], i)
  | [] => ([], [])
  end.

Section Lexer.
Context {U : Uni}.

(** lexer.rs 41-190: [next_internal].  [esc c] stands for [Lexer::new(once(c)).next()]
    (line 77); the knot is tied in [lexer_next] below, see [esc_tok_eq]. *)
Definition next_internal (esc : char -> option token) (l : lexer) : option tol * lexer :=
  match peeked l with
  | Some p => (Some p, mkLexer (inner l) None)
  | None =>
    match inner l with
    | [] => (None, l)
    | cur :: i =>
      let ret t i' := (Some (Tok t), mkLexer i' None) in
      match assoc cur single_char_tokens with
      | Some t => ret t i
      | None =>
        if cur =? 92 (* \ *) then
          match i with
          | [] => (Some (Escaped None), mkLexer [] None)
          | c :: i' => (Some (Escaped (esc c)), mkLexer i' None)
          end
        else if cur =? 59 (* ; *) then
          let (b, i') := next_is 59 i in if b : bool then ret TDSemi i' else ret TSemi i'
        else if cur =? 38 (* & *) then
          let (b, i') := next_is 38 i in if b : bool then ret TAndIf i' else ret TAmp i'
        else if cur =? 124 (* | *) then
          let (b, i') := next_is 124 i in if b : bool then ret TOrIf i' else ret TPipe i'
        else if cur =? 36 (* $ *) then
          match i with
          | d :: i' =>
              match assoc d digit_positional with
              | Some p => ret (TParamPositional p) i'
              | None => ret TDollar i
              end
          | [] => ret TDollar i
          end
        else if cur =? 60 (* < *) then
          let (b, i1) := next_is 60 i in
          if b : bool then
            let (b2, i2) := next_is 45 i1 in
            if b2 : bool then ret TDLessDash i2 else ret TDLess i2
          else
            let (b2, i2) := next_is 38 i1 in
            if b2 : bool then ret TLessAnd i2
            else
              let (b3, i3) := next_is 62 i2 in
              if b3 : bool then ret TLessGreat i3 else ret TLess i3
        else if cur =? 62 (* > *) then
          let (b, i1) := next_is 38 i in
          if b : bool then ret TGreatAnd i1
          else
            let (b2, i2) := next_is 62 i1 in
            if b2 : bool then ret TDGreat i2
            else
              let (b3, i3) := next_is 124 i2 in
              if b3 : bool then ret TClobber i3 else ret TGreat i3
        else if is_whitespace cur then
          let (b, i') := take_blanks i in ret (TWhitespace (cur :: b)) i'
        else (Some (Lit cur), mkLexer i None)
      end
    end
  end.

(** lexer.rs 197-199 *)
Definition name_start_char (c : char) : bool := (c =? 95) || is_alphabetic c.
(** lexer.rs 201-207 *)
Definition name_char (c : char) : bool := is_digit10 c || name_start_char c.

(** lexer.rs 223-251: the loop of [next] collecting a word.  Result [None]: out of fuel. *)
Fixpoint lit_loop (esc : char -> option token) (fuel : nat) (is_name : bool) (word : str)
    (l : lexer) : option (option token * lexer) :=
  match fuel with
  | O => None
  | S fuel' =>
      let finish (l' : lexer) :=
        Some (Some (if is_name then TName word else TLiteral word), l') in
      let (t, l') := next_internal esc l in
      match t with
      | Some (Tok t) => finish (mkLexer (inner l') (Some (Tok t)))
      | Some (Escaped t) => finish (mkLexer (inner l') (Some (Escaped t)))
      | Some (Lit c) =>
          if is_name && negb (name_char c)
          then Some (Some (TName word), mkLexer (inner l') (Some (Lit c)))
          else lit_loop esc fuel' is_name (word ++ [c]) l'
      | None => finish l'
      end
  end.

(** lexer.rs 196-253: [next], parameterised by the recursive use of the lexer on an escaped
    character.  Result [None]: out of fuel (never happens, [next_fueled_total]). *)
Definition next_fueled (esc : char -> option token) (fuel : nat) (l : lexer)
  : option (option token * lexer) :=
  let (t, l') := next_internal esc l in
  match t with
  | None => Some (None, l')
  | Some (Tok t) => Some (Some t, l')
  | Some (Escaped t) => Some (Some TBackslash, mkLexer (inner l') (option_map Tok t))
  | Some (Lit c) => lit_loop esc fuel (name_start_char c) [c] l'
  end.

Definition next_with (esc : char -> option token) (l : lexer) : option token * lexer :=
  match next_fueled esc (S (length (inner l))) l with
  | Some r => r
  | None => (None, l)
  end.

(** lexer.rs 73-79: the token of an escaped character.  On a one-character source the lexer never
    reaches the recursive use, so the innermost argument is irrelevant: [esc_tok_eq]. *)
Definition esc_tok (c : char) : option token :=
  fst (next_with (fun _ => None) (lexer_new [c])).

(** lexer.rs 196-253: [Lexer::next]. *)
Definition lexer_next (l : lexer) : option token * lexer := next_with esc_tok l.

(** lexer.rs 255-265: [Lexer::size_hint] for a source whose iterator knows its exact length
    (low, high); the high bound of [inner] is the number of characters left. *)
Definition lexer_size_hint (l : lexer) : nat * option nat :=
  ((match peeked l with Some _ => 1 | None => 0 end)%nat, Some (length (inner l))).

(** All tokens the lexer yields ([Iterator::collect]).  [None]: out of fuel. *)
Fixpoint collect (fuel : nat) (l : lexer) : option (list token) :=
  match fuel with
  | O => None
  | S f =>
      let (t, l') := lexer_next l in
      match t with
      | None => Some []
      | Some t => option_map (cons t) (collect f l')
      end
  end.

(** [Lexer::new(s.chars()).collect()]; out of fuel cannot happen ([lex_total]). *)
Definition lex (s : str) : list token :=
  match collect (S (length s)) (lexer_new s) with
  | Some ts => ts
  | None => []
  end.

End Lexer.
