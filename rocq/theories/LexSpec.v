(** * Specification of tokenisation (independent of the lexer)

    [Lexes src ts]: the source [src] is tokenised as [ts].  At each point exactly one rule
    applies: the longest operator, a maximal run of blanks, a maximal identifier, a maximal run
    of ordinary characters, or a backslash, which makes the next single character a token of its
    own. *)
From Verif Require Import Base Token.
Local Open Scope N_scope.

(** The tokens with fixed text, other than the backslash. *)
Definition operator (t : token) : Prop :=
  match t with
  | TBackslash | TName _ | TLiteral _ | TWhitespace _ => False
  | _ => True
  end.

Definition backslash : char := 92.

(** Blanks are the whitespace characters other than the newline. *)
Definition blank (c : char) : Prop := is_whitespace c = true /\ c <> 10.

(** Ordinary characters: not whitespace, not a backslash, not the first character of an
    operator. *)
Definition ordinary (c : char) : Prop :=
  is_whitespace c = false /\ c <> backslash /\ (forall t s, operator t -> as_str t <> c :: s).

Section Spec.
Context {U : Uni}.

(** Identifier characters. *)
Definition id_start (c : char) : Prop := ordinary c /\ (c = 95 \/ is_alphabetic c = true).
Definition id_char (c : char) : Prop :=
  ordinary c /\ (c = 95 \/ is_alphabetic c = true \/ is_digit10 c = true).

(** [s] does not start with a character satisfying [P]. *)
Definition stops (P : char -> Prop) (s : str) : Prop := forall c s', s = c :: s' -> ~ P c.

Inductive Lexes : str -> list token -> Prop :=
  | Lex_end : Lexes [] []
  | Lex_operator t s ts :
      operator t ->
      (forall t' s', operator t' -> as_str t ++ s = as_str t' ++ s' ->
                     (length (as_str t') <= length (as_str t))%nat) ->
      Lexes s ts -> Lexes (as_str t ++ s) (t :: ts)
  | Lex_blanks b s ts :
      b <> [] -> Forall blank b -> stops blank s ->
      Lexes s ts -> Lexes (b ++ s) (TWhitespace b :: ts)
  | Lex_name c w s ts :
      id_start c -> Forall id_char w -> stops id_char s ->
      Lexes s ts -> Lexes (c :: w ++ s) (TName (c :: w) :: ts)
  | Lex_literal c w s ts :
      ordinary c -> ~ id_start c -> Forall ordinary w -> stops ordinary s ->
      Lexes s ts -> Lexes (c :: w ++ s) (TLiteral (c :: w) :: ts)
  | Lex_backslash_end : Lexes [backslash] [TBackslash]
  | Lex_backslash c t s ts :
      Lexes [c] [t] -> Lexes s ts -> Lexes (backslash :: c :: s) (TBackslash :: t :: ts).
End Spec.
