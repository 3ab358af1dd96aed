(** * Tokens (src/token.rs) *)
From Coq Require Import String.
From Verif Require Import Base.
Local Open Scope N_scope.

(** token.rs 7-29: [enum Positional]. *)
Inductive positional :=
  | P0 | P1 | P2 | P3 | P4 | P5 | P6 | P7 | P8 | P9.

(** token.rs 33-46: [Positional::as_num]. *)
Definition as_num (p : positional) : N :=
  match p with
  | P0 => 0 | P1 => 1 | P2 => 2 | P3 => 3 | P4 => 4
  | P5 => 5 | P6 => 6 | P7 => 7 | P8 => 8 | P9 => 9
  end.

(** token.rs 49-63: [Positional::from_num] (the argument is a [u8]). *)
Definition from_num (n : N) : option positional :=
  match n with
  | 0 => Some P0 | 1 => Some P1 | 2 => Some P2 | 3 => Some P3 | 4 => Some P4
  | 5 => Some P5 | 6 => Some P6 | 7 => Some P7 | 8 => Some P8 | 9 => Some P9
  | _ => None
  end.

(** token.rs 73-177: [enum Token]. *)
Inductive token :=
  | TNewline
  | TParenOpen | TParenClose | TCurlyOpen | TCurlyClose | TSquareOpen | TSquareClose
  | TBang | TTilde | TPound | TStar | TQuestion | TBackslash | TPercent | TDash | TEquals
  | TPlus | TColon | TAt | TCaret | TSlash | TComma
  | TSingleQuote | TDoubleQuote | TBacktick
  | TSemi | TAmp | TPipe | TAndIf | TOrIf | TDSemi
  | TLess | TGreat | TDLess | TDGreat | TGreatAnd | TLessAnd | TDLessDash | TClobber
  | TLessGreat
  | TDollar
  | TParamPositional (p : positional)
  | TWhitespace (s : str)
  | TLiteral (s : str)
  | TName (s : str).

(** token.rs 212-269: [Token::as_str]. *)
Definition as_str (t : token) : str :=
  match t with
  | TNewline => [10]
  | TParenOpen => s_of "("
  | TParenClose => s_of ")"
  | TCurlyOpen => s_of "{"
  | TCurlyClose => s_of "}"
  | TSquareOpen => s_of "["
  | TSquareClose => s_of "]"
  | TDollar => s_of "$"
  | TBang => s_of "!"
  | TSemi => s_of ";"
  | TAmp => s_of "&"
  | TLess => s_of "<"
  | TGreat => s_of ">"
  | TPipe => s_of "|"
  | TTilde => s_of "~"
  | TPound => s_of "#"
  | TStar => s_of "*"
  | TQuestion => s_of "?"
  | TBackslash => s_of "\"
  | TPercent => s_of "%"
  | TDash => s_of "-"
  | TEquals => s_of "="
  | TPlus => s_of "+"
  | TColon => s_of ":"
  | TAt => s_of "@"
  | TCaret => s_of "^"
  | TSlash => s_of "/"
  | TComma => s_of ","
  | TSingleQuote => s_of "'"
  | TDoubleQuote => [34]
  | TBacktick => s_of "`"
  | TAndIf => s_of "&&"
  | TOrIf => s_of "||"
  | TDSemi => s_of ";;"
  | TDLess => s_of "<<"
  | TDGreat => s_of ">>"
  | TGreatAnd => s_of ">&"
  | TLessAnd => s_of "<&"
  | TDLessDash => s_of "<<-"
  | TClobber => s_of ">|"
  | TLessGreat => s_of "<>"
  | TParamPositional p =>
      match p with
      | P0 => s_of "$0" | P1 => s_of "$1" | P2 => s_of "$2" | P3 => s_of "$3"
      | P4 => s_of "$4" | P5 => s_of "$5" | P6 => s_of "$6" | P7 => s_of "$7"
      | P8 => s_of "$8" | P9 => s_of "$9"
      end
  | TWhitespace s | TName s | TLiteral s => s
  end.

(** token.rs 192-194: [Token::len]. *)
Definition tok_len (t : token) : nat := str_len (as_str t).

(** token.rs 187-189: [Token::is_empty]. *)
Definition tok_is_empty (t : token) : bool := Nat.eqb (tok_len t) 0.

(** token.rs 198-209: [Token::is_word_delimiter]. *)
Definition is_word_delimiter (t : token) : bool :=
  match t with
  | TNewline | TParenOpen | TParenClose | TSemi | TAmp | TLess | TGreat | TPipe | TAndIf | TOrIf
  | TDSemi | TDLess | TDGreat | TGreatAnd | TLessAnd | TDLessDash | TClobber | TLessGreat
  | TWhitespace _ => true
  | TBang | TStar | TQuestion | TBackslash | TSingleQuote | TDoubleQuote | TBacktick | TPercent
  | TDash | TEquals | TPlus | TColon | TAt | TCaret | TSlash | TComma | TCurlyOpen
  | TCurlyClose | TSquareOpen | TSquareClose | TDollar | TTilde | TPound | TName _
  | TLiteral _ | TParamPositional _ => false
  end.

Definition positional_dec (a b : positional) : {a = b} + {a <> b}.
Proof. decide equality. Defined.

(** token.rs 73: [derive(PartialEq)] for [Token]. *)
Definition token_dec (a b : token) : {a = b} + {a <> b}.
Proof. decide equality; try apply str_dec; apply positional_dec. Defined.

Definition token_eqb (a b : token) : bool := if token_dec a b then true else false.

Lemma token_eqb_spec a b : reflect (a = b) (token_eqb a b).
Proof. unfold token_eqb. destruct (token_dec a b); constructor; assumption. Qed.

Lemma token_eqb_refl a : token_eqb a a = true.
Proof. unfold token_eqb. destruct (token_dec a a); congruence. Qed.

(** Equality of [Option<&Token>] values, as in [self.iter.peek() == Some(&t)]. *)
Definition otoken_eqb (a b : option token) : bool :=
  match a, b with
  | None, None => true
  | Some x, Some y => token_eqb x y
  | _, _ => false
  end.

Lemma otoken_eqb_spec a b : reflect (a = b) (otoken_eqb a b).
Proof.
  destruct a as [x|], b as [y|]; simpl; try (constructor; congruence).
  destruct (token_eqb_spec x y); constructor; congruence.
Qed.

(** The text of a token sequence; parse.rs 2915-2920: [concat_tokens]. *)
Definition concat_tokens (ts : list token) : str := flat_map as_str ts.

Lemma concat_tokens_app a b : concat_tokens (a ++ b) = concat_tokens a ++ concat_tokens b.
Proof. apply flat_map_app. Qed.
