(** * Source positions (src/parse.rs 45-97) *)
From Verif Require Import Base Token.

(** parse.rs 45-54: [struct SourcePos] ([usize] fields modelled by unbounded naturals). *)
Record spos := mkPos { byte : nat; line : nat; col : nat }.

(** parse.rs 64-70: [SourcePos::new]. *)
Definition pos_new : spos := mkPos 0 1 1.

(** parse.rs 74-85: the number of newlines of a token counted by [advance]. *)
Definition tok_newlines (t : token) : nat :=
  match t with
  | TName s | TLiteral s | TWhitespace s => count_char c_newline s
  | TNewline => 1
  | _ => 0
  end.

(** parse.rs 73-90: [SourcePos::advance]. *)
Definition advance (p : spos) (t : token) : spos :=
  let newlines := tok_newlines t in
  let len := tok_len t in
  mkPos (byte p + len) (line p + newlines)
        (if Nat.eqb newlines 0 then col p + len else 1).

(** parse.rs 93-96: [SourcePos::advance_tabs]. *)
Definition advance_tabs (p : spos) (n : nat) : spos :=
  mkPos (byte p + n) (line p) (col p + n).
