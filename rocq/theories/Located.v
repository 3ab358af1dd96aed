(** * Specification of the token iterator: a list of tokens, each with its position

    Independent of iter.rs: a stream is the list of the tokens still to come, each paired with
    the position it has in the source, and the position after the last one. *)
From Verif Require Import Base Token Pos Ast Prog.

Record located := mkL { toks : list (token * spos); end_pos : spos }.

(** Positions of consecutive tokens starting at [p]. *)
Fixpoint locate (ts : list token) (p : spos) : list (token * spos) :=
  match ts with
  | [] => []
  | t :: ts' => (t, p) :: locate ts' (advance p t)
  end.

(** The position after [ts] when they start at [p]. *)
Definition advance_all (p : spos) (ts : list token) : spos := fold_left advance ts p.

Definition l_next (s : located) : option (option token * located) :=
  Some (match toks s with
        | (t, _) :: l => (Some t, mkL l (end_pos s))
        | [] => (None, s)
        end).

Definition l_peek (s : located) : option (option token * located) :=
  Some (match toks s with (t, _) :: _ => Some t | [] => None end, s).

Definition l_pos (s : located) : spos :=
  match toks s with (_, p) :: _ => p | [] => end_pos s end.

(** Look-ahead reads the list and changes nothing. *)
Fixpoint look {B} (m : mp B) (l : list token) : B :=
  match m with
  | MRet b => b
  | MPeekNext k => look (k (hd_error l)) (tl l)
  end.
Definition l_multipeek (B : Type) (m : mp B) (s : located) : B * located :=
  (look m (map fst (toks s)), s).

(** Buffered tokens come first, located contiguously from the given position; everything else
    keeps its position. *)
Definition l_buffer (ts : list token) (p : spos) (s : located) : located :=
  mkL (locate ts p ++ toks s) (end_pos s).

Definition l_make (i : new_iter) : located :=
  match i with
  | FromTokens ts => mkL (locate ts pos_new) (advance_all pos_new ts)
  | FromChunks p chunks => mkL (flat_map (fun c => locate (fst c) (snd c)) chunks) p
  end.

Definition located_ops : iterops :=
  mkIterops located l_next l_peek l_pos l_multipeek l_buffer l_make.
