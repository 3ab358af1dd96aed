(** * The token iterator (src/parse/iter.rs 15-437) *)
From Verif Require Import Base Token Pos Ast Prog.

(** iter.rs 18-23: [enum TokenOrPos]. *)
Inductive token_or_pos := TPTok (t : token) | TPPos (p : spos).

(** iter.rs 28-33: [is_tok]. *)
Definition is_tok (x : token_or_pos) : bool :=
  match x with TPTok _ => true | TPPos _ => false end.

(** iter.rs 129-141: [struct TokenIter<I>].  The underlying (fused) iterator is the finite list of
    tokens it has yet to yield.  [prev_buffered] is Rust's [Vec] used as a stack; here the head of
    the list is the top of the stack (the [Vec]'s last element).
    [TokenIterWrapper] (iter.rs 360-437) only dispatches to [TokenIter]; its [Buffered] variant is
    a [TokenIter] over the empty iterator. *)
Record token_iter := mkTI {
  ti_iter : list token;
  ti_buf : list token_or_pos;
  ti_pos : spos }.

(** iter.rs 219-225: [TokenIter::new]. *)
Definition ti_new (ts : list token) : token_iter := mkTI ts [] pos_new.

(** iter.rs 228-232: [TokenIter::with_position]. *)
Definition ti_with_position (ts : list token) (p : spos) : token_iter := mkTI ts [] p.

(** iter.rs 208-212: [next_token_or_pos]. *)
Definition next_token_or_pos (s : token_iter) : option token_or_pos * token_iter :=
  match ti_buf s with
  | x :: buf => (Some x, mkTI (ti_iter s) buf (ti_pos s))
  | [] =>
      match ti_iter s with
      | t :: ts => (Some (TPTok t), mkTI ts [] (ti_pos s))
      | [] => (None, s)
      end
  end.

(** iter.rs 244-249: [updated_buffered_pos]. *)
Fixpoint pop_positions (buf : list token_or_pos) (p : spos) : list token_or_pos * spos :=
  match buf with
  | TPPos q :: buf' => pop_positions buf' q
  | _ => (buf, p)
  end.
Definition updated_buffered_pos (s : token_iter) : token_iter :=
  let (buf, p) := pop_positions (ti_buf s) (ti_pos s) in mkTI (ti_iter s) buf p.

(** iter.rs 255-279: [buffer_tokens_and_positions_to_yield_first]. *)
Definition buffer_tokens_and_positions (toks : list token_or_pos) (start : option spos)
    (s : token_iter) : token_iter :=
  let buf1 := match start with Some _ => TPPos (ti_pos s) :: ti_buf s | None => ti_buf s end in
  let buf2 := toks ++ buf1 in
  let p := match start with Some q => q | None => ti_pos s end in
  updated_buffered_pos (mkTI (ti_iter s) buf2 p).

(** iter.rs 284-287: [buffer_tokens_to_yield_first]. *)
Definition ti_buffer (ts : list token) (start : spos) (s : token_iter) : token_iter :=
  buffer_tokens_and_positions (map TPTok ts) (Some start) s.

(** iter.rs 204-206: [rewind]. *)
Definition rewind (toks : list token_or_pos) (s : token_iter) : token_iter :=
  buffer_tokens_and_positions toks None s.

(** iter.rs 333-352: [Multipeek::peek_next].  The loop skips [Pos] entries; it is structural in
    the number of entries left (buffer and iterator), here by recursion on the buffer.
    [mb] is [Multipeek::buf] in the order the values were pulled. *)
Fixpoint mp_pull (buf : list token_or_pos) (iter : list token) (mb : list token_or_pos)
  : option token * list token_or_pos * list token * list token_or_pos :=
  match buf with
  | TPTok t :: buf' => (Some t, buf', iter, mb ++ [TPTok t])
  | TPPos p :: buf' => mp_pull buf' iter (mb ++ [TPPos p])
  | [] =>
      match iter with
      | t :: ts => (Some t, [], ts, mb ++ [TPTok t])
      | [] => (None, [], [], mb)
      end
  end.
Definition peek_next (mb : list token_or_pos) (s : token_iter)
  : option token * list token_or_pos * token_iter :=
  match mp_pull (ti_buf s) (ti_iter s) mb with
  | (t, buf, iter, mb') => (t, mb', mkTI iter buf (ti_pos s))
  end.

(** iter.rs 236-238, 314-319, 323-328: a [Multipeek] session followed by its [Drop]. *)
Fixpoint mp_session {B} (m : mp B) (mb : list token_or_pos) (s : token_iter) : B * token_iter :=
  match m with
  | MRet b => (b, rewind mb s)
  | MPeekNext k =>
      match peek_next mb s with
      | (t, mb', s') => mp_session (k t) mb' s'
      end
  end.
Definition ti_multipeek (B : Type) (m : mp B) (s : token_iter) : B * token_iter :=
  mp_session m [] s.

(** iter.rs 150-161: [peek] for [TokenIter].  [None] is the [unreachable!] of line 159. *)
Definition ti_peek (s : token_iter) : option (option token * token_iter) :=
  let (o, s') := ti_multipeek _ (MPeekNext (fun t => MRet t)) s in
  match o with
  | None => Some (None, s')
  | Some _ =>
      match ti_buf s' with
      | TPTok t :: _ => Some (Some t, s')
      | _ => None
      end
  end.

(** iter.rs 167-190: [next] for [TokenIter].  [None] is the [panic!] of line 177. *)
Definition ti_next (s : token_iter) : option (option token * token_iter) :=
  let (o, s') := next_token_or_pos s in
  match o with
  | Some (TPTok t) =>
      Some (Some t, updated_buffered_pos (mkTI (ti_iter s') (ti_buf s') (advance (ti_pos s') t)))
  | Some (TPPos _) => None
  | None => Some (None, updated_buffered_pos s')
  end.

(** parse.rs 1050-1053 and iter.rs 671-674: buffering chunks, last one first. *)
Fixpoint buffer_chunks (chunks : list (list token * spos)) (s : token_iter) : token_iter :=
  match chunks with
  | [] => s
  | (ts, p) :: rest => ti_buffer ts p (buffer_chunks rest s)
  end.

Definition ti_make (i : new_iter) : token_iter :=
  match i with
  | FromTokens ts => ti_new ts
  | FromChunks p chunks => buffer_chunks chunks (ti_with_position [] p)
  end.

(** The implementation of the iterator interface by [TokenIter]. *)
Definition concrete : iterops :=
  mkIterops token_iter ti_next ti_peek ti_pos ti_multipeek ti_buffer ti_make.
