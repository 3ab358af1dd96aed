(** * Balanced sub-iterators (src/parse/iter.rs 438-730) *)
From Verif Require Import Base Token Pos Ast Prog.

Section Balanced.
Context {BS BE : Type}.
Notation prog := (prog BS BE).

(** iter.rs 13: [struct UnmatchedError(Token, SourcePos)]. *)
Definition unmatched := (token * spos)%type.

(** iter.rs 442-456: [struct Balanced<I>], without the underlying iterator, which is the one the
    program runs on ([Balanced] holds [&mut] to it). *)
Record balanced := mkBal {
  escaped : option (token * spos);
  bstack : list (token * spos);     (* head = top of the Rust [Vec] *)
  skip_last_delimeter : bool;
  bdone : bool;
  bpos : spos }.

(** iter.rs 468-477: [Balanced::new]; 77-101: [balanced], [single_quoted], [double_quoted],
    [backticked] are calls of it. *)
Definition balanced_new (delim : option (token * spos)) : prog balanced :=
  p <- getpos ;;
  ret (mkBal None
         (match delim with Some d => [d] | None => [] end)
         (match delim with Some _ => true | None => false end)
         false p).

(** iter.rs 590-592: the error for an unmatched stack entry. *)
Definition unmatched_of (d : token * spos) : unmatched :=
  match d with
  | (TParenClose, p) => (TParenOpen, p)
  | (TCurlyClose, p) => (TCurlyOpen, p)
  | (t, p) => (t, p)
  end.

Definition is_nil {A} (l : list A) : bool := match l with [] => true | _ => false end.
Definition stack_top (st : list (token * spos)) : option token :=
  match st with (t, _) :: _ => Some t | [] => None end.

(** iter.rs 512: [if let Some(&(SingleQuote, pos)) = self.stack.last()]. *)
Definition single_quote_top (st : list (token * spos)) : option spos :=
  match st with
  | (t, p) :: _ => if token_eqb t TSingleQuote then Some p else None
  | [] => None
  end.

(** iter.rs 489-598: [next] for [Balanced]; [inr] is an [Err(UnmatchedError)]. *)
Definition balanced_next (b : balanced) : prog (option (token + unmatched) * balanced) :=
  match escaped b with
  | Some (tok, pos) =>
      ret (Some (inl tok), mkBal None (bstack b) (skip_last_delimeter b) (bdone b) pos)
  | None =>
    if bdone b then ret (None, b)
    else
      pk <- peek ;;
      if otoken_eqb (stack_top (bstack b)) pk then
        r <- next ;;
        let stack' := tl (bstack b) in
        let stack_empty := is_nil stack' in
        p <- getpos ;;
        let b' := mkBal None stack' (skip_last_delimeter b) (bdone b || stack_empty) p in
        if skip_last_delimeter b && stack_empty then ret (None, b')
        else ret (option_map inl r, b')
      else
        match single_quote_top (bstack b) with
        | Some qpos =>
            t <- next ;;
            p <- getpos ;;
            ret (Some (match t with Some t => inl t | None => inr (TSingleQuote, qpos) end),
                 mkBal None (bstack b) (skip_last_delimeter b) (bdone b) p)
        | None =>
            cur_pos <- getpos ;;
            t <- next ;;
            (* iter.rs 596: self.pos = self.iter.pos(); ret *)
            let finish (r : option (token + unmatched)) stack' done' :=
              p <- getpos ;;
              ret (r, mkBal None stack' (skip_last_delimeter b) done' p) in
            match t with
            | Some TBackslash =>
                p1 <- getpos ;;
                e <- next ;;
                p2 <- getpos ;;
                ret (Some (inl TBackslash),
                     mkBal (match e with Some e => Some (e, p2) | None => None end)
                           (bstack b) (skip_last_delimeter b)
                           (bdone b || is_nil (bstack b)) p1)
            | Some TBacktick =>
                finish (Some (inl TBacktick)) ((TBacktick, cur_pos) :: bstack b) (bdone b)
            | Some TSingleQuote =>
                finish (Some (inl TSingleQuote))
                       (if otoken_eqb (stack_top (bstack b)) (Some TDoubleQuote)
                        then bstack b else (TSingleQuote, cur_pos) :: bstack b) (bdone b)
            | Some TDoubleQuote =>
                finish (Some (inl TDoubleQuote)) ((TDoubleQuote, cur_pos) :: bstack b) (bdone b)
            | Some TParenOpen =>
                finish (Some (inl TParenOpen)) ((TParenClose, cur_pos) :: bstack b) (bdone b)
            | Some TDollar =>
                cur_pos' <- getpos ;;
                pk2 <- peek ;;
                if otoken_eqb pk2 (Some TCurlyOpen) then
                  finish (Some (inl TDollar)) ((TCurlyClose, cur_pos') :: bstack b) (bdone b)
                else if otoken_eqb pk2 (Some TParenOpen) then
                  finish (Some (inl TDollar)) (bstack b) (bdone b)
                else finish (Some (inl TDollar)) (bstack b) (bdone b || is_nil (bstack b))
            | Some t =>
                finish (Some (inl t)) (bstack b) (bdone b || is_nil (bstack b))
            | None =>
                match bstack b with
                | [] => finish None [] true
                | d :: stack' => finish (Some (inr (unmatched_of d))) stack' (bdone b)
                end
            end
        end
  end.

(** [for t in iter { v.push(try_map!(t)) }]: collect everything a [Balanced] yields, or fail with
    [ParseError::Unmatched] (parse.rs 842-846, 884-886, 992-994, 1216-1218). *)
Fixpoint balanced_collect (fuel : nat) (b : balanced) (acc : list token) : prog (list token) :=
  match fuel with
  | O => outoffuel
  | S f =>
      '(r, b') <- balanced_next b ;;
      match r with
      | None => ret acc
      | Some (inl t) => balanced_collect f b' (acc ++ [t])
      | Some (inr (t, p)) => throw (Unmatched t p)
      end
  end.

Definition collect_balanced (fuel : nat) (delim : option (token * spos)) : prog (list token) :=
  b <- balanced_new delim ;;
  balanced_collect fuel b [].

(** iter.rs 610-616: [struct BacktickBackslashRemover<I>]. *)
Record bbr := mkBbr {
  bbr_iter : balanced;
  bbr_peeked : option (token + unmatched);
  bbr_done : bool }.

(** iter.rs 621-627: [BacktickBackslashRemover::new]; 106-111. *)
Definition bbr_new (pos : spos) : prog bbr :=
  b <- balanced_new (Some (TBacktick, pos)) ;;
  ret (mkBbr b None false).

(** iter.rs 689-720: [next] for [BacktickBackslashRemover]. *)
Definition bbr_next (s : bbr) : prog (option (token + unmatched) * bbr) :=
  match bbr_peeked s with
  | Some x => ret (Some x, mkBbr (bbr_iter s) None (bbr_done s))
  | None =>
    if bbr_done s then ret (None, s)
    else
      '(r, b1) <- balanced_next (bbr_iter s) ;;
      match r with
      | Some (inl TBackslash) =>
          '(r2, b2) <- balanced_next b1 ;;
          match r2 with
          | Some (inl TDollar) | Some (inl TBacktick) | Some (inl TBackslash) =>
              ret (r2, mkBbr b2 None (bbr_done s))
          | Some t => ret (Some (inl TBackslash), mkBbr b2 (Some t) (bbr_done s))
          | None => ret (Some (inl TBackslash), mkBbr b2 None true)
          end
      | Some t => ret (Some t, mkBbr b1 None (bbr_done s))
      | None => ret (None, mkBbr b1 None true)
      end
  end.

(** [for t in iter.backticked_remove_backslashes(pos) { s.push_str(try_map!(t).as_str()) }]
    (parse.rs 956-958), keeping the tokens. *)
Fixpoint bbr_collect (fuel : nat) (s : bbr) (acc : list token) : prog (list token) :=
  match fuel with
  | O => outoffuel
  | S f =>
      '(r, s') <- bbr_next s ;;
      match r with
      | None => ret acc
      | Some (inl t) => bbr_collect f s' (acc ++ [t])
      | Some (inr (t, p)) => throw (Unmatched t p)
      end
  end.

Definition collect_bbr (fuel : nat) (pos : spos) : prog (list token) :=
  s <- bbr_new pos ;;
  bbr_collect fuel s [].

(** iter.rs 635-678: [create_token_iter] (and 293-298), up to making the iterator: the chunks, in
    source order, and the position after the closing backtick.  [?] on an [UnmatchedError] is
    turned into [ParseError::Unmatched] by the only caller (parse.rs 1375). *)
Fixpoint chunks_loop (fuel : nat) (b : balanced) (all : list (list token * spos))
    (chunk_start : spos) (chunk : list token) : prog (list (list token * spos) * spos) :=
  match fuel with
  | O => outoffuel
  | S f =>
      '(r, b1) <- balanced_next b ;;
      match r with
      | Some (inl TBackslash) =>
          let next_pos := bpos b1 in
          '(r2, b2) <- balanced_next b1 ;;
          match r2 with
          | Some (inl TDollar) =>
              chunks_loop f b2 (all ++ [(chunk, chunk_start)]) next_pos [TDollar]
          | Some (inl TBacktick) =>
              chunks_loop f b2 (all ++ [(chunk, chunk_start)]) next_pos [TBacktick]
          | Some (inl TBackslash) =>
              chunks_loop f b2 (all ++ [(chunk, chunk_start)]) next_pos [TBackslash]
          | Some (inl t) => chunks_loop f b2 all chunk_start (chunk ++ [TBackslash; t])
          | Some (inr (t, p)) => throw (Unmatched t p)
          | None => chunks_loop f b2 all chunk_start (chunk ++ [TBackslash])
          end
      | Some (inl t) => chunks_loop f b1 all chunk_start (chunk ++ [t])
      | Some (inr (t, p)) => throw (Unmatched t p)
      | None =>
          ret (match chunk with [] => all | _ => all ++ [(chunk, chunk_start)] end, bpos b1)
      end
  end.

Definition create_token_iter (fuel : nat) (pos : spos) : prog new_iter :=
  b <- balanced_new (Some (TBacktick, pos)) ;;
  '(chunks, p) <- chunks_loop fuel b [] (bpos b) [] ;;
  ret (FromChunks p chunks).

End Balanced.
