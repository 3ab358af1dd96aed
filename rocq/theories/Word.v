(** * Words, parameters and substitutions (src/parse.rs 1115-1715, 1749-1779) *)
From Coq Require Import String.
From Verif Require Import Base Token Pos Ast Prog Balanced ParserBase Arith.

(** The recursive calls that close a cycle among the parser functions; tied in [Command.v].
    [C] is the builder's command type. *)
Record knots (BS BE C : Type) := mkK {
  k_group : delimiters -> prog BS BE (cgroup C);   (* command_group_internal *)
  k_param : prog BS BE (swk C) }.                  (* parameter_raw *)
Arguments mkK {BS BE C}. Arguments k_group {BS BE C}. Arguments k_param {BS BE C}.

Section Word.
Context {BS BE C : Type}.
Variable fuel : nat.      (* bound on the iterations of each loop *)
Variable K : knots BS BE C.
Notation prog := (prog BS BE).

(** parse.rs 1363-1385: [backticked_raw]. *)
Definition backticked_raw : prog (swk C) :=
  backtick_pos <- getpos ;;
  eat TBacktick ;;
  i <- create_token_iter fuel backtick_pos ;;
  g <- sub_iter i true (k_group K no_delims) ;;
  ret (KCommandSubst g).

(** parse.rs 1284-1300, 1321-1330: the [store!] macro: push the pending literal, then [w]. *)
Definition flush (words : list (swk C)) (buf : str) : list (swk C) :=
  match buf with [] => words | _ => words ++ [KLiteral buf] end.

(** parse.rs 1321-1325: the tokens a backslash escapes in double-quote-like words. *)
Definition dq_special (t : option token) : bool :=
  match t with
  | Some TDollar | Some TBacktick | Some TDoubleQuote | Some TBackslash | Some TNewline => true
  | _ => false
  end.

(** parse.rs 1281-1345: the loop of [word_interpolated_raw]. *)
Fixpoint word_interp_loop (delim : option (token * token)) (start_pos : spos)
    (n : nat) (words : list (swk C)) (buf : str) : prog (list (swk C)) :=
  match n with
  | O => outoffuel
  | S n' =>
      p <- peek ;;
      if otoken_eqb p (option_map snd delim) then
        next ;; ret (flush words buf)
      else
        match p with
        | Some TDollar | Some (TParamPositional _) =>
            w <- k_param K ;;
            word_interp_loop delim start_pos n' (flush words buf ++ [w]) []
        | Some TBacktick =>
            w <- backticked_raw ;;
            word_interp_loop delim start_pos n' (flush words buf ++ [w]) []
        | _ =>
            t <- next ;;
            match t with
            | Some TBackslash =>
                q <- peek ;;
                if dq_special q || otoken_eqb q (option_map snd delim) then
                  e <- next ;;
                  match e with
                  | Some e =>
                      word_interp_loop delim start_pos n'
                        (flush words buf ++ [KEscaped (as_str e)]) []
                  | None => panic PS_interp_escaped
                  end
                else
                  word_interp_loop delim start_pos n' words (buf ++ as_str TBackslash)
            | Some TDollar | Some TBacktick => panic PS_interp_sanity
            | Some t => word_interp_loop delim start_pos n' words (buf ++ as_str t)
            | None =>
                match delim with
                | Some (o, _) => throw (Unmatched o start_pos)
                | None => ret (flush words buf)
                end
            end
        end
  end.

(** parse.rs 1271-1347: [word_interpolated_raw]. *)
Definition word_interpolated_raw (delim : option (token * token)) (start_pos : spos)
  : prog (list (swk C)) :=
  word_interp_loop delim start_pos fuel [] [].

(** parse.rs 1163-1177: tokens which end the word, start a parameter or command substitution, or
    are consumed as part of the word. *)
Inductive word_class := WCConsume | WCBacktick | WCParam | WCBreak.
Definition word_class_of (t : option token) : word_class :=
  match t with
  | Some t =>
      match t with
      | TCurlyOpen | TCurlyClose | TSquareOpen | TSquareClose | TSingleQuote | TDoubleQuote
      | TPound | TStar | TQuestion | TTilde | TBang | TBackslash | TPercent | TDash | TEquals
      | TPlus | TColon | TAt | TCaret | TSlash | TComma | TName _ | TLiteral _ => WCConsume
      | TBacktick => WCBacktick
      | TDollar | TParamPositional _ => WCParam
      | TNewline | TParenOpen | TParenClose | TSemi | TAmp | TPipe | TAndIf | TOrIf | TDSemi
      | TLess | TGreat | TDLess | TDGreat | TGreatAnd | TLessAnd | TDLessDash | TClobber
      | TLessGreat | TWhitespace _ => WCBreak
      end
  | None => WCBreak
  end.

(** parse.rs 1154-1246: the loop of [word_preserve_trailing_whitespace_raw_with_delim]. *)
Fixpoint word_loop (delim : option token) (n : nat) (words : list (wk C)) : prog (list (wk C)) :=
  match n with
  | O => outoffuel
  | S n' =>
      p <- peek ;;
      if (match delim with Some _ => otoken_eqb p delim | None => false end) then ret words
      else
        match word_class_of p with
        | WCBreak => ret words
        | WCBacktick => w <- backticked_raw ;; word_loop delim n' (words ++ [KSimple w])
        | WCParam => w <- k_param K ;; word_loop delim n' (words ++ [KSimple w])
        | WCConsume =>
            start_pos <- getpos ;;
            t <- next ;;
            match t with
            | None => panic PS_word_next
            | Some t =>
                match t with
                | TBang | TPound | TPercent | TDash | TEquals | TPlus | TAt | TCaret | TSlash
                | TComma | TCurlyOpen | TCurlyClose =>
                    word_loop delim n' (words ++ [KSimple (KLiteral (as_str t))])
                | TName s | TLiteral s => word_loop delim n' (words ++ [KSimple (KLiteral s)])
                | TStar => word_loop delim n' (words ++ [KSimple KStar])
                | TQuestion => word_loop delim n' (words ++ [KSimple KQuestion])
                | TTilde => word_loop delim n' (words ++ [KSimple KTilde])
                | TSquareOpen => word_loop delim n' (words ++ [KSimple KSquareOpen])
                | TSquareClose => word_loop delim n' (words ++ [KSimple KSquareClose])
                | TColon => word_loop delim n' (words ++ [KSimple KColon])
                | TBackslash =>
                    e <- next ;;
                    match e with
                    | Some TNewline | None => ret words
                    | Some e => word_loop delim n' (words ++ [KSimple (KEscaped (as_str e))])
                    end
                | TSingleQuote =>
                    ts <- collect_balanced fuel (Some (TSingleQuote, start_pos)) ;;
                    word_loop delim n' (words ++ [KSingleQuoted (concat_tokens ts)])
                | TDoubleQuote =>
                    ws <- word_interpolated_raw (Some (TDoubleQuote, TDoubleQuote)) start_pos ;;
                    word_loop delim n' (words ++ [KDoubleQuoted ws])
                | TBacktick | TDollar | TParamPositional _ => panic PS_word_peeked
                | _ => panic PS_word_delim
                end
            end
        end
  end.

(** parse.rs 1248-1254 and 1527-1533: no word, a single fragment, or a concatenation. *)
Definition pack_words (words : list (wk C)) : option (cwk C) :=
  match words with
  | [] => None
  | [w] => Some (KSingle w)
  | _ => Some (KConcat words)
  end.

(** parse.rs 1140-1257: [word_preserve_trailing_whitespace_raw_with_delim]. *)
Definition word_raw_with_delim (delim : option token) : prog (option (cwk C)) :=
  skip_whitespace fuel ;;
  p <- peek ;;
  if otoken_eqb p (Some TPound) then ret None
  else
    words <- word_loop delim fuel [] ;;
    ret (pack_words words).

(** parse.rs 1132-1136: [word_preserve_trailing_whitespace_raw]. *)
Definition word_raw : prog (option (cwk C)) := word_raw_with_delim None.

(** parse.rs 1691-1715: [parameter_inner]. *)
Definition parameter_inner : prog param :=
  start_pos <- getpos ;;
  t <- next ;;
  match t with
  | Some TStar => ret PmStar
  | Some TPound => ret PmPound
  | Some TQuestion => ret PmQuestion
  | Some TDollar => ret PmDollar
  | Some TBang => ret PmBang
  | Some TDash => ret PmDash
  | Some TAt => ret PmAt
  | Some (TName n) => ret (PmVar n)
  | Some (TLiteral s) =>
      match from_str_radix_u u32_max 10 s with
      | Some n => ret (PmPositional n)
      | None => throw (BadSubst (TLiteral s) start_pos)
      end
  | Some t => throw (BadSubst t start_pos)
  | None => throw UnexpectedEOF
  end.

(** parse.rs 1434-1492: how ['capture_literals] treats the peeked token. *)
Inductive subst_class := SCEnd | SCBackslash | SCLiteral (t : token) | SCWord.
Definition subst_class_of (t : option token) : subst_class :=
  match t with
  | None => SCEnd
  | Some t =>
      match t with
      | TCurlyClose => SCEnd
      | TBackslash => SCBackslash
      | TPound | TParenOpen | TParenClose | TSemi | TAmp | TPipe | TAndIf | TOrIf | TDSemi
      | TLess | TGreat | TDLess | TDGreat | TGreatAnd | TLessAnd | TDLessDash | TClobber
      | TLessGreat | TWhitespace _ | TNewline => SCLiteral t
      | TCurlyOpen | TSquareOpen | TSquareClose | TSingleQuote | TDoubleQuote | TStar
      | TQuestion | TTilde | TBang | TPercent | TDash | TEquals | TPlus | TColon | TAt | TCaret
      | TSlash | TComma | TName _ | TLiteral _ | TBacktick | TDollar | TParamPositional _ =>
          SCWord
      end
  end.

(** parse.rs 1494-1507: look-ahead for an escaped newline. *)
Definition escaped_newline_try : mp bool :=
  MPeekNext (fun _ => MPeekNext (fun b => MRet (otoken_eqb b (Some TNewline)))).

(** parse.rs 1433-1513: ['capture_literals]; [true] when ['capture_words] must be left too. *)
Fixpoint capture_literals (n : nat) (words : list (wk C)) : prog (list (wk C) * bool) :=
  match n with
  | O => outoffuel
  | S n' =>
      p <- peek ;;
      match subst_class_of p with
      | SCEnd => ret (words, true)
      | SCWord => ret (words, false)
      | SCLiteral t => next ;; capture_literals n' (words ++ [KSimple (KLiteral (as_str t))])
      | SCBackslash =>
          nl <- multipeek escaped_newline_try ;;
          if nl : bool then
            next ;; next ;;
            capture_literals n' (words ++ [KSimple (KEscaped (as_str TNewline))])
          else ret (words, false)
      end
  end.

(** parse.rs 1432-1520: ['capture_words]. *)
Fixpoint capture_words (n : nat) (words : list (wk C)) : prog (list (wk C)) :=
  match n with
  | O => outoffuel
  | S n' =>
      '(words1, stop) <- capture_literals fuel words ;;
      if stop : bool then ret words1
      else
        w <- word_raw_with_delim (Some TCurlyClose) ;;
        match w with
        | Some (KSingle w) => capture_words n' (words1 ++ [w])
        | Some (KConcat ws) => capture_words n' (words1 ++ ws)
        | None => ret words1
        end
  end.

(** parse.rs 1427-1534: [parameter_substitution_word_raw]. *)
Definition parameter_substitution_word_raw (curly_open_pos : spos) : prog (option (cwk C)) :=
  words <- capture_words fuel [] ;;
  c <- eat_maybe TCurlyClose ;;
  if c : bool then ret (pack_words words)
  else throw (Unmatched TCurlyOpen curly_open_pos).

(** parse.rs 1565-1582: the substitution denoted by the operator. *)
Definition subst_of_op (op : token) (has_colon : bool) (p : param) (word : option (cwk C))
  : option (psk C) :=
  let maybe_len := param_eqb p PmPound && negb has_colon
                   && match word with None => true | Some _ => false end in
  if maybe_len && token_eqb op TDash then Some (KSLen PmDash)
  else if maybe_len && token_eqb op TQuestion then Some (KSLen PmQuestion)
  else match op with
       | TDash => Some (KSDefault has_colon p word)
       | TEquals => Some (KSAssign has_colon p word)
       | TQuestion => Some (KSError has_colon p word)
       | TPlus => Some (KSAlternative has_colon p word)
       | _ => None
       end.

(** parse.rs 1542-1584: [parameter_substitution_body_raw]. *)
Definition parameter_substitution_body_raw (p : param) (curly_open_pos : spos) : prog (swk C) :=
  has_colon <- eat_maybe TColon ;;
  op_pos <- getpos ;;
  t <- next ;;
  match t with
  | Some ((TDash | TEquals | TQuestion | TPlus) as op) =>
      word <- parameter_substitution_word_raw curly_open_pos ;;
      match subst_of_op op has_colon p word with
      | Some s => ret (KSubst s)
      | None => panic PS_subst_op
      end
  | Some TCurlyClose => ret (KParam p)
  | Some t => throw (BadSubst t op_pos)
  | None => throw (Unmatched TCurlyOpen curly_open_pos)
  end.

(** parse.rs 1758-1779: [subshell_internal]. *)
Definition subshell_internal (empty_body_ok : bool) : prog (cgroup C) :=
  start_pos <- getpos ;;
  eat TParenOpen ;;
  body <- k_group K (mkDelims [] [] [TParenClose]) ;;
  p <- peek ;;
  match p with
  | Some TParenClose =>
      if empty_body_ok || negb (is_nil (commands body)) then next ;; ret body
      else unexpected
  | Some _ => unexpected
  | None => throw (Unmatched TParenOpen start_pos)
  end.

(** parse.rs 1595-1599: look-ahead for [((]. *)
Definition arith_try : mp bool :=
  MPeekNext (fun _ => MPeekNext (fun b => MRet (otoken_eqb b (Some TParenOpen)))).

(** parse.rs 1593-1630: the [$(...)] and [$((...))] forms. *)
Definition paren_substitution : prog (swk C) :=
  is_arith <- multipeek arith_try ;;
  if is_arith : bool then
    eat TParenOpen ;;
    eat TParenOpen ;;
    skip_whitespace fuel ;;
    p <- peek ;;
    subst <- (if otoken_eqb p (Some TParenClose) then ret None
              else a <- arithmetic_substitution fuel ;; ret (Some a)) ;;
    skip_whitespace fuel ;;
    eat TParenClose ;;
    skip_whitespace fuel ;;
    eat TParenClose ;;
    ret (KSubst (KSArith subst))
  else
    g <- subshell_internal true ;;
    ret (KSubst (KSCommand g)).

(** parse.rs 1632-1683: the [${...}] form, after the opening brace was peeked. *)
Definition curly_substitution (curly_open_pos : spos) : prog (swk C) :=
  next ;;
  p <- parameter_inner ;;
  t <- peek ;;
  match t with
  | Some TPercent =>
      next ;;
      d <- eat_maybe TPercent ;;
      w <- parameter_substitution_word_raw curly_open_pos ;;
      ret (KSubst (if d : bool then KSRemoveLargestSuffix p w else KSRemoveSmallestSuffix p w))
  | Some TPound =>
      next ;;
      d <- eat_maybe TPound ;;
      w <- parameter_substitution_word_raw curly_open_pos ;;
      ret (KSubst (if d : bool then KSRemoveLargestPrefix p w
                   else match w with
                        | None => if param_eqb PmPound p then KSLen PmPound
                                  else KSRemoveSmallestPrefix p None
                        | w => KSRemoveSmallestPrefix p w
                        end))
  | _ =>
      if param_eqb PmPound p then
        match t with
        | Some TColon | Some TDash | Some TEquals | Some TQuestion | Some TPlus
        | Some TCurlyClose => parameter_substitution_body_raw p curly_open_pos
        | _ =>
            p' <- parameter_inner ;;
            eat TCurlyClose ;;
            ret (KSubst (KSLen p'))
        end
      else parameter_substitution_body_raw p curly_open_pos
  end.

(** parse.rs 1588-1688: [parameter_substitution_raw]. *)
Definition parameter_substitution_raw : prog (swk C) :=
  start_pos <- getpos ;;
  t <- peek ;;
  match t with
  | Some TParenOpen => paren_substitution
  | Some TCurlyOpen => curly_substitution start_pos
  | _ => unexpected
  end.

(** parse.rs 1399-1420: [parameter_raw]. *)
Definition parameter_raw : prog (swk C) :=
  start_pos <- getpos ;;
  t <- next ;;
  match t with
  | Some (TParamPositional p) => ret (KParam (PmPositional (as_num p)))
  | Some TDollar =>
      q <- peek ;;
      match q with
      | Some TStar | Some TPound | Some TQuestion | Some TDollar | Some TBang | Some TDash
      | Some TAt | Some (TName _) => p <- parameter_inner ;; ret (KParam p)
      | Some TParenOpen | Some TCurlyOpen => parameter_substitution_raw
      | _ => ret (KLiteral (as_str TDollar))
      end
  | Some t => throw (Unexpected t start_pos)
  | None => throw UnexpectedEOF
  end.

End Word.
