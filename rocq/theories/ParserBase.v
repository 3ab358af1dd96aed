(** * Parser primitives: whitespace, newlines, reserved words (src/parse.rs 380-456, 2290-2470) *)
From Coq Require Import String.
From Verif Require Import Base Token Pos Ast Prog.

(** parse.rs 24-37: the keywords. *)
Definition CASE := s_of "case".
Definition DO := s_of "do".
Definition DONE := s_of "done".
Definition ELIF := s_of "elif".
Definition ELSE := s_of "else".
Definition ESAC := s_of "esac".
Definition FI := s_of "fi".
Definition FOR := s_of "for".
Definition FUNCTION := s_of "function".
Definition IF := s_of "if".
Definition IN := s_of "in".
Definition THEN := s_of "then".
Definition UNTIL := s_of "until".
Definition WHILE := s_of "while".

(** parse.rs 203-215: [struct CommandGroupDelimiters]. *)
Record delimiters := mkDelims {
  reserved_tokens : list token;
  reserved_words : list str;
  exact_tokens : list token }.

(** parse.rs 217-225: its [Default]. *)
Definition no_delims : delimiters := mkDelims [] [] [].

Section ParserBase.
Context {BS BE : Type}.
Variable fuel : nat.      (* bound on the iterations of each loop *)
Notation prog := (prog BS BE).

(** parse.rs 444-449: [make_unexpected_err]. *)
Definition make_unexpected_err : prog (perr BE) :=
  p <- getpos ;;
  t <- next ;;
  ret (match t with Some t => Unexpected t p | None => UnexpectedEOF end).

(** [return Err(self.make_unexpected_err())] *)
Definition unexpected {A} : prog A :=
  e <- make_unexpected_err ;;
  throw e.

(** parse.rs 405-410, for a single token without payload: [eat!(self, { t => {} })].
    [eat_maybe!] (380-400) peeks once per alternative; peeking is idempotent ([Iter.v]), so the
    model peeks once. *)
Definition eat (t : token) : prog unit :=
  p <- peek ;;
  if otoken_eqb p (Some t) then next ;; ret tt else unexpected.

(** parse.rs 380-400: [eat_maybe!(self, { t => { true }; _ => { false } })]. *)
Definition eat_maybe (t : token) : prog bool :=
  p <- peek ;;
  if otoken_eqb p (Some t) then next ;; ret true else ret false.

(** parse.rs 2295-2297: the inner loop of [skip_whitespace]. *)
Fixpoint skip_blanks (n : nat) : prog unit :=
  match n with
  | O => outoffuel
  | S n' =>
      t <- peek ;;
      match t with
      | Some (TWhitespace _) => next ;; skip_blanks n'
      | _ => ret tt
      end
  end.

(** parse.rs 2299-2302. *)
Definition found_backslash_newline : mp bool :=
  MPeekNext (fun a =>
    if otoken_eqb a (Some TBackslash)
    then MPeekNext (fun b => MRet (otoken_eqb b (Some TNewline)))
    else MRet false).

(** parse.rs 2293-2311: [skip_whitespace]. *)
Fixpoint skip_whitespace_loop (n : nat) : prog unit :=
  match n with
  | O => outoffuel
  | S n' =>
      skip_blanks fuel ;;
      f <- multipeek found_backslash_newline ;;
      if f : bool then next ;; next ;; skip_whitespace_loop n' else ret tt
  end.
Definition skip_whitespace : prog unit := skip_whitespace_loop fuel.

(** parse.rs 2329-2333: [by_ref().take_while(|t| t != &Newline).collect()] (the newline is
    consumed and dropped). *)
Fixpoint take_comment (n : nat) (acc : list token) : prog (list token) :=
  match n with
  | O => outoffuel
  | S n' =>
      t <- next ;;
      match t with
      | None | Some TNewline => ret acc
      | Some t => take_comment n' (acc ++ [t])
      end
  end.

(** parse.rs 2324-2345: [newline]. *)
Definition newline : prog (option newline_) :=
  skip_whitespace ;;
  t <- peek ;;
  match t with
  | Some TPound =>
      c <- take_comment fuel [] ;;
      ret (Some (Newline (Some (concat_tokens c))))
  | Some TNewline => next ;; ret (Some (Newline None))
  | _ => ret None
  end.

(** parse.rs 2315-2321: [linebreak]. *)
Fixpoint linebreak_loop (n : nat) (acc : list newline_) : prog (list newline_) :=
  match n with
  | O => outoffuel
  | S n' =>
      x <- newline ;;
      match x with
      | Some x => linebreak_loop n' (acc ++ [x])
      | None => ret acc
      end
  end.
Definition linebreak : prog (list newline_) := linebreak_loop fuel [].

Definition is_whitespace_tok (t : token) : bool :=
  match t with TWhitespace _ => true | _ => false end.

(** parse.rs 2379-2398: one try of [peek_reserved_token]: [None]: nothing left, return [None];
    [Some r]: the found token, if any. *)
Definition reserved_token_try (tokens : list token) : mp (option (option token)) :=
  MPeekNext (fun a =>
    match a with
    | None => MRet None
    | Some tok =>
        match find (fun t => token_eqb t tok) tokens with
        | Some t =>
            MPeekNext (fun d =>
              MRet (Some (if match d with Some d => is_word_delimiter d | None => true end
                          then Some t else None)))
        | None => MRet (Some None)
        end
    end).

(** parse.rs 2378-2402: the [for _ in 0..num_tries] loop. *)
Fixpoint reserved_token_tries (n : nat) (tokens : list token) : prog (option token) :=
  match n with
  | O => ret None
  | S n' =>
      r <- multipeek (reserved_token_try tokens) ;;
      match r with
      | None => ret None
      | Some (Some t) => ret (Some t)
      | Some None => skip_whitespace ;; reserved_token_tries n' tokens
      end
  end.

(** parse.rs 2353-2405: [peek_reserved_token]. *)
Definition peek_reserved_token (tokens : list token) : prog (option token) :=
  match tokens with
  | [] => ret None
  | _ =>
      if existsb is_whitespace_tok tokens
      then reserved_token_tries 2 tokens
      else skip_whitespace ;; reserved_token_tries 1 tokens
  end.

(** parse.rs 2420-2432: the look-ahead of [peek_reserved_word]. *)
Definition reserved_word_try (words : list str) : mp (option str) :=
  MPeekNext (fun a =>
    let found := match a with
                 | Some (TName kw) | Some (TLiteral kw) => find (fun w => str_eqb w kw) words
                 | _ => None
                 end in
    MPeekNext (fun d =>
      MRet (match d with
            | Some d => if is_word_delimiter d then found else None
            | None => found
            end))).

(** parse.rs 2414-2433: [peek_reserved_word]. *)
Definition peek_reserved_word (words : list str) : prog (option str) :=
  match words with
  | [] => ret None
  | _ => skip_whitespace ;; multipeek (reserved_word_try words)
  end.

(** parse.rs 2438-2457: [reserved_token]; the error is returned as a value because
    [brace_group] replaces it. *)
Definition reserved_token_res (tokens : list token) : prog (token + perr BE) :=
  r <- peek_reserved_token tokens ;;
  match r with
  | Some _ =>
      t <- next ;;
      match t with
      | Some t => ret (inl t)
      | None => panic PS_reserved_token
      end
  | None =>
      pk <- peek ;;
      (if existsb (fun t => otoken_eqb (Some t) pk) tokens then next ;; ret tt else ret tt) ;;
      e <- make_unexpected_err ;;
      ret (inr e)
  end.

Definition reserved_token (tokens : list token) : prog token :=
  r <- reserved_token_res tokens ;;
  match r with
  | inl t => ret t
  | inr e => throw e
  end.

(** parse.rs 2462-2470: [reserved_word]; [None] is [Err(())]. *)
Definition reserved_word (words : list str) : prog (option str) :=
  r <- peek_reserved_word words ;;
  match r with
  | Some s => next ;; ret (Some s)
  | None => ret None
  end.

End ParserBase.
