(** * Redirections and heredocs (src/parse.rs 666-1103, 1115-1129, 1356-1359, 1393-1396) *)
From Coq Require Import String.
From Verif Require Import Base Token Pos Ast Builder Prog Balanced ParserBase Word.

Section Redirect.
Variable B : builder.
Variable fuel : nat.      (* bound on the iterations of each loop *)
Variable K : knots (bst B) (b_err B) (b_cmd B).
Notation prog := (prog (bst B) (b_err B)).

(** parse.rs 1122-1128: [word_preserve_trailing_whitespace]. *)
Definition word_preserve_trailing_whitespace : prog (option (b_word B)) :=
  w <- word_raw fuel K ;;
  match w with
  | Some w => w <- build (o_word B w) ;; ret (Some w)
  | None => ret None
  end.

(** parse.rs 1115-1119: [word]. *)
Definition word : prog (option (b_word B)) :=
  w <- word_preserve_trailing_whitespace ;;
  skip_whitespace fuel ;;
  ret w.

(** parse.rs 1356-1359: [backticked_command_substitution]. *)
Definition backticked_command_substitution : prog (b_word B) :=
  w <- backticked_raw fuel K ;;
  build (o_word B (KSingle (KSimple w))).

(** parse.rs 1393-1396: [parameter]. *)
Definition parameter : prog (b_word B) :=
  w <- parameter_raw fuel K ;;
  build (o_word B (KSingle (KSimple w))).

(** parse.rs 695-713: [simple_could_be_numeric]. *)
Definition simple_could_be_numeric {C} (w : swk C) : bool :=
  match w with
  | KStar | KQuestion | KSquareOpen | KSquareClose | KTilde | KColon => false
  | KEscaped s | KLiteral s => forallb is_digit10 s
  | KParam _ | KSubst _ | KCommandSubst _ => true
  end.

(** parse.rs 694-720: [could_be_numeric]. *)
Definition could_be_numeric {C} (w : wk C) : bool :=
  match w with
  | KSimple s => simple_could_be_numeric s
  | KSingleQuoted s => forallb is_digit10 s
  | KDoubleQuoted l => forallb simple_could_be_numeric l
  end.

(** parse.rs 727-735: concatenate fragments if all are literals. *)
Fixpoint literal_fragments {C} (l : list (wk C)) : option str :=
  match l with
  | [] => Some []
  | KSimple (KLiteral s) :: l' =>
      match literal_fragments l' with Some r => Some (s ++ r) | None => None end
  | _ => None
  end.

(** parse.rs 722-739: [as_num]. *)
Definition word_as_num {C} (w : cwk C) : option N :=
  match w with
  | KSingle (KSimple (KLiteral s)) => from_str_radix_u u16_max 10 s
  | KSingle _ => None
  | KConcat l =>
      match literal_fragments l with
      | Some s => from_str_radix_u u16_max 10 s
      | None => None
      end
  end.

(** ** Heredocs *)

(** parse.rs 874-887: capture the delimiter's tokens. *)
Fixpoint delim_tokens_loop (n : nat) (acc : list token) : prog (list token) :=
  match n with
  | O => outoffuel
  | S n' =>
      p <- peek ;;
      match p with
      | None => ret acc
      | Some t =>
          if is_word_delimiter t && negb (token_eqb t TParenOpen) then ret acc
          else ts <- collect_balanced fuel None ;; delim_tokens_loop n' (acc ++ ts)
      end
  end.

(** parse.rs 911-933: the text between double quotes in a delimiter. *)
Fixpoint delim_dq_loop (n : nat) (b : balanced) (delim : str) : prog str :=
  match n with
  | O => outoffuel
  | S n' =>
      '(r, b1) <- balanced_next b ;;
      match r with
      | None => ret delim
      | Some (inr (t, p)) => throw (Unmatched t p)
      | Some (inl TBackslash) =>
          '(r2, b2) <- balanced_next b1 ;;
          match r2 with
          | Some (inl ((TDollar | TBacktick | TDoubleQuote | TBackslash | TNewline) as tok)) =>
              delim_dq_loop n' b2 (delim ++ as_str tok)
          | Some (inl t) => delim_dq_loop n' b2 (delim ++ as_str TBackslash ++ as_str t)
          | Some (inr (t, p)) => throw (Unmatched t p)
          | None => delim_dq_loop n' b2 (delim ++ as_str TBackslash)
          end
      | Some (inl t) => delim_dq_loop n' b1 (delim ++ as_str t)
      end
  end.

(** parse.rs 892-966: unquote the delimiter; runs on an iterator over its tokens. *)
Fixpoint delim_loop (n : nat) (quoted : bool) (delim : str) : prog (str * bool) :=
  match n with
  | O => outoffuel
  | S n' =>
      start_pos <- getpos ;;
      t <- next ;;
      match t with
      | Some TBackslash =>
          e <- next ;;
          delim_loop n' true (match e with Some e => delim ++ as_str e | None => delim end)
      | Some TSingleQuote =>
          ts <- collect_balanced fuel (Some (TSingleQuote, start_pos)) ;;
          delim_loop n' true (delim ++ concat_tokens ts)
      | Some TDoubleQuote =>
          b <- balanced_new (Some (TDoubleQuote, start_pos)) ;;
          d <- delim_dq_loop fuel b delim ;;
          delim_loop n' true d
      | Some TBacktick =>
          ts <- collect_bbr fuel start_pos ;;
          delim_loop n' true (delim ++ as_str TBacktick ++ concat_tokens ts ++ as_str TBacktick)
      | Some t => delim_loop n' quoted (delim ++ as_str t)
      | None => ret (delim, quoted)
      end
  end.

(** parse.rs 986-997: save the tokens up to and including the next unquoted newline. *)
Fixpoint saved_tokens_loop (n : nat) (acc : list token) : prog (list token) :=
  match n with
  | O => outoffuel
  | S n' =>
      p <- peek ;;
      match p with
      | None => ret acc
      | Some TNewline =>
          t <- next ;;
          match t with
          | Some t => ret (acc ++ [t])
          | None => panic PS_heredoc_newline
          end
      | Some _ => ts <- collect_balanced fuel None ;; saved_tokens_loop n' (acc ++ ts)
      end
  end.

(** parse.rs 1045-1051: the (bounded) length of a line. *)
Fixpoint bounded_len (line : list token) (bound acc : nat) : nat :=
  match line with
  | [] => acc
  | t :: line' =>
      let acc' := (acc + tok_len t)%nat in
      if (bound <? acc')%nat then acc' else bounded_len line' bound acc'
  end.

(** parse.rs 1045-1064: is the line the delimiter (possibly followed by a carriage return)? *)
Definition is_delim_line (delim : str) (line : list token) : bool :=
  let delim_r := delim ++ [c_cr] in
  let line_len := bounded_len line (str_len delim_r) 0 in
  if (line_len =? str_len delim)%nat || (line_len =? str_len delim_r)%nat then
    let line_str := concat_tokens line in
    str_eqb line_str delim || str_eqb line_str delim_r
  else false.

(** How ['line] ends: the heredoc is over, or the line is complete. *)
Inductive line_end := HDone | HLine (line : list token) (p : spos).

(** parse.rs 1004-1077: ['line]. *)
Fixpoint heredoc_line (strip_tabs : bool) (delim : str) (n : nat) (line : list token)
    (line_start_pos : spos) : prog line_end :=
  match n with
  | O => outoffuel
  | S n' =>
      '(line, line_start_pos) <-
        (if strip_tabs then
           p <- peek ;;
           match p with
           | Some (TWhitespace w) =>
               let stripped := trim_start_matches c_tab w in
               let num_tabs := (str_len w - str_len stripped)%nat in
               let lsp := advance_tabs line_start_pos num_tabs in
               let line' := match stripped with
                            | [] => line
                            | _ => line ++ [TWhitespace stripped]
                            end in
               next ;; ret (line', lsp)
           | _ => ret (line, line_start_pos)
           end
         else ret (line, line_start_pos)) ;;
      t <- next ;;
      match t with
      | None =>
          match line with
          | [] => ret HDone
          | _ => if is_delim_line delim line then ret HDone else ret (HLine line line_start_pos)
          end
      | Some TNewline =>
          if is_delim_line delim line then ret HDone
          else ret (HLine (line ++ [TNewline]) line_start_pos)
      | Some t => heredoc_line strip_tabs delim n' (line ++ [t]) line_start_pos
      end
  end.

(** parse.rs 1001-1080: ['heredoc]. *)
Fixpoint heredoc_lines (strip_tabs : bool) (delim : str) (n : nat)
    (acc : list (list token * spos)) : prog (list (list token * spos)) :=
  match n with
  | O => outoffuel
  | S n' =>
      p <- getpos ;;
      r <- heredoc_line strip_tabs delim fuel [] p ;;
      match r with
      | HDone => ret acc
      | HLine line p => heredoc_lines strip_tabs delim n' (acc ++ [(line, p)])
      end
  end.

(** parse.rs 1061-1068: the body as a word. *)
Definition heredoc_body_word {C} (body : list (swk C)) : cwk C :=
  match body with
  | [] => KSingle (KSimple (KLiteral []))
  | [w] => KSingle (KSimple w)
  | _ => KConcat (map KSimple body)
  end.

(** parse.rs 839-1103: [redirect_heredoc]. *)
Definition redirect_heredoc (src_fd : option N) : prog (b_redirect B) :=
  p <- peek ;;
  strip_tabs <- (match p with
                 | Some TDLess => next ;; ret false
                 | Some TDLessDash => next ;; ret true
                 | _ => unexpected
                 end) ;;
  skip_whitespace fuel ;;
  delim_tokens <- delim_tokens_loop fuel [] ;;
  '(delim, quoted) <- sub_iter (FromTokens delim_tokens) true (delim_loop fuel false []) ;;
  match delim with
  | [] => unexpected
  | _ =>
      saved_pos <- getpos ;;
      saved_tokens <- saved_tokens_loop fuel [] ;;
      heredoc_start_pos <- getpos ;;
      heredoc <- heredoc_lines strip_tabs delim fuel [] ;;
      buffer saved_tokens saved_pos ;;
      body <- (if quoted : bool then
                 ret (KSingle (KSimple (KLiteral (concat_tokens (flat_map fst heredoc)))))
               else
                 ws <- sub_iter (FromChunks heredoc_start_pos heredoc) false
                         (word_interpolated_raw fuel K None heredoc_start_pos) ;;
                 ret (heredoc_body_word ws)) ;;
      w <- build (o_word B body) ;;
      build (o_redirect B (RHeredoc src_fd w))
  end.

(** parse.rs 762-769: [get_path!]. *)
Definition get_path : prog (b_word B) :=
  w <- word_raw fuel K ;;
  match w with
  | Some w => build (o_word B w)
  | None => unexpected
  end.

(** parse.rs 771-796: [get_dup_path!]. *)
Definition get_dup_path : prog (b_word B) :=
  d <- peek_reserved_token fuel [TDash] ;;
  path <- (match d with
           | Some _ =>
               dash <- reserved_token fuel [TDash] ;;
               ret (KSingle (KSimple (KLiteral (as_str dash))))
           | None =>
               path_start_pos <- getpos ;;
               w <- word_raw fuel K ;;
               match w with
               | None => unexpected
               | Some w =>
                   let is_numeric := match w with
                                     | KSingle p => could_be_numeric p
                                     | KConcat v => forallb could_be_numeric v
                                     end in
                   if is_numeric then ret w
                   else q <- getpos ;; throw (BadFd path_start_pos q)
               end
           end) ;;
  build (o_word B path).

(** parse.rs 798-811: the redirect after its operator. *)
Definition redirect_op (op : token) (src_fd : option N) : prog (b_redirect B) :=
  skip_whitespace fuel ;;
  r <- (match op with
        | TLess => w <- get_path ;; ret (RRead src_fd w)
        | TGreat => w <- get_path ;; ret (RWrite src_fd w)
        | TDGreat => w <- get_path ;; ret (RAppend src_fd w)
        | TClobber => w <- get_path ;; ret (RClobber src_fd w)
        | TLessGreat => w <- get_path ;; ret (RReadWrite src_fd w)
        | TLessAnd => w <- get_dup_path ;; ret (RDupRead src_fd w)
        | TGreatAnd => w <- get_dup_path ;; ret (RDupWrite src_fd w)
        | _ => panic PS_redirect_kind
        end) ;;
  build (o_redirect B r).

(** parse.rs 748-759: after the optional word that may be a descriptor. *)
Definition redirect_after (src_fd : option N) (src_fd_as_word : option (cwk (b_cmd B)))
  : prog (option (b_redirect B + b_word B)) :=
  p <- peek ;;
  match p with
  | Some (TLess | TGreat | TDGreat | TClobber | TLessAnd | TGreatAnd | TLessGreat) =>
      t <- next ;;
      match t with
      | Some op => r <- redirect_op op src_fd ;; ret (Some (inl r))
      | None => panic PS_redirect_next
      end
  | Some (TDLess | TDLessDash) => r <- redirect_heredoc src_fd ;; ret (Some (inl r))
  | _ =>
      match src_fd_as_word with
      | Some w => w <- build (o_word B w) ;; ret (Some (inr w))
      | None => ret None
      end
  end.

(** parse.rs 693-812: [redirect]; [inl] is [Ok(redirect)], [inr] is [Err(word)]. *)
Definition redirect : prog (option (b_redirect B + b_word B)) :=
  w <- word_raw fuel K ;;
  match w with
  | None => redirect_after None None
  | Some w =>
      match word_as_num w with
      | Some num => redirect_after (Some num) (Some w)
      | None => w <- build (o_word B w) ;; ret (Some (inr w))
      end
  end.

(** parse.rs 666-679: [redirect_list]. *)
Fixpoint redirect_list_loop (n : nat) (acc : list (b_redirect B)) : prog (list (b_redirect B)) :=
  match n with
  | O => outoffuel
  | S n' =>
      skip_whitespace fuel ;;
      start_pos <- getpos ;;
      r <- redirect ;;
      match r with
      | Some (inl io) => redirect_list_loop n' (acc ++ [io])
      | Some (inr _) => q <- getpos ;; throw (BadFd start_pos q)
      | None => ret acc
      end
  end.
Definition redirect_list : prog (list (b_redirect B)) := redirect_list_loop fuel [].

End Redirect.
