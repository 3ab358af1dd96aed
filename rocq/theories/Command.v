(** * Commands (src/parse.rs 468-661, 1720-1745, 1783-2285, 2480-2532) and the parser's API *)
From Coq Require Import String.
From Verif Require Import Base Token Pos Ast Builder Prog Iter Balanced ParserBase Arith Word Redirect.

(** parse.rs 127-135: [enum CompoundCmdKeyword]. *)
Inductive compound_kw := KwFor | KwCase | KwIf | KwWhile | KwUntil | KwBrace | KwSubshell.

Section Command.
Variable B : builder.
Variable fuel : nat.      (* bound on the iterations of each loop *)
Variable K : knots (bst B) (b_err B) (b_cmd B).
Notation prog := (prog (bst B) (b_err B)).

(** parse.rs 596-603: look-ahead for [name=]. *)
Definition assignment_try : mp bool :=
  MPeekNext (fun a =>
    match a with
    | Some (TName _) => MPeekNext (fun b => MRet (otoken_eqb b (Some TEquals)))
    | _ => MRet false
    end).

(** parse.rs 594-640: the first loop of [simple_command]: assignments and redirects, up to and
    including the command name. *)
Fixpoint simple_vars_loop (n : nat) (vars : list (redirect_or_env_var (b_redirect B) str (b_word B)))
  : prog (list (redirect_or_env_var (b_redirect B) str (b_word B)) * option (b_word B)) :=
  match n with
  | O => outoffuel
  | S n' =>
      skip_whitespace fuel ;;
      is_name <- multipeek assignment_try ;;
      if is_name : bool then
        t <- next ;;
        match t with
        | Some (TName var) =>
            next ;;
            p <- peek ;;
            value <- (match p with
                      | Some (TWhitespace _) => ret None
                      | _ => word B fuel K
                      end) ;;
            simple_vars_loop n' (vars ++ [EEnvVar var value])
        | _ => panic PS_simple_command
        end
      else
        r <- redirect B fuel K ;;
        match r with
        | Some (inl io) => simple_vars_loop n' (vars ++ [ERedirect io])
        | Some (inr w) => ret (vars, Some w)
        | None => ret (vars, None)
        end
  end.

(** parse.rs 646-652: the second loop: arguments and redirects. *)
Fixpoint simple_args_loop (n : nat) (args : list (redirect_or_cmd_word (b_redirect B) (b_word B)))
  : prog (list (redirect_or_cmd_word (b_redirect B) (b_word B))) :=
  match n with
  | O => outoffuel
  | S n' =>
      r <- redirect B fuel K ;;
      match r with
      | Some (inl io) => simple_args_loop n' (args ++ [DRedirect io])
      | Some (inr w) => simple_args_loop n' (args ++ [DCmdWord w])
      | None => ret args
      end
  end.

(** parse.rs 588-661: [simple_command]. *)
Definition simple_command : prog (b_pipeable B) :=
  '(vars, exec) <- simple_vars_loop fuel [] ;;
  args <- simple_args_loop fuel (match exec with Some w => [DCmdWord w] | None => [] end) ;;
  if is_nil vars && is_nil args then unexpected
  else build (o_simple_command B vars args).

(** parse.rs 2480-2490: [command_group]. *)
Definition command_group (cfg : delimiters) : prog (cgroup (b_cmd B)) :=
  g <- k_group K cfg ;;
  if is_nil (commands g) then unexpected else ret g.

(** parse.rs 1720-1731: [do_group]. *)
Definition do_group : prog (cgroup (b_cmd B)) :=
  start_pos <- getpos ;;
  r <- reserved_word fuel [DO] ;;
  match r with
  | None => unexpected
  | Some _ =>
      g <- command_group (mkDelims [] [DONE] []) ;;
      d <- reserved_word fuel [DONE] ;;
      match d with
      | Some _ => ret g
      | None => p <- getpos ;; throw (IncompleteCmd DO start_pos DONE p)
      end
  end.

(** parse.rs 1735-1747: [brace_group]. *)
Definition brace_group : prog (cgroup (b_cmd B)) :=
  start_pos <- getpos ;;
  reserved_token fuel [TCurlyOpen] ;;
  g <- command_group (mkDelims [TCurlyClose] [] []) ;;
  r <- reserved_token_res fuel [TCurlyClose] ;;
  match r with
  | inl _ => ret g
  | inr _ => throw (Unmatched TCurlyOpen start_pos)
  end.

(** parse.rs 1752-1754: [subshell]. *)
Definition subshell : prog (cgroup (b_cmd B)) := subshell_internal K false.

(** parse.rs 1783-1799: [next_compound_command_type]. *)
Definition next_compound_command_type : prog (option compound_kw) :=
  skip_whitespace fuel ;;
  p <- peek ;;
  if otoken_eqb p (Some TParenOpen) then ret (Some KwSubshell)
  else
    c <- peek_reserved_token fuel [TCurlyOpen] ;;
    match c with
    | Some _ => ret (Some KwBrace)
    | None =>
        w <- peek_reserved_word fuel [FOR; CASE; IF; WHILE; UNTIL] ;;
        ret (match w with
             | Some w =>
                 if str_eqb w FOR then Some KwFor
                 else if str_eqb w CASE then Some KwCase
                 else if str_eqb w IF then Some KwIf
                 else if str_eqb w WHILE then Some KwWhile
                 else if str_eqb w UNTIL then Some KwUntil
                 else None
             | None => None
             end)
    end.

(** parse.rs 1862-1893: [loop_command]. *)
Definition loop_command : prog (loop_kind * gbpair (b_cmd B)) :=
  start_pos <- getpos ;;
  r <- reserved_word fuel [WHILE; UNTIL] ;;
  match r with
  | None => unexpected
  | Some w =>
      kind <- (if str_eqb w WHILE then ret LoopWhile
               else if str_eqb w UNTIL then ret LoopUntil
               else panic PS_loop_kw) ;;
      guard <- command_group (mkDelims [] [DO] []) ;;
      d <- peek_reserved_word fuel [DO] ;;
      match d with
      | Some _ => body <- do_group ;; ret (kind, mkGBP guard body)
      | None => p <- getpos ;; throw (IncompleteCmd WHILE start_pos DO p)
      end
  end.

(** parse.rs 1917-1952: the loop of [if_command]. *)
Fixpoint if_loop (start_pos : spos) (n : nat) (conds : list (gbpair (b_cmd B)))
  : prog (if_fragments (b_cmd B)) :=
  match n with
  | O => outoffuel
  | S n' =>
      guard <- command_group (mkDelims [] [THEN] []) ;;
      t <- reserved_word fuel [THEN] ;;
      match t with
      | None => p <- getpos ;; throw (IncompleteCmd IF start_pos THEN p)
      | Some _ =>
          body <- command_group (mkDelims [] [ELIF; ELSE; FI] []) ;;
          let conds' := conds ++ [mkGBP guard body] in
          k <- reserved_word fuel [ELIF; ELSE; FI] ;;
          match k with
          | None => p <- getpos ;; throw (IncompleteCmd IF start_pos FI p)
          | Some k =>
              if str_eqb k ELIF then if_loop start_pos n' conds'
              else if str_eqb k ELSE then
                els <- command_group (mkDelims [] [FI] []) ;;
                f <- reserved_word fuel [FI] ;;
                match f with
                | Some _ => ret (mkIF conds' (Some els))
                | None => p <- getpos ;; throw (IncompleteCmd IF start_pos FI p)
                end
              else if str_eqb k FI then ret (mkIF conds' None)
              else panic PS_if_kw
          end
      end
  end.

(** parse.rs 1900-1953: [if_command]. *)
Definition if_command : prog (if_fragments (b_cmd B)) :=
  start_pos <- getpos ;;
  r <- reserved_word fuel [IF] ;;
  match r with
  | None => unexpected
  | Some _ => if_loop start_pos fuel []
  end.

(** parse.rs 1992-1995: the words of a [for] command. *)
Fixpoint words_loop (n : nat) (acc : list (b_word B)) : prog (list (b_word B)) :=
  match n with
  | O => outoffuel
  | S n' =>
      w <- word B fuel K ;;
      match w with
      | Some w => words_loop n' (acc ++ [w])
      | None => ret acc
      end
  end.

(** parse.rs 1984-2033: the part of a [for] command between the variable and the body:
    the words, and the comments before the body. *)
Definition for_words (start_pos : spos) (post_var_comments : list newline_)
  : prog (option (list newline_ * list (b_word B) * option newline_) * list newline_) :=
  i <- peek_reserved_word fuel [IN] ;;
  match i with
  | Some _ =>
      r <- reserved_word fuel [IN] ;;
      match r with
      | None => panic PS_for_in
      | Some _ =>
          words <- words_loop fuel [] ;;
          found_semi <- eat_maybe TSemi ;;
          words_comment <- newline fuel ;;
          if negb found_semi && match words_comment with None => true | Some _ => false end
          then unexpected
          else
            lb <- linebreak fuel ;;
            ret (Some (post_var_comments, words, words_comment), lb)
      end
  | None =>
      p <- peek ;;
      if otoken_eqb p (Some TSemi) then
        eat TSemi ;;
        lb <- linebreak fuel ;;
        ret (None, lb)
      else
        d <- peek_reserved_word fuel [DO] ;;
        match d with
        | None => q <- getpos ;; throw (IncompleteCmd FOR start_pos IN q)
        | Some _ => ret (None, post_var_comments)
        end
  end.

(** parse.rs 1960-2050: [for_command]. *)
Definition for_command : prog (for_fragments (b_word B) (b_cmd B)) :=
  start_pos <- getpos ;;
  r <- reserved_word fuel [FOR] ;;
  match r with
  | None => unexpected
  | Some _ =>
      skip_whitespace fuel ;;
      p <- peek ;;
      match p with
      | Some (TName _) | Some (TLiteral _) =>
          var_pos <- getpos ;;
          t <- next ;;
          match t with
          | Some (TName var) =>
              var_comment <- newline fuel ;;
              post_var_comments <- linebreak fuel ;;
              '(words, pre_body_comments) <- for_words start_pos post_var_comments ;;
              d <- peek_reserved_word fuel [DO] ;;
              match d with
              | None => q <- getpos ;; throw (IncompleteCmd FOR start_pos DO q)
              | Some _ =>
                  body <- do_group ;;
                  ret (mkFF var var_comment words pre_body_comments body)
              end
          | Some (TLiteral s) => throw (BadIdent s var_pos)
          | _ => panic PS_for_var
          end
      | _ => unexpected
      end
  end.

(** parse.rs 2105-2128: the patterns of a [case] arm, with the closing parenthesis. *)
Fixpoint patterns_loop (start_pos : spos) (n : nat) (acc : list (b_word B))
  : prog (list (b_word B)) :=
  match n with
  | O => outoffuel
  | S n' =>
      w <- word B fuel K ;;
      match w with
      | None => unexpected
      | Some w =>
          p <- peek ;;
          match p with
          | Some TPipe => next ;; patterns_loop start_pos n' (acc ++ [w])
          | Some TParenClose => next ;; ret (acc ++ [w])
          | None => q <- getpos ;; throw (IncompleteCmd CASE start_pos ESAC q)
          | _ => unexpected
          end
      end
  end.

(** parse.rs 2084-2159: the arms of a [case] command; the second component holds the comments
    found before [esac] if the loop was left on seeing it. *)
Fixpoint arms_loop (start_pos : spos) (n : nat) (arms : list (case_arm (b_word B) (b_cmd B)))
  : prog (list (case_arm (b_word B) (b_cmd B)) * list newline_) :=
  match n with
  | O => outoffuel
  | S n' =>
      pre_pattern_comments <- linebreak fuel ;;
      e <- peek_reserved_word fuel [ESAC] ;;
      match e with
      | Some _ => ret (arms, pre_pattern_comments)
      | None =>
          eat_maybe TParenOpen ;;
          p <- peek ;;
          match p with
          | None => q <- getpos ;; throw (IncompleteCmd CASE start_pos ESAC q)
          | Some _ =>
              patterns <- patterns_loop start_pos fuel [] ;;
              pattern_comment <- newline fuel ;;
              body <- k_group K (mkDelims [] [ESAC] [TDSemi]) ;;
              d <- eat_maybe TDSemi ;;
              if d : bool then
                arm_comment <- newline fuel ;;
                arms_loop start_pos n'
                  (arms ++ [mkCA (mkCP pre_pattern_comments patterns pattern_comment)
                                 body arm_comment])
              else
                ret (arms ++ [mkCA (mkCP pre_pattern_comments patterns pattern_comment)
                                   body None], [])
          end
      end
  end.

(** parse.rs 2056-2178: [case_command]. *)
Definition case_command : prog (case_fragments (b_word B) (b_cmd B)) :=
  start_pos <- getpos ;;
  r <- reserved_word fuel [CASE] ;;
  match r with
  | None => unexpected
  | Some _ =>
      w <- word B fuel K ;;
      match w with
      | None => unexpected
      | Some w =>
          post_word_comments <- linebreak fuel ;;
          i <- reserved_word fuel [IN] ;;
          match i with
          | None => q <- getpos ;; throw (IncompleteCmd CASE start_pos IN q)
          | Some _ =>
              in_comment <- newline fuel ;;
              '(arms, pre_esac_comments) <- arms_loop start_pos fuel [] ;;
              remaining_comments <- linebreak fuel ;;
              e <- reserved_word fuel [ESAC] ;;
              match e with
              | None => q <- getpos ;; throw (IncompleteCmd CASE start_pos ESAC q)
              | Some _ =>
                  ret (mkCF w post_word_comments in_comment arms
                            (pre_esac_comments ++ remaining_comments))
              end
          end
      end
  end.

(** parse.rs 1809-1856: [compound_command_internal] once the keyword is known. *)
Definition compound_command_kw (kw : option compound_kw) : prog (b_compound B) :=
  match kw with
  | Some KwIf =>
      f <- if_command ;; io <- redirect_list B fuel K ;; build (o_if_command B f io)
  | Some KwWhile | Some KwUntil =>
      '(k, gb) <- loop_command ;;
      io <- redirect_list B fuel K ;; build (o_loop_command B k gb io)
  | Some KwFor =>
      f <- for_command ;; io <- redirect_list B fuel K ;; build (o_for_command B f io)
  | Some KwCase =>
      f <- case_command ;; io <- redirect_list B fuel K ;; build (o_case_command B f io)
  | Some KwBrace =>
      g <- brace_group ;; io <- redirect_list B fuel K ;; build (o_brace_group B g io)
  | Some KwSubshell =>
      g <- subshell ;; io <- redirect_list B fuel K ;; build (o_subshell B g io)
  | None => unexpected
  end.

(** parse.rs 1803-1813: [compound_command]. *)
Definition compound_command : prog (b_compound B) :=
  kw <- next_compound_command_type ;;
  compound_command_kw kw.

(** parse.rs 2250-2276: what follows the function name; [Some] is a subshell used as the body. *)
Definition function_parens (found_fn : bool) : prog (option (b_compound B)) :=
  p <- peek ;;
  if otoken_eqb p (Some TParenOpen) then
    eat TParenOpen ;;
    skip_whitespace fuel ;;
    eat TParenClose ;;
    ret None
  else if found_fn && otoken_eqb p (Some TNewline) then ret None
  else
    (match p with
     | Some (TWhitespace _) => next ;; ret tt
     | _ => unexpected
     end) ;;
    skip_whitespace fuel ;;
    if negb found_fn then
      eat TParenOpen ;;
      skip_whitespace fuel ;;
      eat TParenClose ;;
      ret None
    else
      q <- peek ;;
      if otoken_eqb q (Some TParenOpen) then
        g <- subshell_internal K true ;;
        if is_nil (commands g) && is_nil (trailing_comments g) then ret None
        else c <- build (o_subshell B g []) ;; ret (Some c)
      else ret None.

(** parse.rs 2222-2285: [function_declaration_internal]. *)
Definition function_declaration_internal : prog (str * list newline_ * b_compound B) :=
  r <- peek_reserved_word fuel [FUNCTION] ;;
  found_fn <- (match r with Some _ => next ;; ret true | None => ret false end) ;;
  skip_whitespace fuel ;;
  p <- peek ;;
  match p with
  | Some (TName _) | Some (TLiteral _) =>
      ident_pos <- getpos ;;
      t <- next ;;
      match t with
      | Some (TName name) =>
          body <- function_parens found_fn ;;
          match body with
          | Some c => ret (name, [], c)
          | None =>
              lb <- linebreak fuel ;;
              c <- compound_command ;;
              ret (name, lb, c)
          end
      | Some (TLiteral s) => throw (BadIdent s ident_pos)
      | _ => panic PS_fn_name
      end
  | _ => unexpected
  end.

(** parse.rs 2214-2219: [function_declaration]. *)
Definition function_declaration : prog (b_pipeable B) :=
  '(name, comments, c) <- function_declaration_internal ;;
  build (o_function_declaration B name comments c).

(** parse.rs 2189-2201: look-ahead for [name (]. *)
Definition function_try : mp bool :=
  MPeekNext (fun a =>
    match a with
    | Some (TName _) =>
        MPeekNext (fun b =>
          match b with
          | Some (TWhitespace _) => MPeekNext (fun c => MRet (otoken_eqb c (Some TParenOpen)))
          | Some TParenOpen => MRet true
          | _ => MRet false
          end)
    | _ => MRet false
    end).

(** parse.rs 2182-2207: [maybe_function_declaration]. *)
Definition maybe_function_declaration : prog (option (b_pipeable B)) :=
  r <- peek_reserved_word fuel [FUNCTION] ;;
  match r with
  | Some _ => f <- function_declaration ;; ret (Some f)
  | None =>
      is_fn <- multipeek function_try ;;
      if is_fn : bool then f <- function_declaration ;; ret (Some f) else ret None
  end.

(** parse.rs 573-582: [command]. *)
Definition command : prog (b_pipeable B) :=
  kw <- next_compound_command_type ;;
  match kw with
  | Some _ =>
      c <- compound_command_kw kw ;;
      build (o_compound_command_into_pipeable B c)
  | None =>
      f <- maybe_function_declaration ;;
      match f with
      | Some f => ret f
      | None => simple_command
      end
  end.

(** parse.rs 550-567: the loop of [pipeline]. *)
Fixpoint pipeline_loop (n : nat) (cmds : list (list newline_ * b_pipeable B))
  : prog (list (list newline_ * b_pipeable B)) :=
  match n with
  | O => outoffuel
  | S n' =>
      p <- peek ;;
      if otoken_eqb p (Some TBang) then unexpected
      else
        cmd <- command ;;
        pipe <- eat_maybe TPipe ;;
        if pipe : bool then
          lb <- linebreak fuel ;;
          pipeline_loop n' (cmds ++ [(lb, cmd)])
        else ret (cmds ++ [([], cmd)])
  end.

(** parse.rs 543-570: [pipeline]. *)
Definition pipeline : prog (b_listable B) :=
  skip_whitespace fuel ;;
  bang <- eat_maybe TBang ;;
  cmds <- pipeline_loop fuel [] ;;
  build (o_pipeline B bang cmds).

(** parse.rs 517-537: the loop of [and_or_list]. *)
Fixpoint and_or_loop (n : nat) (rest : list (list newline_ * and_or (b_listable B)))
  : prog (list (list newline_ * and_or (b_listable B))) :=
  match n with
  | O => outoffuel
  | S n' =>
      skip_whitespace fuel ;;
      p <- peek ;;
      match p with
      | Some TAndIf =>
          next ;; lb <- linebreak fuel ;; c <- pipeline ;; and_or_loop n' (rest ++ [(lb, And c)])
      | Some TOrIf =>
          next ;; lb <- linebreak fuel ;; c <- pipeline ;; and_or_loop n' (rest ++ [(lb, Or c)])
      | _ => ret rest
      end
  end.

(** parse.rs 513-540: [and_or_list]. *)
Definition and_or_list : prog (b_list B) :=
  first <- pipeline ;;
  rest <- and_or_loop fuel [] ;;
  build (o_and_or_list B first rest).

(** parse.rs 487-507: [complete_command_with_leading_comments]. *)
Definition complete_command_with_leading_comments (pre_cmd_comments : list newline_)
  : prog (b_cmd B) :=
  cmd <- and_or_list ;;
  p <- peek ;;
  '(sep, cmd_comment) <-
    (match p with
     | Some TSemi => next ;; n <- newline fuel ;; ret (SepSemi, n)
     | Some TAmp => next ;; n <- newline fuel ;; ret (SepAmp, n)
     | _ =>
         n <- newline fuel ;;
         ret (match n with Some _ => SepNewline | None => SepOther end, n)
     end) ;;
  build (o_complete_command B pre_cmd_comments cmd sep cmd_comment).

(** parse.rs 468-482: [complete_command]. *)
Definition complete_command : prog (option (b_cmd B)) :=
  pre_cmd_comments <- linebreak fuel ;;
  p <- peek ;;
  match p with
  | Some _ => c <- complete_command_with_leading_comments pre_cmd_comments ;; ret (Some c)
  | None =>
      if is_nil pre_cmd_comments then ret None
      else build (o_comments B pre_cmd_comments) ;; ret None
  end.

(** parse.rs 2497-2508: [found_delim]. *)
Definition found_delim (cfg : delimiters) : prog bool :=
  found_exact <- (match exact_tokens cfg with
                  | [] => ret false
                  | ts => p <- peek ;; ret (existsb (fun t => otoken_eqb (Some t) p) ts)
                  end) ;;
  if found_exact : bool then ret true
  else
    w <- peek_reserved_word fuel (reserved_words cfg) ;;
    match w with
    | Some _ => ret true
    | None =>
        t <- peek_reserved_token fuel (reserved_tokens cfg) ;;
        ret (match t with Some _ => true | None => false end)
    end.

(** parse.rs 2512-2526: the loop of [command_group_internal]. *)
Fixpoint command_group_loop (cfg : delimiters) (n : nat) (cmds : list (b_cmd B))
  : prog (cgroup (b_cmd B)) :=
  match n with
  | O => outoffuel
  | S n' =>
      d <- found_delim cfg ;;
      if d : bool then ret (mkCG cmds [])
      else
        leading_comments <- linebreak fuel ;;
        d2 <- found_delim cfg ;;
        stop <- (if d2 : bool then ret true
                 else p <- peek ;; ret (match p with None => true | Some _ => false end)) ;;
        if stop : bool then ret (mkCG cmds leading_comments)
        else
          c <- complete_command_with_leading_comments leading_comments ;;
          command_group_loop cfg n' (cmds ++ [c])
  end.

(** parse.rs 2493-2532: [command_group_internal]. *)
Definition command_group_internal (cfg : delimiters) : prog (cgroup (b_cmd B)) :=
  command_group_loop cfg fuel [].

End Command.

(** Tying the recursive knot; [n] bounds the recursion depth. *)
Fixpoint knot (B : builder) (fuel n : nat) : knots (bst B) (b_err B) (b_cmd B) :=
  match n with
  | O => mkK (fun _ => outoffuel) outoffuel
  | S n' =>
      let K := knot B fuel n' in
      mkK (command_group_internal B fuel K) (parameter_raw fuel K)
  end.

(** ** The parser's methods, for a given amount of fuel.  [Total.v] shows which amount always
    suffices. *)
Section Api.
Variable B : builder.
Variable fuel : nat.
Notation K := (knot B fuel fuel).
Definition p_complete_command := complete_command B fuel K.
Definition p_and_or_list := and_or_list B fuel K.
Definition p_pipeline := pipeline B fuel K.
Definition p_command := command B fuel K.
Definition p_simple_command := simple_command B fuel K.
Definition p_redirect_list := redirect_list B fuel K.
Definition p_redirect := redirect B fuel K.
Definition p_redirect_heredoc := redirect_heredoc B fuel K.
Definition p_word := word B fuel K.
Definition p_word_preserve_trailing_whitespace := word_preserve_trailing_whitespace B fuel K.
Definition p_backticked_command_substitution := backticked_command_substitution B fuel K.
Definition p_parameter := parameter B fuel K.
Definition p_do_group := do_group B fuel K.
Definition p_brace_group := brace_group B fuel K.
Definition p_subshell := subshell B K.
Definition p_compound_command := compound_command B fuel K.
Definition p_loop_command := loop_command B fuel K.
Definition p_if_command := if_command B fuel K.
Definition p_for_command := for_command B fuel K.
Definition p_case_command := case_command B fuel K.
Definition p_maybe_function_declaration := maybe_function_declaration B fuel K.
Definition p_function_declaration := function_declaration B fuel K.
Definition p_skip_whitespace : prog (bst B) (b_err B) unit := skip_whitespace fuel.
Definition p_linebreak : prog (bst B) (b_err B) (list newline_) := linebreak fuel.
Definition p_newline : prog (bst B) (b_err B) (option newline_) := newline fuel.
Definition p_peek_reserved_token ts : prog (bst B) (b_err B) (option token) :=
  peek_reserved_token fuel ts.
Definition p_peek_reserved_word ws : prog (bst B) (b_err B) (option str) :=
  peek_reserved_word fuel ws.
Definition p_reserved_token ts : prog (bst B) (b_err B) token := reserved_token fuel ts.
Definition p_reserved_word ws : prog (bst B) (b_err B) (option str) := reserved_word fuel ws.
Definition p_command_group cfg := command_group B K cfg.
Definition p_arithmetic_substitution : prog (bst B) (b_err B) arith :=
  arithmetic_substitution fuel.
End Api.

(** ** [ParserIterator] *)

(** parse.rs 236-252: [struct ParserIterator]: [None] once exhausted.  The parser is its token
    iterator and its builder's state. *)
Definition parser_iter (I : iterops) (B : builder) := option (it I * bst B).

(** parse.rs 440-453, 245-250, 294-296: [Parser::with_builder] followed by [into_iter]. *)
Definition parser_iter_new (B : builder) (ts : list token) (b : bst B) : parser_iter concrete B :=
  Some (ti_new ts, b).

(** parse.rs 268-285: [ParserIterator::next].  Outcomes of the model that are not outcomes of
    [complete_command] (a panic, lack of fuel) are passed on as they are. *)
Definition parser_iter_next (I : iterops) (B : builder) (fuel : nat) (s : parser_iter I B)
  : option (outcome (b_err B) (b_cmd B)) * parser_iter I B :=
  match s with
  | None => (None, None)
  | Some (i, b) =>
      match run I (p_complete_command B fuel) i b with
      | (OOk (Some c), i', b') => (Some (OOk c), Some (i', b'))
      | (OOk None, _, _) => (None, None)
      | (OErr e, _, _) => (Some (OErr e), None)
      | (OPanic p, i', b') => (Some (OPanic p), Some (i', b'))
      | (OFuel, i', b') => (Some OFuel, Some (i', b'))
      end
  end.
