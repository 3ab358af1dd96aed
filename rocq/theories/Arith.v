(** * Arithmetic expressions (src/parse.rs 2534-2912) *)
From Coq Require Import String.
From Verif Require Import Base Token Pos Ast Prog ParserBase.
Local Open Scope N_scope.

(** parse.rs 2839-2859: the number denoted by the next token, if it is a numeric literal. *)
Definition literal_num (t : option token) : option Z :=
  match t with
  | Some (TLiteral s) =>
      if starts_with (s_of "0x") s || starts_with (s_of "0X") s then
        match skipn 2 s with
        | [] => Some 0%Z
        | num => from_str_radix_isize 16 num
        end
      else if starts_with (s_of "0") s then from_str_radix_isize 8 s
      else from_str_radix_isize 10 s
  | _ => None
  end.

(** parse.rs 2875-2882: look-ahead for [++]/[--] after a variable. *)
Definition post_incr_try : mp bool :=
  MPeekNext (fun a =>
    match a with
    | Some TPlus => MPeekNext (fun b => MRet (otoken_eqb b (Some TPlus)))
    | Some TDash => MPeekNext (fun b => MRet (otoken_eqb b (Some TDash)))
    | _ => MRet false
    end).

(** parse.rs 2769-2772: look-ahead for [**]. *)
Definition double_star_try : mp bool :=
  MPeekNext (fun a =>
    if otoken_eqb a (Some TStar)
    then MPeekNext (fun b => MRet (otoken_eqb b (Some TStar)))
    else MRet false).

(** parse.rs 2570-2583: the inner look-ahead loop of [arith_assig], after a name was seen.
    [None]: out of fuel. *)
Fixpoint assig_try_op (n : nat) : mp (option bool) :=
  match n with
  | O => MRet None
  | S n' =>
      MPeekNext (fun a =>
        match a with
        | Some (TWhitespace _) => assig_try_op n'
        | Some TStar | Some TSlash | Some TPercent | Some TPlus | Some TDash | Some TDLess
        | Some TDGreat | Some TAmp | Some TPipe | Some TCaret =>
            MPeekNext (fun b => MRet (Some (otoken_eqb b (Some TEquals))))
        | Some TEquals =>
            MPeekNext (fun b => MRet (Some (negb (otoken_eqb b (Some TEquals)))))
        | _ => MRet (Some false)
        end)
  end.

(** parse.rs 2566-2587: the ['assig_check] loop. *)
Fixpoint assig_try (n0 n : nat) : mp (option bool) :=
  match n with
  | O => MRet None
  | S n' =>
      MPeekNext (fun a =>
        match a with
        | Some TDollar => assig_try n0 n'
        | Some (TName _) => assig_try_op n0
        | _ => MRet (Some false)
        end)
  end.

Section Arith.
Context {BS BE : Type}.
Notation prog := (prog BS BE).
Variable fuel : nat.      (* bound on the iterations of each loop *)

(** The recursive calls that close a cycle; tied in [arith_knot]. *)
Record arith_knots := mkAK {
  k_subst : prog arith;
  k_assig : prog arith;
  k_ternary : prog arith;
  k_pow : prog arith;
  k_unary : prog arith }.

(** parse.rs 2899-2912: [arith_var]. *)
Definition arith_var : prog str :=
  skip_whitespace fuel ;;
  eat_maybe TDollar ;;
  t <- peek ;;
  match t with
  | Some (TName _) =>
      t <- next ;;
      match t with
      | Some (TName n) => ret n
      | _ => panic PS_arith_var
      end
  | _ => unexpected
  end.

Variable K : arith_knots.

(** parse.rs 2827-2895: [arith_post_incr]. *)
Definition arith_post_incr : prog arith :=
  skip_whitespace fuel ;;
  paren <- eat_maybe TParenOpen ;;
  if paren : bool then
    e <- k_subst K ;;
    skip_whitespace fuel ;;
    eat TParenClose ;;
    ret e
  else
    t <- peek ;;
    match literal_num t with
    | Some z => next ;; ret (ALiteral z)
    | None =>
        v <- arith_var ;;
        skip_whitespace fuel ;;
        pi <- multipeek post_incr_try ;;
        if pi : bool then
          p <- peek ;;
          match p with
          | Some TPlus => next ;; eat TPlus ;; ret (APostIncr v)
          | Some TDash => next ;; eat TDash ;; ret (APostDecr v)
          | _ => unexpected
          end
        else ret (AVar v)
    end.

(** parse.rs 2787-2821: [arith_unary_misc]. *)
Definition arith_unary_misc : prog arith :=
  skip_whitespace fuel ;;
  p <- peek ;;
  match p with
  | Some TBang => next ;; e <- k_unary K ;; ret (ALogicalNot e)
  | Some TTilde => next ;; e <- k_unary K ;; ret (ABitwiseNot e)
  | Some TPlus =>
      next ;;
      q <- peek ;;
      match q with
      | Some TDash => next ;; e <- k_unary K ;; ret (AUnaryPlus (AUnaryMinus e))
      | Some TPlus => next ;; v <- arith_var ;; ret (APreIncr v)
      | _ => e <- k_unary K ;; ret (AUnaryPlus e)
      end
  | Some TDash =>
      next ;;
      q <- peek ;;
      match q with
      | Some TPlus => next ;; e <- k_unary K ;; ret (AUnaryMinus (AUnaryPlus e))
      | Some TDash => next ;; v <- arith_var ;; ret (APreDecr v)
      | _ => e <- k_unary K ;; ret (AUnaryMinus e)
      end
  | _ => arith_post_incr
  end.

(** parse.rs 2760-2784: [arith_pow]. *)
Definition arith_pow : prog arith :=
  e <- arith_unary_misc ;;
  skip_whitespace fuel ;;
  ds <- multipeek double_star_try ;;
  if ds : bool then
    eat TStar ;; eat TStar ;;
    r <- k_pow K ;;
    ret (APow e r)
  else ret e.

(** parse.rs 419-437: the [arith_parse!] macro: left-associative binary operators.  [op t] is the
    constructor for operator token [t]. *)
Fixpoint arith_binop_loop (next_expr : prog arith) (op : token -> option (arith -> arith -> arith))
    (n : nat) (e : arith) : prog arith :=
  match n with
  | O => outoffuel
  | S n' =>
      skip_whitespace fuel ;;
      p <- peek ;;
      match p with
      | Some t =>
          match op t with
          | Some c => next ;; r <- next_expr ;; arith_binop_loop next_expr op n' (c e r)
          | None => ret e
          end
      | None => ret e
      end
  end.
Definition arith_binop (next_expr : prog arith) (op : token -> option (arith -> arith -> arith))
  : prog arith :=
  e <- next_expr ;;
  arith_binop_loop next_expr op fuel e.

(** parse.rs 2750-2757: [arith_mult]. *)
Definition arith_mult : prog arith :=
  arith_binop arith_pow
    (fun t => match t with
              | TStar => Some AMult | TSlash => Some ADiv | TPercent => Some AModulo
              | _ => None end).
(** parse.rs 2742-2748: [arith_add]. *)
Definition arith_add : prog arith :=
  arith_binop arith_mult
    (fun t => match t with TPlus => Some AAdd | TDash => Some ASub | _ => None end).
(** parse.rs 2734-2740: [arith_shift]. *)
Definition arith_shift : prog arith :=
  arith_binop arith_add
    (fun t => match t with TDLess => Some AShiftLeft | TDGreat => Some AShiftRight
                         | _ => None end).

(** parse.rs 2703-2732: [arith_ineq]. *)
Fixpoint arith_ineq_loop (n : nat) (e : arith) : prog arith :=
  match n with
  | O => outoffuel
  | S n' =>
      skip_whitespace fuel ;;
      p <- peek ;;
      match p with
      | Some TLess =>
          next ;;
          eq <- eat_maybe TEquals ;;
          r <- arith_shift ;;
          arith_ineq_loop n' (if eq : bool then ALessEq e r else ALess e r)
      | Some TGreat =>
          next ;;
          eq <- eat_maybe TEquals ;;
          r <- arith_shift ;;
          arith_ineq_loop n' (if eq : bool then AGreatEq e r else AGreat e r)
      | _ => ret e
      end
  end.
Definition arith_ineq : prog arith :=
  e <- arith_shift ;;
  arith_ineq_loop fuel e.

(** parse.rs 2680-2700: [arith_eq]. *)
Fixpoint arith_eq_loop (n : nat) (e : arith) : prog arith :=
  match n with
  | O => outoffuel
  | S n' =>
      skip_whitespace fuel ;;
      p <- peek ;;
      match p with
      | Some TEquals =>
          next ;; eat TEquals ;; r <- arith_ineq ;; arith_eq_loop n' (AEq e r)
      | Some TBang =>
          next ;; eat TEquals ;; r <- arith_ineq ;; arith_eq_loop n' (ANotEq e r)
      | _ => ret e
      end
  end.
Definition arith_eq : prog arith :=
  e <- arith_ineq ;;
  arith_eq_loop fuel e.

(** parse.rs 2671-2676: [arith_bitwise_and]. *)
Definition arith_bitwise_and : prog arith :=
  arith_binop arith_eq (fun t => match t with TAmp => Some ABitwiseAnd | _ => None end).
(** parse.rs 2664-2669: [arith_bitwise_xor]. *)
Definition arith_bitwise_xor : prog arith :=
  arith_binop arith_bitwise_and (fun t => match t with TCaret => Some ABitwiseXor | _ => None end).
(** parse.rs 2657-2662: [arith_bitwise_or]. *)
Definition arith_bitwise_or : prog arith :=
  arith_binop arith_bitwise_xor (fun t => match t with TPipe => Some ABitwiseOr | _ => None end).
(** parse.rs 2650-2655: [arith_logical_and]. *)
Definition arith_logical_and : prog arith :=
  arith_binop arith_bitwise_or (fun t => match t with TAndIf => Some ALogicalAnd | _ => None end).
(** parse.rs 2643-2648: [arith_logical_or]. *)
Definition arith_logical_or : prog arith :=
  arith_binop arith_logical_and (fun t => match t with TOrIf => Some ALogicalOr | _ => None end).

(** parse.rs 2628-2641: [arith_ternary]. *)
Definition arith_ternary : prog arith :=
  g <- arith_logical_or ;;
  skip_whitespace fuel ;;
  q <- eat_maybe TQuestion ;;
  if q : bool then
    b <- k_ternary K ;;
    skip_whitespace fuel ;;
    eat TColon ;;
    e <- k_ternary K ;;
    ret (ATernary g b e)
  else ret g.

(** parse.rs 2607-2622: the expression assigned for an assignment operator. *)
Definition assig_expr (op : token) (v : str) (value : arith) : option arith :=
  match op with
  | TStar => Some (AMult (AVar v) value)
  | TSlash => Some (ADiv (AVar v) value)
  | TPercent => Some (AModulo (AVar v) value)
  | TPlus => Some (AAdd (AVar v) value)
  | TDash => Some (ASub (AVar v) value)
  | TDLess => Some (AShiftLeft (AVar v) value)
  | TDGreat => Some (AShiftRight (AVar v) value)
  | TAmp => Some (ABitwiseAnd (AVar v) value)
  | TPipe => Some (ABitwiseOr (AVar v) value)
  | TCaret => Some (ABitwiseXor (AVar v) value)
  | TEquals => Some value
  | _ => None
  end.

(** parse.rs 2557-2625: [arith_assig]. *)
Definition arith_assig : prog arith :=
  skip_whitespace fuel ;;
  a <- multipeek (assig_try fuel fuel) ;;
  match a with
  | None => outoffuel
  | Some false => arith_ternary
  | Some true =>
      v <- arith_var ;;
      skip_whitespace fuel ;;
      o <- next ;;
      op <- (match o with
             | Some op =>
                 match op with
                 | TStar | TSlash | TPercent | TPlus | TDash | TDLess | TDGreat | TAmp | TPipe
                 | TCaret => eat TEquals ;; ret op
                 | TEquals => ret op
                 | _ => panic PS_assig_op
                 end
             | None => panic PS_assig_op
             end) ;;
      value <- k_assig K ;;
      match assig_expr op v value with
      | Some e => ret (AAssign v e)
      | None => panic PS_assig_kind
      end
  end.

(** parse.rs 2536-2553: [arithmetic_substitution]. *)
Fixpoint arith_seq_loop (n : nat) (acc : list arith) : prog (list arith) :=
  match n with
  | O => outoffuel
  | S n' =>
      skip_whitespace fuel ;;
      e <- arith_assig ;;
      c <- eat_maybe TComma ;;
      if c : bool then arith_seq_loop n' (acc ++ [e]) else ret (acc ++ [e])
  end.
Definition arithmetic_substitution_ : prog arith :=
  es <- arith_seq_loop fuel [] ;;
  match es with
  | [e] => ret e
  | _ => ret (ASequence es)
  end.

End Arith.
Arguments arith_knots : clear implicits.

(** Tying the recursive knot; [n] bounds the recursion depth. *)
Fixpoint arith_knot {BS BE} (fuel n : nat) : arith_knots BS BE :=
  match n with
  | O => mkAK outoffuel outoffuel outoffuel outoffuel outoffuel
  | S n' =>
      let K := arith_knot fuel n' in
      mkAK (arithmetic_substitution_ fuel K) (arith_assig fuel K) (arith_ternary fuel K)
           (arith_pow fuel K) (arith_unary_misc fuel K)
  end.

(** parse.rs 2536-2553: [arithmetic_substitution]. *)
Definition arithmetic_substitution {BS BE} (fuel : nat) : prog BS BE arith :=
  k_subst (arith_knot fuel fuel).
