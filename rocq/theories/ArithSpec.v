(** * The written forms of arithmetic expressions

    Independent of the parser: [aexpr k e ts] says that the tokens [ts] are a way to write the
    expression [e] where an expression of precedence level [k] or tighter is expected.  Levels,
    loosest first, as in the shell's documentation (and C, but for [**]):

      0 [,]   1 assignment (right)   2 [?:]   3 [||]   4 [&&]   5 [|]   6 [^]   7 [&]
      8 [== !=]   9 [< <= > >=]   10 [<< >>]   11 [+ -]   12 [* / %]   13 [**] (right)
      14 unary [! ~ + -] and [++v --v]   15 literals, variables, [v++ v--], parentheses

    Levels 3-12 associate to the left.  Blanks and escaped newlines may stand before every operand
    and operator. *)
From Coq Require Import String.
From Verif Require Import Base Token Ast Runs.

(** Left-associative binary operators: level, tokens, meaning. *)
Inductive binop : nat -> list token -> (arith -> arith -> arith) -> Prop :=
  | bo_or : binop 3 [TOrIf] ALogicalOr
  | bo_and : binop 4 [TAndIf] ALogicalAnd
  | bo_bor : binop 5 [TPipe] ABitwiseOr
  | bo_xor : binop 6 [TCaret] ABitwiseXor
  | bo_band : binop 7 [TAmp] ABitwiseAnd
  | bo_eq : binop 8 [TEquals; TEquals] AEq
  | bo_ne : binop 8 [TBang; TEquals] ANotEq
  | bo_lt : binop 9 [TLess] ALess
  | bo_le : binop 9 [TLess; TEquals] ALessEq
  | bo_gt : binop 9 [TGreat] AGreat
  | bo_ge : binop 9 [TGreat; TEquals] AGreatEq
  | bo_shl : binop 10 [TDLess] AShiftLeft
  | bo_shr : binop 10 [TDGreat] AShiftRight
  | bo_add : binop 11 [TPlus] AAdd
  | bo_sub : binop 11 [TDash] ASub
  | bo_mul : binop 12 [TStar] AMult
  | bo_div : binop 12 [TSlash] ADiv
  | bo_mod : binop 12 [TPercent] AModulo.

(** Prefix operators. *)
Inductive unop : token -> (arith -> arith) -> Prop :=
  | uo_not : unop TBang ALogicalNot
  | uo_bnot : unop TTilde ABitwiseNot
  | uo_plus : unop TPlus AUnaryPlus
  | uo_minus : unop TDash AUnaryMinus.

(** Compound assignment operators: [v op= e] means [v = v op e]. *)
Inductive assignop : token -> (arith -> arith -> arith) -> Prop :=
  | ao_mul : assignop TStar AMult
  | ao_div : assignop TSlash ADiv
  | ao_mod : assignop TPercent AModulo
  | ao_add : assignop TPlus AAdd
  | ao_sub : assignop TDash ASub
  | ao_shl : assignop TDLess AShiftLeft
  | ao_shr : assignop TDGreat AShiftRight
  | ao_and : assignop TAmp ABitwiseAnd
  | ao_or : assignop TPipe ABitwiseOr
  | ao_xor : assignop TCaret ABitwiseXor.

(** Integer literals: the value of a decimal, octal or hexadecimal numeral that fits in 64 bits. *)
Definition digit_value (radix : N) (c : char) (d : N) : Prop :=
  (d < radix)%N /\
  ((48 <= c <= 57)%N /\ d = (c - 48)%N \/
   (97 <= c <= 122)%N /\ d = (c - 97 + 10)%N \/
   (65 <= c <= 90)%N /\ d = (c - 65 + 10)%N).
Inductive numeral_value (radix : N) : str -> N -> Prop :=
  | nv_one c d : digit_value radix c d -> numeral_value radix [c] d
  | nv_more s c v d : numeral_value radix s v -> digit_value radix c d ->
      numeral_value radix (s ++ [c]) (v * radix + d)%N.
Inductive int_literal : str -> N -> Prop :=
  | il_hex x s v : x = 120%N \/ x = 88%N -> numeral_value 16 s v -> int_literal (48%N :: x :: s) v
  | il_oct s v : numeral_value 8 (48%N :: s) v -> int_literal (48%N :: s) v
  | il_dec c s v : c <> 48%N -> numeral_value 10 (c :: s) v -> int_literal (c :: s) v.
Definition fits (v : N) : Prop := (v < 2 ^ 63)%N.

(** [$] is allowed before a variable. *)
Inductive variable (v : str) : list token -> Prop :=
  | va_name : variable v [TName v]
  | va_dollar : variable v [TDollar; TName v].

(** A binary [+] directly before [+] would read as [++], likewise [-]. *)
Definition not_doubled (op : list token) (ts : list token) : Prop :=
  forall t, op = [t] -> t = TPlus \/ t = TDash -> hd_error ts <> Some t.
(** A unary sign directly before another sign reads differently; a blank between them keeps them
    apart. *)
Definition unary_apart (t : token) (ts : list token) : Prop :=
  t = TPlus \/ t = TDash -> hd_error ts <> Some TPlus /\ hd_error ts <> Some TDash.

(** Only blanks, no escaped newlines. *)
Definition spaces (w : list token) : Prop := Forall (fun t => exists s, t = TWhitespace s) w.

(** What a literal token denotes, in full: a numeral may have a sign (the lexer's tokens have none),
    and the prefix [0x] alone denotes 0. *)
Inductive signed_value (radix : N) : str -> Z -> Prop :=
  | sv_plain s v : numeral_value radix s v -> signed_value radix s (Z.of_N v)
  | sv_plus s v : numeral_value radix s v -> signed_value radix (43%N :: s) (Z.of_N v)
  | sv_minus s v : numeral_value radix s v -> signed_value radix (45%N :: s) (- Z.of_N v).
Definition in_range (z : Z) : Prop := (- 2 ^ 63 <= z < 2 ^ 63)%Z.
Inductive literal_denotes : str -> Z -> Prop :=
  | ld_prefix x : x = 120%N \/ x = 88%N -> literal_denotes [48%N; x] 0
  | ld_hex x s z : x = 120%N \/ x = 88%N -> signed_value 16 s z -> in_range z -> literal_denotes (48%N :: x :: s) z
  | ld_oct s z : signed_value 8 (48%N :: s) z -> in_range z -> literal_denotes (48%N :: s) z
  | ld_dec c s z : c <> 48%N -> signed_value 10 (c :: s) z -> in_range z -> literal_denotes (c :: s) z.

(** [aexpr k o e ts]; [o] tells whether the expression ends with a variable that a following [++] or
    [--] would belong to. *)
Inductive aexpr : nat -> bool -> arith -> list token -> Prop :=
  | ae_tighter k o e ts : (k < 15)%nat -> aexpr (S k) o e ts -> aexpr k o e ts
  | ae_literal w s z : blank w -> literal_denotes s z -> aexpr 15 false (ALiteral z) (w ++ [TLiteral s])
  | ae_var w v ts : blank w -> variable v ts -> aexpr 15 true (AVar v) (w ++ ts)
  | ae_post_incr w v ts w' : blank w -> variable v ts -> blank w' ->
      aexpr 15 false (APostIncr v) (w ++ ts ++ w' ++ [TPlus; TPlus])
  | ae_post_decr w v ts w' : blank w -> variable v ts -> blank w' ->
      aexpr 15 false (APostDecr v) (w ++ ts ++ w' ++ [TDash; TDash])
  | ae_paren w o e ts w' : blank w -> aexpr 0 o e ts -> blank w' ->
      aexpr 15 false e (w ++ TParenOpen :: ts ++ w' ++ [TParenClose])
  | ae_pre_incr w w' v ts : blank w -> blank w' -> variable v ts ->
      aexpr 14 false (APreIncr v) (w ++ TPlus :: TPlus :: w' ++ ts)
  | ae_pre_decr w w' v ts : blank w -> blank w' -> variable v ts ->
      aexpr 14 false (APreDecr v) (w ++ TDash :: TDash :: w' ++ ts)
  | ae_unary w t c o e ts : blank w -> unop t c -> aexpr 14 o e ts -> unary_apart t ts ->
      aexpr 14 o (c e) (w ++ t :: ts)
  (* two different signs without a blank between them, before anything *)
  | ae_plus_minus w o e ts : blank w -> aexpr 14 o e ts ->
      aexpr 14 o (AUnaryPlus (AUnaryMinus e)) (w ++ TPlus :: TDash :: ts)
  | ae_minus_plus w o e ts : blank w -> aexpr 14 o e ts ->
      aexpr 14 o (AUnaryMinus (AUnaryPlus e)) (w ++ TDash :: TPlus :: ts)
  | ae_pow o1 e1 ts1 w o2 e2 ts2 : aexpr 14 o1 e1 ts1 -> blank w -> aexpr 13 o2 e2 ts2 ->
      aexpr 13 o2 (APow e1 e2) (ts1 ++ w ++ TStar :: TStar :: ts2)
  | ae_binary k op c o1 e1 ts1 w o2 e2 ts2 : binop k op c ->
      aexpr k o1 e1 ts1 -> blank w -> aexpr (S k) o2 e2 ts2 -> (o1 = true -> not_doubled op ts2) ->
      aexpr k o2 (c e1 e2) (ts1 ++ w ++ op ++ ts2)
  | ae_ternary o1 g ts1 w1 o2 b ts2 w2 o3 e ts3 : aexpr 3 o1 g ts1 -> blank w1 -> aexpr 2 o2 b ts2 -> blank w2 ->
      aexpr 2 o3 e ts3 ->
      aexpr 2 o3 (ATernary g b e) (ts1 ++ w1 ++ TQuestion :: ts2 ++ w2 ++ TColon :: ts3)
  | ae_assign w v ts1 w' o e ts2 : blank w -> variable v ts1 -> spaces w' -> aexpr 1 o e ts2 ->
      aexpr 1 o (AAssign v e) (w ++ ts1 ++ w' ++ TEquals :: ts2)
  | ae_assign_op w v ts1 w' t c o e ts2 : blank w -> variable v ts1 -> spaces w' -> assignop t c ->
      aexpr 1 o e ts2 ->
      aexpr 1 o (AAssign v (c (AVar v) e)) (w ++ ts1 ++ w' ++ t :: TEquals :: ts2)
  | ae_sequence o e ts o' es tss : aexpr 1 o e ts -> aseq o' es tss ->
      aexpr 0 o' (ASequence (e :: es)) (ts ++ tss)
with aseq : bool -> list arith -> list token -> Prop :=
  | as_one w o e ts : blank w -> aexpr 1 o e ts -> aseq o [e] (w ++ TComma :: ts)
  | as_more w o e ts o' es tss : blank w -> aexpr 1 o e ts -> aseq o' es tss ->
      aseq o' (e :: es) (w ++ TComma :: ts ++ tss).

(** The tokens [ts] are a way to write the expression [e]. *)
Definition written (e : arith) (ts : list token) : Prop := exists o, aexpr 0 o e ts.
