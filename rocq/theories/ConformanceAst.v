(** * Conformance of the model with the project's own tests, results included

    Each example runs the methods that a unit test of /repo/tests calls, in order, on the model, and
    compares every result the test compares, AST and positions included.  Generated from the test
    sources.  These are tests of the model, not proofs. *)
From Coq Require Import String.
From Verif Require Import Base Token Lexer Pos Ast Builder Prog Iter Command DefaultBuilder Api.

Definition ascii_uni : Uni := fun _ => false.
(** A method, and its result if the test looks at it. *)
Inductive step := Step (m : api) (want : option (outcome default_err (api_result default_builder m)))
  | StepOk (m : api)                  (* the test only unwraps the result *)
  | StepLast (n : newline_).          (* the last of the newlines of [linebreak] *)
Fixpoint follows_from (ss : list step) (s : token_iter) : Prop :=
  match ss with
  | [] => True
  | Step m want :: ss' =>
      let '(o, s', _) := run concrete (call default_builder m 300) s tt in
      match want with Some w => o = w | None => True end /\ follows_from ss' s'
  | StepOk m :: ss' =>
      let '(o, s', _) := run concrete (call default_builder m 300) s tt in
      match o with OOk _ => True | _ => False end /\ follows_from ss' s'
  | StepLast n :: ss' =>
      let '(o, s', _) := run concrete (call default_builder ALinebreak 300) s tt in
      match o with OOk l => hd_error (rev l) = Some n | _ => False end /\ follows_from ss' s'
  end.
Definition follows (ts : list token) (ss : list step) : Prop := follows_from ss (ti_new ts).
(* tests/and_or.rs *)
Example ast_and_or_correct_associativity_1 : follows (@lex ascii_uni (s_of "foo || bar && baz")) [Step AAndOrList (Some (OOk (mkAOL (LSingle (PSimple (mkSC [] [(DCmdWord (TLWord (WSingle (WSimple (WLiteral (s_of "foo"))))))]))) [(Or (LSingle (PSimple (mkSC [] [(DCmdWord (TLWord (WSingle (WSimple (WLiteral (s_of "bar"))))))])))); (And (LSingle (PSimple (mkSC [] [(DCmdWord (TLWord (WSingle (WSimple (WLiteral (s_of "baz"))))))]))))])))].
Proof. vm_compute. repeat split. Qed.
Example ast_and_or_valid_with_newlines_after_operator_1 : follows (@lex ascii_uni [102;111;111;32;124;124;10;10;10;10;98;97;114;32;38;38;32;98;97;122]%N) [Step AAndOrList (Some (OOk (mkAOL (LSingle (PSimple (mkSC [] [(DCmdWord (TLWord (WSingle (WSimple (WLiteral (s_of "foo"))))))]))) [(Or (LSingle (PSimple (mkSC [] [(DCmdWord (TLWord (WSingle (WSimple (WLiteral (s_of "bar"))))))])))); (And (LSingle (PSimple (mkSC [] [(DCmdWord (TLWord (WSingle (WSimple (WLiteral (s_of "baz"))))))]))))])))].
Proof. vm_compute. repeat split. Qed.
Example ast_and_or_invalid_with_newlines_before_operator_1 : follows (@lex ascii_uni [102;111;111;32;124;124;32;98;97;114;10;10;38;38;32;98;97;122]%N) [StepOk AAndOrList; Step ACompleteCommand (Some (OErr (Unexpected TAndIf (mkPos 12 3 1))))].
Proof. vm_compute. repeat split. Qed.
Example ast_arithmetic_substitution_valid_1 : follows (@lex ascii_uni (s_of "$(( x ))")) [Step AParameter (Some (OOk (TLWord (WSingle (WSimple (WSubst (SArith (Some (AVar (s_of "x"))))))))))].
Proof. vm_compute. repeat split. Qed.
Example ast_arithmetic_substitution_valid_2 : follows (@lex ascii_uni (s_of "$(( 5 ))")) [Step AParameter (Some (OOk (TLWord (WSingle (WSimple (WSubst (SArith (Some (ALiteral (5)%Z)))))))))].
Proof. vm_compute. repeat split. Qed.
Example ast_arithmetic_substitution_valid_3 : follows (@lex ascii_uni (s_of "$(( 0 ))")) [Step AParameter (Some (OOk (TLWord (WSingle (WSimple (WSubst (SArith (Some (ALiteral (0)%Z)))))))))].
Proof. vm_compute. repeat split. Qed.
Example ast_arithmetic_substitution_valid_4 : follows (@lex ascii_uni (s_of "$(( 010 ))")) [Step AParameter (Some (OOk (TLWord (WSingle (WSimple (WSubst (SArith (Some (ALiteral (8)%Z)))))))))].
Proof. vm_compute. repeat split. Qed.
Example ast_arithmetic_substitution_valid_5 : follows (@lex ascii_uni (s_of "$(( 0xa ))")) [Step AParameter (Some (OOk (TLWord (WSingle (WSimple (WSubst (SArith (Some (ALiteral (10)%Z)))))))))].
Proof. vm_compute. repeat split. Qed.
Example ast_arithmetic_substitution_valid_6 : follows (@lex ascii_uni (s_of "$(( 0Xa ))")) [Step AParameter (Some (OOk (TLWord (WSingle (WSimple (WSubst (SArith (Some (ALiteral (10)%Z)))))))))].
Proof. vm_compute. repeat split. Qed.
Example ast_arithmetic_substitution_valid_7 : follows (@lex ascii_uni (s_of "$(( 0xA ))")) [Step AParameter (Some (OOk (TLWord (WSingle (WSimple (WSubst (SArith (Some (ALiteral (10)%Z)))))))))].
Proof. vm_compute. repeat split. Qed.
Example ast_arithmetic_substitution_valid_8 : follows (@lex ascii_uni (s_of "$(( 0XA ))")) [Step AParameter (Some (OOk (TLWord (WSingle (WSimple (WSubst (SArith (Some (ALiteral (10)%Z)))))))))].
Proof. vm_compute. repeat split. Qed.
Example ast_arithmetic_substitution_valid_9 : follows (@lex ascii_uni (s_of "$(( x++ ))")) [Step AParameter (Some (OOk (TLWord (WSingle (WSimple (WSubst (SArith (Some (APostIncr (s_of "x"))))))))))].
Proof. vm_compute. repeat split. Qed.
Example ast_arithmetic_substitution_valid_10 : follows (@lex ascii_uni (s_of "$(( x-- ))")) [Step AParameter (Some (OOk (TLWord (WSingle (WSimple (WSubst (SArith (Some (APostDecr (s_of "x"))))))))))].
Proof. vm_compute. repeat split. Qed.
Example ast_arithmetic_substitution_valid_11 : follows (@lex ascii_uni (s_of "$(( ++x ))")) [Step AParameter (Some (OOk (TLWord (WSingle (WSimple (WSubst (SArith (Some (APreIncr (s_of "x"))))))))))].
Proof. vm_compute. repeat split. Qed.
Example ast_arithmetic_substitution_valid_12 : follows (@lex ascii_uni (s_of "$(( --x ))")) [Step AParameter (Some (OOk (TLWord (WSingle (WSimple (WSubst (SArith (Some (APreDecr (s_of "x"))))))))))].
Proof. vm_compute. repeat split. Qed.
Example ast_arithmetic_substitution_valid_13 : follows (@lex ascii_uni (s_of "$(( +x ))")) [Step AParameter (Some (OOk (TLWord (WSingle (WSimple (WSubst (SArith (Some (AUnaryPlus (AVar (s_of "x")))))))))))].
Proof. vm_compute. repeat split. Qed.
Example ast_arithmetic_substitution_valid_14 : follows (@lex ascii_uni (s_of "$(( -x ))")) [Step AParameter (Some (OOk (TLWord (WSingle (WSimple (WSubst (SArith (Some (AUnaryMinus (AVar (s_of "x")))))))))))].
Proof. vm_compute. repeat split. Qed.
Example ast_arithmetic_substitution_valid_15 : follows (@lex ascii_uni (s_of "$(( !x ))")) [Step AParameter (Some (OOk (TLWord (WSingle (WSimple (WSubst (SArith (Some (ALogicalNot (AVar (s_of "x")))))))))))].
Proof. vm_compute. repeat split. Qed.
Example ast_arithmetic_substitution_valid_16 : follows (@lex ascii_uni (s_of "$(( ~x ))")) [Step AParameter (Some (OOk (TLWord (WSingle (WSimple (WSubst (SArith (Some (ABitwiseNot (AVar (s_of "x")))))))))))].
Proof. vm_compute. repeat split. Qed.
Example ast_arithmetic_substitution_valid_17 : follows (@lex ascii_uni (s_of "$(( x ** y))")) [Step AParameter (Some (OOk (TLWord (WSingle (WSimple (WSubst (SArith (Some (APow (AVar (s_of "x")) (AVar (s_of "y")))))))))))].
Proof. vm_compute. repeat split. Qed.
Example ast_arithmetic_substitution_valid_18 : follows (@lex ascii_uni (s_of "$(( x * y ))")) [Step AParameter (Some (OOk (TLWord (WSingle (WSimple (WSubst (SArith (Some (AMult (AVar (s_of "x")) (AVar (s_of "y")))))))))))].
Proof. vm_compute. repeat split. Qed.
Example ast_arithmetic_substitution_valid_19 : follows (@lex ascii_uni (s_of "$(( x / y ))")) [Step AParameter (Some (OOk (TLWord (WSingle (WSimple (WSubst (SArith (Some (ADiv (AVar (s_of "x")) (AVar (s_of "y")))))))))))].
Proof. vm_compute. repeat split. Qed.
Example ast_arithmetic_substitution_valid_20 : follows (@lex ascii_uni (s_of "$(( x % y ))")) [Step AParameter (Some (OOk (TLWord (WSingle (WSimple (WSubst (SArith (Some (AModulo (AVar (s_of "x")) (AVar (s_of "y")))))))))))].
Proof. vm_compute. repeat split. Qed.
Example ast_arithmetic_substitution_valid_21 : follows (@lex ascii_uni (s_of "$(( x + y ))")) [Step AParameter (Some (OOk (TLWord (WSingle (WSimple (WSubst (SArith (Some (AAdd (AVar (s_of "x")) (AVar (s_of "y")))))))))))].
Proof. vm_compute. repeat split. Qed.
Example ast_arithmetic_substitution_valid_22 : follows (@lex ascii_uni (s_of "$(( x - y ))")) [Step AParameter (Some (OOk (TLWord (WSingle (WSimple (WSubst (SArith (Some (ASub (AVar (s_of "x")) (AVar (s_of "y")))))))))))].
Proof. vm_compute. repeat split. Qed.
Example ast_arithmetic_substitution_valid_23 : follows (@lex ascii_uni (s_of "$(( x << y ))")) [Step AParameter (Some (OOk (TLWord (WSingle (WSimple (WSubst (SArith (Some (AShiftLeft (AVar (s_of "x")) (AVar (s_of "y")))))))))))].
Proof. vm_compute. repeat split. Qed.
Example ast_arithmetic_substitution_valid_24 : follows (@lex ascii_uni (s_of "$(( x >> y ))")) [Step AParameter (Some (OOk (TLWord (WSingle (WSimple (WSubst (SArith (Some (AShiftRight (AVar (s_of "x")) (AVar (s_of "y")))))))))))].
Proof. vm_compute. repeat split. Qed.
Example ast_arithmetic_substitution_valid_25 : follows (@lex ascii_uni (s_of "$(( x < y ))")) [Step AParameter (Some (OOk (TLWord (WSingle (WSimple (WSubst (SArith (Some (ALess (AVar (s_of "x")) (AVar (s_of "y")))))))))))].
Proof. vm_compute. repeat split. Qed.
Example ast_arithmetic_substitution_valid_26 : follows (@lex ascii_uni (s_of "$(( x <= y ))")) [Step AParameter (Some (OOk (TLWord (WSingle (WSimple (WSubst (SArith (Some (ALessEq (AVar (s_of "x")) (AVar (s_of "y")))))))))))].
Proof. vm_compute. repeat split. Qed.
Example ast_arithmetic_substitution_valid_27 : follows (@lex ascii_uni (s_of "$(( x > y ))")) [Step AParameter (Some (OOk (TLWord (WSingle (WSimple (WSubst (SArith (Some (AGreat (AVar (s_of "x")) (AVar (s_of "y")))))))))))].
Proof. vm_compute. repeat split. Qed.
Example ast_arithmetic_substitution_valid_28 : follows (@lex ascii_uni (s_of "$(( x >= y ))")) [Step AParameter (Some (OOk (TLWord (WSingle (WSimple (WSubst (SArith (Some (AGreatEq (AVar (s_of "x")) (AVar (s_of "y")))))))))))].
Proof. vm_compute. repeat split. Qed.
Example ast_arithmetic_substitution_valid_29 : follows (@lex ascii_uni (s_of "$(( x == y ))")) [Step AParameter (Some (OOk (TLWord (WSingle (WSimple (WSubst (SArith (Some (AEq (AVar (s_of "x")) (AVar (s_of "y")))))))))))].
Proof. vm_compute. repeat split. Qed.
Example ast_arithmetic_substitution_valid_30 : follows (@lex ascii_uni (s_of "$(( x != y ))")) [Step AParameter (Some (OOk (TLWord (WSingle (WSimple (WSubst (SArith (Some (ANotEq (AVar (s_of "x")) (AVar (s_of "y")))))))))))].
Proof. vm_compute. repeat split. Qed.
Example ast_arithmetic_substitution_valid_31 : follows (@lex ascii_uni (s_of "$(( x & y ))")) [Step AParameter (Some (OOk (TLWord (WSingle (WSimple (WSubst (SArith (Some (ABitwiseAnd (AVar (s_of "x")) (AVar (s_of "y")))))))))))].
Proof. vm_compute. repeat split. Qed.
Example ast_arithmetic_substitution_valid_32 : follows (@lex ascii_uni (s_of "$(( x ^ y ))")) [Step AParameter (Some (OOk (TLWord (WSingle (WSimple (WSubst (SArith (Some (ABitwiseXor (AVar (s_of "x")) (AVar (s_of "y")))))))))))].
Proof. vm_compute. repeat split. Qed.
Example ast_arithmetic_substitution_valid_33 : follows (@lex ascii_uni (s_of "$(( x | y ))")) [Step AParameter (Some (OOk (TLWord (WSingle (WSimple (WSubst (SArith (Some (ABitwiseOr (AVar (s_of "x")) (AVar (s_of "y")))))))))))].
Proof. vm_compute. repeat split. Qed.
Example ast_arithmetic_substitution_valid_34 : follows (@lex ascii_uni (s_of "$(( x && y ))")) [Step AParameter (Some (OOk (TLWord (WSingle (WSimple (WSubst (SArith (Some (ALogicalAnd (AVar (s_of "x")) (AVar (s_of "y")))))))))))].
Proof. vm_compute. repeat split. Qed.
Example ast_arithmetic_substitution_valid_35 : follows (@lex ascii_uni (s_of "$(( x || y ))")) [Step AParameter (Some (OOk (TLWord (WSingle (WSimple (WSubst (SArith (Some (ALogicalOr (AVar (s_of "x")) (AVar (s_of "y")))))))))))].
Proof. vm_compute. repeat split. Qed.
Example ast_arithmetic_substitution_valid_36 : follows (@lex ascii_uni (s_of "$(( x ? y : z ))")) [Step AParameter (Some (OOk (TLWord (WSingle (WSimple (WSubst (SArith (Some (ATernary (AVar (s_of "x")) (AVar (s_of "y")) (AVar (s_of "z")))))))))))].
Proof. vm_compute. repeat split. Qed.
Example ast_arithmetic_substitution_valid_37 : follows (@lex ascii_uni (s_of "$(( x = y ))")) [Step AParameter (Some (OOk (TLWord (WSingle (WSimple (WSubst (SArith (Some (AAssign (s_of "x") (AVar (s_of "y")))))))))))].
Proof. vm_compute. repeat split. Qed.
Example ast_arithmetic_substitution_valid_38 : follows (@lex ascii_uni (s_of "$(( x *= y ))")) [Step AParameter (Some (OOk (TLWord (WSingle (WSimple (WSubst (SArith (Some (AAssign (s_of "x") (AMult (AVar (s_of "x")) (AVar (s_of "y"))))))))))))].
Proof. vm_compute. repeat split. Qed.
Example ast_arithmetic_substitution_valid_39 : follows (@lex ascii_uni (s_of "$(( x /= y ))")) [Step AParameter (Some (OOk (TLWord (WSingle (WSimple (WSubst (SArith (Some (AAssign (s_of "x") (ADiv (AVar (s_of "x")) (AVar (s_of "y"))))))))))))].
Proof. vm_compute. repeat split. Qed.
Example ast_arithmetic_substitution_valid_40 : follows (@lex ascii_uni (s_of "$(( x %= y ))")) [Step AParameter (Some (OOk (TLWord (WSingle (WSimple (WSubst (SArith (Some (AAssign (s_of "x") (AModulo (AVar (s_of "x")) (AVar (s_of "y"))))))))))))].
Proof. vm_compute. repeat split. Qed.
Example ast_arithmetic_substitution_valid_41 : follows (@lex ascii_uni (s_of "$(( x += y ))")) [Step AParameter (Some (OOk (TLWord (WSingle (WSimple (WSubst (SArith (Some (AAssign (s_of "x") (AAdd (AVar (s_of "x")) (AVar (s_of "y"))))))))))))].
Proof. vm_compute. repeat split. Qed.
Example ast_arithmetic_substitution_valid_42 : follows (@lex ascii_uni (s_of "$(( x -= y ))")) [Step AParameter (Some (OOk (TLWord (WSingle (WSimple (WSubst (SArith (Some (AAssign (s_of "x") (ASub (AVar (s_of "x")) (AVar (s_of "y"))))))))))))].
Proof. vm_compute. repeat split. Qed.
Example ast_arithmetic_substitution_valid_43 : follows (@lex ascii_uni (s_of "$(( x <<= y ))")) [Step AParameter (Some (OOk (TLWord (WSingle (WSimple (WSubst (SArith (Some (AAssign (s_of "x") (AShiftLeft (AVar (s_of "x")) (AVar (s_of "y"))))))))))))].
Proof. vm_compute. repeat split. Qed.
Example ast_arithmetic_substitution_valid_44 : follows (@lex ascii_uni (s_of "$(( x >>= y ))")) [Step AParameter (Some (OOk (TLWord (WSingle (WSimple (WSubst (SArith (Some (AAssign (s_of "x") (AShiftRight (AVar (s_of "x")) (AVar (s_of "y"))))))))))))].
Proof. vm_compute. repeat split. Qed.
Example ast_arithmetic_substitution_valid_45 : follows (@lex ascii_uni (s_of "$(( x &= y ))")) [Step AParameter (Some (OOk (TLWord (WSingle (WSimple (WSubst (SArith (Some (AAssign (s_of "x") (ABitwiseAnd (AVar (s_of "x")) (AVar (s_of "y"))))))))))))].
Proof. vm_compute. repeat split. Qed.
Example ast_arithmetic_substitution_valid_46 : follows (@lex ascii_uni (s_of "$(( x ^= y ))")) [Step AParameter (Some (OOk (TLWord (WSingle (WSimple (WSubst (SArith (Some (AAssign (s_of "x") (ABitwiseXor (AVar (s_of "x")) (AVar (s_of "y"))))))))))))].
Proof. vm_compute. repeat split. Qed.
Example ast_arithmetic_substitution_valid_47 : follows (@lex ascii_uni (s_of "$(( x |= y ))")) [Step AParameter (Some (OOk (TLWord (WSingle (WSimple (WSubst (SArith (Some (AAssign (s_of "x") (ABitwiseOr (AVar (s_of "x")) (AVar (s_of "y"))))))))))))].
Proof. vm_compute. repeat split. Qed.
Example ast_arithmetic_substitution_valid_48 : follows (@lex ascii_uni (s_of "$(( x = 5, x + y ))")) [Step AParameter (Some (OOk (TLWord (WSingle (WSimple (WSubst (SArith (Some (ASequence [(AAssign (s_of "x") (ALiteral (5)%Z)); (AAdd (AVar (s_of "x")) (AVar (s_of "y")))])))))))))].
Proof. vm_compute. repeat split. Qed.
Example ast_arithmetic_substitution_valid_49 : follows (@lex ascii_uni (s_of "$(( x + (y - z) ))")) [Step AParameter (Some (OOk (TLWord (WSingle (WSimple (WSubst (SArith (Some (AAdd (AVar (s_of "x")) (ASub (AVar (s_of "y")) (AVar (s_of "z"))))))))))))].
Proof. vm_compute. repeat split. Qed.
Example ast_arithmetic_substitution_valid_50 : follows (@lex ascii_uni (s_of "$(( ))")) [Step AParameter (Some (OOk (TLWord (WSingle (WSimple (WSubst (SArith None)))))))].
Proof. vm_compute. repeat split. Qed.
Example ast_arithmetic_substitution_right_to_left_associativity_1 : follows (@lex ascii_uni (s_of "$(( x ** y ** z ))")) [Step AParameter (Some (OOk (TLWord (WSingle (WSimple (WSubst (SArith (Some (APow (AVar (s_of "x")) (APow (AVar (s_of "y")) (AVar (s_of "z"))))))))))))].
Proof. vm_compute. repeat split. Qed.
Example ast_arithmetic_substitution_right_to_left_associativity_2 : follows (@lex ascii_uni (s_of "$(( x ? y ? z : w : v ))")) [Step AParameter (Some (OOk (TLWord (WSingle (WSimple (WSubst (SArith (Some (ATernary (AVar (s_of "x")) (ATernary (AVar (s_of "y")) (AVar (s_of "z")) (AVar (s_of "w"))) (AVar (s_of "v")))))))))))].
Proof. vm_compute. repeat split. Qed.
Example ast_arithmetic_substitution_invalid_1 : follows (@lex ascii_uni (s_of "$(( 5++ ))")) [Step AParameter (Some (OErr (Unexpected TParenClose (mkPos 8 1 9))))].
Proof. vm_compute. repeat split. Qed.
Example ast_arithmetic_substitution_invalid_2 : follows (@lex ascii_uni (s_of "$(( 5-- ))")) [Step AParameter (Some (OErr (Unexpected TParenClose (mkPos 8 1 9))))].
Proof. vm_compute. repeat split. Qed.
Example ast_arithmetic_substitution_invalid_3 : follows (@lex ascii_uni (s_of "$(( (x + y)++ ))")) [Step AParameter (Some (OErr (Unexpected TParenClose (mkPos 14 1 15))))].
Proof. vm_compute. repeat split. Qed.
Example ast_arithmetic_substitution_invalid_4 : follows (@lex ascii_uni (s_of "$(( (x + y)-- ))")) [Step AParameter (Some (OErr (Unexpected TParenClose (mkPos 14 1 15))))].
Proof. vm_compute. repeat split. Qed.
Example ast_arithmetic_substitution_invalid_5 : follows (@lex ascii_uni (s_of "$(( ++5 ))")) [Step AParameter (Some (OErr (Unexpected (TLiteral (s_of "5")) (mkPos 6 1 7))))].
Proof. vm_compute. repeat split. Qed.
Example ast_arithmetic_substitution_invalid_6 : follows (@lex ascii_uni (s_of "$(( --5 ))")) [Step AParameter (Some (OErr (Unexpected (TLiteral (s_of "5")) (mkPos 6 1 7))))].
Proof. vm_compute. repeat split. Qed.
Example ast_arithmetic_substitution_invalid_7 : follows (@lex ascii_uni (s_of "$(( ++(x + y) ))")) [Step AParameter (Some (OErr (Unexpected TParenOpen (mkPos 6 1 7))))].
Proof. vm_compute. repeat split. Qed.
Example ast_arithmetic_substitution_invalid_8 : follows (@lex ascii_uni (s_of "$(( --(x + y) ))")) [Step AParameter (Some (OErr (Unexpected TParenOpen (mkPos 6 1 7))))].
Proof. vm_compute. repeat split. Qed.
Example ast_arithmetic_substitution_invalid_9 : follows (@lex ascii_uni (s_of "$(( + ))")) [Step AParameter (Some (OErr (Unexpected TParenClose (mkPos 6 1 7))))].
Proof. vm_compute. repeat split. Qed.
Example ast_arithmetic_substitution_invalid_10 : follows (@lex ascii_uni (s_of "$(( - ))")) [Step AParameter (Some (OErr (Unexpected TParenClose (mkPos 6 1 7))))].
Proof. vm_compute. repeat split. Qed.
Example ast_arithmetic_substitution_invalid_11 : follows (@lex ascii_uni (s_of "$(( ! ))")) [Step AParameter (Some (OErr (Unexpected TParenClose (mkPos 6 1 7))))].
Proof. vm_compute. repeat split. Qed.
Example ast_arithmetic_substitution_invalid_12 : follows (@lex ascii_uni (s_of "$(( ~ ))")) [Step AParameter (Some (OErr (Unexpected TParenClose (mkPos 6 1 7))))].
Proof. vm_compute. repeat split. Qed.
Example ast_arithmetic_substitution_invalid_13 : follows (@lex ascii_uni (s_of "$(( x ** ))")) [Step AParameter (Some (OErr (Unexpected TParenClose (mkPos 9 1 10))))].
Proof. vm_compute. repeat split. Qed.
Example ast_arithmetic_substitution_invalid_14 : follows (@lex ascii_uni (s_of "$(( x *  ))")) [Step AParameter (Some (OErr (Unexpected TParenClose (mkPos 9 1 10))))].
Proof. vm_compute. repeat split. Qed.
Example ast_arithmetic_substitution_invalid_15 : follows (@lex ascii_uni (s_of "$(( x /  ))")) [Step AParameter (Some (OErr (Unexpected TParenClose (mkPos 9 1 10))))].
Proof. vm_compute. repeat split. Qed.
Example ast_arithmetic_substitution_invalid_16 : follows (@lex ascii_uni (s_of "$(( x %  ))")) [Step AParameter (Some (OErr (Unexpected TParenClose (mkPos 9 1 10))))].
Proof. vm_compute. repeat split. Qed.
Example ast_arithmetic_substitution_invalid_17 : follows (@lex ascii_uni (s_of "$(( x +  ))")) [Step AParameter (Some (OErr (Unexpected TParenClose (mkPos 9 1 10))))].
Proof. vm_compute. repeat split. Qed.
Example ast_arithmetic_substitution_invalid_18 : follows (@lex ascii_uni (s_of "$(( x -  ))")) [Step AParameter (Some (OErr (Unexpected TParenClose (mkPos 9 1 10))))].
Proof. vm_compute. repeat split. Qed.
Example ast_arithmetic_substitution_invalid_19 : follows (@lex ascii_uni (s_of "$(( x << ))")) [Step AParameter (Some (OErr (Unexpected TParenClose (mkPos 9 1 10))))].
Proof. vm_compute. repeat split. Qed.
Example ast_arithmetic_substitution_invalid_20 : follows (@lex ascii_uni (s_of "$(( x >> ))")) [Step AParameter (Some (OErr (Unexpected TParenClose (mkPos 9 1 10))))].
Proof. vm_compute. repeat split. Qed.
Example ast_arithmetic_substitution_invalid_21 : follows (@lex ascii_uni (s_of "$(( x <  ))")) [Step AParameter (Some (OErr (Unexpected TParenClose (mkPos 9 1 10))))].
Proof. vm_compute. repeat split. Qed.
Example ast_arithmetic_substitution_invalid_22 : follows (@lex ascii_uni (s_of "$(( x <= ))")) [Step AParameter (Some (OErr (Unexpected TParenClose (mkPos 9 1 10))))].
Proof. vm_compute. repeat split. Qed.
Example ast_arithmetic_substitution_invalid_23 : follows (@lex ascii_uni (s_of "$(( x >  ))")) [Step AParameter (Some (OErr (Unexpected TParenClose (mkPos 9 1 10))))].
Proof. vm_compute. repeat split. Qed.
Example ast_arithmetic_substitution_invalid_24 : follows (@lex ascii_uni (s_of "$(( x >= ))")) [Step AParameter (Some (OErr (Unexpected TParenClose (mkPos 9 1 10))))].
Proof. vm_compute. repeat split. Qed.
Example ast_arithmetic_substitution_invalid_25 : follows (@lex ascii_uni (s_of "$(( x == ))")) [Step AParameter (Some (OErr (Unexpected TParenClose (mkPos 9 1 10))))].
Proof. vm_compute. repeat split. Qed.
Example ast_arithmetic_substitution_invalid_26 : follows (@lex ascii_uni (s_of "$(( x != ))")) [Step AParameter (Some (OErr (Unexpected TParenClose (mkPos 9 1 10))))].
Proof. vm_compute. repeat split. Qed.
Example ast_arithmetic_substitution_invalid_27 : follows (@lex ascii_uni (s_of "$(( x &  ))")) [Step AParameter (Some (OErr (Unexpected TParenClose (mkPos 9 1 10))))].
Proof. vm_compute. repeat split. Qed.
Example ast_arithmetic_substitution_invalid_28 : follows (@lex ascii_uni (s_of "$(( x ^  ))")) [Step AParameter (Some (OErr (Unexpected TParenClose (mkPos 9 1 10))))].
Proof. vm_compute. repeat split. Qed.
Example ast_arithmetic_substitution_invalid_29 : follows (@lex ascii_uni (s_of "$(( x |  ))")) [Step AParameter (Some (OErr (Unexpected TParenClose (mkPos 9 1 10))))].
Proof. vm_compute. repeat split. Qed.
Example ast_arithmetic_substitution_invalid_30 : follows (@lex ascii_uni (s_of "$(( x && ))")) [Step AParameter (Some (OErr (Unexpected TParenClose (mkPos 9 1 10))))].
Proof. vm_compute. repeat split. Qed.
Example ast_arithmetic_substitution_invalid_31 : follows (@lex ascii_uni (s_of "$(( x || ))")) [Step AParameter (Some (OErr (Unexpected TParenClose (mkPos 9 1 10))))].
Proof. vm_compute. repeat split. Qed.
Example ast_arithmetic_substitution_invalid_32 : follows (@lex ascii_uni (s_of "$(( x =  ))")) [Step AParameter (Some (OErr (Unexpected TParenClose (mkPos 9 1 10))))].
Proof. vm_compute. repeat split. Qed.
Example ast_arithmetic_substitution_invalid_33 : follows (@lex ascii_uni (s_of "$(( x *= ))")) [Step AParameter (Some (OErr (Unexpected TParenClose (mkPos 9 1 10))))].
Proof. vm_compute. repeat split. Qed.
Example ast_arithmetic_substitution_invalid_34 : follows (@lex ascii_uni (s_of "$(( x /= ))")) [Step AParameter (Some (OErr (Unexpected TParenClose (mkPos 9 1 10))))].
Proof. vm_compute. repeat split. Qed.
Example ast_arithmetic_substitution_invalid_35 : follows (@lex ascii_uni (s_of "$(( x %= ))")) [Step AParameter (Some (OErr (Unexpected TParenClose (mkPos 9 1 10))))].
Proof. vm_compute. repeat split. Qed.
Example ast_arithmetic_substitution_invalid_36 : follows (@lex ascii_uni (s_of "$(( x += ))")) [Step AParameter (Some (OErr (Unexpected TParenClose (mkPos 9 1 10))))].
Proof. vm_compute. repeat split. Qed.
Example ast_arithmetic_substitution_invalid_37 : follows (@lex ascii_uni (s_of "$(( x -= ))")) [Step AParameter (Some (OErr (Unexpected TParenClose (mkPos 9 1 10))))].
Proof. vm_compute. repeat split. Qed.
Example ast_arithmetic_substitution_invalid_38 : follows (@lex ascii_uni (s_of "$(( x <<=))")) [Step AParameter (Some (OErr (Unexpected TParenClose (mkPos 9 1 10))))].
Proof. vm_compute. repeat split. Qed.
Example ast_arithmetic_substitution_invalid_39 : follows (@lex ascii_uni (s_of "$(( x >>=))")) [Step AParameter (Some (OErr (Unexpected TParenClose (mkPos 9 1 10))))].
Proof. vm_compute. repeat split. Qed.
Example ast_arithmetic_substitution_invalid_40 : follows (@lex ascii_uni (s_of "$(( x &= ))")) [Step AParameter (Some (OErr (Unexpected TParenClose (mkPos 9 1 10))))].
Proof. vm_compute. repeat split. Qed.
Example ast_arithmetic_substitution_invalid_41 : follows (@lex ascii_uni (s_of "$(( x ^= ))")) [Step AParameter (Some (OErr (Unexpected TParenClose (mkPos 9 1 10))))].
Proof. vm_compute. repeat split. Qed.
Example ast_arithmetic_substitution_invalid_42 : follows (@lex ascii_uni (s_of "$(( x |= ))")) [Step AParameter (Some (OErr (Unexpected TParenClose (mkPos 9 1 10))))].
Proof. vm_compute. repeat split. Qed.
Example ast_arithmetic_substitution_invalid_43 : follows (@lex ascii_uni (s_of "$(( x ? y : ))")) [Step AParameter (Some (OErr (Unexpected TParenClose (mkPos 12 1 13))))].
Proof. vm_compute. repeat split. Qed.
Example ast_arithmetic_substitution_invalid_44 : follows (@lex ascii_uni (s_of "$(( x ?     ))")) [Step AParameter (Some (OErr (Unexpected TParenClose (mkPos 12 1 13))))].
Proof. vm_compute. repeat split. Qed.
Example ast_arithmetic_substitution_invalid_45 : follows (@lex ascii_uni (s_of "$(( x = 5, ))")) [Step AParameter (Some (OErr (Unexpected TParenClose (mkPos 11 1 12))))].
Proof. vm_compute. repeat split. Qed.
Example ast_arithmetic_substitution_invalid_46 : follows (@lex ascii_uni (s_of "$(( x + () ))")) [Step AParameter (Some (OErr (Unexpected TParenClose (mkPos 9 1 10))))].
Proof. vm_compute. repeat split. Qed.
Example ast_arithmetic_substitution_invalid_47 : follows (@lex ascii_uni (s_of "$(( ** y  ))")) [Step AParameter (Some (OErr (Unexpected TStar (mkPos 4 1 5))))].
Proof. vm_compute. repeat split. Qed.
Example ast_arithmetic_substitution_invalid_48 : follows (@lex ascii_uni (s_of "$(( * y   ))")) [Step AParameter (Some (OErr (Unexpected TStar (mkPos 4 1 5))))].
Proof. vm_compute. repeat split. Qed.
Example ast_arithmetic_substitution_invalid_49 : follows (@lex ascii_uni (s_of "$(( / y   ))")) [Step AParameter (Some (OErr (Unexpected TSlash (mkPos 4 1 5))))].
Proof. vm_compute. repeat split. Qed.
Example ast_arithmetic_substitution_invalid_50 : follows (@lex ascii_uni (s_of "$(( % y   ))")) [Step AParameter (Some (OErr (Unexpected TPercent (mkPos 4 1 5))))].
Proof. vm_compute. repeat split. Qed.
Example ast_arithmetic_substitution_invalid_51 : follows (@lex ascii_uni (s_of "$(( << y  ))")) [Step AParameter (Some (OErr (Unexpected TDLess (mkPos 4 1 5))))].
Proof. vm_compute. repeat split. Qed.
Example ast_arithmetic_substitution_invalid_52 : follows (@lex ascii_uni (s_of "$(( >> y  ))")) [Step AParameter (Some (OErr (Unexpected TDGreat (mkPos 4 1 5))))].
Proof. vm_compute. repeat split. Qed.
Example ast_arithmetic_substitution_invalid_53 : follows (@lex ascii_uni (s_of "$(( < y   ))")) [Step AParameter (Some (OErr (Unexpected TLess (mkPos 4 1 5))))].
Proof. vm_compute. repeat split. Qed.
Example ast_arithmetic_substitution_invalid_54 : follows (@lex ascii_uni (s_of "$(( <= y  ))")) [Step AParameter (Some (OErr (Unexpected TLess (mkPos 4 1 5))))].
Proof. vm_compute. repeat split. Qed.
Example ast_arithmetic_substitution_invalid_55 : follows (@lex ascii_uni (s_of "$(( > y   ))")) [Step AParameter (Some (OErr (Unexpected TGreat (mkPos 4 1 5))))].
Proof. vm_compute. repeat split. Qed.
Example ast_arithmetic_substitution_invalid_56 : follows (@lex ascii_uni (s_of "$(( >= y  ))")) [Step AParameter (Some (OErr (Unexpected TGreat (mkPos 4 1 5))))].
Proof. vm_compute. repeat split. Qed.
Example ast_arithmetic_substitution_invalid_57 : follows (@lex ascii_uni (s_of "$(( == y  ))")) [Step AParameter (Some (OErr (Unexpected TEquals (mkPos 4 1 5))))].
Proof. vm_compute. repeat split. Qed.
Example ast_arithmetic_substitution_invalid_58 : follows (@lex ascii_uni (s_of "$(( & y   ))")) [Step AParameter (Some (OErr (Unexpected TAmp (mkPos 4 1 5))))].
Proof. vm_compute. repeat split. Qed.
Example ast_arithmetic_substitution_invalid_59 : follows (@lex ascii_uni (s_of "$(( ^ y   ))")) [Step AParameter (Some (OErr (Unexpected TCaret (mkPos 4 1 5))))].
Proof. vm_compute. repeat split. Qed.
Example ast_arithmetic_substitution_invalid_60 : follows (@lex ascii_uni (s_of "$(( | y   ))")) [Step AParameter (Some (OErr (Unexpected TPipe (mkPos 4 1 5))))].
Proof. vm_compute. repeat split. Qed.
Example ast_arithmetic_substitution_invalid_61 : follows (@lex ascii_uni (s_of "$(( && y  ))")) [Step AParameter (Some (OErr (Unexpected TAndIf (mkPos 4 1 5))))].
Proof. vm_compute. repeat split. Qed.
Example ast_arithmetic_substitution_invalid_62 : follows (@lex ascii_uni (s_of "$(( || y  ))")) [Step AParameter (Some (OErr (Unexpected TOrIf (mkPos 4 1 5))))].
Proof. vm_compute. repeat split. Qed.
Example ast_arithmetic_substitution_invalid_63 : follows (@lex ascii_uni (s_of "$(( = y   ))")) [Step AParameter (Some (OErr (Unexpected TEquals (mkPos 4 1 5))))].
Proof. vm_compute. repeat split. Qed.
Example ast_arithmetic_substitution_invalid_64 : follows (@lex ascii_uni (s_of "$(( *= y  ))")) [Step AParameter (Some (OErr (Unexpected TStar (mkPos 4 1 5))))].
Proof. vm_compute. repeat split. Qed.
Example ast_arithmetic_substitution_invalid_65 : follows (@lex ascii_uni (s_of "$(( /= y  ))")) [Step AParameter (Some (OErr (Unexpected TSlash (mkPos 4 1 5))))].
Proof. vm_compute. repeat split. Qed.
Example ast_arithmetic_substitution_invalid_66 : follows (@lex ascii_uni (s_of "$(( %= y  ))")) [Step AParameter (Some (OErr (Unexpected TPercent (mkPos 4 1 5))))].
Proof. vm_compute. repeat split. Qed.
Example ast_arithmetic_substitution_invalid_67 : follows (@lex ascii_uni (s_of "$(( <<= y ))")) [Step AParameter (Some (OErr (Unexpected TDLess (mkPos 4 1 5))))].
Proof. vm_compute. repeat split. Qed.
Example ast_arithmetic_substitution_invalid_68 : follows (@lex ascii_uni (s_of "$(( >>= y ))")) [Step AParameter (Some (OErr (Unexpected TDGreat (mkPos 4 1 5))))].
Proof. vm_compute. repeat split. Qed.
Example ast_arithmetic_substitution_invalid_69 : follows (@lex ascii_uni (s_of "$(( &= y  ))")) [Step AParameter (Some (OErr (Unexpected TAmp (mkPos 4 1 5))))].
Proof. vm_compute. repeat split. Qed.
Example ast_arithmetic_substitution_invalid_70 : follows (@lex ascii_uni (s_of "$(( ^= y  ))")) [Step AParameter (Some (OErr (Unexpected TCaret (mkPos 4 1 5))))].
Proof. vm_compute. repeat split. Qed.
Example ast_arithmetic_substitution_invalid_71 : follows (@lex ascii_uni (s_of "$(( |= y  ))")) [Step AParameter (Some (OErr (Unexpected TPipe (mkPos 4 1 5))))].
Proof. vm_compute. repeat split. Qed.
Example ast_arithmetic_substitution_invalid_72 : follows (@lex ascii_uni (s_of "$(( ? y : z ))")) [Step AParameter (Some (OErr (Unexpected TQuestion (mkPos 4 1 5))))].
Proof. vm_compute. repeat split. Qed.
Example ast_arithmetic_substitution_invalid_73 : follows (@lex ascii_uni (s_of "$(( , x + y ))")) [Step AParameter (Some (OErr (Unexpected TComma (mkPos 4 1 5))))].
Proof. vm_compute. repeat split. Qed.
Example ast_arithmetic_substitution_invalid_74 : follows (@lex ascii_uni (s_of "$(( != y  ))")) [Step AParameter (Some (OErr (Unexpected TEquals (mkPos 5 1 6))))].
Proof. vm_compute. repeat split. Qed.
Example ast_arithmetic_substitution_invalid_75 : follows (@lex ascii_uni (s_of "$(( += y  ))")) [Step AParameter (Some (OErr (Unexpected TEquals (mkPos 5 1 6))))].
Proof. vm_compute. repeat split. Qed.
Example ast_arithmetic_substitution_invalid_76 : follows (@lex ascii_uni (s_of "$(( -= y  ))")) [Step AParameter (Some (OErr (Unexpected TEquals (mkPos 5 1 6))))].
Proof. vm_compute. repeat split. Qed.
Example ast_arithmetic_substitution_precedence_1 : follows (@lex ascii_uni (s_of "$(( x , a = b?c: d || e && f | g ^ h & i == j < k << l + m * n ** ~o++ ))")) [Step AParameter (Some (OOk (TLWord (WSingle (WSimple (WSubst (SArith (Some (ASequence [(AVar (s_of "x")); (AAssign (s_of "a") (ATernary (AVar (s_of "b")) (AVar (s_of "c")) (ALogicalOr (AVar (s_of "d")) (ALogicalAnd (AVar (s_of "e")) (ABitwiseOr (AVar (s_of "f")) (ABitwiseXor (AVar (s_of "g")) (ABitwiseAnd (AVar (s_of "h")) (AEq (AVar (s_of "i")) (ALess (AVar (s_of "j")) (AShiftLeft (AVar (s_of "k")) (AAdd (AVar (s_of "l")) (AMult (AVar (s_of "m")) (APow (AVar (s_of "n")) (ABitwiseNot (APostIncr (s_of "o"))))))))))))))))])))))))))].
Proof. vm_compute. repeat split. Qed.
Example ast_arithmetic_substitution_precedence_2 : follows (@lex ascii_uni (s_of "$(( x , a = b?c: d || e && f | g ^ h & i == j < k << l + m * n ** ~(o+p) ))")) [Step AParameter (Some (OOk (TLWord (WSingle (WSimple (WSubst (SArith (Some (ASequence [(AVar (s_of "x")); (AAssign (s_of "a") (ATernary (AVar (s_of "b")) (AVar (s_of "c")) (ALogicalOr (AVar (s_of "d")) (ALogicalAnd (AVar (s_of "e")) (ABitwiseOr (AVar (s_of "f")) (ABitwiseXor (AVar (s_of "g")) (ABitwiseAnd (AVar (s_of "h")) (AEq (AVar (s_of "i")) (ALess (AVar (s_of "j")) (AShiftLeft (AVar (s_of "k")) (AAdd (AVar (s_of "l")) (AMult (AVar (s_of "m")) (APow (AVar (s_of "n")) (ABitwiseNot (AAdd (AVar (s_of "o")) (AVar (s_of "p")))))))))))))))))])))))))))].
Proof. vm_compute. repeat split. Qed.
Example ast_arithmetic_substitution_precedence_3 : follows (@lex ascii_uni (s_of "$(( x , a = b?c: d || e && f | g ^ h & i == j < k << l + m * n ** -o++ ))")) [Step AParameter (Some (OOk (TLWord (WSingle (WSimple (WSubst (SArith (Some (ASequence [(AVar (s_of "x")); (AAssign (s_of "a") (ATernary (AVar (s_of "b")) (AVar (s_of "c")) (ALogicalOr (AVar (s_of "d")) (ALogicalAnd (AVar (s_of "e")) (ABitwiseOr (AVar (s_of "f")) (ABitwiseXor (AVar (s_of "g")) (ABitwiseAnd (AVar (s_of "h")) (AEq (AVar (s_of "i")) (ALess (AVar (s_of "j")) (AShiftLeft (AVar (s_of "k")) (AAdd (AVar (s_of "l")) (AMult (AVar (s_of "m")) (APow (AVar (s_of "n")) (AUnaryMinus (APostIncr (s_of "o"))))))))))))))))])))))))))].
Proof. vm_compute. repeat split. Qed.
Example ast_arithmetic_substitution_precedence_4 : follows (@lex ascii_uni (s_of "$(( x , a = b?c: d || e && f | g ^ h & i == j < k << l + m * n ** -(o+p) ))")) [Step AParameter (Some (OOk (TLWord (WSingle (WSimple (WSubst (SArith (Some (ASequence [(AVar (s_of "x")); (AAssign (s_of "a") (ATernary (AVar (s_of "b")) (AVar (s_of "c")) (ALogicalOr (AVar (s_of "d")) (ALogicalAnd (AVar (s_of "e")) (ABitwiseOr (AVar (s_of "f")) (ABitwiseXor (AVar (s_of "g")) (ABitwiseAnd (AVar (s_of "h")) (AEq (AVar (s_of "i")) (ALess (AVar (s_of "j")) (AShiftLeft (AVar (s_of "k")) (AAdd (AVar (s_of "l")) (AMult (AVar (s_of "m")) (APow (AVar (s_of "n")) (AUnaryMinus (AAdd (AVar (s_of "o")) (AVar (s_of "p")))))))))))))))))])))))))))].
Proof. vm_compute. repeat split. Qed.
Example ast_arithmetic_substitution_precedence_5 : follows (@lex ascii_uni (s_of "$(( x , a = b?c: d || e && f | g ^ h & i == j < k << l + m * n ** ++o ))")) [Step AParameter (Some (OOk (TLWord (WSingle (WSimple (WSubst (SArith (Some (ASequence [(AVar (s_of "x")); (AAssign (s_of "a") (ATernary (AVar (s_of "b")) (AVar (s_of "c")) (ALogicalOr (AVar (s_of "d")) (ALogicalAnd (AVar (s_of "e")) (ABitwiseOr (AVar (s_of "f")) (ABitwiseXor (AVar (s_of "g")) (ABitwiseAnd (AVar (s_of "h")) (AEq (AVar (s_of "i")) (ALess (AVar (s_of "j")) (AShiftLeft (AVar (s_of "k")) (AAdd (AVar (s_of "l")) (AMult (AVar (s_of "m")) (APow (AVar (s_of "n")) (APreIncr (s_of "o")))))))))))))))])))))))))].
Proof. vm_compute. repeat split. Qed.
Example ast_arithmetic_substitution_operators_of_equal_precedence_1 : follows (@lex ascii_uni (s_of "$(( x != y == z ))")) [Step AParameter (Some (OOk (TLWord (WSingle (WSimple (WSubst (SArith (Some (AEq (ANotEq (AVar (s_of "x")) (AVar (s_of "y"))) (AVar (s_of "z")))))))))))].
Proof. vm_compute. repeat split. Qed.
Example ast_arithmetic_substitution_operators_of_equal_precedence_2 : follows (@lex ascii_uni (s_of "$(( x == y != z ))")) [Step AParameter (Some (OOk (TLWord (WSingle (WSimple (WSubst (SArith (Some (ANotEq (AEq (AVar (s_of "x")) (AVar (s_of "y"))) (AVar (s_of "z")))))))))))].
Proof. vm_compute. repeat split. Qed.
Example ast_arithmetic_substitution_operators_of_equal_precedence_3 : follows (@lex ascii_uni (s_of "$(( x <  y < z ))")) [Step AParameter (Some (OOk (TLWord (WSingle (WSimple (WSubst (SArith (Some (ALess (ALess (AVar (s_of "x")) (AVar (s_of "y"))) (AVar (s_of "z")))))))))))].
Proof. vm_compute. repeat split. Qed.
Example ast_arithmetic_substitution_operators_of_equal_precedence_4 : follows (@lex ascii_uni (s_of "$(( x <= y < z ))")) [Step AParameter (Some (OOk (TLWord (WSingle (WSimple (WSubst (SArith (Some (ALess (ALessEq (AVar (s_of "x")) (AVar (s_of "y"))) (AVar (s_of "z")))))))))))].
Proof. vm_compute. repeat split. Qed.
Example ast_arithmetic_substitution_operators_of_equal_precedence_5 : follows (@lex ascii_uni (s_of "$(( x >  y < z ))")) [Step AParameter (Some (OOk (TLWord (WSingle (WSimple (WSubst (SArith (Some (ALess (AGreat (AVar (s_of "x")) (AVar (s_of "y"))) (AVar (s_of "z")))))))))))].
Proof. vm_compute. repeat split. Qed.
Example ast_arithmetic_substitution_operators_of_equal_precedence_6 : follows (@lex ascii_uni (s_of "$(( x >= y < z ))")) [Step AParameter (Some (OOk (TLWord (WSingle (WSimple (WSubst (SArith (Some (ALess (AGreatEq (AVar (s_of "x")) (AVar (s_of "y"))) (AVar (s_of "z")))))))))))].
Proof. vm_compute. repeat split. Qed.
Example ast_arithmetic_substitution_operators_of_equal_precedence_7 : follows (@lex ascii_uni (s_of "$(( x << y >> z ))")) [Step AParameter (Some (OOk (TLWord (WSingle (WSimple (WSubst (SArith (Some (AShiftRight (AShiftLeft (AVar (s_of "x")) (AVar (s_of "y"))) (AVar (s_of "z")))))))))))].
Proof. vm_compute. repeat split. Qed.
Example ast_arithmetic_substitution_operators_of_equal_precedence_8 : follows (@lex ascii_uni (s_of "$(( x >> y << z ))")) [Step AParameter (Some (OOk (TLWord (WSingle (WSimple (WSubst (SArith (Some (AShiftLeft (AShiftRight (AVar (s_of "x")) (AVar (s_of "y"))) (AVar (s_of "z")))))))))))].
Proof. vm_compute. repeat split. Qed.
Example ast_arithmetic_substitution_operators_of_equal_precedence_9 : follows (@lex ascii_uni (s_of "$(( x + y - z ))")) [Step AParameter (Some (OOk (TLWord (WSingle (WSimple (WSubst (SArith (Some (ASub (AAdd (AVar (s_of "x")) (AVar (s_of "y"))) (AVar (s_of "z")))))))))))].
Proof. vm_compute. repeat split. Qed.
Example ast_arithmetic_substitution_operators_of_equal_precedence_10 : follows (@lex ascii_uni (s_of "$(( x - y + z ))")) [Step AParameter (Some (OOk (TLWord (WSingle (WSimple (WSubst (SArith (Some (AAdd (ASub (AVar (s_of "x")) (AVar (s_of "y"))) (AVar (s_of "z")))))))))))].
Proof. vm_compute. repeat split. Qed.
Example ast_arithmetic_substitution_operators_of_equal_precedence_11 : follows (@lex ascii_uni (s_of "$(( x * y / z % w ))")) [Step AParameter (Some (OOk (TLWord (WSingle (WSimple (WSubst (SArith (Some (AModulo (ADiv (AMult (AVar (s_of "x")) (AVar (s_of "y"))) (AVar (s_of "z"))) (AVar (s_of "w")))))))))))].
Proof. vm_compute. repeat split. Qed.
Example ast_arithmetic_substitution_operators_of_equal_precedence_12 : follows (@lex ascii_uni (s_of "$(( x * y % z / w ))")) [Step AParameter (Some (OOk (TLWord (WSingle (WSimple (WSubst (SArith (Some (ADiv (AModulo (AMult (AVar (s_of "x")) (AVar (s_of "y"))) (AVar (s_of "z"))) (AVar (s_of "w")))))))))))].
Proof. vm_compute. repeat split. Qed.
Example ast_arithmetic_substitution_operators_of_equal_precedence_13 : follows (@lex ascii_uni (s_of "$(( x / y * z % w ))")) [Step AParameter (Some (OOk (TLWord (WSingle (WSimple (WSubst (SArith (Some (AModulo (AMult (ADiv (AVar (s_of "x")) (AVar (s_of "y"))) (AVar (s_of "z"))) (AVar (s_of "w")))))))))))].
Proof. vm_compute. repeat split. Qed.
Example ast_arithmetic_substitution_operators_of_equal_precedence_14 : follows (@lex ascii_uni (s_of "$(( x / y % z * w ))")) [Step AParameter (Some (OOk (TLWord (WSingle (WSimple (WSubst (SArith (Some (AMult (AModulo (ADiv (AVar (s_of "x")) (AVar (s_of "y"))) (AVar (s_of "z"))) (AVar (s_of "w")))))))))))].
Proof. vm_compute. repeat split. Qed.
Example ast_arithmetic_substitution_operators_of_equal_precedence_15 : follows (@lex ascii_uni (s_of "$(( x % y * z / w ))")) [Step AParameter (Some (OOk (TLWord (WSingle (WSimple (WSubst (SArith (Some (ADiv (AMult (AModulo (AVar (s_of "x")) (AVar (s_of "y"))) (AVar (s_of "z"))) (AVar (s_of "w")))))))))))].
Proof. vm_compute. repeat split. Qed.
Example ast_arithmetic_substitution_operators_of_equal_precedence_16 : follows (@lex ascii_uni (s_of "$(( x % y / z * w ))")) [Step AParameter (Some (OOk (TLWord (WSingle (WSimple (WSubst (SArith (Some (AMult (ADiv (AModulo (AVar (s_of "x")) (AVar (s_of "y"))) (AVar (s_of "z"))) (AVar (s_of "w")))))))))))].
Proof. vm_compute. repeat split. Qed.
Example ast_arithmetic_substitution_operators_of_equal_precedence_17 : follows (@lex ascii_uni (s_of "$(( +!~x ))")) [Step AParameter (Some (OOk (TLWord (WSingle (WSimple (WSubst (SArith (Some (AUnaryPlus (ALogicalNot (ABitwiseNot (AVar (s_of "x")))))))))))))].
Proof. vm_compute. repeat split. Qed.
Example ast_arithmetic_substitution_operators_of_equal_precedence_18 : follows (@lex ascii_uni (s_of "$(( +~!x ))")) [Step AParameter (Some (OOk (TLWord (WSingle (WSimple (WSubst (SArith (Some (AUnaryPlus (ABitwiseNot (ALogicalNot (AVar (s_of "x")))))))))))))].
Proof. vm_compute. repeat split. Qed.
Example ast_arithmetic_substitution_operators_of_equal_precedence_19 : follows (@lex ascii_uni (s_of "$(( !+~x ))")) [Step AParameter (Some (OOk (TLWord (WSingle (WSimple (WSubst (SArith (Some (ALogicalNot (AUnaryPlus (ABitwiseNot (AVar (s_of "x")))))))))))))].
Proof. vm_compute. repeat split. Qed.
Example ast_arithmetic_substitution_operators_of_equal_precedence_20 : follows (@lex ascii_uni (s_of "$(( !~+x ))")) [Step AParameter (Some (OOk (TLWord (WSingle (WSimple (WSubst (SArith (Some (ALogicalNot (ABitwiseNot (AUnaryPlus (AVar (s_of "x")))))))))))))].
Proof. vm_compute. repeat split. Qed.
Example ast_arithmetic_substitution_operators_of_equal_precedence_21 : follows (@lex ascii_uni (s_of "$(( ~+!x ))")) [Step AParameter (Some (OOk (TLWord (WSingle (WSimple (WSubst (SArith (Some (ABitwiseNot (AUnaryPlus (ALogicalNot (AVar (s_of "x")))))))))))))].
Proof. vm_compute. repeat split. Qed.
Example ast_arithmetic_substitution_operators_of_equal_precedence_22 : follows (@lex ascii_uni (s_of "$(( ~!+x ))")) [Step AParameter (Some (OOk (TLWord (WSingle (WSimple (WSubst (SArith (Some (ABitwiseNot (ALogicalNot (AUnaryPlus (AVar (s_of "x")))))))))))))].
Proof. vm_compute. repeat split. Qed.
Example ast_arithmetic_substitution_operators_of_equal_precedence_23 : follows (@lex ascii_uni (s_of "$(( -!~x ))")) [Step AParameter (Some (OOk (TLWord (WSingle (WSimple (WSubst (SArith (Some (AUnaryMinus (ALogicalNot (ABitwiseNot (AVar (s_of "x")))))))))))))].
Proof. vm_compute. repeat split. Qed.
Example ast_arithmetic_substitution_operators_of_equal_precedence_24 : follows (@lex ascii_uni (s_of "$(( -~!x ))")) [Step AParameter (Some (OOk (TLWord (WSingle (WSimple (WSubst (SArith (Some (AUnaryMinus (ABitwiseNot (ALogicalNot (AVar (s_of "x")))))))))))))].
Proof. vm_compute. repeat split. Qed.
Example ast_arithmetic_substitution_operators_of_equal_precedence_25 : follows (@lex ascii_uni (s_of "$(( !-~x ))")) [Step AParameter (Some (OOk (TLWord (WSingle (WSimple (WSubst (SArith (Some (ALogicalNot (AUnaryMinus (ABitwiseNot (AVar (s_of "x")))))))))))))].
Proof. vm_compute. repeat split. Qed.
Example ast_arithmetic_substitution_operators_of_equal_precedence_26 : follows (@lex ascii_uni (s_of "$(( !~-x ))")) [Step AParameter (Some (OOk (TLWord (WSingle (WSimple (WSubst (SArith (Some (ALogicalNot (ABitwiseNot (AUnaryMinus (AVar (s_of "x")))))))))))))].
Proof. vm_compute. repeat split. Qed.
Example ast_arithmetic_substitution_operators_of_equal_precedence_27 : follows (@lex ascii_uni (s_of "$(( ~-!x ))")) [Step AParameter (Some (OOk (TLWord (WSingle (WSimple (WSubst (SArith (Some (ABitwiseNot (AUnaryMinus (ALogicalNot (AVar (s_of "x")))))))))))))].
Proof. vm_compute. repeat split. Qed.
Example ast_arithmetic_substitution_operators_of_equal_precedence_28 : follows (@lex ascii_uni (s_of "$(( ~!-x ))")) [Step AParameter (Some (OOk (TLWord (WSingle (WSimple (WSubst (SArith (Some (ABitwiseNot (ALogicalNot (AUnaryMinus (AVar (s_of "x")))))))))))))].
Proof. vm_compute. repeat split. Qed.
Example ast_arithmetic_substitution_operators_of_equal_precedence_29 : follows (@lex ascii_uni (s_of "$(( !~++x ))")) [Step AParameter (Some (OOk (TLWord (WSingle (WSimple (WSubst (SArith (Some (ALogicalNot (ABitwiseNot (APreIncr (s_of "x"))))))))))))].
Proof. vm_compute. repeat split. Qed.
Example ast_arithmetic_substitution_operators_of_equal_precedence_30 : follows (@lex ascii_uni (s_of "$(( ~!++x ))")) [Step AParameter (Some (OOk (TLWord (WSingle (WSimple (WSubst (SArith (Some (ABitwiseNot (ALogicalNot (APreIncr (s_of "x"))))))))))))].
Proof. vm_compute. repeat split. Qed.
Example ast_arithmetic_substitution_operators_of_equal_precedence_31 : follows (@lex ascii_uni (s_of "$(( !~--x ))")) [Step AParameter (Some (OOk (TLWord (WSingle (WSimple (WSubst (SArith (Some (ALogicalNot (ABitwiseNot (APreDecr (s_of "x"))))))))))))].
Proof. vm_compute. repeat split. Qed.
Example ast_arithmetic_substitution_operators_of_equal_precedence_32 : follows (@lex ascii_uni (s_of "$(( ~!--x ))")) [Step AParameter (Some (OOk (TLWord (WSingle (WSimple (WSubst (SArith (Some (ABitwiseNot (ALogicalNot (APreDecr (s_of "x"))))))))))))].
Proof. vm_compute. repeat split. Qed.
Example ast_arithmetic_substitution_operators_of_equal_precedence_33 : follows (@lex ascii_uni (s_of "$(( -+x ))")) [Step AParameter (Some (OOk (TLWord (WSingle (WSimple (WSubst (SArith (Some (AUnaryMinus (AUnaryPlus (AVar (s_of "x"))))))))))))].
Proof. vm_compute. repeat split. Qed.
Example ast_arithmetic_substitution_operators_of_equal_precedence_34 : follows (@lex ascii_uni (s_of "$(( +-x ))")) [Step AParameter (Some (OOk (TLWord (WSingle (WSimple (WSubst (SArith (Some (AUnaryPlus (AUnaryMinus (AVar (s_of "x"))))))))))))].
Proof. vm_compute. repeat split. Qed.
Example ast_backticked_valid_1 : follows (@lex ascii_uni (s_of "`foo`")) [Step ABackticked (Some (OOk (TLWord (WSingle (WSimple (WSubst (SCommand [(TLCmd (CList (mkAOL (LSingle (PSimple (mkSC [] [(DCmdWord (TLWord (WSingle (WSimple (WLiteral (s_of "foo"))))))]))) [])))])))))))].
Proof. vm_compute. repeat split. Qed.
Example ast_backticked_valid_backslashes_removed_if_before_dollar_backslash_and_backtick_1 : follows (@lex ascii_uni (s_of "`foo \$\$\\\`\o`")) [Step ABackticked (Some (OOk (TLWord (WSingle (WSimple (WSubst (SCommand [(TLCmd (CList (mkAOL (LSingle (PSimple (mkSC [] [(DCmdWord (TLWord (WSingle (WSimple (WLiteral (s_of "foo")))))); (DCmdWord (TLWord (WConcat [(WSimple (WParam PmDollar)); (WSimple (WEscaped (s_of "`"))); (WSimple (WEscaped (s_of "o")))])))]))) [])))])))))))].
Proof. vm_compute. repeat split. Qed.
Example ast_backticked_nested_backticks_1 : follows (@lex ascii_uni (s_of "`foo \`bar \\\\$\\\\$\``")) [Step ABackticked (Some (OOk (TLWord (WSingle (WSimple (WSubst (SCommand [(TLCmd (CList (mkAOL (LSingle (PSimple (mkSC [] [(DCmdWord (TLWord (WSingle (WSimple (WLiteral (s_of "foo")))))); (DCmdWord (TLWord (WSingle (WSimple (WSubst (SCommand [(TLCmd (CList (mkAOL (LSingle (PSimple (mkSC [] [(DCmdWord (TLWord (WSingle (WSimple (WLiteral (s_of "bar")))))); (DCmdWord (TLWord (WConcat [(WSimple (WEscaped (s_of "$"))); (WSimple (WEscaped (s_of "$")))])))]))) [])))]))))))]))) [])))])))))))].
Proof. vm_compute. repeat split. Qed.
Example ast_backticked_nested_backticks_x2_1 : follows (@lex ascii_uni (s_of "`foo \`bar \\\`baz \\\\\\\\$\\\\\\\\$ \\\`\``")) [Step ABackticked (Some (OOk (TLWord (WSingle (WSimple (WSubst (SCommand [(TLCmd (CList (mkAOL (LSingle (PSimple (mkSC [] [(DCmdWord (TLWord (WSingle (WSimple (WLiteral (s_of "foo")))))); (DCmdWord (TLWord (WSingle (WSimple (WSubst (SCommand [(TLCmd (CList (mkAOL (LSingle (PSimple (mkSC [] [(DCmdWord (TLWord (WSingle (WSimple (WLiteral (s_of "bar")))))); (DCmdWord (TLWord (WSingle (WSimple (WSubst (SCommand [(TLCmd (CList (mkAOL (LSingle (PSimple (mkSC [] [(DCmdWord (TLWord (WSingle (WSimple (WLiteral (s_of "baz")))))); (DCmdWord (TLWord (WConcat [(WSimple (WEscaped (s_of "$"))); (WSimple (WEscaped (s_of "$")))])))]))) [])))]))))))]))) [])))]))))))]))) [])))])))))))].
Proof. vm_compute. repeat split. Qed.
Example ast_backticked_nested_backticks_x3_1 : follows (@lex ascii_uni (s_of "`foo \`bar \\\`baz \\\\\\\`qux \\\\\\\\\\\\\\\\$\\\\\\\\\\\\\\\\$ \\\\\\\` \\\`\``")) [Step ABackticked (Some (OOk (TLWord (WSingle (WSimple (WSubst (SCommand [(TLCmd (CList (mkAOL (LSingle (PSimple (mkSC [] [(DCmdWord (TLWord (WSingle (WSimple (WLiteral (s_of "foo")))))); (DCmdWord (TLWord (WSingle (WSimple (WSubst (SCommand [(TLCmd (CList (mkAOL (LSingle (PSimple (mkSC [] [(DCmdWord (TLWord (WSingle (WSimple (WLiteral (s_of "bar")))))); (DCmdWord (TLWord (WSingle (WSimple (WSubst (SCommand [(TLCmd (CList (mkAOL (LSingle (PSimple (mkSC [] [(DCmdWord (TLWord (WSingle (WSimple (WLiteral (s_of "baz")))))); (DCmdWord (TLWord (WSingle (WSimple (WSubst (SCommand [(TLCmd (CList (mkAOL (LSingle (PSimple (mkSC [] [(DCmdWord (TLWord (WSingle (WSimple (WLiteral (s_of "qux")))))); (DCmdWord (TLWord (WConcat [(WSimple (WEscaped (s_of "$"))); (WSimple (WEscaped (s_of "$")))])))]))) [])))]))))))]))) [])))]))))))]))) [])))]))))))]))) [])))])))))))].
Proof. vm_compute. repeat split. Qed.
Example ast_backticked_invalid_missing_closing_backtick_1 : follows (@lex ascii_uni (s_of "`foo")) [Step ABackticked (Some (OErr (Unmatched TBacktick (mkPos 0 1 1))))].
Proof. vm_compute. repeat split. Qed.
Example ast_backticked_invalid_missing_closing_backtick_2 : follows (@lex ascii_uni (s_of "`foo \`bar \\\\$\\\\$\`")) [Step ABackticked (Some (OErr (Unmatched TBacktick (mkPos 0 1 1))))].
Proof. vm_compute. repeat split. Qed.
Example ast_backticked_invalid_missing_closing_backtick_3 : follows (@lex ascii_uni (s_of "`foo \`bar \\\`baz \\\\\\\\$\\\\\\\\$ \\\`\`")) [Step ABackticked (Some (OErr (Unmatched TBacktick (mkPos 0 1 1))))].
Proof. vm_compute. repeat split. Qed.
Example ast_backticked_invalid_missing_closing_backtick_4 : follows (@lex ascii_uni (s_of "`foo \`bar \\\`baz \\\\\\\`qux \\\\\\\\\\\\\\\\$ \\\\\\\\\\\\\\\\$ \\\\\\\` \\\`\`")) [Step ABackticked (Some (OErr (Unmatched TBacktick (mkPos 0 1 1))))].
Proof. vm_compute. repeat split. Qed.
Example ast_backticked_invalid_missing_closing_backtick_5 : follows (@lex ascii_uni (s_of "`foo \`bar \\\\$\\\\$`")) [Step ABackticked (Some (OErr (Unmatched TBacktick (mkPos 6 1 7))))].
Proof. vm_compute. repeat split. Qed.
Example ast_backticked_invalid_missing_closing_backtick_6 : follows (@lex ascii_uni (s_of "`foo \`bar \\\`baz \\\\\\\\$\\\\\\\\$ \\\``")) [Step ABackticked (Some (OErr (Unmatched TBacktick (mkPos 6 1 7))))].
Proof. vm_compute. repeat split. Qed.
Example ast_backticked_invalid_missing_closing_backtick_7 : follows (@lex ascii_uni (s_of "`foo \`bar \\\`baz \\\\\\\`qux \\\\\\\\\\\\\\\\$ \\\\\\\\\\\\\\\\$ \\\\\\\` \\\``")) [Step ABackticked (Some (OErr (Unmatched TBacktick (mkPos 6 1 7))))].
Proof. vm_compute. repeat split. Qed.
Example ast_backticked_invalid_missing_closing_backtick_8 : follows (@lex ascii_uni (s_of "`foo \`bar \\\`baz \\\\\\\\$\\\\\\\\$ \``")) [Step ABackticked (Some (OErr (Unmatched TBacktick (mkPos 14 1 15))))].
Proof. vm_compute. repeat split. Qed.
Example ast_backticked_invalid_missing_closing_backtick_9 : follows (@lex ascii_uni (s_of "`foo \`bar \\\`baz \\\\\\\`qux \\\\\\\\\\\\\\\\$ \\\\\\\\\\\\\\\\$ \\\\\\\` \``")) [Step ABackticked (Some (OErr (Unmatched TBacktick (mkPos 14 1 15))))].
Proof. vm_compute. repeat split. Qed.
Example ast_backticked_invalid_missing_closing_backtick_10 : follows (@lex ascii_uni (s_of "`foo \`bar \\\`baz \\\\\\\`qux \\\\\\\\\\\\\\\\$ \\\\\\\\\\\\\\\\$ \\\`\``")) [Step ABackticked (Some (OErr (Unmatched TBacktick (mkPos 26 1 27))))].
Proof. vm_compute. repeat split. Qed.
Example ast_backticked_invalid_maintains_accurate_source_positions_1 : follows (@lex ascii_uni (s_of "`foo ${invalid param}`")) [Step ABackticked (Some (OErr (BadSubst (TWhitespace (s_of " ")) (mkPos 14 1 15))))].
Proof. vm_compute. repeat split. Qed.
Example ast_backticked_invalid_maintains_accurate_source_positions_2 : follows (@lex ascii_uni (s_of "`foo \`bar ${invalid param}\``")) [Step ABackticked (Some (OErr (BadSubst (TWhitespace (s_of " ")) (mkPos 20 1 21))))].
Proof. vm_compute. repeat split. Qed.
Example ast_backticked_invalid_maintains_accurate_source_positions_3 : follows (@lex ascii_uni (s_of "`foo \`bar \\\`baz ${invalid param} \\\`\``")) [Step ABackticked (Some (OErr (BadSubst (TWhitespace (s_of " ")) (mkPos 28 1 29))))].
Proof. vm_compute. repeat split. Qed.
Example ast_backticked_invalid_maintains_accurate_source_positions_4 : follows (@lex ascii_uni (s_of "`foo \`bar \\\`baz \\\\\\\`qux ${invalid param} \\\\\\\` \\\`\``")) [Step ABackticked (Some (OErr (BadSubst (TWhitespace (s_of " ")) (mkPos 40 1 41))))].
Proof. vm_compute. repeat split. Qed.
Example ast_backticked_invalid_missing_opening_backtick_1 : follows (@lex ascii_uni (s_of "foo`")) [Step ABackticked (Some (OErr (Unexpected (TName (s_of "foo")) (mkPos 0 1 1))))].
Proof. vm_compute. repeat split. Qed.
Example ast_brace_group_valid_1 : follows (@lex ascii_uni [123;32;102;111;111;10;98;97;114;59;32;98;97;122;10;35;99;111;109;109;101;110;116;49;10;35;99;111;109;109;101;110;116;50;10;32;125]%N) [Step ABraceGroup (Some (OOk (mkCG [(TLCmd (CList (mkAOL (LSingle (PSimple (mkSC [] [(DCmdWord (TLWord (WSingle (WSimple (WLiteral (s_of "foo"))))))]))) []))); (TLCmd (CList (mkAOL (LSingle (PSimple (mkSC [] [(DCmdWord (TLWord (WSingle (WSimple (WLiteral (s_of "bar"))))))]))) []))); (TLCmd (CList (mkAOL (LSingle (PSimple (mkSC [] [(DCmdWord (TLWord (WSingle (WSimple (WLiteral (s_of "baz"))))))]))) [])))] [(Newline (Some (s_of "#comment1"))); (Newline (Some (s_of "#comment2")))])))].
Proof. vm_compute. repeat split. Qed.
Example ast_brace_group_invalid_missing_separator_1 : follows (@lex ascii_uni [123;32;102;111;111;10;98;97;114;59;32;98;97;122;32;125]%N) [Step ABraceGroup (Some (OErr (Unmatched TCurlyOpen (mkPos 0 1 1))))].
Proof. vm_compute. repeat split. Qed.
Example ast_brace_group_invalid_start_must_be_whitespace_delimited_1 : follows (@lex ascii_uni [123;102;111;111;10;98;97;114;59;32;98;97;122;59;32;125]%N) [Step ABraceGroup (Some (OErr (Unexpected (TName (s_of "foo")) (mkPos 1 1 2))))].
Proof. vm_compute. repeat split. Qed.
Example ast_brace_group_valid_end_must_be_whitespace_and_separator_delimited_1 : follows (@lex ascii_uni [123;32;102;111;111;10;98;97;114;125;59;32;98;97;122;59;32;125]%N) [StepOk ABraceGroup; Step ACompleteCommand (Some (OOk None))].
Proof. vm_compute. repeat split. Qed.
Example ast_brace_group_valid_end_must_be_whitespace_and_separator_delimited_2 : follows (@lex ascii_uni [123;32;102;111;111;10;98;97;114;59;32;125;98;97;122;59;32;125]%N) [StepOk ABraceGroup; Step ACompleteCommand (Some (OOk None))].
Proof. vm_compute. repeat split. Qed.
Example ast_brace_group_valid_keyword_delimited_by_separator_1 : follows (@lex ascii_uni (s_of "{ foo }; }")) [Step ABraceGroup (Some (OOk (mkCG [(TLCmd (CList (mkAOL (LSingle (PSimple (mkSC [] [(DCmdWord (TLWord (WSingle (WSimple (WLiteral (s_of "foo")))))); (DCmdWord (TLWord (WSingle (WSimple (WLiteral (s_of "}"))))))]))) [])))] [])))].
Proof. vm_compute. repeat split. Qed.
Example ast_brace_group_invalid_missing_keyword_1 : follows (@lex ascii_uni [123;32;102;111;111;10;98;97;114;59;32;98;97;122]%N) [Step ABraceGroup (Some (OErr (Unmatched TCurlyOpen (mkPos 0 1 1))))].
Proof. vm_compute. repeat split. Qed.
Example ast_brace_group_invalid_missing_keyword_2 : follows (@lex ascii_uni [102;111;111;10;98;97;114;59;32;98;97;122;59;32;125]%N) [Step ABraceGroup (Some (OErr (Unexpected (TName (s_of "foo")) (mkPos 0 1 1))))].
Proof. vm_compute. repeat split. Qed.
Example ast_brace_group_invalid_quoted_1 : follows (@lex ascii_uni [39;123;39;32;102;111;111;10;98;97;114;59;32;98;97;122;59;32;125]%N) [Step ABraceGroup (Some (OErr (Unexpected TSingleQuote (mkPos 0 1 1))))].
Proof. vm_compute. repeat split. Qed.
Example ast_brace_group_invalid_quoted_2 : follows (@lex ascii_uni [123;32;102;111;111;10;98;97;114;59;32;98;97;122;59;32;39;125;39]%N) [Step ABraceGroup (Some (OErr (Unmatched TCurlyOpen (mkPos 0 1 1))))].
Proof. vm_compute. repeat split. Qed.
Example ast_brace_group_invalid_quoted_3 : follows (@lex ascii_uni [34;123;34;32;102;111;111;10;98;97;114;59;32;98;97;122;59;32;125]%N) [Step ABraceGroup (Some (OErr (Unexpected TDoubleQuote (mkPos 0 1 1))))].
Proof. vm_compute. repeat split. Qed.
Example ast_brace_group_invalid_quoted_4 : follows (@lex ascii_uni [123;32;102;111;111;10;98;97;114;59;32;98;97;122;59;32;34;125;34]%N) [Step ABraceGroup (Some (OErr (Unmatched TCurlyOpen (mkPos 0 1 1))))].
Proof. vm_compute. repeat split. Qed.
Example ast_brace_group_invalid_missing_body_1 : follows (@lex ascii_uni [123;10;125]%N) [Step ABraceGroup (Some (OErr (Unexpected TCurlyClose (mkPos 2 2 1))))].
Proof. vm_compute. repeat split. Qed.
Example ast_case_command_valid_1 : follows (@lex ascii_uni (s_of "case foo in  hello | goodbye) echo greeting;;  world) echo noun;; esac")) [Step ACaseCommand (Some (OOk (mkCF (TLWord (WSingle (WSimple (WLiteral (s_of "foo"))))) [] None [(mkCA (mkCP [] [(TLWord (WSingle (WSimple (WLiteral (s_of "hello"))))); (TLWord (WSingle (WSimple (WLiteral (s_of "goodbye")))))] None) (mkCG [(TLCmd (CList (mkAOL (LSingle (PSimple (mkSC [] [(DCmdWord (TLWord (WSingle (WSimple (WLiteral (s_of "echo")))))); (DCmdWord (TLWord (WSingle (WSimple (WLiteral (s_of "greeting"))))))]))) [])))] []) None); (mkCA (mkCP [] [(TLWord (WSingle (WSimple (WLiteral (s_of "world")))))] None) (mkCG [(TLCmd (CList (mkAOL (LSingle (PSimple (mkSC [] [(DCmdWord (TLWord (WSingle (WSimple (WLiteral (s_of "echo")))))); (DCmdWord (TLWord (WSingle (WSimple (WLiteral (s_of "noun"))))))]))) [])))] []) None)] [])))].
Proof. vm_compute. repeat split. Qed.
Example ast_case_command_valid_2 : follows (@lex ascii_uni (s_of "case foo in (hello | goodbye) echo greeting;;  world) echo noun;; esac")) [Step ACaseCommand (Some (OOk (mkCF (TLWord (WSingle (WSimple (WLiteral (s_of "foo"))))) [] None [(mkCA (mkCP [] [(TLWord (WSingle (WSimple (WLiteral (s_of "hello"))))); (TLWord (WSingle (WSimple (WLiteral (s_of "goodbye")))))] None) (mkCG [(TLCmd (CList (mkAOL (LSingle (PSimple (mkSC [] [(DCmdWord (TLWord (WSingle (WSimple (WLiteral (s_of "echo")))))); (DCmdWord (TLWord (WSingle (WSimple (WLiteral (s_of "greeting"))))))]))) [])))] []) None); (mkCA (mkCP [] [(TLWord (WSingle (WSimple (WLiteral (s_of "world")))))] None) (mkCG [(TLCmd (CList (mkAOL (LSingle (PSimple (mkSC [] [(DCmdWord (TLWord (WSingle (WSimple (WLiteral (s_of "echo")))))); (DCmdWord (TLWord (WSingle (WSimple (WLiteral (s_of "noun"))))))]))) [])))] []) None)] [])))].
Proof. vm_compute. repeat split. Qed.
Example ast_case_command_valid_3 : follows (@lex ascii_uni (s_of "case foo in (hello | goodbye) echo greeting;; (world) echo noun;; esac")) [Step ACaseCommand (Some (OOk (mkCF (TLWord (WSingle (WSimple (WLiteral (s_of "foo"))))) [] None [(mkCA (mkCP [] [(TLWord (WSingle (WSimple (WLiteral (s_of "hello"))))); (TLWord (WSingle (WSimple (WLiteral (s_of "goodbye")))))] None) (mkCG [(TLCmd (CList (mkAOL (LSingle (PSimple (mkSC [] [(DCmdWord (TLWord (WSingle (WSimple (WLiteral (s_of "echo")))))); (DCmdWord (TLWord (WSingle (WSimple (WLiteral (s_of "greeting"))))))]))) [])))] []) None); (mkCA (mkCP [] [(TLWord (WSingle (WSimple (WLiteral (s_of "world")))))] None) (mkCG [(TLCmd (CList (mkAOL (LSingle (PSimple (mkSC [] [(DCmdWord (TLWord (WSingle (WSimple (WLiteral (s_of "echo")))))); (DCmdWord (TLWord (WSingle (WSimple (WLiteral (s_of "noun"))))))]))) [])))] []) None)] [])))].
Proof. vm_compute. repeat split. Qed.
Example ast_case_command_valid_4 : follows (@lex ascii_uni [99;97;115;101;32;102;111;111;32;105;110;32;104;101;108;108;111;32;124;32;103;111;111;100;98;121;101;41;32;101;99;104;111;32;103;114;101;101;116;105;110;103;59;59;32;119;111;114;108;100;41;32;101;99;104;111;32;110;111;117;110;10;101;115;97;99]%N) [Step ACaseCommand (Some (OOk (mkCF (TLWord (WSingle (WSimple (WLiteral (s_of "foo"))))) [] None [(mkCA (mkCP [] [(TLWord (WSingle (WSimple (WLiteral (s_of "hello"))))); (TLWord (WSingle (WSimple (WLiteral (s_of "goodbye")))))] None) (mkCG [(TLCmd (CList (mkAOL (LSingle (PSimple (mkSC [] [(DCmdWord (TLWord (WSingle (WSimple (WLiteral (s_of "echo")))))); (DCmdWord (TLWord (WSingle (WSimple (WLiteral (s_of "greeting"))))))]))) [])))] []) None); (mkCA (mkCP [] [(TLWord (WSingle (WSimple (WLiteral (s_of "world")))))] None) (mkCG [(TLCmd (CList (mkAOL (LSingle (PSimple (mkSC [] [(DCmdWord (TLWord (WSingle (WSimple (WLiteral (s_of "echo")))))); (DCmdWord (TLWord (WSingle (WSimple (WLiteral (s_of "noun"))))))]))) [])))] []) None)] [])))].
Proof. vm_compute. repeat split. Qed.
Example ast_case_command_valid_5 : follows (@lex ascii_uni (s_of "case foo in hello | goodbye) echo greeting;; world) echo noun; esac")) [Step ACaseCommand (Some (OOk (mkCF (TLWord (WSingle (WSimple (WLiteral (s_of "foo"))))) [] None [(mkCA (mkCP [] [(TLWord (WSingle (WSimple (WLiteral (s_of "hello"))))); (TLWord (WSingle (WSimple (WLiteral (s_of "goodbye")))))] None) (mkCG [(TLCmd (CList (mkAOL (LSingle (PSimple (mkSC [] [(DCmdWord (TLWord (WSingle (WSimple (WLiteral (s_of "echo")))))); (DCmdWord (TLWord (WSingle (WSimple (WLiteral (s_of "greeting"))))))]))) [])))] []) None); (mkCA (mkCP [] [(TLWord (WSingle (WSimple (WLiteral (s_of "world")))))] None) (mkCG [(TLCmd (CList (mkAOL (LSingle (PSimple (mkSC [] [(DCmdWord (TLWord (WSingle (WSimple (WLiteral (s_of "echo")))))); (DCmdWord (TLWord (WSingle (WSimple (WLiteral (s_of "noun"))))))]))) [])))] []) None)] [])))].
Proof. vm_compute. repeat split. Qed.
Example ast_case_command_valid_with_comments_1 : follows (@lex ascii_uni [99;97;115;101;32;102;111;111;32;35;119;111;114;100;95;99;111;109;109;101;110;116;10;32;32;32;32;32;32;32;32;35;112;111;115;116;95;119;111;114;100;95;97;10;10;32;32;32;32;32;32;32;32;35;112;111;115;116;95;119;111;114;100;95;98;10;32;32;32;32;32;32;32;32;105;110;32;35;105;110;95;99;111;109;109;101;110;116;10;10;32;32;32;32;32;32;32;32;35;112;114;101;95;112;97;116;95;97;10;32;32;32;32;32;32;32;32;40;104;101;108;108;111;32;124;32;103;111;111;100;98;121;101;41;32;35;112;97;116;95;97;10;10;32;32;32;32;32;32;32;32;35;99;109;100;95;108;101;97;100;105;110;103;10;32;32;32;32;32;32;32;32;101;99;104;111;32;103;114;101;101;116;105;110;103;32;35;119;105;116;104;105;110;95;98;111;100;121;10;10;32;32;32;32;32;32;32;32;35;112;111;115;116;95;98;111;100;121;95;97;10;32;32;32;32;32;32;32;32;59;59;32;35;97;114;109;95;97;10;10;32;32;32;32;32;32;32;32;35;112;114;101;95;112;97;116;95;98;10;32;32;32;32;32;32;32;32;119;111;114;108;100;41;32;35;112;97;116;95;98;10;10;32;32;32;32;32;32;32;32;35;99;109;100;95;108;101;97;100;105;110;103;10;32;32;32;32;32;32;32;32;101;99;104;111;32;110;111;117;110;10;32;32;32;32;32;32;32;32;59;59;32;35;97;114;109;95;98;10;10;32;32;32;32;32;32;32;32;35;112;111;115;116;95;97;114;109;115;10;32;32;32;32;32;32;32;32;101;115;97;99]%N) [Step ACaseCommand (Some (OOk (mkCF (TLWord (WSingle (WSimple (WLiteral (s_of "foo"))))) [(Newline (Some (s_of "#word_comment"))); (Newline (Some (s_of "#post_word_a"))); (Newline None); (Newline (Some (s_of "#post_word_b")))] (Some (Newline (Some (s_of "#in_comment")))) [(mkCA (mkCP [(Newline None); (Newline (Some (s_of "#pre_pat_a")))] [(TLWord (WSingle (WSimple (WLiteral (s_of "hello"))))); (TLWord (WSingle (WSimple (WLiteral (s_of "goodbye")))))] (Some (Newline (Some (s_of "#pat_a"))))) (mkCG [(TLCmd (CList (mkAOL (LSingle (PSimple (mkSC [] [(DCmdWord (TLWord (WSingle (WSimple (WLiteral (s_of "echo")))))); (DCmdWord (TLWord (WSingle (WSimple (WLiteral (s_of "greeting"))))))]))) [])))] [(Newline None); (Newline (Some (s_of "#post_body_a")))]) (Some (Newline (Some (s_of "#arm_a"))))); (mkCA (mkCP [(Newline None); (Newline (Some (s_of "#pre_pat_b")))] [(TLWord (WSingle (WSimple (WLiteral (s_of "world")))))] (Some (Newline (Some (s_of "#pat_b"))))) (mkCG [(TLCmd (CList (mkAOL (LSingle (PSimple (mkSC [] [(DCmdWord (TLWord (WSingle (WSimple (WLiteral (s_of "echo")))))); (DCmdWord (TLWord (WSingle (WSimple (WLiteral (s_of "noun"))))))]))) [])))] []) (Some (Newline (Some (s_of "#arm_b")))))] [(Newline None); (Newline (Some (s_of "#post_arms")))])))].
Proof. vm_compute. repeat split. Qed.
Example ast_case_command_valid_with_comments_no_body_1 : follows (@lex ascii_uni [99;97;115;101;32;102;111;111;32;35;119;111;114;100;95;99;111;109;109;101;110;116;10;32;32;32;32;32;32;32;32;35;112;111;115;116;95;119;111;114;100;95;97;10;10;32;32;32;32;32;32;32;32;35;112;111;115;116;95;119;111;114;100;95;98;10;32;32;32;32;32;32;32;32;105;110;32;35;105;110;95;99;111;109;109;101;110;116;10;10;32;32;32;32;32;32;32;32;35;112;111;115;116;95;97;114;109;115;10;32;32;32;32;32;32;32;32;101;115;97;99;32;35;99;97;115;101;95;99;111;109;109;101;110;116]%N) [Step ACaseCommand (Some (OOk (mkCF (TLWord (WSingle (WSimple (WLiteral (s_of "foo"))))) [(Newline (Some (s_of "#word_comment"))); (Newline (Some (s_of "#post_word_a"))); (Newline None); (Newline (Some (s_of "#post_word_b")))] (Some (Newline (Some (s_of "#in_comment")))) [] [(Newline None); (Newline (Some (s_of "#post_arms")))])))].
Proof. vm_compute. repeat split. Qed.
Example ast_case_command_word_need_not_be_simple_literal_1 : follows (@lex ascii_uni (s_of "case 'foo'bar$$ in foo) echo foo;; esac")) [StepOk ACaseCommand].
Proof. vm_compute. repeat split. Qed.
Example ast_case_command_valid_with_no_arms_1 : follows (@lex ascii_uni (s_of "case foo in esac")) [StepOk ACaseCommand].
Proof. vm_compute. repeat split. Qed.
Example ast_case_command_valid_branch_with_no_command_1 : follows (@lex ascii_uni [99;97;115;101;32;102;111;111;32;105;110;32;112;97;116;41;10;101;115;97;99]%N) [StepOk ACaseCommand].
Proof. vm_compute. repeat split. Qed.
Example ast_case_command_valid_branch_with_no_command_2 : follows (@lex ascii_uni (s_of "case foo in pat);;esac")) [StepOk ACaseCommand].
Proof. vm_compute. repeat split. Qed.
Example ast_case_command_invalid_missing_keyword_1 : follows (@lex ascii_uni (s_of "foo in foo) echo foo;; bar) echo bar;; esac")) [Step ACaseCommand (Some (OErr (Unexpected (TName (s_of "foo")) (mkPos 0 1 1))))].
Proof. vm_compute. repeat split. Qed.
Example ast_case_command_invalid_missing_keyword_2 : follows (@lex ascii_uni (s_of "case foo foo) echo foo;; bar) echo bar;; esac")) [Step ACaseCommand (Some (OErr (IncompleteCmd (s_of "case") (mkPos 0 1 1) (s_of "in") (mkPos 9 1 10))))].
Proof. vm_compute. repeat split. Qed.
Example ast_case_command_invalid_missing_keyword_3 : follows (@lex ascii_uni (s_of "case foo in foo) echo foo;; bar) echo bar;;")) [Step ACaseCommand (Some (OErr (IncompleteCmd (s_of "case") (mkPos 0 1 1) (s_of "esac") (mkPos 43 1 44))))].
Proof. vm_compute. repeat split. Qed.
Example ast_case_command_invalid_missing_word_1 : follows (@lex ascii_uni (s_of "case in foo) echo foo;; bar) echo bar;; esac")) [Step ACaseCommand (Some (OErr (IncompleteCmd (s_of "case") (mkPos 0 1 1) (s_of "in") (mkPos 8 1 9))))].
Proof. vm_compute. repeat split. Qed.
Example ast_case_command_invalid_quoted_1 : follows (@lex ascii_uni (s_of "'case' foo in foo) echo foo;; bar) echo bar;; esac")) [Step ACaseCommand (Some (OErr (Unexpected TSingleQuote (mkPos 0 1 1))))].
Proof. vm_compute. repeat split. Qed.
Example ast_case_command_invalid_quoted_2 : follows (@lex ascii_uni (s_of "case foo 'in' foo) echo foo;; bar) echo bar;; esac")) [Step ACaseCommand (Some (OErr (IncompleteCmd (s_of "case") (mkPos 0 1 1) (s_of "in") (mkPos 9 1 10))))].
Proof. vm_compute. repeat split. Qed.
Example ast_case_command_invalid_quoted_3 : follows (@lex ascii_uni (s_of "case foo in foo) echo foo;; bar')' echo bar;; esac")) [Step ACaseCommand (Some (OErr (Unexpected (TName (s_of "echo")) (mkPos 35 1 36))))].
Proof. vm_compute. repeat split. Qed.
Example ast_case_command_invalid_quoted_4 : follows (@lex ascii_uni (s_of "case foo in foo) echo foo;; bar) echo bar;; 'esac'")) [Step ACaseCommand (Some (OErr (IncompleteCmd (s_of "case") (mkPos 0 1 1) (s_of "esac") (mkPos 50 1 51))))].
Proof. vm_compute. repeat split. Qed.
Example ast_case_command_invalid_quoted_5 : follows (@lex ascii_uni (s_of """case"" foo in foo) echo foo;; bar) echo bar;; esac")) [Step ACaseCommand (Some (OErr (Unexpected TDoubleQuote (mkPos 0 1 1))))].
Proof. vm_compute. repeat split. Qed.
Example ast_case_command_invalid_quoted_6 : follows (@lex ascii_uni (s_of "case foo ""in"" foo) echo foo;; bar) echo bar;; esac")) [Step ACaseCommand (Some (OErr (IncompleteCmd (s_of "case") (mkPos 0 1 1) (s_of "in") (mkPos 9 1 10))))].
Proof. vm_compute. repeat split. Qed.
Example ast_case_command_invalid_quoted_7 : follows (@lex ascii_uni (s_of "case foo in foo) echo foo;; bar"")"" echo bar;; esac")) [Step ACaseCommand (Some (OErr (Unexpected (TName (s_of "echo")) (mkPos 35 1 36))))].
Proof. vm_compute. repeat split. Qed.
Example ast_case_command_invalid_quoted_8 : follows (@lex ascii_uni (s_of "case foo in foo) echo foo;; bar) echo bar;; ""esac""")) [Step ACaseCommand (Some (OErr (IncompleteCmd (s_of "case") (mkPos 0 1 1) (s_of "esac") (mkPos 50 1 51))))].
Proof. vm_compute. repeat split. Qed.
Example ast_case_command_invalid_newline_after_case_1 : follows (@lex ascii_uni [99;97;115;101;10;102;111;111;32;105;110;32;102;111;111;41;32;101;99;104;111;32;102;111;111;59;59;32;98;97;114;41;32;101;99;104;111;32;98;97;114;59;59;32;101;115;97;99]%N) [Step ACaseCommand (Some (OErr (Unexpected TNewline (mkPos 4 1 5))))].
Proof. vm_compute. repeat split. Qed.
Example ast_case_command_invalid_concat_1 : follows [(TLiteral (s_of "ca")); (TLiteral (s_of "se")); (TWhitespace (s_of " ")); (TLiteral (s_of "foo")); (TLiteral (s_of "bar")); (TWhitespace (s_of " ")); (TLiteral (s_of "in")); (TLiteral (s_of "foo")); TParenClose; TNewline; (TLiteral (s_of "echo")); (TWhitespace (s_of " ")); (TLiteral (s_of "foo")); TNewline; TNewline; TDSemi; (TLiteral (s_of "esac"))] [Step ACaseCommand (Some (OErr (Unexpected (TLiteral (s_of "ca")) (mkPos 0 1 1))))].
Proof. vm_compute. repeat split. Qed.
Example ast_case_command_invalid_concat_2 : follows [(TLiteral (s_of "case")); (TWhitespace (s_of " ")); (TLiteral (s_of "foo")); (TLiteral (s_of "bar")); (TWhitespace (s_of " ")); (TLiteral (s_of "i")); (TLiteral (s_of "n")); (TLiteral (s_of "foo")); TParenClose; TNewline; (TLiteral (s_of "echo")); (TWhitespace (s_of " ")); (TLiteral (s_of "foo")); TNewline; TNewline; TDSemi; (TLiteral (s_of "esac"))] [Step ACaseCommand (Some (OErr (IncompleteCmd (s_of "case") (mkPos 0 1 1) (s_of "in") (mkPos 12 1 13))))].
Proof. vm_compute. repeat split. Qed.
Example ast_case_command_invalid_concat_3 : follows [(TLiteral (s_of "case")); (TWhitespace (s_of " ")); (TLiteral (s_of "foo")); (TLiteral (s_of "bar")); (TWhitespace (s_of " ")); (TLiteral (s_of "in")); (TWhitespace (s_of " ")); (TLiteral (s_of "foo")); TParenClose; TNewline; (TLiteral (s_of "echo")); (TWhitespace (s_of " ")); (TLiteral (s_of "foo")); TNewline; TNewline; TDSemi; (TLiteral (s_of "es")); (TLiteral (s_of "ac"))] [Step ACaseCommand (Some (OErr (IncompleteCmd (s_of "case") (mkPos 0 1 1) (s_of "esac") (mkPos 36 4 7))))].
Proof. vm_compute. repeat split. Qed.
Example ast_case_command_should_recognize_literals_and_names_1 : follows [(TLiteral (s_of "case")); (TWhitespace (s_of " ")); (TLiteral (s_of "foo")); (TLiteral (s_of "bar")); (TWhitespace (s_of " ")); (TLiteral (s_of "in")); (TWhitespace (s_of " ")); (TLiteral (s_of "foo")); TParenClose; TNewline; (TLiteral (s_of "echo")); (TWhitespace (s_of " ")); (TLiteral (s_of "foo")); TNewline; TNewline; TDSemi; (TLiteral (s_of "esac"))] [StepOk ACaseCommand].
Proof. vm_compute. repeat split. Qed.
Example ast_case_command_should_recognize_literals_and_names_2 : follows [(TLiteral (s_of "case")); (TWhitespace (s_of " ")); (TLiteral (s_of "foo")); (TLiteral (s_of "bar")); (TWhitespace (s_of " ")); (TLiteral (s_of "in")); (TWhitespace (s_of " ")); (TLiteral (s_of "foo")); TParenClose; TNewline; (TLiteral (s_of "echo")); (TWhitespace (s_of " ")); (TLiteral (s_of "foo")); TNewline; TNewline; TDSemi; (TName (s_of "esac"))] [StepOk ACaseCommand].
Proof. vm_compute. repeat split. Qed.
Example ast_case_command_should_recognize_literals_and_names_3 : follows [(TLiteral (s_of "case")); (TWhitespace (s_of " ")); (TLiteral (s_of "foo")); (TLiteral (s_of "bar")); (TWhitespace (s_of " ")); (TName (s_of "in")); (TWhitespace (s_of " ")); (TLiteral (s_of "foo")); TParenClose; TNewline; (TLiteral (s_of "echo")); (TWhitespace (s_of " ")); (TLiteral (s_of "foo")); TNewline; TNewline; TDSemi; (TLiteral (s_of "esac"))] [StepOk ACaseCommand].
Proof. vm_compute. repeat split. Qed.
Example ast_case_command_should_recognize_literals_and_names_4 : follows [(TLiteral (s_of "case")); (TWhitespace (s_of " ")); (TLiteral (s_of "foo")); (TLiteral (s_of "bar")); (TWhitespace (s_of " ")); (TName (s_of "in")); (TWhitespace (s_of " ")); (TLiteral (s_of "foo")); TParenClose; TNewline; (TLiteral (s_of "echo")); (TWhitespace (s_of " ")); (TLiteral (s_of "foo")); TNewline; TNewline; TDSemi; (TName (s_of "esac"))] [StepOk ACaseCommand].
Proof. vm_compute. repeat split. Qed.
Example ast_case_command_should_recognize_literals_and_names_5 : follows [(TName (s_of "case")); (TWhitespace (s_of " ")); (TLiteral (s_of "foo")); (TLiteral (s_of "bar")); (TWhitespace (s_of " ")); (TLiteral (s_of "in")); (TWhitespace (s_of " ")); (TLiteral (s_of "foo")); TParenClose; TNewline; (TLiteral (s_of "echo")); (TWhitespace (s_of " ")); (TLiteral (s_of "foo")); TNewline; TNewline; TDSemi; (TLiteral (s_of "esac"))] [StepOk ACaseCommand].
Proof. vm_compute. repeat split. Qed.
Example ast_case_command_should_recognize_literals_and_names_6 : follows [(TName (s_of "case")); (TWhitespace (s_of " ")); (TLiteral (s_of "foo")); (TLiteral (s_of "bar")); (TWhitespace (s_of " ")); (TLiteral (s_of "in")); (TWhitespace (s_of " ")); (TLiteral (s_of "foo")); TParenClose; TNewline; (TLiteral (s_of "echo")); (TWhitespace (s_of " ")); (TLiteral (s_of "foo")); TNewline; TNewline; TDSemi; (TName (s_of "esac"))] [StepOk ACaseCommand].
Proof. vm_compute. repeat split. Qed.
Example ast_case_command_should_recognize_literals_and_names_7 : follows [(TName (s_of "case")); (TWhitespace (s_of " ")); (TLiteral (s_of "foo")); (TLiteral (s_of "bar")); (TWhitespace (s_of " ")); (TName (s_of "in")); (TWhitespace (s_of " ")); (TLiteral (s_of "foo")); TParenClose; TNewline; (TLiteral (s_of "echo")); (TWhitespace (s_of " ")); (TLiteral (s_of "foo")); TNewline; TNewline; TDSemi; (TLiteral (s_of "esac"))] [StepOk ACaseCommand].
Proof. vm_compute. repeat split. Qed.
Example ast_case_command_should_recognize_literals_and_names_8 : follows [(TName (s_of "case")); (TWhitespace (s_of " ")); (TLiteral (s_of "foo")); (TLiteral (s_of "bar")); (TWhitespace (s_of " ")); (TName (s_of "in")); (TWhitespace (s_of " ")); (TLiteral (s_of "foo")); TParenClose; TNewline; (TLiteral (s_of "echo")); (TWhitespace (s_of " ")); (TLiteral (s_of "foo")); TNewline; TNewline; TDSemi; (TName (s_of "esac"))] [StepOk ACaseCommand].
Proof. vm_compute. repeat split. Qed.
Example ast_complete_command_job_1 : follows (@lex ascii_uni (s_of "foo && bar & baz")) [Step ACompleteCommand (Some (OOk (Some (TLCmd (CJob (mkAOL (LSingle (PSimple (mkSC [] [(DCmdWord (TLWord (WSingle (WSimple (WLiteral (s_of "foo"))))))]))) [(And (LSingle (PSimple (mkSC [] [(DCmdWord (TLWord (WSingle (WSimple (WLiteral (s_of "bar"))))))]))))])))))); Step ACompleteCommand (Some (OOk (Some (TLCmd (CList (mkAOL (LSingle (PSimple (mkSC [] [(DCmdWord (TLWord (WSingle (WSimple (WLiteral (s_of "baz"))))))]))) []))))))].
Proof. vm_compute. repeat split. Qed.
Example ast_complete_command_non_eager_parse_1 : follows (@lex ascii_uni [102;111;111;32;38;38;32;98;97;114;59;32;98;97;122;10;10;113;117;120]%N) [Step ACompleteCommand (Some (OOk (Some (TLCmd (CList (mkAOL (LSingle (PSimple (mkSC [] [(DCmdWord (TLWord (WSingle (WSimple (WLiteral (s_of "foo"))))))]))) [(And (LSingle (PSimple (mkSC [] [(DCmdWord (TLWord (WSingle (WSimple (WLiteral (s_of "bar"))))))]))))])))))); Step ACompleteCommand (Some (OOk (Some (TLCmd (CList (mkAOL (LSingle (PSimple (mkSC [] [(DCmdWord (TLWord (WSingle (WSimple (WLiteral (s_of "baz"))))))]))) [])))))); Step ACompleteCommand (Some (OOk (Some (TLCmd (CList (mkAOL (LSingle (PSimple (mkSC [] [(DCmdWord (TLWord (WSingle (WSimple (WLiteral (s_of "qux"))))))]))) []))))))].
Proof. vm_compute. repeat split. Qed.
Example ast_complete_command_valid_no_input_1 : follows (@lex ascii_uni (s_of "")) [StepOk ACompleteCommand].
Proof. vm_compute. repeat split. Qed.
Example ast_command_delegates_valid_commands_brace_1 : follows (@lex ascii_uni (s_of "{ foo; }")) [Step ACommand (Some (OOk (PCompound (mkCC (CBrace [(TLCmd (CList (mkAOL (LSingle (PSimple (mkSC [] [(DCmdWord (TLWord (WSingle (WSimple (WLiteral (s_of "foo"))))))]))) [])))]) []))))].
Proof. vm_compute. repeat split. Qed.
Example ast_command_delegates_valid_commands_subshell_1 : follows (@lex ascii_uni (s_of "(foo)")) [Step ACommand (Some (OOk (PCompound (mkCC (CSubshell [(TLCmd (CList (mkAOL (LSingle (PSimple (mkSC [] [(DCmdWord (TLWord (WSingle (WSimple (WLiteral (s_of "foo"))))))]))) [])))]) []))))].
Proof. vm_compute. repeat split. Qed.
Example ast_command_delegates_valid_commands_subshell_2 : follows (@lex ascii_uni (s_of "( foo)")) [Step ACommand (Some (OOk (PCompound (mkCC (CSubshell [(TLCmd (CList (mkAOL (LSingle (PSimple (mkSC [] [(DCmdWord (TLWord (WSingle (WSimple (WLiteral (s_of "foo"))))))]))) [])))]) []))))].
Proof. vm_compute. repeat split. Qed.
Example ast_command_delegates_valid_commands_while_1 : follows (@lex ascii_uni (s_of "while guard; do foo; done")) [Step ACommand (Some (OOk (PCompound (mkCC (CWhile (mkGB [(TLCmd (CList (mkAOL (LSingle (PSimple (mkSC [] [(DCmdWord (TLWord (WSingle (WSimple (WLiteral (s_of "guard"))))))]))) [])))] [(TLCmd (CList (mkAOL (LSingle (PSimple (mkSC [] [(DCmdWord (TLWord (WSingle (WSimple (WLiteral (s_of "foo"))))))]))) [])))])) []))))].
Proof. vm_compute. repeat split. Qed.
Example ast_command_delegates_valid_commands_until_1 : follows (@lex ascii_uni (s_of "until guard; do foo; done")) [Step ACommand (Some (OOk (PCompound (mkCC (CUntil (mkGB [(TLCmd (CList (mkAOL (LSingle (PSimple (mkSC [] [(DCmdWord (TLWord (WSingle (WSimple (WLiteral (s_of "guard"))))))]))) [])))] [(TLCmd (CList (mkAOL (LSingle (PSimple (mkSC [] [(DCmdWord (TLWord (WSingle (WSimple (WLiteral (s_of "foo"))))))]))) [])))])) []))))].
Proof. vm_compute. repeat split. Qed.
Example ast_command_delegates_valid_commands_for_1 : follows (@lex ascii_uni (s_of "for var in; do foo; done")) [Step ACommand (Some (OOk (PCompound (mkCC (CFor (s_of "var") (Some []) [(TLCmd (CList (mkAOL (LSingle (PSimple (mkSC [] [(DCmdWord (TLWord (WSingle (WSimple (WLiteral (s_of "foo"))))))]))) [])))]) []))))].
Proof. vm_compute. repeat split. Qed.
Example ast_command_delegates_valid_commands_if_1 : follows (@lex ascii_uni (s_of "if guard; then body; fi")) [Step ACommand (Some (OOk (PCompound (mkCC (CIf [(mkGB [(TLCmd (CList (mkAOL (LSingle (PSimple (mkSC [] [(DCmdWord (TLWord (WSingle (WSimple (WLiteral (s_of "guard"))))))]))) [])))] [(TLCmd (CList (mkAOL (LSingle (PSimple (mkSC [] [(DCmdWord (TLWord (WSingle (WSimple (WLiteral (s_of "body"))))))]))) [])))])] None) []))))].
Proof. vm_compute. repeat split. Qed.
Example ast_command_delegates_valid_commands_case_1 : follows (@lex ascii_uni (s_of "case foo in esac")) [Step ACommand (Some (OOk (PCompound (mkCC (CCase (TLWord (WSingle (WSimple (WLiteral (s_of "foo"))))) []) []))))].
Proof. vm_compute. repeat split. Qed.
Example ast_command_delegates_valid_simple_commands_1 : follows (@lex ascii_uni (s_of "echo foo bar")) [Step ACommand (Some (OOk (PSimple (mkSC [] [(DCmdWord (TLWord (WSingle (WSimple (WLiteral (s_of "echo")))))); (DCmdWord (TLWord (WSingle (WSimple (WLiteral (s_of "foo")))))); (DCmdWord (TLWord (WSingle (WSimple (WLiteral (s_of "bar"))))))]))))].
Proof. vm_compute. repeat split. Qed.
Example ast_command_delegates_valid_commands_function_1 : follows (@lex ascii_uni (s_of "function foo()      { echo body; }")) [Step ACommand (Some (OOk (PFunctionDef (s_of "foo") (mkCC (CBrace [(TLCmd (CList (mkAOL (LSingle (PSimple (mkSC [] [(DCmdWord (TLWord (WSingle (WSimple (WLiteral (s_of "echo")))))); (DCmdWord (TLWord (WSingle (WSimple (WLiteral (s_of "body"))))))]))) [])))]) []))))].
Proof. vm_compute. repeat split. Qed.
Example ast_command_delegates_valid_commands_function_2 : follows (@lex ascii_uni (s_of "function foo ()     { echo body; }")) [Step ACommand (Some (OOk (PFunctionDef (s_of "foo") (mkCC (CBrace [(TLCmd (CList (mkAOL (LSingle (PSimple (mkSC [] [(DCmdWord (TLWord (WSingle (WSimple (WLiteral (s_of "echo")))))); (DCmdWord (TLWord (WSingle (WSimple (WLiteral (s_of "body"))))))]))) [])))]) []))))].
Proof. vm_compute. repeat split. Qed.
Example ast_command_delegates_valid_commands_function_3 : follows (@lex ascii_uni (s_of "function foo (    ) { echo body; }")) [Step ACommand (Some (OOk (PFunctionDef (s_of "foo") (mkCC (CBrace [(TLCmd (CList (mkAOL (LSingle (PSimple (mkSC [] [(DCmdWord (TLWord (WSingle (WSimple (WLiteral (s_of "echo")))))); (DCmdWord (TLWord (WSingle (WSimple (WLiteral (s_of "body"))))))]))) [])))]) []))))].
Proof. vm_compute. repeat split. Qed.
Example ast_command_delegates_valid_commands_function_4 : follows (@lex ascii_uni (s_of "function foo(    )  { echo body; }")) [Step ACommand (Some (OOk (PFunctionDef (s_of "foo") (mkCC (CBrace [(TLCmd (CList (mkAOL (LSingle (PSimple (mkSC [] [(DCmdWord (TLWord (WSingle (WSimple (WLiteral (s_of "echo")))))); (DCmdWord (TLWord (WSingle (WSimple (WLiteral (s_of "body"))))))]))) [])))]) []))))].
Proof. vm_compute. repeat split. Qed.
Example ast_command_delegates_valid_commands_function_5 : follows (@lex ascii_uni (s_of "function foo        { echo body; }")) [Step ACommand (Some (OOk (PFunctionDef (s_of "foo") (mkCC (CBrace [(TLCmd (CList (mkAOL (LSingle (PSimple (mkSC [] [(DCmdWord (TLWord (WSingle (WSimple (WLiteral (s_of "echo")))))); (DCmdWord (TLWord (WSingle (WSimple (WLiteral (s_of "body"))))))]))) [])))]) []))))].
Proof. vm_compute. repeat split. Qed.
Example ast_command_delegates_valid_commands_function_6 : follows (@lex ascii_uni (s_of "foo()               { echo body; }")) [Step ACommand (Some (OOk (PFunctionDef (s_of "foo") (mkCC (CBrace [(TLCmd (CList (mkAOL (LSingle (PSimple (mkSC [] [(DCmdWord (TLWord (WSingle (WSimple (WLiteral (s_of "echo")))))); (DCmdWord (TLWord (WSingle (WSimple (WLiteral (s_of "body"))))))]))) [])))]) []))))].
Proof. vm_compute. repeat split. Qed.
Example ast_command_delegates_valid_commands_function_7 : follows (@lex ascii_uni (s_of "foo ()              { echo body; }")) [Step ACommand (Some (OOk (PFunctionDef (s_of "foo") (mkCC (CBrace [(TLCmd (CList (mkAOL (LSingle (PSimple (mkSC [] [(DCmdWord (TLWord (WSingle (WSimple (WLiteral (s_of "echo")))))); (DCmdWord (TLWord (WSingle (WSimple (WLiteral (s_of "body"))))))]))) [])))]) []))))].
Proof. vm_compute. repeat split. Qed.
Example ast_command_delegates_valid_commands_function_8 : follows (@lex ascii_uni (s_of "foo (    )          { echo body; }")) [Step ACommand (Some (OOk (PFunctionDef (s_of "foo") (mkCC (CBrace [(TLCmd (CList (mkAOL (LSingle (PSimple (mkSC [] [(DCmdWord (TLWord (WSingle (WSimple (WLiteral (s_of "echo")))))); (DCmdWord (TLWord (WSingle (WSimple (WLiteral (s_of "body"))))))]))) [])))]) []))))].
Proof. vm_compute. repeat split. Qed.
Example ast_command_delegates_valid_commands_function_9 : follows (@lex ascii_uni (s_of "foo(    )           { echo body; }")) [Step ACommand (Some (OOk (PFunctionDef (s_of "foo") (mkCC (CBrace [(TLCmd (CList (mkAOL (LSingle (PSimple (mkSC [] [(DCmdWord (TLWord (WSingle (WSimple (WLiteral (s_of "echo")))))); (DCmdWord (TLWord (WSingle (WSimple (WLiteral (s_of "body"))))))]))) [])))]) []))))].
Proof. vm_compute. repeat split. Qed.
Example ast_do_group_valid_1 : follows (@lex ascii_uni [100;111;32;102;111;111;10;98;97;114;59;32;98;97;122;10;35;99;111;109;109;101;110;116;10;32;100;111;110;101]%N) [Step ADoGroup (Some (OOk (mkCG [(TLCmd (CList (mkAOL (LSingle (PSimple (mkSC [] [(DCmdWord (TLWord (WSingle (WSimple (WLiteral (s_of "foo"))))))]))) []))); (TLCmd (CList (mkAOL (LSingle (PSimple (mkSC [] [(DCmdWord (TLWord (WSingle (WSimple (WLiteral (s_of "bar"))))))]))) []))); (TLCmd (CList (mkAOL (LSingle (PSimple (mkSC [] [(DCmdWord (TLWord (WSingle (WSimple (WLiteral (s_of "baz"))))))]))) [])))] [(Newline (Some (s_of "#comment")))])))].
Proof. vm_compute. repeat split. Qed.
Example ast_do_group_invalid_missing_separator_1 : follows (@lex ascii_uni [100;111;32;102;111;111;10;98;97;114;59;32;98;97;122;32;100;111;110;101]%N) [Step ADoGroup (Some (OErr (IncompleteCmd (s_of "do") (mkPos 0 1 1) (s_of "done") (mkPos 20 2 14))))].
Proof. vm_compute. repeat split. Qed.
Example ast_do_group_valid_keyword_delimited_by_separator_1 : follows (@lex ascii_uni (s_of "do foo done; done")) [Step ADoGroup (Some (OOk (mkCG [(TLCmd (CList (mkAOL (LSingle (PSimple (mkSC [] [(DCmdWord (TLWord (WSingle (WSimple (WLiteral (s_of "foo")))))); (DCmdWord (TLWord (WSingle (WSimple (WLiteral (s_of "done"))))))]))) [])))] [])))].
Proof. vm_compute. repeat split. Qed.
Example ast_do_group_invalid_missing_keyword_1 : follows (@lex ascii_uni [102;111;111;10;98;97;114;59;32;98;97;122;59;32;100;111;110;101]%N) [Step ADoGroup (Some (OErr (Unexpected (TName (s_of "foo")) (mkPos 0 1 1))))].
Proof. vm_compute. repeat split. Qed.
Example ast_do_group_invalid_missing_keyword_2 : follows (@lex ascii_uni [100;111;32;102;111;111;10;98;97;114;59;32;98;97;122]%N) [Step ADoGroup (Some (OErr (IncompleteCmd (s_of "do") (mkPos 0 1 1) (s_of "done") (mkPos 15 2 9))))].
Proof. vm_compute. repeat split. Qed.
Example ast_do_group_invalid_quoted_1 : follows (@lex ascii_uni [39;100;111;39;32;102;111;111;10;98;97;114;59;32;98;97;122;59;32;100;111;110;101]%N) [Step ADoGroup (Some (OErr (Unexpected TSingleQuote (mkPos 0 1 1))))].
Proof. vm_compute. repeat split. Qed.
Example ast_do_group_invalid_quoted_2 : follows (@lex ascii_uni [100;111;32;102;111;111;10;98;97;114;59;32;98;97;122;59;32;39;100;111;110;101;39]%N) [Step ADoGroup (Some (OErr (IncompleteCmd (s_of "do") (mkPos 0 1 1) (s_of "done") (mkPos 23 2 17))))].
Proof. vm_compute. repeat split. Qed.
Example ast_do_group_invalid_quoted_3 : follows (@lex ascii_uni [34;100;111;34;32;102;111;111;10;98;97;114;59;32;98;97;122;59;32;100;111;110;101]%N) [Step ADoGroup (Some (OErr (Unexpected TDoubleQuote (mkPos 0 1 1))))].
Proof. vm_compute. repeat split. Qed.
Example ast_do_group_invalid_quoted_4 : follows (@lex ascii_uni [100;111;32;102;111;111;10;98;97;114;59;32;98;97;122;59;32;34;100;111;110;101;34]%N) [Step ADoGroup (Some (OErr (IncompleteCmd (s_of "do") (mkPos 0 1 1) (s_of "done") (mkPos 23 2 17))))].
Proof. vm_compute. repeat split. Qed.
Example ast_do_group_invalid_concat_1 : follows [(TLiteral (s_of "d")); (TLiteral (s_of "o")); TNewline; (TLiteral (s_of "foo")); TNewline; (TLiteral (s_of "done"))] [Step ADoGroup (Some (OErr (Unexpected (TLiteral (s_of "d")) (mkPos 0 1 1))))].
Proof. vm_compute. repeat split. Qed.
Example ast_do_group_invalid_concat_2 : follows [(TLiteral (s_of "do")); TNewline; (TLiteral (s_of "foo")); TNewline; (TLiteral (s_of "do")); (TLiteral (s_of "ne"))] [Step ADoGroup (Some (OErr (IncompleteCmd (s_of "do") (mkPos 0 1 1) (s_of "done") (mkPos 11 3 5))))].
Proof. vm_compute. repeat split. Qed.
Example ast_do_group_should_recognize_literals_and_names_1 : follows [(TLiteral (s_of "do")); TNewline; (TLiteral (s_of "foo")); TNewline; (TLiteral (s_of "done"))] [StepOk ADoGroup].
Proof. vm_compute. repeat split. Qed.
Example ast_do_group_should_recognize_literals_and_names_2 : follows [(TLiteral (s_of "do")); TNewline; (TLiteral (s_of "foo")); TNewline; (TName (s_of "done"))] [StepOk ADoGroup].
Proof. vm_compute. repeat split. Qed.
Example ast_do_group_should_recognize_literals_and_names_3 : follows [(TName (s_of "do")); TNewline; (TLiteral (s_of "foo")); TNewline; (TLiteral (s_of "done"))] [StepOk ADoGroup].
Proof. vm_compute. repeat split. Qed.
Example ast_do_group_should_recognize_literals_and_names_4 : follows [(TName (s_of "do")); TNewline; (TLiteral (s_of "foo")); TNewline; (TName (s_of "done"))] [StepOk ADoGroup].
Proof. vm_compute. repeat split. Qed.
Example ast_do_group_invalid_missing_body_1 : follows (@lex ascii_uni [100;111;10;100;111;110;101]%N) [Step ADoGroup (Some (OErr (Unexpected (TName (s_of "done")) (mkPos 3 2 1))))].
Proof. vm_compute. repeat split. Qed.
Example ast_compound_command_delegates_valid_commands_brace_1 : follows (@lex ascii_uni (s_of "{ foo; }")) [Step ACompoundCommand (Some (OOk (mkCC (CBrace [(TLCmd (CList (mkAOL (LSingle (PSimple (mkSC [] [(DCmdWord (TLWord (WSingle (WSimple (WLiteral (s_of "foo"))))))]))) [])))]) [])))].
Proof. vm_compute. repeat split. Qed.
Example ast_compound_command_delegates_valid_commands_subshell_1 : follows (@lex ascii_uni (s_of "(foo)")) [Step ACompoundCommand (Some (OOk (mkCC (CSubshell [(TLCmd (CList (mkAOL (LSingle (PSimple (mkSC [] [(DCmdWord (TLWord (WSingle (WSimple (WLiteral (s_of "foo"))))))]))) [])))]) [])))].
Proof. vm_compute. repeat split. Qed.
Example ast_compound_command_delegates_valid_commands_subshell_2 : follows (@lex ascii_uni (s_of "( foo)")) [Step ACompoundCommand (Some (OOk (mkCC (CSubshell [(TLCmd (CList (mkAOL (LSingle (PSimple (mkSC [] [(DCmdWord (TLWord (WSingle (WSimple (WLiteral (s_of "foo"))))))]))) [])))]) [])))].
Proof. vm_compute. repeat split. Qed.
Example ast_compound_command_delegates_valid_commands_subshell_3 : follows (@lex ascii_uni (s_of " (foo)")) [Step ACompoundCommand (Some (OOk (mkCC (CSubshell [(TLCmd (CList (mkAOL (LSingle (PSimple (mkSC [] [(DCmdWord (TLWord (WSingle (WSimple (WLiteral (s_of "foo"))))))]))) [])))]) [])))].
Proof. vm_compute. repeat split. Qed.
Example ast_compound_command_delegates_valid_commands_subshell_4 : follows (@lex ascii_uni [9;40;102;111;111;41]%N) [Step ACompoundCommand (Some (OOk (mkCC (CSubshell [(TLCmd (CList (mkAOL (LSingle (PSimple (mkSC [] [(DCmdWord (TLWord (WSingle (WSimple (WLiteral (s_of "foo"))))))]))) [])))]) [])))].
Proof. vm_compute. repeat split. Qed.
Example ast_compound_command_delegates_valid_commands_subshell_5 : follows (@lex ascii_uni [92;10;40;102;111;111;41]%N) [Step ACompoundCommand (Some (OOk (mkCC (CSubshell [(TLCmd (CList (mkAOL (LSingle (PSimple (mkSC [] [(DCmdWord (TLWord (WSingle (WSimple (WLiteral (s_of "foo"))))))]))) [])))]) [])))].
Proof. vm_compute. repeat split. Qed.
Example ast_compound_command_delegates_valid_commands_while_1 : follows (@lex ascii_uni (s_of "while guard; do foo; done")) [Step ACompoundCommand (Some (OOk (mkCC (CWhile (mkGB [(TLCmd (CList (mkAOL (LSingle (PSimple (mkSC [] [(DCmdWord (TLWord (WSingle (WSimple (WLiteral (s_of "guard"))))))]))) [])))] [(TLCmd (CList (mkAOL (LSingle (PSimple (mkSC [] [(DCmdWord (TLWord (WSingle (WSimple (WLiteral (s_of "foo"))))))]))) [])))])) [])))].
Proof. vm_compute. repeat split. Qed.
Example ast_compound_command_delegates_valid_commands_until_1 : follows (@lex ascii_uni (s_of "until guard; do foo; done")) [Step ACompoundCommand (Some (OOk (mkCC (CUntil (mkGB [(TLCmd (CList (mkAOL (LSingle (PSimple (mkSC [] [(DCmdWord (TLWord (WSingle (WSimple (WLiteral (s_of "guard"))))))]))) [])))] [(TLCmd (CList (mkAOL (LSingle (PSimple (mkSC [] [(DCmdWord (TLWord (WSingle (WSimple (WLiteral (s_of "foo"))))))]))) [])))])) [])))].
Proof. vm_compute. repeat split. Qed.
Example ast_compound_command_delegates_valid_commands_for_1 : follows (@lex ascii_uni (s_of "for var in; do foo; done")) [Step ACompoundCommand (Some (OOk (mkCC (CFor (s_of "var") (Some []) [(TLCmd (CList (mkAOL (LSingle (PSimple (mkSC [] [(DCmdWord (TLWord (WSingle (WSimple (WLiteral (s_of "foo"))))))]))) [])))]) [])))].
Proof. vm_compute. repeat split. Qed.
Example ast_compound_command_delegates_valid_commands_if_1 : follows (@lex ascii_uni (s_of "if guard; then body; fi")) [Step ACompoundCommand (Some (OOk (mkCC (CIf [(mkGB [(TLCmd (CList (mkAOL (LSingle (PSimple (mkSC [] [(DCmdWord (TLWord (WSingle (WSimple (WLiteral (s_of "guard"))))))]))) [])))] [(TLCmd (CList (mkAOL (LSingle (PSimple (mkSC [] [(DCmdWord (TLWord (WSingle (WSimple (WLiteral (s_of "body"))))))]))) [])))])] None) [])))].
Proof. vm_compute. repeat split. Qed.
Example ast_compound_command_delegates_valid_commands_case_1 : follows (@lex ascii_uni (s_of "case foo in esac")) [Step ACompoundCommand (Some (OOk (mkCC (CCase (TLWord (WSingle (WSimple (WLiteral (s_of "foo"))))) []) [])))].
Proof. vm_compute. repeat split. Qed.
Example ast_compound_command_errors_on_quoted_commands_1 : follows (@lex ascii_uni (s_of "{foo; }")) [Step ACompoundCommand (Some (OErr (Unexpected TCurlyOpen (mkPos 0 1 1))))].
Proof. vm_compute. repeat split. Qed.
Example ast_compound_command_errors_on_quoted_commands_2 : follows (@lex ascii_uni (s_of "'{' foo; }")) [Step ACompoundCommand (Some (OErr (Unexpected TSingleQuote (mkPos 0 1 1))))].
Proof. vm_compute. repeat split. Qed.
Example ast_compound_command_errors_on_quoted_commands_3 : follows (@lex ascii_uni (s_of "'(' foo; )")) [Step ACompoundCommand (Some (OErr (Unexpected TSingleQuote (mkPos 0 1 1))))].
Proof. vm_compute. repeat split. Qed.
Example ast_compound_command_errors_on_quoted_commands_4 : follows (@lex ascii_uni (s_of "'while' guard do foo; done")) [Step ACompoundCommand (Some (OErr (Unexpected TSingleQuote (mkPos 0 1 1))))].
Proof. vm_compute. repeat split. Qed.
Example ast_compound_command_errors_on_quoted_commands_5 : follows (@lex ascii_uni (s_of "'until' guard do foo; done")) [Step ACompoundCommand (Some (OErr (Unexpected TSingleQuote (mkPos 0 1 1))))].
Proof. vm_compute. repeat split. Qed.
Example ast_compound_command_errors_on_quoted_commands_6 : follows (@lex ascii_uni (s_of "'if' guard; then body; fi")) [Step ACompoundCommand (Some (OErr (Unexpected TSingleQuote (mkPos 0 1 1))))].
Proof. vm_compute. repeat split. Qed.
Example ast_compound_command_errors_on_quoted_commands_7 : follows (@lex ascii_uni (s_of "'for' var in; do foo; done")) [Step ACompoundCommand (Some (OErr (Unexpected TSingleQuote (mkPos 0 1 1))))].
Proof. vm_compute. repeat split. Qed.
Example ast_compound_command_errors_on_quoted_commands_8 : follows (@lex ascii_uni (s_of "'case' foo in esac")) [Step ACompoundCommand (Some (OErr (Unexpected TSingleQuote (mkPos 0 1 1))))].
Proof. vm_compute. repeat split. Qed.
Example ast_compound_command_errors_on_quoted_commands_9 : follows (@lex ascii_uni (s_of """{"" foo; }")) [Step ACompoundCommand (Some (OErr (Unexpected TDoubleQuote (mkPos 0 1 1))))].
Proof. vm_compute. repeat split. Qed.
Example ast_compound_command_errors_on_quoted_commands_10 : follows (@lex ascii_uni (s_of """("" foo; )")) [Step ACompoundCommand (Some (OErr (Unexpected TDoubleQuote (mkPos 0 1 1))))].
Proof. vm_compute. repeat split. Qed.
Example ast_compound_command_errors_on_quoted_commands_11 : follows (@lex ascii_uni (s_of """while"" guard do foo; done")) [Step ACompoundCommand (Some (OErr (Unexpected TDoubleQuote (mkPos 0 1 1))))].
Proof. vm_compute. repeat split. Qed.
Example ast_compound_command_errors_on_quoted_commands_12 : follows (@lex ascii_uni (s_of """until"" guard do foo; done")) [Step ACompoundCommand (Some (OErr (Unexpected TDoubleQuote (mkPos 0 1 1))))].
Proof. vm_compute. repeat split. Qed.
Example ast_compound_command_errors_on_quoted_commands_13 : follows (@lex ascii_uni (s_of """if"" guard; then body; fi")) [Step ACompoundCommand (Some (OErr (Unexpected TDoubleQuote (mkPos 0 1 1))))].
Proof. vm_compute. repeat split. Qed.
Example ast_compound_command_errors_on_quoted_commands_14 : follows (@lex ascii_uni (s_of """for"" var in; do foo; done")) [Step ACompoundCommand (Some (OErr (Unexpected TDoubleQuote (mkPos 0 1 1))))].
Proof. vm_compute. repeat split. Qed.
Example ast_compound_command_errors_on_quoted_commands_15 : follows (@lex ascii_uni (s_of """case"" foo in esac")) [Step ACompoundCommand (Some (OErr (Unexpected TDoubleQuote (mkPos 0 1 1))))].
Proof. vm_compute. repeat split. Qed.
Example ast_compound_command_should_delegate_literals_and_names_loop_1 : follows [(TLiteral (s_of "while")); TNewline; (TLiteral (s_of "guard")); TNewline; (TLiteral (s_of "do")); TNewline; (TLiteral (s_of "foo")); TNewline; (TLiteral (s_of "done"))] [StepOk ACompoundCommand].
Proof. vm_compute. repeat split. Qed.
Example ast_compound_command_should_delegate_literals_and_names_loop_2 : follows [(TName (s_of "while")); TNewline; (TLiteral (s_of "guard")); TNewline; (TLiteral (s_of "do")); TNewline; (TLiteral (s_of "foo")); TNewline; (TLiteral (s_of "done"))] [StepOk ACompoundCommand].
Proof. vm_compute. repeat split. Qed.
Example ast_compound_command_should_delegate_literals_and_names_loop_3 : follows [(TLiteral (s_of "until")); TNewline; (TLiteral (s_of "guard")); TNewline; (TLiteral (s_of "do")); TNewline; (TLiteral (s_of "foo")); TNewline; (TLiteral (s_of "done"))] [StepOk ACompoundCommand].
Proof. vm_compute. repeat split. Qed.
Example ast_compound_command_should_delegate_literals_and_names_loop_4 : follows [(TName (s_of "until")); TNewline; (TLiteral (s_of "guard")); TNewline; (TLiteral (s_of "do")); TNewline; (TLiteral (s_of "foo")); TNewline; (TLiteral (s_of "done"))] [StepOk ACompoundCommand].
Proof. vm_compute. repeat split. Qed.
Example ast_compound_command_should_delegate_literals_and_names_if_1 : follows [(TLiteral (s_of "if")); (TWhitespace (s_of " ")); (TLiteral (s_of "guard1")); TNewline; (TLiteral (s_of "then")); TNewline; (TLiteral (s_of "body1")); (TLiteral (s_of "elif")); (TWhitespace (s_of " ")); (TLiteral (s_of "guard2")); TNewline; (TLiteral (s_of "then")); (TWhitespace (s_of " ")); (TLiteral (s_of "body2")); (TLiteral (s_of "else")); (TWhitespace (s_of " ")); (TWhitespace (s_of " ")); (TLiteral (s_of "else part")); TNewline; (TLiteral (s_of "fi"))] [StepOk ACompoundCommand].
Proof. vm_compute. repeat split. Qed.
Example ast_compound_command_should_delegate_literals_and_names_if_2 : follows [(TLiteral (s_of "if")); (TWhitespace (s_of " ")); (TLiteral (s_of "guard1")); TNewline; (TLiteral (s_of "then")); TNewline; (TLiteral (s_of "body1")); (TLiteral (s_of "elif")); (TWhitespace (s_of " ")); (TLiteral (s_of "guard2")); TNewline; (TLiteral (s_of "then")); (TWhitespace (s_of " ")); (TLiteral (s_of "body2")); (TLiteral (s_of "else")); (TWhitespace (s_of " ")); (TWhitespace (s_of " ")); (TLiteral (s_of "else part")); TNewline; (TName (s_of "fi"))] [StepOk ACompoundCommand].
Proof. vm_compute. repeat split. Qed.
Example ast_compound_command_should_delegate_literals_and_names_if_3 : follows [(TLiteral (s_of "if")); (TWhitespace (s_of " ")); (TLiteral (s_of "guard1")); TNewline; (TLiteral (s_of "then")); TNewline; (TLiteral (s_of "body1")); (TLiteral (s_of "elif")); (TWhitespace (s_of " ")); (TLiteral (s_of "guard2")); TNewline; (TLiteral (s_of "then")); (TWhitespace (s_of " ")); (TLiteral (s_of "body2")); (TName (s_of "else")); (TWhitespace (s_of " ")); (TWhitespace (s_of " ")); (TLiteral (s_of "else part")); TNewline; (TLiteral (s_of "fi"))] [StepOk ACompoundCommand].
Proof. vm_compute. repeat split. Qed.
Example ast_compound_command_should_delegate_literals_and_names_if_4 : follows [(TLiteral (s_of "if")); (TWhitespace (s_of " ")); (TLiteral (s_of "guard1")); TNewline; (TLiteral (s_of "then")); TNewline; (TLiteral (s_of "body1")); (TLiteral (s_of "elif")); (TWhitespace (s_of " ")); (TLiteral (s_of "guard2")); TNewline; (TLiteral (s_of "then")); (TWhitespace (s_of " ")); (TLiteral (s_of "body2")); (TName (s_of "else")); (TWhitespace (s_of " ")); (TWhitespace (s_of " ")); (TLiteral (s_of "else part")); TNewline; (TName (s_of "fi"))] [StepOk ACompoundCommand].
Proof. vm_compute. repeat split. Qed.
Example ast_compound_command_should_delegate_literals_and_names_if_5 : follows [(TLiteral (s_of "if")); (TWhitespace (s_of " ")); (TLiteral (s_of "guard1")); TNewline; (TLiteral (s_of "then")); TNewline; (TLiteral (s_of "body1")); (TName (s_of "elif")); (TWhitespace (s_of " ")); (TLiteral (s_of "guard2")); TNewline; (TLiteral (s_of "then")); (TWhitespace (s_of " ")); (TLiteral (s_of "body2")); (TLiteral (s_of "else")); (TWhitespace (s_of " ")); (TWhitespace (s_of " ")); (TLiteral (s_of "else part")); TNewline; (TLiteral (s_of "fi"))] [StepOk ACompoundCommand].
Proof. vm_compute. repeat split. Qed.
Example ast_compound_command_should_delegate_literals_and_names_if_6 : follows [(TLiteral (s_of "if")); (TWhitespace (s_of " ")); (TLiteral (s_of "guard1")); TNewline; (TLiteral (s_of "then")); TNewline; (TLiteral (s_of "body1")); (TName (s_of "elif")); (TWhitespace (s_of " ")); (TLiteral (s_of "guard2")); TNewline; (TLiteral (s_of "then")); (TWhitespace (s_of " ")); (TLiteral (s_of "body2")); (TLiteral (s_of "else")); (TWhitespace (s_of " ")); (TWhitespace (s_of " ")); (TLiteral (s_of "else part")); TNewline; (TName (s_of "fi"))] [StepOk ACompoundCommand].
Proof. vm_compute. repeat split. Qed.
Example ast_compound_command_should_delegate_literals_and_names_if_7 : follows [(TLiteral (s_of "if")); (TWhitespace (s_of " ")); (TLiteral (s_of "guard1")); TNewline; (TLiteral (s_of "then")); TNewline; (TLiteral (s_of "body1")); (TName (s_of "elif")); (TWhitespace (s_of " ")); (TLiteral (s_of "guard2")); TNewline; (TLiteral (s_of "then")); (TWhitespace (s_of " ")); (TLiteral (s_of "body2")); (TName (s_of "else")); (TWhitespace (s_of " ")); (TWhitespace (s_of " ")); (TLiteral (s_of "else part")); TNewline; (TLiteral (s_of "fi"))] [StepOk ACompoundCommand].
Proof. vm_compute. repeat split. Qed.
Example ast_compound_command_should_delegate_literals_and_names_if_8 : follows [(TLiteral (s_of "if")); (TWhitespace (s_of " ")); (TLiteral (s_of "guard1")); TNewline; (TLiteral (s_of "then")); TNewline; (TLiteral (s_of "body1")); (TName (s_of "elif")); (TWhitespace (s_of " ")); (TLiteral (s_of "guard2")); TNewline; (TLiteral (s_of "then")); (TWhitespace (s_of " ")); (TLiteral (s_of "body2")); (TName (s_of "else")); (TWhitespace (s_of " ")); (TWhitespace (s_of " ")); (TLiteral (s_of "else part")); TNewline; (TName (s_of "fi"))] [StepOk ACompoundCommand].
Proof. vm_compute. repeat split. Qed.
Example ast_compound_command_should_delegate_literals_and_names_if_9 : follows [(TLiteral (s_of "if")); (TWhitespace (s_of " ")); (TLiteral (s_of "guard1")); TNewline; (TName (s_of "then")); TNewline; (TLiteral (s_of "body1")); (TLiteral (s_of "elif")); (TWhitespace (s_of " ")); (TLiteral (s_of "guard2")); TNewline; (TName (s_of "then")); (TWhitespace (s_of " ")); (TLiteral (s_of "body2")); (TLiteral (s_of "else")); (TWhitespace (s_of " ")); (TWhitespace (s_of " ")); (TLiteral (s_of "else part")); TNewline; (TLiteral (s_of "fi"))] [StepOk ACompoundCommand].
Proof. vm_compute. repeat split. Qed.
Example ast_compound_command_should_delegate_literals_and_names_if_10 : follows [(TLiteral (s_of "if")); (TWhitespace (s_of " ")); (TLiteral (s_of "guard1")); TNewline; (TName (s_of "then")); TNewline; (TLiteral (s_of "body1")); (TLiteral (s_of "elif")); (TWhitespace (s_of " ")); (TLiteral (s_of "guard2")); TNewline; (TName (s_of "then")); (TWhitespace (s_of " ")); (TLiteral (s_of "body2")); (TLiteral (s_of "else")); (TWhitespace (s_of " ")); (TWhitespace (s_of " ")); (TLiteral (s_of "else part")); TNewline; (TName (s_of "fi"))] [StepOk ACompoundCommand].
Proof. vm_compute. repeat split. Qed.
Example ast_compound_command_should_delegate_literals_and_names_if_11 : follows [(TLiteral (s_of "if")); (TWhitespace (s_of " ")); (TLiteral (s_of "guard1")); TNewline; (TName (s_of "then")); TNewline; (TLiteral (s_of "body1")); (TLiteral (s_of "elif")); (TWhitespace (s_of " ")); (TLiteral (s_of "guard2")); TNewline; (TName (s_of "then")); (TWhitespace (s_of " ")); (TLiteral (s_of "body2")); (TName (s_of "else")); (TWhitespace (s_of " ")); (TWhitespace (s_of " ")); (TLiteral (s_of "else part")); TNewline; (TLiteral (s_of "fi"))] [StepOk ACompoundCommand].
Proof. vm_compute. repeat split. Qed.
Example ast_compound_command_should_delegate_literals_and_names_if_12 : follows [(TLiteral (s_of "if")); (TWhitespace (s_of " ")); (TLiteral (s_of "guard1")); TNewline; (TName (s_of "then")); TNewline; (TLiteral (s_of "body1")); (TLiteral (s_of "elif")); (TWhitespace (s_of " ")); (TLiteral (s_of "guard2")); TNewline; (TName (s_of "then")); (TWhitespace (s_of " ")); (TLiteral (s_of "body2")); (TName (s_of "else")); (TWhitespace (s_of " ")); (TWhitespace (s_of " ")); (TLiteral (s_of "else part")); TNewline; (TName (s_of "fi"))] [StepOk ACompoundCommand].
Proof. vm_compute. repeat split. Qed.
Example ast_compound_command_should_delegate_literals_and_names_if_13 : follows [(TLiteral (s_of "if")); (TWhitespace (s_of " ")); (TLiteral (s_of "guard1")); TNewline; (TName (s_of "then")); TNewline; (TLiteral (s_of "body1")); (TName (s_of "elif")); (TWhitespace (s_of " ")); (TLiteral (s_of "guard2")); TNewline; (TName (s_of "then")); (TWhitespace (s_of " ")); (TLiteral (s_of "body2")); (TLiteral (s_of "else")); (TWhitespace (s_of " ")); (TWhitespace (s_of " ")); (TLiteral (s_of "else part")); TNewline; (TLiteral (s_of "fi"))] [StepOk ACompoundCommand].
Proof. vm_compute. repeat split. Qed.
Example ast_compound_command_should_delegate_literals_and_names_if_14 : follows [(TLiteral (s_of "if")); (TWhitespace (s_of " ")); (TLiteral (s_of "guard1")); TNewline; (TName (s_of "then")); TNewline; (TLiteral (s_of "body1")); (TName (s_of "elif")); (TWhitespace (s_of " ")); (TLiteral (s_of "guard2")); TNewline; (TName (s_of "then")); (TWhitespace (s_of " ")); (TLiteral (s_of "body2")); (TLiteral (s_of "else")); (TWhitespace (s_of " ")); (TWhitespace (s_of " ")); (TLiteral (s_of "else part")); TNewline; (TName (s_of "fi"))] [StepOk ACompoundCommand].
Proof. vm_compute. repeat split. Qed.
Example ast_compound_command_should_delegate_literals_and_names_if_15 : follows [(TLiteral (s_of "if")); (TWhitespace (s_of " ")); (TLiteral (s_of "guard1")); TNewline; (TName (s_of "then")); TNewline; (TLiteral (s_of "body1")); (TName (s_of "elif")); (TWhitespace (s_of " ")); (TLiteral (s_of "guard2")); TNewline; (TName (s_of "then")); (TWhitespace (s_of " ")); (TLiteral (s_of "body2")); (TName (s_of "else")); (TWhitespace (s_of " ")); (TWhitespace (s_of " ")); (TLiteral (s_of "else part")); TNewline; (TLiteral (s_of "fi"))] [StepOk ACompoundCommand].
Proof. vm_compute. repeat split. Qed.
Example ast_compound_command_should_delegate_literals_and_names_if_16 : follows [(TLiteral (s_of "if")); (TWhitespace (s_of " ")); (TLiteral (s_of "guard1")); TNewline; (TName (s_of "then")); TNewline; (TLiteral (s_of "body1")); (TName (s_of "elif")); (TWhitespace (s_of " ")); (TLiteral (s_of "guard2")); TNewline; (TName (s_of "then")); (TWhitespace (s_of " ")); (TLiteral (s_of "body2")); (TName (s_of "else")); (TWhitespace (s_of " ")); (TWhitespace (s_of " ")); (TLiteral (s_of "else part")); TNewline; (TName (s_of "fi"))] [StepOk ACompoundCommand].
Proof. vm_compute. repeat split. Qed.
Example ast_compound_command_should_delegate_literals_and_names_if_17 : follows [(TName (s_of "if")); (TWhitespace (s_of " ")); (TLiteral (s_of "guard1")); TNewline; (TLiteral (s_of "then")); TNewline; (TLiteral (s_of "body1")); (TLiteral (s_of "elif")); (TWhitespace (s_of " ")); (TLiteral (s_of "guard2")); TNewline; (TLiteral (s_of "then")); (TWhitespace (s_of " ")); (TLiteral (s_of "body2")); (TLiteral (s_of "else")); (TWhitespace (s_of " ")); (TWhitespace (s_of " ")); (TLiteral (s_of "else part")); TNewline; (TLiteral (s_of "fi"))] [StepOk ACompoundCommand].
Proof. vm_compute. repeat split. Qed.
Example ast_compound_command_should_delegate_literals_and_names_if_18 : follows [(TName (s_of "if")); (TWhitespace (s_of " ")); (TLiteral (s_of "guard1")); TNewline; (TLiteral (s_of "then")); TNewline; (TLiteral (s_of "body1")); (TLiteral (s_of "elif")); (TWhitespace (s_of " ")); (TLiteral (s_of "guard2")); TNewline; (TLiteral (s_of "then")); (TWhitespace (s_of " ")); (TLiteral (s_of "body2")); (TLiteral (s_of "else")); (TWhitespace (s_of " ")); (TWhitespace (s_of " ")); (TLiteral (s_of "else part")); TNewline; (TName (s_of "fi"))] [StepOk ACompoundCommand].
Proof. vm_compute. repeat split. Qed.
Example ast_compound_command_should_delegate_literals_and_names_if_19 : follows [(TName (s_of "if")); (TWhitespace (s_of " ")); (TLiteral (s_of "guard1")); TNewline; (TLiteral (s_of "then")); TNewline; (TLiteral (s_of "body1")); (TLiteral (s_of "elif")); (TWhitespace (s_of " ")); (TLiteral (s_of "guard2")); TNewline; (TLiteral (s_of "then")); (TWhitespace (s_of " ")); (TLiteral (s_of "body2")); (TName (s_of "else")); (TWhitespace (s_of " ")); (TWhitespace (s_of " ")); (TLiteral (s_of "else part")); TNewline; (TLiteral (s_of "fi"))] [StepOk ACompoundCommand].
Proof. vm_compute. repeat split. Qed.
Example ast_compound_command_should_delegate_literals_and_names_if_20 : follows [(TName (s_of "if")); (TWhitespace (s_of " ")); (TLiteral (s_of "guard1")); TNewline; (TLiteral (s_of "then")); TNewline; (TLiteral (s_of "body1")); (TLiteral (s_of "elif")); (TWhitespace (s_of " ")); (TLiteral (s_of "guard2")); TNewline; (TLiteral (s_of "then")); (TWhitespace (s_of " ")); (TLiteral (s_of "body2")); (TName (s_of "else")); (TWhitespace (s_of " ")); (TWhitespace (s_of " ")); (TLiteral (s_of "else part")); TNewline; (TName (s_of "fi"))] [StepOk ACompoundCommand].
Proof. vm_compute. repeat split. Qed.
Example ast_compound_command_should_delegate_literals_and_names_if_21 : follows [(TName (s_of "if")); (TWhitespace (s_of " ")); (TLiteral (s_of "guard1")); TNewline; (TLiteral (s_of "then")); TNewline; (TLiteral (s_of "body1")); (TName (s_of "elif")); (TWhitespace (s_of " ")); (TLiteral (s_of "guard2")); TNewline; (TLiteral (s_of "then")); (TWhitespace (s_of " ")); (TLiteral (s_of "body2")); (TLiteral (s_of "else")); (TWhitespace (s_of " ")); (TWhitespace (s_of " ")); (TLiteral (s_of "else part")); TNewline; (TLiteral (s_of "fi"))] [StepOk ACompoundCommand].
Proof. vm_compute. repeat split. Qed.
Example ast_compound_command_should_delegate_literals_and_names_if_22 : follows [(TName (s_of "if")); (TWhitespace (s_of " ")); (TLiteral (s_of "guard1")); TNewline; (TLiteral (s_of "then")); TNewline; (TLiteral (s_of "body1")); (TName (s_of "elif")); (TWhitespace (s_of " ")); (TLiteral (s_of "guard2")); TNewline; (TLiteral (s_of "then")); (TWhitespace (s_of " ")); (TLiteral (s_of "body2")); (TLiteral (s_of "else")); (TWhitespace (s_of " ")); (TWhitespace (s_of " ")); (TLiteral (s_of "else part")); TNewline; (TName (s_of "fi"))] [StepOk ACompoundCommand].
Proof. vm_compute. repeat split. Qed.
Example ast_compound_command_should_delegate_literals_and_names_if_23 : follows [(TName (s_of "if")); (TWhitespace (s_of " ")); (TLiteral (s_of "guard1")); TNewline; (TLiteral (s_of "then")); TNewline; (TLiteral (s_of "body1")); (TName (s_of "elif")); (TWhitespace (s_of " ")); (TLiteral (s_of "guard2")); TNewline; (TLiteral (s_of "then")); (TWhitespace (s_of " ")); (TLiteral (s_of "body2")); (TName (s_of "else")); (TWhitespace (s_of " ")); (TWhitespace (s_of " ")); (TLiteral (s_of "else part")); TNewline; (TLiteral (s_of "fi"))] [StepOk ACompoundCommand].
Proof. vm_compute. repeat split. Qed.
Example ast_compound_command_should_delegate_literals_and_names_if_24 : follows [(TName (s_of "if")); (TWhitespace (s_of " ")); (TLiteral (s_of "guard1")); TNewline; (TLiteral (s_of "then")); TNewline; (TLiteral (s_of "body1")); (TName (s_of "elif")); (TWhitespace (s_of " ")); (TLiteral (s_of "guard2")); TNewline; (TLiteral (s_of "then")); (TWhitespace (s_of " ")); (TLiteral (s_of "body2")); (TName (s_of "else")); (TWhitespace (s_of " ")); (TWhitespace (s_of " ")); (TLiteral (s_of "else part")); TNewline; (TName (s_of "fi"))] [StepOk ACompoundCommand].
Proof. vm_compute. repeat split. Qed.
Example ast_compound_command_should_delegate_literals_and_names_if_25 : follows [(TName (s_of "if")); (TWhitespace (s_of " ")); (TLiteral (s_of "guard1")); TNewline; (TName (s_of "then")); TNewline; (TLiteral (s_of "body1")); (TLiteral (s_of "elif")); (TWhitespace (s_of " ")); (TLiteral (s_of "guard2")); TNewline; (TName (s_of "then")); (TWhitespace (s_of " ")); (TLiteral (s_of "body2")); (TLiteral (s_of "else")); (TWhitespace (s_of " ")); (TWhitespace (s_of " ")); (TLiteral (s_of "else part")); TNewline; (TLiteral (s_of "fi"))] [StepOk ACompoundCommand].
Proof. vm_compute. repeat split. Qed.
Example ast_compound_command_should_delegate_literals_and_names_if_26 : follows [(TName (s_of "if")); (TWhitespace (s_of " ")); (TLiteral (s_of "guard1")); TNewline; (TName (s_of "then")); TNewline; (TLiteral (s_of "body1")); (TLiteral (s_of "elif")); (TWhitespace (s_of " ")); (TLiteral (s_of "guard2")); TNewline; (TName (s_of "then")); (TWhitespace (s_of " ")); (TLiteral (s_of "body2")); (TLiteral (s_of "else")); (TWhitespace (s_of " ")); (TWhitespace (s_of " ")); (TLiteral (s_of "else part")); TNewline; (TName (s_of "fi"))] [StepOk ACompoundCommand].
Proof. vm_compute. repeat split. Qed.
Example ast_compound_command_should_delegate_literals_and_names_if_27 : follows [(TName (s_of "if")); (TWhitespace (s_of " ")); (TLiteral (s_of "guard1")); TNewline; (TName (s_of "then")); TNewline; (TLiteral (s_of "body1")); (TLiteral (s_of "elif")); (TWhitespace (s_of " ")); (TLiteral (s_of "guard2")); TNewline; (TName (s_of "then")); (TWhitespace (s_of " ")); (TLiteral (s_of "body2")); (TName (s_of "else")); (TWhitespace (s_of " ")); (TWhitespace (s_of " ")); (TLiteral (s_of "else part")); TNewline; (TLiteral (s_of "fi"))] [StepOk ACompoundCommand].
Proof. vm_compute. repeat split. Qed.
Example ast_compound_command_should_delegate_literals_and_names_if_28 : follows [(TName (s_of "if")); (TWhitespace (s_of " ")); (TLiteral (s_of "guard1")); TNewline; (TName (s_of "then")); TNewline; (TLiteral (s_of "body1")); (TLiteral (s_of "elif")); (TWhitespace (s_of " ")); (TLiteral (s_of "guard2")); TNewline; (TName (s_of "then")); (TWhitespace (s_of " ")); (TLiteral (s_of "body2")); (TName (s_of "else")); (TWhitespace (s_of " ")); (TWhitespace (s_of " ")); (TLiteral (s_of "else part")); TNewline; (TName (s_of "fi"))] [StepOk ACompoundCommand].
Proof. vm_compute. repeat split. Qed.
Example ast_compound_command_should_delegate_literals_and_names_if_29 : follows [(TName (s_of "if")); (TWhitespace (s_of " ")); (TLiteral (s_of "guard1")); TNewline; (TName (s_of "then")); TNewline; (TLiteral (s_of "body1")); (TName (s_of "elif")); (TWhitespace (s_of " ")); (TLiteral (s_of "guard2")); TNewline; (TName (s_of "then")); (TWhitespace (s_of " ")); (TLiteral (s_of "body2")); (TLiteral (s_of "else")); (TWhitespace (s_of " ")); (TWhitespace (s_of " ")); (TLiteral (s_of "else part")); TNewline; (TLiteral (s_of "fi"))] [StepOk ACompoundCommand].
Proof. vm_compute. repeat split. Qed.
Example ast_compound_command_should_delegate_literals_and_names_if_30 : follows [(TName (s_of "if")); (TWhitespace (s_of " ")); (TLiteral (s_of "guard1")); TNewline; (TName (s_of "then")); TNewline; (TLiteral (s_of "body1")); (TName (s_of "elif")); (TWhitespace (s_of " ")); (TLiteral (s_of "guard2")); TNewline; (TName (s_of "then")); (TWhitespace (s_of " ")); (TLiteral (s_of "body2")); (TLiteral (s_of "else")); (TWhitespace (s_of " ")); (TWhitespace (s_of " ")); (TLiteral (s_of "else part")); TNewline; (TName (s_of "fi"))] [StepOk ACompoundCommand].
Proof. vm_compute. repeat split. Qed.
Example ast_compound_command_should_delegate_literals_and_names_if_31 : follows [(TName (s_of "if")); (TWhitespace (s_of " ")); (TLiteral (s_of "guard1")); TNewline; (TName (s_of "then")); TNewline; (TLiteral (s_of "body1")); (TName (s_of "elif")); (TWhitespace (s_of " ")); (TLiteral (s_of "guard2")); TNewline; (TName (s_of "then")); (TWhitespace (s_of " ")); (TLiteral (s_of "body2")); (TName (s_of "else")); (TWhitespace (s_of " ")); (TWhitespace (s_of " ")); (TLiteral (s_of "else part")); TNewline; (TLiteral (s_of "fi"))] [StepOk ACompoundCommand].
Proof. vm_compute. repeat split. Qed.
Example ast_compound_command_should_delegate_literals_and_names_if_32 : follows [(TName (s_of "if")); (TWhitespace (s_of " ")); (TLiteral (s_of "guard1")); TNewline; (TName (s_of "then")); TNewline; (TLiteral (s_of "body1")); (TName (s_of "elif")); (TWhitespace (s_of " ")); (TLiteral (s_of "guard2")); TNewline; (TName (s_of "then")); (TWhitespace (s_of " ")); (TLiteral (s_of "body2")); (TName (s_of "else")); (TWhitespace (s_of " ")); (TWhitespace (s_of " ")); (TLiteral (s_of "else part")); TNewline; (TName (s_of "fi"))] [StepOk ACompoundCommand].
Proof. vm_compute. repeat split. Qed.
Example ast_compound_command_should_delegate_literals_and_names_for_1 : follows [(TLiteral (s_of "for")); (TWhitespace (s_of " ")); (TName (s_of "var")); (TWhitespace (s_of " ")); (TLiteral (s_of "in")); (TWhitespace (s_of " ")); (TLiteral (s_of "one")); (TWhitespace (s_of " ")); (TLiteral (s_of "two")); (TWhitespace (s_of " ")); (TLiteral (s_of "three")); (TWhitespace (s_of " ")); TNewline; (TLiteral (s_of "do")); (TWhitespace (s_of " ")); (TLiteral (s_of "echo")); (TWhitespace (s_of " ")); TDollar; (TName (s_of "var")); TNewline; (TLiteral (s_of "done"))] [StepOk ACompoundCommand].
Proof. vm_compute. repeat split. Qed.
Example ast_compound_command_should_delegate_literals_and_names_for_2 : follows [(TLiteral (s_of "for")); (TWhitespace (s_of " ")); (TName (s_of "var")); (TWhitespace (s_of " ")); (TName (s_of "in")); (TWhitespace (s_of " ")); (TLiteral (s_of "one")); (TWhitespace (s_of " ")); (TLiteral (s_of "two")); (TWhitespace (s_of " ")); (TLiteral (s_of "three")); (TWhitespace (s_of " ")); TNewline; (TLiteral (s_of "do")); (TWhitespace (s_of " ")); (TLiteral (s_of "echo")); (TWhitespace (s_of " ")); TDollar; (TName (s_of "var")); TNewline; (TLiteral (s_of "done"))] [StepOk ACompoundCommand].
Proof. vm_compute. repeat split. Qed.
Example ast_compound_command_should_delegate_literals_and_names_for_3 : follows [(TName (s_of "for")); (TWhitespace (s_of " ")); (TName (s_of "var")); (TWhitespace (s_of " ")); (TLiteral (s_of "in")); (TWhitespace (s_of " ")); (TLiteral (s_of "one")); (TWhitespace (s_of " ")); (TLiteral (s_of "two")); (TWhitespace (s_of " ")); (TLiteral (s_of "three")); (TWhitespace (s_of " ")); TNewline; (TLiteral (s_of "do")); (TWhitespace (s_of " ")); (TLiteral (s_of "echo")); (TWhitespace (s_of " ")); TDollar; (TName (s_of "var")); TNewline; (TLiteral (s_of "done"))] [StepOk ACompoundCommand].
Proof. vm_compute. repeat split. Qed.
Example ast_compound_command_should_delegate_literals_and_names_for_4 : follows [(TName (s_of "for")); (TWhitespace (s_of " ")); (TName (s_of "var")); (TWhitespace (s_of " ")); (TName (s_of "in")); (TWhitespace (s_of " ")); (TLiteral (s_of "one")); (TWhitespace (s_of " ")); (TLiteral (s_of "two")); (TWhitespace (s_of " ")); (TLiteral (s_of "three")); (TWhitespace (s_of " ")); TNewline; (TLiteral (s_of "do")); (TWhitespace (s_of " ")); (TLiteral (s_of "echo")); (TWhitespace (s_of " ")); TDollar; (TName (s_of "var")); TNewline; (TLiteral (s_of "done"))] [StepOk ACompoundCommand].
Proof. vm_compute. repeat split. Qed.
Example ast_compound_command_should_delegate_literals_and_names_case_1 : follows [(TLiteral (s_of "case")); (TWhitespace (s_of " ")); (TLiteral (s_of "foo")); (TLiteral (s_of "bar")); (TWhitespace (s_of " ")); (TLiteral (s_of "in")); (TWhitespace (s_of " ")); (TLiteral (s_of "foo")); TParenClose; TNewline; (TLiteral (s_of "echo")); (TWhitespace (s_of " ")); (TLiteral (s_of "foo")); TNewline; TNewline; TDSemi; (TLiteral (s_of "esac"))] [StepOk ACompoundCommand].
Proof. vm_compute. repeat split. Qed.
Example ast_compound_command_should_delegate_literals_and_names_case_2 : follows [(TLiteral (s_of "case")); (TWhitespace (s_of " ")); (TLiteral (s_of "foo")); (TLiteral (s_of "bar")); (TWhitespace (s_of " ")); (TLiteral (s_of "in")); (TWhitespace (s_of " ")); (TLiteral (s_of "foo")); TParenClose; TNewline; (TLiteral (s_of "echo")); (TWhitespace (s_of " ")); (TLiteral (s_of "foo")); TNewline; TNewline; TDSemi; (TName (s_of "esac"))] [StepOk ACompoundCommand].
Proof. vm_compute. repeat split. Qed.
Example ast_compound_command_should_delegate_literals_and_names_case_3 : follows [(TLiteral (s_of "case")); (TWhitespace (s_of " ")); (TLiteral (s_of "foo")); (TLiteral (s_of "bar")); (TWhitespace (s_of " ")); (TName (s_of "in")); (TWhitespace (s_of " ")); (TLiteral (s_of "foo")); TParenClose; TNewline; (TLiteral (s_of "echo")); (TWhitespace (s_of " ")); (TLiteral (s_of "foo")); TNewline; TNewline; TDSemi; (TLiteral (s_of "esac"))] [StepOk ACompoundCommand].
Proof. vm_compute. repeat split. Qed.
Example ast_compound_command_should_delegate_literals_and_names_case_4 : follows [(TLiteral (s_of "case")); (TWhitespace (s_of " ")); (TLiteral (s_of "foo")); (TLiteral (s_of "bar")); (TWhitespace (s_of " ")); (TName (s_of "in")); (TWhitespace (s_of " ")); (TLiteral (s_of "foo")); TParenClose; TNewline; (TLiteral (s_of "echo")); (TWhitespace (s_of " ")); (TLiteral (s_of "foo")); TNewline; TNewline; TDSemi; (TName (s_of "esac"))] [StepOk ACompoundCommand].
Proof. vm_compute. repeat split. Qed.
Example ast_compound_command_should_delegate_literals_and_names_case_5 : follows [(TName (s_of "case")); (TWhitespace (s_of " ")); (TLiteral (s_of "foo")); (TLiteral (s_of "bar")); (TWhitespace (s_of " ")); (TLiteral (s_of "in")); (TWhitespace (s_of " ")); (TLiteral (s_of "foo")); TParenClose; TNewline; (TLiteral (s_of "echo")); (TWhitespace (s_of " ")); (TLiteral (s_of "foo")); TNewline; TNewline; TDSemi; (TLiteral (s_of "esac"))] [StepOk ACompoundCommand].
Proof. vm_compute. repeat split. Qed.
Example ast_compound_command_should_delegate_literals_and_names_case_6 : follows [(TName (s_of "case")); (TWhitespace (s_of " ")); (TLiteral (s_of "foo")); (TLiteral (s_of "bar")); (TWhitespace (s_of " ")); (TLiteral (s_of "in")); (TWhitespace (s_of " ")); (TLiteral (s_of "foo")); TParenClose; TNewline; (TLiteral (s_of "echo")); (TWhitespace (s_of " ")); (TLiteral (s_of "foo")); TNewline; TNewline; TDSemi; (TName (s_of "esac"))] [StepOk ACompoundCommand].
Proof. vm_compute. repeat split. Qed.
Example ast_compound_command_should_delegate_literals_and_names_case_7 : follows [(TName (s_of "case")); (TWhitespace (s_of " ")); (TLiteral (s_of "foo")); (TLiteral (s_of "bar")); (TWhitespace (s_of " ")); (TName (s_of "in")); (TWhitespace (s_of " ")); (TLiteral (s_of "foo")); TParenClose; TNewline; (TLiteral (s_of "echo")); (TWhitespace (s_of " ")); (TLiteral (s_of "foo")); TNewline; TNewline; TDSemi; (TLiteral (s_of "esac"))] [StepOk ACompoundCommand].
Proof. vm_compute. repeat split. Qed.
Example ast_compound_command_should_delegate_literals_and_names_case_8 : follows [(TName (s_of "case")); (TWhitespace (s_of " ")); (TLiteral (s_of "foo")); (TLiteral (s_of "bar")); (TWhitespace (s_of " ")); (TName (s_of "in")); (TWhitespace (s_of " ")); (TLiteral (s_of "foo")); TParenClose; TNewline; (TLiteral (s_of "echo")); (TWhitespace (s_of " ")); (TLiteral (s_of "foo")); TNewline; TNewline; TDSemi; (TName (s_of "esac"))] [StepOk ACompoundCommand].
Proof. vm_compute. repeat split. Qed.
Example ast_for_command_valid_with_words_1 : follows (@lex ascii_uni [102;111;114;32;118;97;114;32;35;118;97;114;32;99;111;109;109;101;110;116;10;32;32;32;32;35;112;114;101;119;49;10;32;32;32;32;35;112;114;101;119;50;10;32;32;32;32;105;110;32;111;110;101;32;116;119;111;32;116;104;114;101;101;32;35;119;111;114;100;32;99;111;109;109;101;110;116;10;32;32;32;32;35;112;114;101;99;109;100;49;10;32;32;32;32;35;112;114;101;99;109;100;50;10;32;32;32;32;100;111;32;101;99;104;111;59;10;32;32;32;32;35;98;111;100;121;95;99;111;109;109;101;110;116;10;32;32;32;32;100;111;110;101;10;32;32;32;32]%N) [Step AForCommand (Some (OOk (mkFF (s_of "var") (Some (Newline (Some (s_of "#var comment")))) (Some ([(Newline (Some (s_of "#prew1"))); (Newline (Some (s_of "#prew2")))], [(TLWord (WSingle (WSimple (WLiteral (s_of "one"))))); (TLWord (WSingle (WSimple (WLiteral (s_of "two"))))); (TLWord (WSingle (WSimple (WLiteral (s_of "three")))))], (Some (Newline (Some (s_of "#word comment")))))) [(Newline (Some (s_of "#precmd1"))); (Newline (Some (s_of "#precmd2")))] (mkCG [(TLCmd (CList (mkAOL (LSingle (PSimple (mkSC [] [(DCmdWord (TLWord (WSingle (WSimple (WLiteral (s_of "echo"))))))]))) [])))] [(Newline (Some (s_of "#body_comment")))]))))].
Proof. vm_compute. repeat split. Qed.
Example ast_for_command_valid_without_words_1 : follows (@lex ascii_uni [102;111;114;32;118;97;114;32;35;118;97;114;32;99;111;109;109;101;110;116;10;32;32;32;32;35;119;49;10;32;32;32;32;35;119;50;10;32;32;32;32;100;111;32;101;99;104;111;59;10;32;32;32;32;35;98;111;100;121;95;99;111;109;109;101;110;116;10;32;32;32;32;100;111;110;101;10;32;32;32;32]%N) [Step AForCommand (Some (OOk (mkFF (s_of "var") (Some (Newline (Some (s_of "#var comment")))) None [(Newline (Some (s_of "#w1"))); (Newline (Some (s_of "#w2")))] (mkCG [(TLCmd (CList (mkAOL (LSingle (PSimple (mkSC [] [(DCmdWord (TLWord (WSingle (WSimple (WLiteral (s_of "echo"))))))]))) [])))] [(Newline (Some (s_of "#body_comment")))]))))].
Proof. vm_compute. repeat split. Qed.
Example ast_for_command_valid_separators_1 : follows (@lex ascii_uni (s_of "for var                 do body; done")) [StepOk AForCommand].
Proof. vm_compute. repeat split. Qed.
Example ast_for_command_valid_separators_2 : follows (@lex ascii_uni (s_of "for var             ;   do body; done")) [StepOk AForCommand].
Proof. vm_compute. repeat split. Qed.
Example ast_for_command_valid_separators_3 : follows (@lex ascii_uni [102;111;114;32;118;97;114;32;32;32;32;32;32;32;32;32;32;32;32;32;59;10;32;100;111;32;98;111;100;121;59;32;100;111;110;101]%N) [StepOk AForCommand].
Proof. vm_compute. repeat split. Qed.
Example ast_for_command_valid_separators_4 : follows (@lex ascii_uni [102;111;114;32;118;97;114;10;32;32;32;32;32;32;32;32;32;32;32;32;32;32;32;100;111;32;98;111;100;121;59;32;100;111;110;101]%N) [StepOk AForCommand].
Proof. vm_compute. repeat split. Qed.
Example ast_for_command_valid_separators_5 : follows (@lex ascii_uni [102;111;114;32;118;97;114;10;32;105;110;32;32;32;32;32;32;32;32;59;32;32;32;100;111;32;98;111;100;121;59;32;100;111;110;101]%N) [StepOk AForCommand].
Proof. vm_compute. repeat split. Qed.
Example ast_for_command_valid_separators_6 : follows (@lex ascii_uni [102;111;114;32;118;97;114;10;32;105;110;32;32;32;32;32;32;32;32;59;10;32;100;111;32;98;111;100;121;59;32;100;111;110;101]%N) [StepOk AForCommand].
Proof. vm_compute. repeat split. Qed.
Example ast_for_command_valid_separators_7 : follows (@lex ascii_uni [102;111;114;32;118;97;114;10;32;105;110;32;32;32;32;32;32;32;32;32;10;32;100;111;32;98;111;100;121;59;32;100;111;110;101]%N) [StepOk AForCommand].
Proof. vm_compute. repeat split. Qed.
Example ast_for_command_valid_separators_8 : follows (@lex ascii_uni (s_of "for var   in        ;   do body; done")) [StepOk AForCommand].
Proof. vm_compute. repeat split. Qed.
Example ast_for_command_valid_separators_9 : follows (@lex ascii_uni [102;111;114;32;118;97;114;32;32;32;105;110;32;32;32;32;32;32;32;32;59;10;32;100;111;32;98;111;100;121;59;32;100;111;110;101]%N) [StepOk AForCommand].
Proof. vm_compute. repeat split. Qed.
Example ast_for_command_valid_separators_10 : follows (@lex ascii_uni [102;111;114;32;118;97;114;32;32;32;105;110;32;32;32;32;32;32;32;32;32;10;32;100;111;32;98;111;100;121;59;32;100;111;110;101]%N) [StepOk AForCommand].
Proof. vm_compute. repeat split. Qed.
Example ast_for_command_valid_separators_11 : follows (@lex ascii_uni [102;111;114;32;118;97;114;10;32;105;110;32;111;110;101;32;116;119;111;59;32;32;32;100;111;32;98;111;100;121;59;32;100;111;110;101]%N) [StepOk AForCommand].
Proof. vm_compute. repeat split. Qed.
Example ast_for_command_valid_separators_12 : follows (@lex ascii_uni [102;111;114;32;118;97;114;10;32;105;110;32;111;110;101;32;116;119;111;59;10;32;100;111;32;98;111;100;121;59;32;100;111;110;101]%N) [StepOk AForCommand].
Proof. vm_compute. repeat split. Qed.
Example ast_for_command_valid_separators_13 : follows (@lex ascii_uni [102;111;114;32;118;97;114;10;32;105;110;32;111;110;101;32;116;119;111;32;10;32;100;111;32;98;111;100;121;59;32;100;111;110;101]%N) [StepOk AForCommand].
Proof. vm_compute. repeat split. Qed.
Example ast_for_command_valid_separators_14 : follows (@lex ascii_uni (s_of "for var   in one two;   do body; done")) [StepOk AForCommand].
Proof. vm_compute. repeat split. Qed.
Example ast_for_command_valid_separators_15 : follows (@lex ascii_uni [102;111;114;32;118;97;114;32;32;32;105;110;32;111;110;101;32;116;119;111;59;10;32;100;111;32;98;111;100;121;59;32;100;111;110;101]%N) [StepOk AForCommand].
Proof. vm_compute. repeat split. Qed.
Example ast_for_command_valid_separators_16 : follows (@lex ascii_uni [102;111;114;32;118;97;114;32;32;32;105;110;32;111;110;101;32;116;119;111;32;10;32;100;111;32;98;111;100;121;59;32;100;111;110;101]%N) [StepOk AForCommand].
Proof. vm_compute. repeat split. Qed.
Example ast_for_command_valid_with_separator_1 : follows (@lex ascii_uni [102;111;114;32;118;97;114;32;105;110;32;111;110;101;32;116;119;111;32;116;104;114;101;101;10;100;111;32;101;99;104;111;32;36;118;97;114;59;32;100;111;110;101]%N) [StepOk AForCommand].
Proof. vm_compute. repeat split. Qed.
Example ast_for_command_valid_with_separator_2 : follows (@lex ascii_uni (s_of "for var in one two three;do echo $var; done")) [StepOk AForCommand].
Proof. vm_compute. repeat split. Qed.
Example ast_for_command_invalid_with_in_no_words_no_with_separator_1 : follows (@lex ascii_uni (s_of "for var in do echo $var; done")) [Step AForCommand (Some (OErr (IncompleteCmd (s_of "for") (mkPos 0 1 1) (s_of "do") (mkPos 25 1 26))))].
Proof. vm_compute. repeat split. Qed.
Example ast_for_command_invalid_missing_separator_1 : follows (@lex ascii_uni (s_of "for var in one two three do echo $var; done")) [Step AForCommand (Some (OErr (IncompleteCmd (s_of "for") (mkPos 0 1 1) (s_of "do") (mkPos 39 1 40))))].
Proof. vm_compute. repeat split. Qed.
Example ast_for_command_invalid_amp_not_valid_separator_1 : follows (@lex ascii_uni (s_of "for var in one two three& do echo $var; done")) [Step AForCommand (Some (OErr (Unexpected TAmp (mkPos 24 1 25))))].
Proof. vm_compute. repeat split. Qed.
Example ast_for_command_invalid_missing_keyword_1 : follows (@lex ascii_uni [118;97;114;32;105;110;32;111;110;101;32;116;119;111;32;116;104;114;101;101;10;100;111;32;101;99;104;111;32;36;118;97;114;59;32;100;111;110;101]%N) [Step AForCommand (Some (OErr (Unexpected (TName (s_of "var")) (mkPos 0 1 1))))].
Proof. vm_compute. repeat split. Qed.
Example ast_for_command_invalid_missing_var_1 : follows (@lex ascii_uni [102;111;114;32;105;110;32;111;110;101;32;116;119;111;32;116;104;114;101;101;10;100;111;32;101;99;104;111;32;36;118;97;114;59;32;100;111;110;101]%N) [Step AForCommand (Some (OErr (IncompleteCmd (s_of "for") (mkPos 0 1 1) (s_of "in") (mkPos 7 1 8))))].
Proof. vm_compute. repeat split. Qed.
Example ast_for_command_invalid_missing_body_1 : follows (@lex ascii_uni [102;111;114;32;118;97;114;32;105;110;32;111;110;101;32;116;119;111;32;116;104;114;101;101;10]%N) [Step AForCommand (Some (OErr (IncompleteCmd (s_of "for") (mkPos 0 1 1) (s_of "do") (mkPos 25 2 1))))].
Proof. vm_compute. repeat split. Qed.
Example ast_for_command_invalid_quoted_1 : follows (@lex ascii_uni [39;102;111;114;39;32;118;97;114;32;105;110;32;111;110;101;32;116;119;111;32;116;104;114;101;101;10;100;111;32;101;99;104;111;32;36;118;97;114;59;32;100;111;110;101]%N) [Step AForCommand (Some (OErr (Unexpected TSingleQuote (mkPos 0 1 1))))].
Proof. vm_compute. repeat split. Qed.
Example ast_for_command_invalid_quoted_2 : follows (@lex ascii_uni [102;111;114;32;118;97;114;32;39;105;110;39;32;111;110;101;32;116;119;111;32;116;104;114;101;101;10;100;111;32;101;99;104;111;32;36;118;97;114;59;32;100;111;110;101]%N) [Step AForCommand (Some (OErr (IncompleteCmd (s_of "for") (mkPos 0 1 1) (s_of "in") (mkPos 8 1 9))))].
Proof. vm_compute. repeat split. Qed.
Example ast_for_command_invalid_quoted_3 : follows (@lex ascii_uni [34;102;111;114;34;32;118;97;114;32;105;110;32;111;110;101;32;116;119;111;32;116;104;114;101;101;10;100;111;32;101;99;104;111;32;36;118;97;114;59;32;100;111;110;101]%N) [Step AForCommand (Some (OErr (Unexpected TDoubleQuote (mkPos 0 1 1))))].
Proof. vm_compute. repeat split. Qed.
Example ast_for_command_invalid_quoted_4 : follows (@lex ascii_uni [102;111;114;32;118;97;114;32;34;105;110;34;32;111;110;101;32;116;119;111;32;116;104;114;101;101;10;100;111;32;101;99;104;111;32;36;118;97;114;59;32;100;111;110;101]%N) [Step AForCommand (Some (OErr (IncompleteCmd (s_of "for") (mkPos 0 1 1) (s_of "in") (mkPos 8 1 9))))].
Proof. vm_compute. repeat split. Qed.
Example ast_for_command_invalid_var_must_be_name_1 : follows (@lex ascii_uni [102;111;114;32;49;50;51;118;97;114;32;105;110;32;111;110;101;32;116;119;111;32;116;104;114;101;101;10;100;111;32;101;99;104;111;32;36;118;97;114;59;32;100;111;110;101]%N) [Step AForCommand (Some (OErr (BadIdent (s_of "123var") (mkPos 4 1 5))))].
Proof. vm_compute. repeat split. Qed.
Example ast_for_command_invalid_var_must_be_name_2 : follows (@lex ascii_uni [102;111;114;32;39;118;97;114;39;32;105;110;32;111;110;101;32;116;119;111;32;116;104;114;101;101;10;100;111;32;101;99;104;111;32;36;118;97;114;59;32;100;111;110;101]%N) [Step AForCommand (Some (OErr (Unexpected TSingleQuote (mkPos 4 1 5))))].
Proof. vm_compute. repeat split. Qed.
Example ast_for_command_invalid_var_must_be_name_3 : follows (@lex ascii_uni [102;111;114;32;34;118;97;114;34;32;105;110;32;111;110;101;32;116;119;111;32;116;104;114;101;101;10;100;111;32;101;99;104;111;32;36;118;97;114;59;32;100;111;110;101]%N) [Step AForCommand (Some (OErr (Unexpected TDoubleQuote (mkPos 4 1 5))))].
Proof. vm_compute. repeat split. Qed.
Example ast_for_command_invalid_var_must_be_name_4 : follows (@lex ascii_uni [102;111;114;32;118;97;114;42;37;32;105;110;32;111;110;101;32;116;119;111;32;116;104;114;101;101;10;100;111;32;101;99;104;111;32;36;118;97;114;59;32;100;111;110;101]%N) [Step AForCommand (Some (OErr (IncompleteCmd (s_of "for") (mkPos 0 1 1) (s_of "in") (mkPos 7 1 8))))].
Proof. vm_compute. repeat split. Qed.
Example ast_for_command_invalid_concat_1 : follows [(TLiteral (s_of "fo")); (TLiteral (s_of "r")); (TWhitespace (s_of " ")); (TName (s_of "var")); (TWhitespace (s_of " ")); (TLiteral (s_of "in")); (TLiteral (s_of "one")); (TWhitespace (s_of " ")); (TLiteral (s_of "two")); (TWhitespace (s_of " ")); (TLiteral (s_of "three")); (TWhitespace (s_of " ")); TNewline; (TLiteral (s_of "do")); (TWhitespace (s_of " ")); (TLiteral (s_of "echo")); (TWhitespace (s_of " ")); TDollar; (TLiteral (s_of "var")); TNewline; (TLiteral (s_of "done"))] [Step AForCommand (Some (OErr (Unexpected (TLiteral (s_of "fo")) (mkPos 0 1 1))))].
Proof. vm_compute. repeat split. Qed.
Example ast_for_command_invalid_concat_2 : follows [(TLiteral (s_of "for")); (TWhitespace (s_of " ")); (TName (s_of "var")); (TWhitespace (s_of " ")); (TLiteral (s_of "i")); (TLiteral (s_of "n")); (TLiteral (s_of "one")); (TWhitespace (s_of " ")); (TLiteral (s_of "two")); (TWhitespace (s_of " ")); (TLiteral (s_of "three")); (TWhitespace (s_of " ")); TNewline; (TLiteral (s_of "do")); (TWhitespace (s_of " ")); (TLiteral (s_of "echo")); (TWhitespace (s_of " ")); TDollar; (TLiteral (s_of "var")); TNewline; (TLiteral (s_of "done"))] [Step AForCommand (Some (OErr (IncompleteCmd (s_of "for") (mkPos 0 1 1) (s_of "in") (mkPos 8 1 9))))].
Proof. vm_compute. repeat split. Qed.
Example ast_for_command_should_recognize_literals_and_names_1 : follows [(TLiteral (s_of "for")); (TWhitespace (s_of " ")); (TName (s_of "var")); (TWhitespace (s_of " ")); (TLiteral (s_of "in")); (TWhitespace (s_of " ")); (TLiteral (s_of "one")); (TWhitespace (s_of " ")); (TLiteral (s_of "two")); (TWhitespace (s_of " ")); (TLiteral (s_of "three")); (TWhitespace (s_of " ")); TNewline; (TLiteral (s_of "do")); (TWhitespace (s_of " ")); (TLiteral (s_of "echo")); (TWhitespace (s_of " ")); TDollar; (TName (s_of "var")); TNewline; (TLiteral (s_of "done"))] [StepOk AForCommand].
Proof. vm_compute. repeat split. Qed.
Example ast_for_command_should_recognize_literals_and_names_2 : follows [(TLiteral (s_of "for")); (TWhitespace (s_of " ")); (TName (s_of "var")); (TWhitespace (s_of " ")); (TName (s_of "in")); (TWhitespace (s_of " ")); (TLiteral (s_of "one")); (TWhitespace (s_of " ")); (TLiteral (s_of "two")); (TWhitespace (s_of " ")); (TLiteral (s_of "three")); (TWhitespace (s_of " ")); TNewline; (TLiteral (s_of "do")); (TWhitespace (s_of " ")); (TLiteral (s_of "echo")); (TWhitespace (s_of " ")); TDollar; (TName (s_of "var")); TNewline; (TLiteral (s_of "done"))] [StepOk AForCommand].
Proof. vm_compute. repeat split. Qed.
Example ast_for_command_should_recognize_literals_and_names_3 : follows [(TName (s_of "for")); (TWhitespace (s_of " ")); (TName (s_of "var")); (TWhitespace (s_of " ")); (TLiteral (s_of "in")); (TWhitespace (s_of " ")); (TLiteral (s_of "one")); (TWhitespace (s_of " ")); (TLiteral (s_of "two")); (TWhitespace (s_of " ")); (TLiteral (s_of "three")); (TWhitespace (s_of " ")); TNewline; (TLiteral (s_of "do")); (TWhitespace (s_of " ")); (TLiteral (s_of "echo")); (TWhitespace (s_of " ")); TDollar; (TName (s_of "var")); TNewline; (TLiteral (s_of "done"))] [StepOk AForCommand].
Proof. vm_compute. repeat split. Qed.
Example ast_for_command_should_recognize_literals_and_names_4 : follows [(TName (s_of "for")); (TWhitespace (s_of " ")); (TName (s_of "var")); (TWhitespace (s_of " ")); (TName (s_of "in")); (TWhitespace (s_of " ")); (TLiteral (s_of "one")); (TWhitespace (s_of " ")); (TLiteral (s_of "two")); (TWhitespace (s_of " ")); (TLiteral (s_of "three")); (TWhitespace (s_of " ")); TNewline; (TLiteral (s_of "do")); (TWhitespace (s_of " ")); (TLiteral (s_of "echo")); (TWhitespace (s_of " ")); TDollar; (TName (s_of "var")); TNewline; (TLiteral (s_of "done"))] [StepOk AForCommand].
Proof. vm_compute. repeat split. Qed.
Example ast_function_declaration_valid_1 : follows (@lex ascii_uni (s_of "function foo()      { echo body; }")) [Step AFunction (Some (OOk (PFunctionDef (s_of "foo") (mkCC (CBrace [(TLCmd (CList (mkAOL (LSingle (PSimple (mkSC [] [(DCmdWord (TLWord (WSingle (WSimple (WLiteral (s_of "echo")))))); (DCmdWord (TLWord (WSingle (WSimple (WLiteral (s_of "body"))))))]))) [])))]) []))))].
Proof. vm_compute. repeat split. Qed.
Example ast_function_declaration_valid_2 : follows (@lex ascii_uni (s_of "function foo ()     { echo body; }")) [Step AFunction (Some (OOk (PFunctionDef (s_of "foo") (mkCC (CBrace [(TLCmd (CList (mkAOL (LSingle (PSimple (mkSC [] [(DCmdWord (TLWord (WSingle (WSimple (WLiteral (s_of "echo")))))); (DCmdWord (TLWord (WSingle (WSimple (WLiteral (s_of "body"))))))]))) [])))]) []))))].
Proof. vm_compute. repeat split. Qed.
Example ast_function_declaration_valid_3 : follows (@lex ascii_uni (s_of "function foo (    ) { echo body; }")) [Step AFunction (Some (OOk (PFunctionDef (s_of "foo") (mkCC (CBrace [(TLCmd (CList (mkAOL (LSingle (PSimple (mkSC [] [(DCmdWord (TLWord (WSingle (WSimple (WLiteral (s_of "echo")))))); (DCmdWord (TLWord (WSingle (WSimple (WLiteral (s_of "body"))))))]))) [])))]) []))))].
Proof. vm_compute. repeat split. Qed.
Example ast_function_declaration_valid_4 : follows (@lex ascii_uni (s_of "function foo(    )  { echo body; }")) [Step AFunction (Some (OOk (PFunctionDef (s_of "foo") (mkCC (CBrace [(TLCmd (CList (mkAOL (LSingle (PSimple (mkSC [] [(DCmdWord (TLWord (WSingle (WSimple (WLiteral (s_of "echo")))))); (DCmdWord (TLWord (WSingle (WSimple (WLiteral (s_of "body"))))))]))) [])))]) []))))].
Proof. vm_compute. repeat split. Qed.
Example ast_function_declaration_valid_5 : follows (@lex ascii_uni (s_of "function foo        { echo body; }")) [Step AFunction (Some (OOk (PFunctionDef (s_of "foo") (mkCC (CBrace [(TLCmd (CList (mkAOL (LSingle (PSimple (mkSC [] [(DCmdWord (TLWord (WSingle (WSimple (WLiteral (s_of "echo")))))); (DCmdWord (TLWord (WSingle (WSimple (WLiteral (s_of "body"))))))]))) [])))]) []))))].
Proof. vm_compute. repeat split. Qed.
Example ast_function_declaration_valid_6 : follows (@lex ascii_uni (s_of "foo()               { echo body; }")) [Step AFunction (Some (OOk (PFunctionDef (s_of "foo") (mkCC (CBrace [(TLCmd (CList (mkAOL (LSingle (PSimple (mkSC [] [(DCmdWord (TLWord (WSingle (WSimple (WLiteral (s_of "echo")))))); (DCmdWord (TLWord (WSingle (WSimple (WLiteral (s_of "body"))))))]))) [])))]) []))))].
Proof. vm_compute. repeat split. Qed.
Example ast_function_declaration_valid_7 : follows (@lex ascii_uni (s_of "foo ()              { echo body; }")) [Step AFunction (Some (OOk (PFunctionDef (s_of "foo") (mkCC (CBrace [(TLCmd (CList (mkAOL (LSingle (PSimple (mkSC [] [(DCmdWord (TLWord (WSingle (WSimple (WLiteral (s_of "echo")))))); (DCmdWord (TLWord (WSingle (WSimple (WLiteral (s_of "body"))))))]))) [])))]) []))))].
Proof. vm_compute. repeat split. Qed.
Example ast_function_declaration_valid_8 : follows (@lex ascii_uni (s_of "foo (    )          { echo body; }")) [Step AFunction (Some (OOk (PFunctionDef (s_of "foo") (mkCC (CBrace [(TLCmd (CList (mkAOL (LSingle (PSimple (mkSC [] [(DCmdWord (TLWord (WSingle (WSimple (WLiteral (s_of "echo")))))); (DCmdWord (TLWord (WSingle (WSimple (WLiteral (s_of "body"))))))]))) [])))]) []))))].
Proof. vm_compute. repeat split. Qed.
Example ast_function_declaration_valid_9 : follows (@lex ascii_uni (s_of "foo(    )           { echo body; }")) [Step AFunction (Some (OOk (PFunctionDef (s_of "foo") (mkCC (CBrace [(TLCmd (CList (mkAOL (LSingle (PSimple (mkSC [] [(DCmdWord (TLWord (WSingle (WSimple (WLiteral (s_of "echo")))))); (DCmdWord (TLWord (WSingle (WSimple (WLiteral (s_of "body"))))))]))) [])))]) []))))].
Proof. vm_compute. repeat split. Qed.
Example ast_function_declaration_valid_10 : follows (@lex ascii_uni [102;117;110;99;116;105;111;110;32;102;111;111;40;41;32;32;32;32;32;10;123;32;101;99;104;111;32;98;111;100;121;59;32;125]%N) [Step AFunction (Some (OOk (PFunctionDef (s_of "foo") (mkCC (CBrace [(TLCmd (CList (mkAOL (LSingle (PSimple (mkSC [] [(DCmdWord (TLWord (WSingle (WSimple (WLiteral (s_of "echo")))))); (DCmdWord (TLWord (WSingle (WSimple (WLiteral (s_of "body"))))))]))) [])))]) []))))].
Proof. vm_compute. repeat split. Qed.
Example ast_function_declaration_valid_11 : follows (@lex ascii_uni [102;117;110;99;116;105;111;110;32;102;111;111;32;40;41;32;32;32;32;10;123;32;101;99;104;111;32;98;111;100;121;59;32;125]%N) [Step AFunction (Some (OOk (PFunctionDef (s_of "foo") (mkCC (CBrace [(TLCmd (CList (mkAOL (LSingle (PSimple (mkSC [] [(DCmdWord (TLWord (WSingle (WSimple (WLiteral (s_of "echo")))))); (DCmdWord (TLWord (WSingle (WSimple (WLiteral (s_of "body"))))))]))) [])))]) []))))].
Proof. vm_compute. repeat split. Qed.
Example ast_function_declaration_valid_12 : follows (@lex ascii_uni [102;117;110;99;116;105;111;110;32;102;111;111;32;40;32;32;32;32;41;10;123;32;101;99;104;111;32;98;111;100;121;59;32;125]%N) [Step AFunction (Some (OOk (PFunctionDef (s_of "foo") (mkCC (CBrace [(TLCmd (CList (mkAOL (LSingle (PSimple (mkSC [] [(DCmdWord (TLWord (WSingle (WSimple (WLiteral (s_of "echo")))))); (DCmdWord (TLWord (WSingle (WSimple (WLiteral (s_of "body"))))))]))) [])))]) []))))].
Proof. vm_compute. repeat split. Qed.
Example ast_function_declaration_valid_13 : follows (@lex ascii_uni [102;117;110;99;116;105;111;110;32;102;111;111;40;32;32;32;32;41;32;10;123;32;101;99;104;111;32;98;111;100;121;59;32;125]%N) [Step AFunction (Some (OOk (PFunctionDef (s_of "foo") (mkCC (CBrace [(TLCmd (CList (mkAOL (LSingle (PSimple (mkSC [] [(DCmdWord (TLWord (WSingle (WSimple (WLiteral (s_of "echo")))))); (DCmdWord (TLWord (WSingle (WSimple (WLiteral (s_of "body"))))))]))) [])))]) []))))].
Proof. vm_compute. repeat split. Qed.
Example ast_function_declaration_valid_14 : follows (@lex ascii_uni [102;117;110;99;116;105;111;110;32;102;111;111;32;32;32;32;32;32;32;10;123;32;101;99;104;111;32;98;111;100;121;59;32;125]%N) [Step AFunction (Some (OOk (PFunctionDef (s_of "foo") (mkCC (CBrace [(TLCmd (CList (mkAOL (LSingle (PSimple (mkSC [] [(DCmdWord (TLWord (WSingle (WSimple (WLiteral (s_of "echo")))))); (DCmdWord (TLWord (WSingle (WSimple (WLiteral (s_of "body"))))))]))) [])))]) []))))].
Proof. vm_compute. repeat split. Qed.
Example ast_function_declaration_valid_15 : follows (@lex ascii_uni [102;111;111;40;41;32;32;32;32;32;32;32;32;32;32;32;32;32;32;10;123;32;101;99;104;111;32;98;111;100;121;59;32;125]%N) [Step AFunction (Some (OOk (PFunctionDef (s_of "foo") (mkCC (CBrace [(TLCmd (CList (mkAOL (LSingle (PSimple (mkSC [] [(DCmdWord (TLWord (WSingle (WSimple (WLiteral (s_of "echo")))))); (DCmdWord (TLWord (WSingle (WSimple (WLiteral (s_of "body"))))))]))) [])))]) []))))].
Proof. vm_compute. repeat split. Qed.
Example ast_function_declaration_valid_16 : follows (@lex ascii_uni [102;111;111;32;40;41;32;32;32;32;32;32;32;32;32;32;32;32;32;10;123;32;101;99;104;111;32;98;111;100;121;59;32;125]%N) [Step AFunction (Some (OOk (PFunctionDef (s_of "foo") (mkCC (CBrace [(TLCmd (CList (mkAOL (LSingle (PSimple (mkSC [] [(DCmdWord (TLWord (WSingle (WSimple (WLiteral (s_of "echo")))))); (DCmdWord (TLWord (WSingle (WSimple (WLiteral (s_of "body"))))))]))) [])))]) []))))].
Proof. vm_compute. repeat split. Qed.
Example ast_function_declaration_valid_17 : follows (@lex ascii_uni [102;111;111;32;40;32;32;32;32;41;32;32;32;32;32;32;32;32;32;10;123;32;101;99;104;111;32;98;111;100;121;59;32;125]%N) [Step AFunction (Some (OOk (PFunctionDef (s_of "foo") (mkCC (CBrace [(TLCmd (CList (mkAOL (LSingle (PSimple (mkSC [] [(DCmdWord (TLWord (WSingle (WSimple (WLiteral (s_of "echo")))))); (DCmdWord (TLWord (WSingle (WSimple (WLiteral (s_of "body"))))))]))) [])))]) []))))].
Proof. vm_compute. repeat split. Qed.
Example ast_function_declaration_valid_18 : follows (@lex ascii_uni [102;111;111;40;32;32;32;32;41;32;32;32;32;32;32;32;32;32;32;10;123;32;101;99;104;111;32;98;111;100;121;59;32;125]%N) [Step AFunction (Some (OOk (PFunctionDef (s_of "foo") (mkCC (CBrace [(TLCmd (CList (mkAOL (LSingle (PSimple (mkSC [] [(DCmdWord (TLWord (WSingle (WSimple (WLiteral (s_of "echo")))))); (DCmdWord (TLWord (WSingle (WSimple (WLiteral (s_of "body"))))))]))) [])))]) []))))].
Proof. vm_compute. repeat split. Qed.
Example ast_function_declaration_valid_body_need_not_be_a_compound_command_1 : follows (@lex ascii_uni (s_of "function foo()      echo body;")) [Step AFunction (Some (OErr (Unexpected (TName (s_of "echo")) (mkPos 20 1 21))))].
Proof. vm_compute. repeat split. Qed.
Example ast_function_declaration_valid_body_need_not_be_a_compound_command_2 : follows (@lex ascii_uni (s_of "function foo ()     echo body;")) [Step AFunction (Some (OErr (Unexpected (TName (s_of "echo")) (mkPos 20 1 21))))].
Proof. vm_compute. repeat split. Qed.
Example ast_function_declaration_valid_body_need_not_be_a_compound_command_3 : follows (@lex ascii_uni (s_of "function foo (    ) echo body;")) [Step AFunction (Some (OErr (Unexpected (TName (s_of "echo")) (mkPos 20 1 21))))].
Proof. vm_compute. repeat split. Qed.
Example ast_function_declaration_valid_body_need_not_be_a_compound_command_4 : follows (@lex ascii_uni (s_of "function foo(    )  echo body;")) [Step AFunction (Some (OErr (Unexpected (TName (s_of "echo")) (mkPos 20 1 21))))].
Proof. vm_compute. repeat split. Qed.
Example ast_function_declaration_valid_body_need_not_be_a_compound_command_5 : follows (@lex ascii_uni (s_of "function foo        echo body;")) [Step AFunction (Some (OErr (Unexpected (TName (s_of "echo")) (mkPos 20 1 21))))].
Proof. vm_compute. repeat split. Qed.
Example ast_function_declaration_valid_body_need_not_be_a_compound_command_6 : follows (@lex ascii_uni (s_of "foo()               echo body;")) [Step AFunction (Some (OErr (Unexpected (TName (s_of "echo")) (mkPos 20 1 21))))].
Proof. vm_compute. repeat split. Qed.
Example ast_function_declaration_valid_body_need_not_be_a_compound_command_7 : follows (@lex ascii_uni (s_of "foo ()              echo body;")) [Step AFunction (Some (OErr (Unexpected (TName (s_of "echo")) (mkPos 20 1 21))))].
Proof. vm_compute. repeat split. Qed.
Example ast_function_declaration_valid_body_need_not_be_a_compound_command_8 : follows (@lex ascii_uni (s_of "foo (    )          echo body;")) [Step AFunction (Some (OErr (Unexpected (TName (s_of "echo")) (mkPos 20 1 21))))].
Proof. vm_compute. repeat split. Qed.
Example ast_function_declaration_valid_body_need_not_be_a_compound_command_9 : follows (@lex ascii_uni (s_of "foo(    )           echo body;")) [Step AFunction (Some (OErr (Unexpected (TName (s_of "echo")) (mkPos 20 1 21))))].
Proof. vm_compute. repeat split. Qed.
Example ast_function_declaration_valid_body_need_not_be_a_compound_command_10 : follows (@lex ascii_uni [102;117;110;99;116;105;111;110;32;102;111;111;40;41;32;32;32;32;32;10;101;99;104;111;32;98;111;100;121;59]%N) [Step AFunction (Some (OErr (Unexpected (TName (s_of "echo")) (mkPos 20 2 1))))].
Proof. vm_compute. repeat split. Qed.
Example ast_function_declaration_valid_body_need_not_be_a_compound_command_11 : follows (@lex ascii_uni [102;117;110;99;116;105;111;110;32;102;111;111;32;40;41;32;32;32;32;10;101;99;104;111;32;98;111;100;121;59]%N) [Step AFunction (Some (OErr (Unexpected (TName (s_of "echo")) (mkPos 20 2 1))))].
Proof. vm_compute. repeat split. Qed.
Example ast_function_declaration_valid_body_need_not_be_a_compound_command_12 : follows (@lex ascii_uni [102;117;110;99;116;105;111;110;32;102;111;111;32;40;32;32;32;32;41;10;101;99;104;111;32;98;111;100;121;59]%N) [Step AFunction (Some (OErr (Unexpected (TName (s_of "echo")) (mkPos 20 2 1))))].
Proof. vm_compute. repeat split. Qed.
Example ast_function_declaration_valid_body_need_not_be_a_compound_command_13 : follows (@lex ascii_uni [102;117;110;99;116;105;111;110;32;102;111;111;40;32;32;32;32;41;32;10;101;99;104;111;32;98;111;100;121;59]%N) [Step AFunction (Some (OErr (Unexpected (TName (s_of "echo")) (mkPos 20 2 1))))].
Proof. vm_compute. repeat split. Qed.
Example ast_function_declaration_valid_body_need_not_be_a_compound_command_14 : follows (@lex ascii_uni [102;117;110;99;116;105;111;110;32;102;111;111;32;32;32;32;32;32;32;10;101;99;104;111;32;98;111;100;121;59]%N) [Step AFunction (Some (OErr (Unexpected (TName (s_of "echo")) (mkPos 20 2 1))))].
Proof. vm_compute. repeat split. Qed.
Example ast_function_declaration_valid_body_need_not_be_a_compound_command_15 : follows (@lex ascii_uni [102;111;111;40;41;32;32;32;32;32;32;32;32;32;32;32;32;32;32;10;101;99;104;111;32;98;111;100;121;59]%N) [Step AFunction (Some (OErr (Unexpected (TName (s_of "echo")) (mkPos 20 2 1))))].
Proof. vm_compute. repeat split. Qed.
Example ast_function_declaration_valid_body_need_not_be_a_compound_command_16 : follows (@lex ascii_uni [102;111;111;32;40;41;32;32;32;32;32;32;32;32;32;32;32;32;32;10;101;99;104;111;32;98;111;100;121;59]%N) [Step AFunction (Some (OErr (Unexpected (TName (s_of "echo")) (mkPos 20 2 1))))].
Proof. vm_compute. repeat split. Qed.
Example ast_function_declaration_valid_body_need_not_be_a_compound_command_17 : follows (@lex ascii_uni [102;111;111;32;40;32;32;32;32;41;32;32;32;32;32;32;32;32;32;10;101;99;104;111;32;98;111;100;121;59]%N) [Step AFunction (Some (OErr (Unexpected (TName (s_of "echo")) (mkPos 20 2 1))))].
Proof. vm_compute. repeat split. Qed.
Example ast_function_declaration_valid_body_need_not_be_a_compound_command_18 : follows (@lex ascii_uni [102;111;111;40;32;32;32;32;41;32;32;32;32;32;32;32;32;32;32;10;101;99;104;111;32;98;111;100;121;59]%N) [Step AFunction (Some (OErr (Unexpected (TName (s_of "echo")) (mkPos 20 2 1))))].
Proof. vm_compute. repeat split. Qed.
Example ast_function_declaration_parens_can_be_subshell_if_function_keyword_present_1 : follows (@lex ascii_uni (s_of "function foo (echo subshell)")) [Step AFunction (Some (OOk (PFunctionDef (s_of "foo") (mkCC (CSubshell [(TLCmd (CList (mkAOL (LSingle (PSimple (mkSC [] [(DCmdWord (TLWord (WSingle (WSimple (WLiteral (s_of "echo")))))); (DCmdWord (TLWord (WSingle (WSimple (WLiteral (s_of "subshell"))))))]))) [])))]) []))))].
Proof. vm_compute. repeat split. Qed.
Example ast_function_declaration_parens_can_be_subshell_if_function_keyword_present_2 : follows (@lex ascii_uni (s_of "function foo() (echo subshell)")) [Step AFunction (Some (OOk (PFunctionDef (s_of "foo") (mkCC (CSubshell [(TLCmd (CList (mkAOL (LSingle (PSimple (mkSC [] [(DCmdWord (TLWord (WSingle (WSimple (WLiteral (s_of "echo")))))); (DCmdWord (TLWord (WSingle (WSimple (WLiteral (s_of "subshell"))))))]))) [])))]) []))))].
Proof. vm_compute. repeat split. Qed.
Example ast_function_declaration_parens_can_be_subshell_if_function_keyword_present_3 : follows (@lex ascii_uni (s_of "function foo () (echo subshell)")) [Step AFunction (Some (OOk (PFunctionDef (s_of "foo") (mkCC (CSubshell [(TLCmd (CList (mkAOL (LSingle (PSimple (mkSC [] [(DCmdWord (TLWord (WSingle (WSimple (WLiteral (s_of "echo")))))); (DCmdWord (TLWord (WSingle (WSimple (WLiteral (s_of "subshell"))))))]))) [])))]) []))))].
Proof. vm_compute. repeat split. Qed.
Example ast_function_declaration_parens_can_be_subshell_if_function_keyword_present_4 : follows (@lex ascii_uni [102;117;110;99;116;105;111;110;32;102;111;111;10;40;101;99;104;111;32;115;117;98;115;104;101;108;108;41]%N) [Step AFunction (Some (OOk (PFunctionDef (s_of "foo") (mkCC (CSubshell [(TLCmd (CList (mkAOL (LSingle (PSimple (mkSC [] [(DCmdWord (TLWord (WSingle (WSimple (WLiteral (s_of "echo")))))); (DCmdWord (TLWord (WSingle (WSimple (WLiteral (s_of "subshell"))))))]))) [])))]) []))))].
Proof. vm_compute. repeat split. Qed.
Example ast_function_declaration_invalid_newline_in_declaration_1 : follows (@lex ascii_uni [102;117;110;99;116;105;111;110;10;110;97;109;101;40;41;32;123;32;101;99;104;111;32;98;111;100;121;59;32;125]%N) [Step AFunction (Some (OErr (Unexpected TNewline (mkPos 8 1 9))))].
Proof. vm_compute. repeat split. Qed.
Example ast_function_declaration_invalid_newline_in_declaration_2 : follows (@lex ascii_uni [102;117;110;99;116;105;111;110;32;110;97;109;101;10;40;41;32;123;32;101;99;104;111;32;98;111;100;121;59;32;125]%N) [Step AFunction (Some (OErr (Unexpected TParenClose (mkPos 15 2 2))))].
Proof. vm_compute. repeat split. Qed.
Example ast_function_declaration_invalid_missing_space_after_fn_keyword_and_no_parens_1 : follows (@lex ascii_uni (s_of "functionname { echo body; }")) [Step AFunction (Some (OErr (Unexpected TCurlyOpen (mkPos 13 1 14))))].
Proof. vm_compute. repeat split. Qed.
Example ast_function_declaration_invalid_missing_fn_keyword_and_parens_1 : follows (@lex ascii_uni (s_of "name { echo body; }")) [Step AFunction (Some (OErr (Unexpected TCurlyOpen (mkPos 5 1 6))))].
Proof. vm_compute. repeat split. Qed.
Example ast_function_declaration_invalid_missing_space_after_name_no_parens_1 : follows (@lex ascii_uni (s_of "function name{ echo body; }")) [Step AFunction (Some (OErr (Unexpected TCurlyOpen (mkPos 13 1 14))))].
Proof. vm_compute. repeat split. Qed.
Example ast_function_declaration_invalid_missing_space_after_name_no_parens_2 : follows (@lex ascii_uni (s_of "function name( echo body; )")) [Step AFunction (Some (OErr (Unexpected (TName (s_of "echo")) (mkPos 15 1 16))))].
Proof. vm_compute. repeat split. Qed.
Example ast_function_declaration_invalid_missing_name_1 : follows (@lex ascii_uni (s_of "function { echo body; }")) [Step AFunction (Some (OErr (Unexpected TCurlyOpen (mkPos 9 1 10))))].
Proof. vm_compute. repeat split. Qed.
Example ast_function_declaration_invalid_missing_name_2 : follows (@lex ascii_uni (s_of "function () { echo body; }")) [Step AFunction (Some (OErr (Unexpected TParenOpen (mkPos 9 1 10))))].
Proof. vm_compute. repeat split. Qed.
Example ast_function_declaration_invalid_missing_name_3 : follows (@lex ascii_uni (s_of "() { echo body; }")) [Step AFunction (Some (OErr (Unexpected TParenOpen (mkPos 0 1 1))))].
Proof. vm_compute. repeat split. Qed.
Example ast_function_declaration_invalid_missing_body_1 : follows (@lex ascii_uni (s_of "function name")) [Step AFunction (Some (OErr UnexpectedEOF))].
Proof. vm_compute. repeat split. Qed.
Example ast_function_declaration_invalid_missing_body_2 : follows (@lex ascii_uni (s_of "function name()")) [Step AFunction (Some (OErr UnexpectedEOF))].
Proof. vm_compute. repeat split. Qed.
Example ast_function_declaration_invalid_missing_body_3 : follows (@lex ascii_uni (s_of "name()")) [Step AFunction (Some (OErr UnexpectedEOF))].
Proof. vm_compute. repeat split. Qed.
Example ast_function_declaration_invalid_quoted_1 : follows (@lex ascii_uni (s_of "'function' name { echo body; }")) [Step AFunction (Some (OErr (Unexpected TSingleQuote (mkPos 0 1 1))))].
Proof. vm_compute. repeat split. Qed.
Example ast_function_declaration_invalid_quoted_2 : follows (@lex ascii_uni (s_of "function 'name'() { echo body; }")) [Step AFunction (Some (OErr (Unexpected TSingleQuote (mkPos 9 1 10))))].
Proof. vm_compute. repeat split. Qed.
Example ast_function_declaration_invalid_quoted_3 : follows (@lex ascii_uni (s_of "name'()' { echo body; }")) [Step AFunction (Some (OErr (Unexpected TSingleQuote (mkPos 4 1 5))))].
Proof. vm_compute. repeat split. Qed.
Example ast_function_declaration_invalid_quoted_4 : follows (@lex ascii_uni (s_of """function"" name { echo body; }")) [Step AFunction (Some (OErr (Unexpected TDoubleQuote (mkPos 0 1 1))))].
Proof. vm_compute. repeat split. Qed.
Example ast_function_declaration_invalid_quoted_5 : follows (@lex ascii_uni (s_of "function ""name""() { echo body; }")) [Step AFunction (Some (OErr (Unexpected TDoubleQuote (mkPos 9 1 10))))].
Proof. vm_compute. repeat split. Qed.
Example ast_function_declaration_invalid_quoted_6 : follows (@lex ascii_uni (s_of "name""()"" { echo body; }")) [Step AFunction (Some (OErr (Unexpected TDoubleQuote (mkPos 4 1 5))))].
Proof. vm_compute. repeat split. Qed.
Example ast_function_declaration_invalid_fn_must_be_name_1 : follows (@lex ascii_uni (s_of "function 123fn { echo body; }")) [Step AFunction (Some (OErr (BadIdent (s_of "123fn") (mkPos 9 1 10))))].
Proof. vm_compute. repeat split. Qed.
Example ast_function_declaration_invalid_fn_must_be_name_2 : follows (@lex ascii_uni (s_of "function 123fn() { echo body; }")) [Step AFunction (Some (OErr (BadIdent (s_of "123fn") (mkPos 9 1 10))))].
Proof. vm_compute. repeat split. Qed.
Example ast_function_declaration_invalid_fn_must_be_name_3 : follows (@lex ascii_uni (s_of "123fn() { echo body; }")) [Step AFunction (Some (OErr (BadIdent (s_of "123fn") (mkPos 0 1 1))))].
Proof. vm_compute. repeat split. Qed.
Example ast_function_declaration_invalid_fn_name_must_be_name_token_1 : follows [(TLiteral (s_of "function")); (TWhitespace (s_of " ")); (TLiteral (s_of "fn_name")); (TWhitespace (s_of " ")); TParenOpen; TParenClose; (TWhitespace (s_of " ")); TCurlyOpen; (TWhitespace (s_of " ")); (TLiteral (s_of "echo")); (TWhitespace (s_of " ")); (TLiteral (s_of "fn body")); TSemi; TCurlyClose] [Step AFunction (Some (OErr (BadIdent (s_of "fn_name") (mkPos 9 1 10))))].
Proof. vm_compute. repeat split. Qed.
Example ast_function_declaration_invalid_fn_name_must_be_name_token_2 : follows [(TLiteral (s_of "function")); (TWhitespace (s_of " ")); (TName (s_of "fn_name")); (TWhitespace (s_of " ")); TParenOpen; TParenClose; (TWhitespace (s_of " ")); TCurlyOpen; (TWhitespace (s_of " ")); (TLiteral (s_of "echo")); (TWhitespace (s_of " ")); (TLiteral (s_of "fn body")); TSemi; TCurlyClose] [StepOk AFunction].
Proof. vm_compute. repeat split. Qed.
Example ast_function_declaration_invalid_concat_1 : follows [(TLiteral (s_of "func")); (TLiteral (s_of "tion")); (TWhitespace (s_of " ")); (TName (s_of "fn_name")); (TWhitespace (s_of " ")); TParenOpen; TParenClose; (TWhitespace (s_of " ")); TCurlyOpen; (TLiteral (s_of "echo")); (TWhitespace (s_of " ")); (TLiteral (s_of "fn body")); TSemi; TCurlyClose] [Step AFunction (Some (OErr (BadIdent (s_of "func") (mkPos 0 1 1))))].
Proof. vm_compute. repeat split. Qed.
Example ast_function_declaration_should_recognize_literals_and_names_for_fn_keyword_1 : follows [(TLiteral (s_of "function")); (TWhitespace (s_of " ")); (TName (s_of "fn_name")); (TWhitespace (s_of " ")); TParenOpen; TParenClose; (TWhitespace (s_of " ")); TCurlyOpen; (TWhitespace (s_of " ")); (TLiteral (s_of "echo")); (TWhitespace (s_of " ")); (TLiteral (s_of "fn body")); TSemi; TCurlyClose] [StepOk AFunction].
Proof. vm_compute. repeat split. Qed.
Example ast_function_declaration_should_recognize_literals_and_names_for_fn_keyword_2 : follows [(TName (s_of "function")); (TWhitespace (s_of " ")); (TName (s_of "fn_name")); (TWhitespace (s_of " ")); TParenOpen; TParenClose; (TWhitespace (s_of " ")); TCurlyOpen; (TWhitespace (s_of " ")); (TLiteral (s_of "echo")); (TWhitespace (s_of " ")); (TLiteral (s_of "fn body")); TSemi; TCurlyClose] [StepOk AFunction].
Proof. vm_compute. repeat split. Qed.
Example ast_heredoc_valid_1 : follows (@lex ascii_uni [99;97;116;32;60;60;101;111;102;10;104;101;108;108;111;10;101;111;102;10]%N) [Step ACompleteCommand (Some (OOk (Some (TLCmd (CList (mkAOL (LSingle (PSimple (mkSC [] [(DCmdWord (TLWord (WSingle (WSimple (WLiteral (s_of "cat")))))); (DRedirect (RHeredoc None (TLWord (WSingle (WSimple (WLiteral [104;101;108;108;111;10]%N))))))]))) []))))))].
Proof. vm_compute. repeat split. Qed.
Example ast_heredoc_valid_eof_after_delimiter_allowed_1 : follows (@lex ascii_uni [99;97;116;32;60;60;101;111;102;10;104;101;108;108;111;10;101;111;102]%N) [Step ACompleteCommand (Some (OOk (Some (TLCmd (CList (mkAOL (LSingle (PSimple (mkSC [] [(DCmdWord (TLWord (WSingle (WSimple (WLiteral (s_of "cat")))))); (DRedirect (RHeredoc None (TLWord (WSingle (WSimple (WLiteral [104;101;108;108;111;10]%N))))))]))) []))))))].
Proof. vm_compute. repeat split. Qed.
Example ast_heredoc_valid_with_empty_body_1 : follows (@lex ascii_uni [99;97;116;32;60;60;101;111;102;10;101;111;102]%N) [Step ACompleteCommand (Some (OOk (Some (TLCmd (CList (mkAOL (LSingle (PSimple (mkSC [] [(DCmdWord (TLWord (WSingle (WSimple (WLiteral (s_of "cat")))))); (DRedirect (RHeredoc None (TLWord (WSingle (WSimple (WLiteral (s_of "")))))))]))) []))))))].
Proof. vm_compute. repeat split. Qed.
Example ast_heredoc_valid_with_empty_body_2 : follows (@lex ascii_uni [99;97;116;32;60;60;101;111;102;10]%N) [Step ACompleteCommand (Some (OOk (Some (TLCmd (CList (mkAOL (LSingle (PSimple (mkSC [] [(DCmdWord (TLWord (WSingle (WSimple (WLiteral (s_of "cat")))))); (DRedirect (RHeredoc None (TLWord (WSingle (WSimple (WLiteral (s_of "")))))))]))) []))))))].
Proof. vm_compute. repeat split. Qed.
Example ast_heredoc_valid_with_empty_body_3 : follows (@lex ascii_uni (s_of "cat <<eof")) [Step ACompleteCommand (Some (OOk (Some (TLCmd (CList (mkAOL (LSingle (PSimple (mkSC [] [(DCmdWord (TLWord (WSingle (WSimple (WLiteral (s_of "cat")))))); (DRedirect (RHeredoc None (TLWord (WSingle (WSimple (WLiteral (s_of "")))))))]))) []))))))].
Proof. vm_compute. repeat split. Qed.
Example ast_heredoc_valid_eof_acceptable_as_delimeter_1 : follows (@lex ascii_uni [99;97;116;32;60;60;101;111;102;10;104;101;108;108;111;10;101;111;102]%N) [Step ACompleteCommand (Some (OOk (Some (TLCmd (CList (mkAOL (LSingle (PSimple (mkSC [] [(DCmdWord (TLWord (WSingle (WSimple (WLiteral (s_of "cat")))))); (DRedirect (RHeredoc None (TLWord (WSingle (WSimple (WLiteral [104;101;108;108;111;10]%N))))))]))) []))))))].
Proof. vm_compute. repeat split. Qed.
Example ast_heredoc_valid_does_not_lose_tokens_up_to_next_newline_1 : follows (@lex ascii_uni [99;97;116;32;60;60;101;111;102;49;59;32;99;97;116;32;51;60;60;101;111;102;50;10;104;101;108;108;111;10;101;111;102;49;10;119;111;114;108;100;10;101;111;102;50]%N) [Step ACompleteCommand (Some (OOk (Some (TLCmd (CList (mkAOL (LSingle (PSimple (mkSC [] [(DCmdWord (TLWord (WSingle (WSimple (WLiteral (s_of "cat")))))); (DRedirect (RHeredoc None (TLWord (WSingle (WSimple (WLiteral [104;101;108;108;111;10]%N))))))]))) [])))))); Step ACompleteCommand (Some (OOk (Some (TLCmd (CList (mkAOL (LSingle (PSimple (mkSC [] [(DCmdWord (TLWord (WSingle (WSimple (WLiteral (s_of "cat")))))); (DRedirect (RHeredoc (Some 3%N) (TLWord (WSingle (WSimple (WLiteral [119;111;114;108;100;10]%N))))))]))) []))))))].
Proof. vm_compute. repeat split. Qed.
Example ast_heredoc_valid_space_before_delimeter_allowed_1 : follows (@lex ascii_uni [99;97;116;32;60;60;32;32;32;101;111;102;49;59;32;99;97;116;32;51;60;60;45;32;101;111;102;50;10;104;101;108;108;111;10;101;111;102;49;10;119;111;114;108;100;10;101;111;102;50]%N) [Step ACompleteCommand (Some (OOk (Some (TLCmd (CList (mkAOL (LSingle (PSimple (mkSC [] [(DCmdWord (TLWord (WSingle (WSimple (WLiteral (s_of "cat")))))); (DRedirect (RHeredoc None (TLWord (WSingle (WSimple (WLiteral [104;101;108;108;111;10]%N))))))]))) [])))))); Step ACompleteCommand (Some (OOk (Some (TLCmd (CList (mkAOL (LSingle (PSimple (mkSC [] [(DCmdWord (TLWord (WSingle (WSimple (WLiteral (s_of "cat")))))); (DRedirect (RHeredoc (Some 3%N) (TLWord (WSingle (WSimple (WLiteral [119;111;114;108;100;10]%N))))))]))) []))))))].
Proof. vm_compute. repeat split. Qed.
Example ast_heredoc_valid_unquoted_delimeter_should_expand_body_1 : follows (@lex ascii_uni [99;97;116;32;60;60;101;111;102;10;36;36;32;36;123;35;33;125;32;96;102;111;111;96;10;101;111;102]%N) [Step ACompleteCommand (Some (OOk (Some (TLCmd (CList (mkAOL (LSingle (PSimple (mkSC [] [(DCmdWord (TLWord (WSingle (WSimple (WLiteral (s_of "cat")))))); (DRedirect (RHeredoc None (TLWord (WConcat [(WSimple (WParam PmDollar)); (WSimple (WLiteral (s_of " "))); (WSimple (WSubst (SLen PmBang))); (WSimple (WLiteral (s_of " "))); (WSimple (WSubst (SCommand [(TLCmd (CList (mkAOL (LSingle (PSimple (mkSC [] [(DCmdWord (TLWord (WSingle (WSimple (WLiteral (s_of "foo"))))))]))) [])))]))); (WSimple (WLiteral [10]%N))]))))]))) []))))))].
Proof. vm_compute. repeat split. Qed.
Example ast_heredoc_valid_unquoted_delimeter_should_expand_body_2 : follows (@lex ascii_uni [99;97;116;32;60;60;39;101;111;102;39;10;36;36;32;36;123;35;33;125;32;96;102;111;111;96;10;101;111;102]%N) [Step ACompleteCommand (Some (OOk (Some (TLCmd (CList (mkAOL (LSingle (PSimple (mkSC [] [(DCmdWord (TLWord (WSingle (WSimple (WLiteral (s_of "cat")))))); (DRedirect (RHeredoc None (TLWord (WSingle (WSimple (WLiteral [36;36;32;36;123;35;33;125;32;96;102;111;111;96;10]%N))))))]))) []))))))].
Proof. vm_compute. repeat split. Qed.
Example ast_heredoc_valid_unquoted_delimeter_should_expand_body_3 : follows (@lex ascii_uni [99;97;116;32;60;60;96;101;111;102;96;10;36;36;32;36;123;35;33;125;32;96;102;111;111;96;10;96;101;111;102;96]%N) [Step ACompleteCommand (Some (OOk (Some (TLCmd (CList (mkAOL (LSingle (PSimple (mkSC [] [(DCmdWord (TLWord (WSingle (WSimple (WLiteral (s_of "cat")))))); (DRedirect (RHeredoc None (TLWord (WSingle (WSimple (WLiteral [36;36;32;36;123;35;33;125;32;96;102;111;111;96;10]%N))))))]))) []))))))].
Proof. vm_compute. repeat split. Qed.
Example ast_heredoc_valid_unquoted_delimeter_should_expand_body_4 : follows (@lex ascii_uni [99;97;116;32;60;60;34;101;111;102;34;10;36;36;32;36;123;35;33;125;32;96;102;111;111;96;10;101;111;102]%N) [Step ACompleteCommand (Some (OOk (Some (TLCmd (CList (mkAOL (LSingle (PSimple (mkSC [] [(DCmdWord (TLWord (WSingle (WSimple (WLiteral (s_of "cat")))))); (DRedirect (RHeredoc None (TLWord (WSingle (WSimple (WLiteral [36;36;32;36;123;35;33;125;32;96;102;111;111;96;10]%N))))))]))) []))))))].
Proof. vm_compute. repeat split. Qed.
Example ast_heredoc_valid_unquoted_delimeter_should_expand_body_5 : follows (@lex ascii_uni [99;97;116;32;60;60;101;92;111;102;10;36;36;32;36;123;35;33;125;32;96;102;111;111;96;10;101;111;102]%N) [Step ACompleteCommand (Some (OOk (Some (TLCmd (CList (mkAOL (LSingle (PSimple (mkSC [] [(DCmdWord (TLWord (WSingle (WSimple (WLiteral (s_of "cat")))))); (DRedirect (RHeredoc None (TLWord (WSingle (WSimple (WLiteral [36;36;32;36;123;35;33;125;32;96;102;111;111;96;10]%N))))))]))) []))))))].
Proof. vm_compute. repeat split. Qed.
Example ast_heredoc_valid_leading_tab_removal_works_1 : follows (@lex ascii_uni [99;97;116;32;60;60;45;101;111;102;49;59;32;99;97;116;32;51;60;60;45;101;111;102;50;10;9;9;104;101;108;108;111;10;9;101;111;102;49;10;9;9;32;9;10;119;111;114;108;100;10;9;9;101;111;102;50]%N) [Step ACompleteCommand (Some (OOk (Some (TLCmd (CList (mkAOL (LSingle (PSimple (mkSC [] [(DCmdWord (TLWord (WSingle (WSimple (WLiteral (s_of "cat")))))); (DRedirect (RHeredoc None (TLWord (WSingle (WSimple (WLiteral [104;101;108;108;111;10]%N))))))]))) [])))))); Step ACompleteCommand (Some (OOk (Some (TLCmd (CList (mkAOL (LSingle (PSimple (mkSC [] [(DCmdWord (TLWord (WSingle (WSimple (WLiteral (s_of "cat")))))); (DRedirect (RHeredoc (Some 3%N) (TLWord (WSingle (WSimple (WLiteral [32;9;10;119;111;114;108;100;10]%N))))))]))) []))))))].
Proof. vm_compute. repeat split. Qed.
Example ast_heredoc_valid_leading_tab_removal_works_if_dash_immediately_after_dless_1 : follows (@lex ascii_uni [99;97;116;32;51;60;60;32;45;101;111;102;10;9;9;32;9;10;119;111;114;108;100;10;9;9;101;111;102;10;9;9;45;101;111;102;10;45;101;111;102]%N) [Step ACompleteCommand (Some (OOk (Some (TLCmd (CList (mkAOL (LSingle (PSimple (mkSC [] [(DCmdWord (TLWord (WSingle (WSimple (WLiteral (s_of "cat")))))); (DRedirect (RHeredoc (Some 3%N) (TLWord (WSingle (WSimple (WLiteral [9;9;32;9;10;119;111;114;108;100;10;9;9;101;111;102;10;9;9;45;101;111;102;10]%N))))))]))) []))))))].
Proof. vm_compute. repeat split. Qed.
Example ast_heredoc_valid_unquoted_backslashes_in_delimeter_disappear_1 : follows (@lex ascii_uni [99;97;116;32;60;60;101;92;32;102;92;102;10;104;101;108;108;111;10;101;32;102;102]%N) [Step ACompleteCommand (Some (OOk (Some (TLCmd (CList (mkAOL (LSingle (PSimple (mkSC [] [(DCmdWord (TLWord (WSingle (WSimple (WLiteral (s_of "cat")))))); (DRedirect (RHeredoc None (TLWord (WSingle (WSimple (WLiteral [104;101;108;108;111;10]%N))))))]))) []))))))].
Proof. vm_compute. repeat split. Qed.
Example ast_heredoc_valid_balanced_single_quotes_in_delimeter_1 : follows (@lex ascii_uni [99;97;116;32;60;60;101;39;111;39;102;10;104;101;108;108;111;10;101;111;102]%N) [Step ACompleteCommand (Some (OOk (Some (TLCmd (CList (mkAOL (LSingle (PSimple (mkSC [] [(DCmdWord (TLWord (WSingle (WSimple (WLiteral (s_of "cat")))))); (DRedirect (RHeredoc None (TLWord (WSingle (WSimple (WLiteral [104;101;108;108;111;10]%N))))))]))) []))))))].
Proof. vm_compute. repeat split. Qed.
Example ast_heredoc_valid_balanced_double_quotes_in_delimeter_1 : follows (@lex ascii_uni [99;97;116;32;60;60;101;34;92;111;36;123;102;111;111;125;34;102;10;104;101;108;108;111;10;101;92;111;36;123;102;111;111;125;102]%N) [Step ACompleteCommand (Some (OOk (Some (TLCmd (CList (mkAOL (LSingle (PSimple (mkSC [] [(DCmdWord (TLWord (WSingle (WSimple (WLiteral (s_of "cat")))))); (DRedirect (RHeredoc None (TLWord (WSingle (WSimple (WLiteral [104;101;108;108;111;10]%N))))))]))) []))))))].
Proof. vm_compute. repeat split. Qed.
Example ast_heredoc_valid_balanced_backticks_in_delimeter_1 : follows (@lex ascii_uni [99;97;116;32;60;60;101;96;92;111;92;36;92;96;92;92;36;123;102;125;96;10;104;101;108;108;111;10;101;96;92;111;36;96;92;36;123;102;125;96]%N) [Step ACompleteCommand (Some (OOk (Some (TLCmd (CList (mkAOL (LSingle (PSimple (mkSC [] [(DCmdWord (TLWord (WSingle (WSimple (WLiteral (s_of "cat")))))); (DRedirect (RHeredoc None (TLWord (WSingle (WSimple (WLiteral [104;101;108;108;111;10]%N))))))]))) []))))))].
Proof. vm_compute. repeat split. Qed.
Example ast_heredoc_valid_balanced_parens_in_delimeter_1 : follows (@lex ascii_uni [99;97;116;32;60;60;101;111;102;40;32;32;41;10;104;101;108;108;111;10;101;111;102;40;32;32;41]%N) [Step ACompleteCommand (Some (OOk (Some (TLCmd (CList (mkAOL (LSingle (PSimple (mkSC [] [(DCmdWord (TLWord (WSingle (WSimple (WLiteral (s_of "cat")))))); (DRedirect (RHeredoc None (TLWord (WSingle (WSimple (WLiteral [104;101;108;108;111;10]%N))))))]))) []))))))].
Proof. vm_compute. repeat split. Qed.
Example ast_heredoc_valid_cmd_subst_in_delimeter_1 : follows (@lex ascii_uni [99;97;116;32;60;60;101;111;102;36;40;32;32;41;10;104;101;108;108;111;10;101;111;102;36;40;32;32;41]%N) [Step ACompleteCommand (Some (OOk (Some (TLCmd (CList (mkAOL (LSingle (PSimple (mkSC [] [(DCmdWord (TLWord (WSingle (WSimple (WLiteral (s_of "cat")))))); (DRedirect (RHeredoc None (TLWord (WSingle (WSimple (WLiteral [104;101;108;108;111;10]%N))))))]))) []))))))].
Proof. vm_compute. repeat split. Qed.
Example ast_heredoc_valid_param_subst_in_delimeter_1 : follows (@lex ascii_uni [99;97;116;32;60;60;101;111;102;36;123;32;32;125;10;104;101;108;108;111;10;101;111;102;36;123;32;32;125]%N) [Step ACompleteCommand (Some (OOk (Some (TLCmd (CList (mkAOL (LSingle (PSimple (mkSC [] [(DCmdWord (TLWord (WSingle (WSimple (WLiteral (s_of "cat")))))); (DRedirect (RHeredoc None (TLWord (WSingle (WSimple (WLiteral [104;101;108;108;111;10]%N))))))]))) []))))))].
Proof. vm_compute. repeat split. Qed.
Example ast_heredoc_valid_skip_past_newlines_in_single_quotes_1 : follows (@lex ascii_uni [99;97;116;32;60;60;69;79;70;32;39;10;39;32;97;114;103;10;104;101;114;101;10;69;79;70]%N) [Step ACompleteCommand (Some (OOk (Some (TLCmd (CList (mkAOL (LSingle (PSimple (mkSC [] [(DCmdWord (TLWord (WSingle (WSimple (WLiteral (s_of "cat")))))); (DRedirect (RHeredoc None (TLWord (WSingle (WSimple (WLiteral [104;101;114;101;10]%N)))))); (DCmdWord (TLWord (WSingle (WSingleQuoted [10]%N)))); (DCmdWord (TLWord (WSingle (WSimple (WLiteral (s_of "arg"))))))]))) []))))))].
Proof. vm_compute. repeat split. Qed.
Example ast_heredoc_valid_skip_past_newlines_in_double_quotes_1 : follows (@lex ascii_uni [99;97;116;32;60;60;69;79;70;32;34;10;34;32;97;114;103;10;104;101;114;101;10;69;79;70]%N) [Step ACompleteCommand (Some (OOk (Some (TLCmd (CList (mkAOL (LSingle (PSimple (mkSC [] [(DCmdWord (TLWord (WSingle (WSimple (WLiteral (s_of "cat")))))); (DRedirect (RHeredoc None (TLWord (WSingle (WSimple (WLiteral [104;101;114;101;10]%N)))))); (DCmdWord (TLWord (WSingle (WDoubleQuoted [(WLiteral [10]%N)])))); (DCmdWord (TLWord (WSingle (WSimple (WLiteral (s_of "arg"))))))]))) []))))))].
Proof. vm_compute. repeat split. Qed.
Example ast_heredoc_valid_skip_past_newlines_in_backticks_1 : follows (@lex ascii_uni [99;97;116;32;60;60;69;79;70;32;96;101;99;104;111;32;10;96;32;97;114;103;10;104;101;114;101;10;69;79;70]%N) [Step ACompleteCommand (Some (OOk (Some (TLCmd (CList (mkAOL (LSingle (PSimple (mkSC [] [(DCmdWord (TLWord (WSingle (WSimple (WLiteral (s_of "cat")))))); (DRedirect (RHeredoc None (TLWord (WSingle (WSimple (WLiteral [104;101;114;101;10]%N)))))); (DCmdWord (TLWord (WSingle (WSimple (WSubst (SCommand [(TLCmd (CList (mkAOL (LSingle (PSimple (mkSC [] [(DCmdWord (TLWord (WSingle (WSimple (WLiteral (s_of "echo"))))))]))) [])))])))))); (DCmdWord (TLWord (WSingle (WSimple (WLiteral (s_of "arg"))))))]))) []))))))].
Proof. vm_compute. repeat split. Qed.
Example ast_heredoc_valid_skip_past_newlines_in_parens_1 : follows (@lex ascii_uni [99;97;116;32;60;60;69;79;70;59;32;40;102;111;111;10;41;59;32;97;114;103;10;104;101;114;101;10;69;79;70]%N) [Step ACompleteCommand (Some (OOk (Some (TLCmd (CList (mkAOL (LSingle (PSimple (mkSC [] [(DCmdWord (TLWord (WSingle (WSimple (WLiteral (s_of "cat")))))); (DRedirect (RHeredoc None (TLWord (WSingle (WSimple (WLiteral [104;101;114;101;10]%N))))))]))) []))))))].
Proof. vm_compute. repeat split. Qed.
Example ast_heredoc_valid_skip_past_newlines_in_cmd_subst_1 : follows (@lex ascii_uni [99;97;116;32;60;60;69;79;70;32;36;40;102;111;111;10;41;32;97;114;103;10;104;101;114;101;10;69;79;70]%N) [Step ACompleteCommand (Some (OOk (Some (TLCmd (CList (mkAOL (LSingle (PSimple (mkSC [] [(DCmdWord (TLWord (WSingle (WSimple (WLiteral (s_of "cat")))))); (DRedirect (RHeredoc None (TLWord (WSingle (WSimple (WLiteral [104;101;114;101;10]%N)))))); (DCmdWord (TLWord (WSingle (WSimple (WSubst (SCommand [(TLCmd (CList (mkAOL (LSingle (PSimple (mkSC [] [(DCmdWord (TLWord (WSingle (WSimple (WLiteral (s_of "foo"))))))]))) [])))])))))); (DCmdWord (TLWord (WSingle (WSimple (WLiteral (s_of "arg"))))))]))) []))))))].
Proof. vm_compute. repeat split. Qed.
Example ast_heredoc_valid_skip_past_newlines_in_param_subst_1 : follows (@lex ascii_uni [99;97;116;32;60;60;69;79;70;32;36;123;102;111;111;61;10;125;32;97;114;103;10;104;101;114;101;10;69;79;70]%N) [Step ACompleteCommand (Some (OOk (Some (TLCmd (CList (mkAOL (LSingle (PSimple (mkSC [] [(DCmdWord (TLWord (WSingle (WSimple (WLiteral (s_of "cat")))))); (DRedirect (RHeredoc None (TLWord (WSingle (WSimple (WLiteral [104;101;114;101;10]%N)))))); (DCmdWord (TLWord (WSingle (WSimple (WSubst (SAssign false (PmVar (s_of "foo")) (Some (TLWord (WSingle (WSimple (WLiteral [10]%N))))))))))); (DCmdWord (TLWord (WSingle (WSimple (WLiteral (s_of "arg"))))))]))) []))))))].
Proof. vm_compute. repeat split. Qed.
Example ast_heredoc_valid_skip_past_escaped_newlines_1 : follows (@lex ascii_uni [99;97;116;32;60;60;69;79;70;32;92;10;32;97;114;103;10;104;101;114;101;10;69;79;70]%N) [Step ACompleteCommand (Some (OOk (Some (TLCmd (CList (mkAOL (LSingle (PSimple (mkSC [] [(DCmdWord (TLWord (WSingle (WSimple (WLiteral (s_of "cat")))))); (DRedirect (RHeredoc None (TLWord (WSingle (WSimple (WLiteral [104;101;114;101;10]%N)))))); (DCmdWord (TLWord (WSingle (WSimple (WLiteral (s_of "arg"))))))]))) []))))))].
Proof. vm_compute. repeat split. Qed.
Example ast_heredoc_valid_double_quoted_delim_keeps_backslashe_except_after_specials_1 : follows (@lex ascii_uni [99;97;116;32;60;60;34;92;69;79;70;92;36;92;96;92;34;92;92;34;10;104;101;114;101;10;92;69;79;70;36;96;34;92;10]%N) [Step ACompleteCommand (Some (OOk (Some (TLCmd (CList (mkAOL (LSingle (PSimple (mkSC [] [(DCmdWord (TLWord (WSingle (WSimple (WLiteral (s_of "cat")))))); (DRedirect (RHeredoc None (TLWord (WSingle (WSimple (WLiteral [104;101;114;101;10]%N))))))]))) []))))))].
Proof. vm_compute. repeat split. Qed.
Example ast_heredoc_valid_unquoting_only_removes_outer_quotes_and_backslashes_1 : follows (@lex ascii_uni [99;97;116;32;60;60;69;79;70;36;123;32;39;97;115;100;102;39;125;40;34;104;101;108;108;111;39;34;41;123;92;111;125;10;104;101;114;101;10;69;79;70;36;123;32;97;115;100;102;125;40;104;101;108;108;111;39;41;123;111;125]%N) [Step ACompleteCommand (Some (OOk (Some (TLCmd (CList (mkAOL (LSingle (PSimple (mkSC [] [(DCmdWord (TLWord (WSingle (WSimple (WLiteral (s_of "cat")))))); (DRedirect (RHeredoc None (TLWord (WSingle (WSimple (WLiteral [104;101;114;101;10]%N))))))]))) []))))))].
Proof. vm_compute. repeat split. Qed.
Example ast_heredoc_valid_delimeter_can_be_followed_by_carriage_return_newline_1 : follows (@lex ascii_uni [99;97;116;32;60;60;69;79;70;32;97;114;103;10;104;101;114;101;10;69;79;70;13;10]%N) [Step ACompleteCommand (Some (OOk (Some (TLCmd (CList (mkAOL (LSingle (PSimple (mkSC [] [(DCmdWord (TLWord (WSingle (WSimple (WLiteral (s_of "cat")))))); (DRedirect (RHeredoc None (TLWord (WSingle (WSimple (WLiteral [104;101;114;101;10]%N)))))); (DCmdWord (TLWord (WSingle (WSimple (WLiteral (s_of "arg"))))))]))) []))))))].
Proof. vm_compute. repeat split. Qed.
Example ast_heredoc_valid_delimeter_can_be_followed_by_carriage_return_newline_2 : follows (@lex ascii_uni [99;97;116;32;60;60;69;79;70;32;97;114;103;10;104;101;114;101;13;10;69;79;70;13;10]%N) [Step ACompleteCommand (Some (OOk (Some (TLCmd (CList (mkAOL (LSingle (PSimple (mkSC [] [(DCmdWord (TLWord (WSingle (WSimple (WLiteral (s_of "cat")))))); (DRedirect (RHeredoc None (TLWord (WSingle (WSimple (WLiteral [104;101;114;101;13;10]%N)))))); (DCmdWord (TLWord (WSingle (WSimple (WLiteral (s_of "arg"))))))]))) []))))))].
Proof. vm_compute. repeat split. Qed.
Example ast_heredoc_valid_delimiter_can_start_with_1 : follows (@lex ascii_uni [99;97;116;32;60;60;32;45;69;79;70;10;9;104;101;108;108;111;10;9;9;119;111;114;108;100;10;45;69;79;70]%N) [Step ACompleteCommand (Some (OOk (Some (TLCmd (CList (mkAOL (LSingle (PSimple (mkSC [] [(DCmdWord (TLWord (WSingle (WSimple (WLiteral (s_of "cat")))))); (DRedirect (RHeredoc None (TLWord (WSingle (WSimple (WLiteral [9;104;101;108;108;111;10;9;9;119;111;114;108;100;10]%N))))))]))) []))))))].
Proof. vm_compute. repeat split. Qed.
Example ast_heredoc_valid_delimiter_can_start_with_2 : follows (@lex ascii_uni [99;97;116;32;60;60;45;45;69;79;70;10;9;104;101;108;108;111;10;9;9;119;111;114;108;100;10;45;69;79;70]%N) [Step ACompleteCommand (Some (OOk (Some (TLCmd (CList (mkAOL (LSingle (PSimple (mkSC [] [(DCmdWord (TLWord (WSingle (WSimple (WLiteral (s_of "cat")))))); (DRedirect (RHeredoc None (TLWord (WSingle (WSimple (WLiteral [104;101;108;108;111;10;119;111;114;108;100;10]%N))))))]))) []))))))].
Proof. vm_compute. repeat split. Qed.
Example ast_heredoc_invalid_missing_delimeter_1 : follows (@lex ascii_uni (s_of "cat << ;")) [Step ACompleteCommand (Some (OErr (Unexpected TSemi (mkPos 7 1 8))))].
Proof. vm_compute. repeat split. Qed.
Example ast_heredoc_invalid_unbalanced_quoting_1 : follows (@lex ascii_uni (s_of "cat <<'eof")) [Step ACompleteCommand (Some (OErr (Unmatched TSingleQuote (mkPos 6 1 7))))].
Proof. vm_compute. repeat split. Qed.
Example ast_heredoc_invalid_unbalanced_quoting_2 : follows (@lex ascii_uni (s_of "cat <<`eof")) [Step ACompleteCommand (Some (OErr (Unmatched TBacktick (mkPos 6 1 7))))].
Proof. vm_compute. repeat split. Qed.
Example ast_heredoc_invalid_unbalanced_quoting_3 : follows (@lex ascii_uni (s_of "cat <<""eof")) [Step ACompleteCommand (Some (OErr (Unmatched TDoubleQuote (mkPos 6 1 7))))].
Proof. vm_compute. repeat split. Qed.
Example ast_heredoc_invalid_unbalanced_quoting_4 : follows (@lex ascii_uni (s_of "cat <<eof(")) [Step ACompleteCommand (Some (OErr (Unmatched TParenOpen (mkPos 9 1 10))))].
Proof. vm_compute. repeat split. Qed.
Example ast_heredoc_invalid_unbalanced_quoting_5 : follows (@lex ascii_uni (s_of "cat <<eof$(")) [Step ACompleteCommand (Some (OErr (Unmatched TParenOpen (mkPos 10 1 11))))].
Proof. vm_compute. repeat split. Qed.
Example ast_heredoc_invalid_unbalanced_quoting_6 : follows (@lex ascii_uni (s_of "cat <<eof${")) [Step ACompleteCommand (Some (OErr (Unmatched TCurlyOpen (mkPos 10 1 11))))].
Proof. vm_compute. repeat split. Qed.
Example ast_heredoc_invalid_shows_right_position_of_error_1 : follows (@lex ascii_uni [99;97;116;32;60;60;69;79;70;10;104;101;108;108;111;10;36;123;105;110;118;97;108;105;100;32;115;117;98;115;116;10;69;79;70]%N) [Step ACompleteCommand (Some (OErr (BadSubst (TWhitespace (s_of " ")) (mkPos 25 3 10))))].
Proof. vm_compute. repeat split. Qed.
Example ast_heredoc_invalid_shows_right_position_of_error_when_tabs_stripped_1 : follows (@lex ascii_uni [99;97;116;32;60;60;45;69;79;70;10;9;9;104;101;108;108;111;10;9;9;36;123;105;110;118;97;108;105;100;32;115;117;98;115;116;10;9;9;9;69;79;70]%N) [Step ACompleteCommand (Some (OErr (BadSubst (TWhitespace (s_of " ")) (mkPos 30 3 12))))].
Proof. vm_compute. repeat split. Qed.
Example ast_heredoc_keeps_track_of_correct_position_after_redirect_1 : follows (@lex ascii_uni [99;97;116;32;60;60;69;79;70;32;97;114;103;32;40;41;10;104;101;108;108;111;10;69;79;70]%N) [StepOk ACompleteCommand; Step ACompleteCommand (Some (OErr (Unexpected TParenClose (mkPos 15 1 16))))].
Proof. vm_compute. repeat split. Qed.
Example ast_if_command_valid_with_else_1 : follows (@lex ascii_uni [105;102;32;103;117;97;114;100;49;59;32;103;117;97;114;100;50;59;10;32;32;32;32;32;32;32;32;35;103;117;97;114;100;95;99;111;109;109;101;110;116;95;97;10;32;32;32;32;32;32;32;32;116;104;101;110;32;98;111;100;121;49;10;32;32;32;32;32;32;32;32;35;98;111;100;121;95;99;111;109;109;101;110;116;95;97;10;32;32;32;32;32;32;32;32;101;108;105;102;32;103;117;97;114;100;51;59;10;32;32;32;32;32;32;32;32;35;103;117;97;114;100;95;99;111;109;109;101;110;116;95;98;10;32;32;32;32;32;32;32;32;116;104;101;110;32;98;111;100;121;50;59;10;32;32;32;32;32;32;32;32;35;98;111;100;121;95;99;111;109;109;101;110;116;95;98;10;32;32;32;32;32;32;32;32;101;108;115;101;32;101;108;115;101;59;10;32;32;32;32;32;32;32;32;35;101;108;115;101;95;99;111;109;109;101;110;116;10;32;32;32;32;32;32;32;32;102;105;10;32;32;32;32]%N) [Step AIfCommand (Some (OOk (mkIF [(mkGBP (mkCG [(TLCmd (CList (mkAOL (LSingle (PSimple (mkSC [] [(DCmdWord (TLWord (WSingle (WSimple (WLiteral (s_of "guard1"))))))]))) []))); (TLCmd (CList (mkAOL (LSingle (PSimple (mkSC [] [(DCmdWord (TLWord (WSingle (WSimple (WLiteral (s_of "guard2"))))))]))) [])))] [(Newline (Some (s_of "#guard_comment_a")))]) (mkCG [(TLCmd (CList (mkAOL (LSingle (PSimple (mkSC [] [(DCmdWord (TLWord (WSingle (WSimple (WLiteral (s_of "body1"))))))]))) [])))] [(Newline (Some (s_of "#body_comment_a")))])); (mkGBP (mkCG [(TLCmd (CList (mkAOL (LSingle (PSimple (mkSC [] [(DCmdWord (TLWord (WSingle (WSimple (WLiteral (s_of "guard3"))))))]))) [])))] [(Newline (Some (s_of "#guard_comment_b")))]) (mkCG [(TLCmd (CList (mkAOL (LSingle (PSimple (mkSC [] [(DCmdWord (TLWord (WSingle (WSimple (WLiteral (s_of "body2"))))))]))) [])))] [(Newline (Some (s_of "#body_comment_b")))]))] (Some (mkCG [(TLCmd (CList (mkAOL (LSingle (PSimple (mkSC [] [(DCmdWord (TLWord (WSingle (WSimple (WLiteral (s_of "else"))))))]))) [])))] [(Newline (Some (s_of "#else_comment")))])))))].
Proof. vm_compute. repeat split. Qed.
Example ast_if_command_valid_without_else_1 : follows (@lex ascii_uni [105;102;32;103;117;97;114;100;49;59;32;103;117;97;114;100;50;59;10;32;32;32;32;32;32;32;32;35;103;117;97;114;100;95;99;111;109;109;101;110;116;95;97;10;32;32;32;32;32;32;32;32;116;104;101;110;32;98;111;100;121;49;10;32;32;32;32;32;32;32;32;35;98;111;100;121;95;99;111;109;109;101;110;116;95;97;10;32;32;32;32;32;32;32;32;101;108;105;102;32;103;117;97;114;100;51;59;10;32;32;32;32;32;32;32;32;35;103;117;97;114;100;95;99;111;109;109;101;110;116;95;98;10;32;32;32;32;32;32;32;32;116;104;101;110;32;98;111;100;121;50;59;10;32;32;32;32;32;32;32;32;35;98;111;100;121;95;99;111;109;109;101;110;116;95;98;10;32;32;32;32;32;32;32;32;102;105;10;32;32;32;32]%N) [Step AIfCommand (Some (OOk (mkIF [(mkGBP (mkCG [(TLCmd (CList (mkAOL (LSingle (PSimple (mkSC [] [(DCmdWord (TLWord (WSingle (WSimple (WLiteral (s_of "guard1"))))))]))) []))); (TLCmd (CList (mkAOL (LSingle (PSimple (mkSC [] [(DCmdWord (TLWord (WSingle (WSimple (WLiteral (s_of "guard2"))))))]))) [])))] [(Newline (Some (s_of "#guard_comment_a")))]) (mkCG [(TLCmd (CList (mkAOL (LSingle (PSimple (mkSC [] [(DCmdWord (TLWord (WSingle (WSimple (WLiteral (s_of "body1"))))))]))) [])))] [(Newline (Some (s_of "#body_comment_a")))])); (mkGBP (mkCG [(TLCmd (CList (mkAOL (LSingle (PSimple (mkSC [] [(DCmdWord (TLWord (WSingle (WSimple (WLiteral (s_of "guard3"))))))]))) [])))] [(Newline (Some (s_of "#guard_comment_b")))]) (mkCG [(TLCmd (CList (mkAOL (LSingle (PSimple (mkSC [] [(DCmdWord (TLWord (WSingle (WSimple (WLiteral (s_of "body2"))))))]))) [])))] [(Newline (Some (s_of "#body_comment_b")))]))] None)))].
Proof. vm_compute. repeat split. Qed.
Example ast_if_command_invalid_missing_separator_1 : follows (@lex ascii_uni (s_of "if guard; then body1; elif guard2; then body2; else else fi")) [Step AIfCommand (Some (OErr (IncompleteCmd (s_of "if") (mkPos 0 1 1) (s_of "fi") (mkPos 59 1 60))))].
Proof. vm_compute. repeat split. Qed.
Example ast_if_command_invalid_missing_keyword_1 : follows (@lex ascii_uni (s_of "guard1; then body1; elif guard2; then body2; else else; fi")) [Step AIfCommand (Some (OErr (Unexpected (TName (s_of "guard1")) (mkPos 0 1 1))))].
Proof. vm_compute. repeat split. Qed.
Example ast_if_command_invalid_missing_keyword_2 : follows (@lex ascii_uni (s_of "if guard1; then body1; elif guard2; then body2; else else;")) [Step AIfCommand (Some (OErr (IncompleteCmd (s_of "if") (mkPos 0 1 1) (s_of "fi") (mkPos 58 1 59))))].
Proof. vm_compute. repeat split. Qed.
Example ast_if_command_invalid_missing_guard_1 : follows (@lex ascii_uni (s_of "if; then body1; elif guard2; then body2; else else; fi")) [Step AIfCommand (Some (OErr (Unexpected TSemi (mkPos 2 1 3))))].
Proof. vm_compute. repeat split. Qed.
Example ast_if_command_invalid_missing_body_1 : follows (@lex ascii_uni (s_of "if guard; then; elif guard2; then body2; else else; fi")) [Step AIfCommand (Some (OErr (Unexpected TSemi (mkPos 14 1 15))))].
Proof. vm_compute. repeat split. Qed.
Example ast_if_command_invalid_missing_body_2 : follows (@lex ascii_uni (s_of "if guard1; then body1; elif; then body2; else else; fi")) [Step AIfCommand (Some (OErr (Unexpected TSemi (mkPos 27 1 28))))].
Proof. vm_compute. repeat split. Qed.
Example ast_if_command_invalid_missing_body_3 : follows (@lex ascii_uni (s_of "if guard1; then body1; elif guard2; then body2; else; fi")) [Step AIfCommand (Some (OErr (Unexpected TSemi (mkPos 52 1 53))))].
Proof. vm_compute. repeat split. Qed.
Example ast_if_command_invalid_quoted_1 : follows (@lex ascii_uni (s_of "'if' guard1; then body1; elif guard2; then body2; else else; fi")) [Step AIfCommand (Some (OErr (Unexpected TSingleQuote (mkPos 0 1 1))))].
Proof. vm_compute. repeat split. Qed.
Example ast_if_command_invalid_quoted_2 : follows (@lex ascii_uni (s_of "if guard1; then body1; elif guard2; then body2; else else; 'fi'")) [Step AIfCommand (Some (OErr (IncompleteCmd (s_of "if") (mkPos 0 1 1) (s_of "fi") (mkPos 63 1 64))))].
Proof. vm_compute. repeat split. Qed.
Example ast_if_command_invalid_quoted_3 : follows (@lex ascii_uni (s_of """if"" guard1; then body1; elif guard2; then body2; else else; fi")) [Step AIfCommand (Some (OErr (Unexpected TDoubleQuote (mkPos 0 1 1))))].
Proof. vm_compute. repeat split. Qed.
Example ast_if_command_invalid_quoted_4 : follows (@lex ascii_uni (s_of "if guard1; then body1; elif guard2; then body2; else else; ""fi""")) [Step AIfCommand (Some (OErr (IncompleteCmd (s_of "if") (mkPos 0 1 1) (s_of "fi") (mkPos 63 1 64))))].
Proof. vm_compute. repeat split. Qed.
Example ast_if_command_invalid_concat_1 : follows [(TLiteral (s_of "i")); (TLiteral (s_of "f")); TNewline; (TLiteral (s_of "guard1")); TNewline; (TLiteral (s_of "then")); TNewline; (TLiteral (s_of "body1")); TNewline; (TLiteral (s_of "elif")); TNewline; (TLiteral (s_of "guard2")); TNewline; (TLiteral (s_of "then")); TNewline; (TLiteral (s_of "body2")); TNewline; (TLiteral (s_of "else")); TNewline; (TLiteral (s_of "else part")); TNewline; (TLiteral (s_of "fi"))] [Step AIfCommand (Some (OErr (Unexpected (TLiteral (s_of "i")) (mkPos 0 1 1))))].
Proof. vm_compute. repeat split. Qed.
Example ast_if_command_invalid_concat_2 : follows [(TLiteral (s_of "if")); TNewline; (TLiteral (s_of "guard1")); TNewline; (TLiteral (s_of "then")); TNewline; (TLiteral (s_of "body1")); TNewline; (TLiteral (s_of "elif")); TNewline; (TLiteral (s_of "guard2")); TNewline; (TLiteral (s_of "then")); TNewline; (TLiteral (s_of "body2")); TNewline; (TLiteral (s_of "else")); TNewline; (TLiteral (s_of "else part")); TNewline; (TLiteral (s_of "f")); (TLiteral (s_of "i"))] [Step AIfCommand (Some (OErr (IncompleteCmd (s_of "if") (mkPos 0 1 1) (s_of "fi") (mkPos 61 11 3))))].
Proof. vm_compute. repeat split. Qed.
Example ast_if_command_should_recognize_literals_and_names_1 : follows [(TLiteral (s_of "if")); (TWhitespace (s_of " ")); (TLiteral (s_of "guard1")); TNewline; (TLiteral (s_of "then")); TNewline; (TLiteral (s_of "body1")); (TLiteral (s_of "elif")); (TWhitespace (s_of " ")); (TLiteral (s_of "guard2")); TNewline; (TLiteral (s_of "then")); (TWhitespace (s_of " ")); (TLiteral (s_of "body2")); (TLiteral (s_of "else")); (TWhitespace (s_of " ")); (TWhitespace (s_of " ")); (TLiteral (s_of "else part")); TNewline; (TLiteral (s_of "fi"))] [StepOk AIfCommand].
Proof. vm_compute. repeat split. Qed.
Example ast_if_command_should_recognize_literals_and_names_2 : follows [(TLiteral (s_of "if")); (TWhitespace (s_of " ")); (TLiteral (s_of "guard1")); TNewline; (TLiteral (s_of "then")); TNewline; (TLiteral (s_of "body1")); (TLiteral (s_of "elif")); (TWhitespace (s_of " ")); (TLiteral (s_of "guard2")); TNewline; (TLiteral (s_of "then")); (TWhitespace (s_of " ")); (TLiteral (s_of "body2")); (TLiteral (s_of "else")); (TWhitespace (s_of " ")); (TWhitespace (s_of " ")); (TLiteral (s_of "else part")); TNewline; (TName (s_of "fi"))] [StepOk AIfCommand].
Proof. vm_compute. repeat split. Qed.
Example ast_if_command_should_recognize_literals_and_names_3 : follows [(TLiteral (s_of "if")); (TWhitespace (s_of " ")); (TLiteral (s_of "guard1")); TNewline; (TLiteral (s_of "then")); TNewline; (TLiteral (s_of "body1")); (TLiteral (s_of "elif")); (TWhitespace (s_of " ")); (TLiteral (s_of "guard2")); TNewline; (TLiteral (s_of "then")); (TWhitespace (s_of " ")); (TLiteral (s_of "body2")); (TName (s_of "else")); (TWhitespace (s_of " ")); (TWhitespace (s_of " ")); (TLiteral (s_of "else part")); TNewline; (TLiteral (s_of "fi"))] [StepOk AIfCommand].
Proof. vm_compute. repeat split. Qed.
Example ast_if_command_should_recognize_literals_and_names_4 : follows [(TLiteral (s_of "if")); (TWhitespace (s_of " ")); (TLiteral (s_of "guard1")); TNewline; (TLiteral (s_of "then")); TNewline; (TLiteral (s_of "body1")); (TLiteral (s_of "elif")); (TWhitespace (s_of " ")); (TLiteral (s_of "guard2")); TNewline; (TLiteral (s_of "then")); (TWhitespace (s_of " ")); (TLiteral (s_of "body2")); (TName (s_of "else")); (TWhitespace (s_of " ")); (TWhitespace (s_of " ")); (TLiteral (s_of "else part")); TNewline; (TName (s_of "fi"))] [StepOk AIfCommand].
Proof. vm_compute. repeat split. Qed.
Example ast_if_command_should_recognize_literals_and_names_5 : follows [(TLiteral (s_of "if")); (TWhitespace (s_of " ")); (TLiteral (s_of "guard1")); TNewline; (TLiteral (s_of "then")); TNewline; (TLiteral (s_of "body1")); (TName (s_of "elif")); (TWhitespace (s_of " ")); (TLiteral (s_of "guard2")); TNewline; (TLiteral (s_of "then")); (TWhitespace (s_of " ")); (TLiteral (s_of "body2")); (TLiteral (s_of "else")); (TWhitespace (s_of " ")); (TWhitespace (s_of " ")); (TLiteral (s_of "else part")); TNewline; (TLiteral (s_of "fi"))] [StepOk AIfCommand].
Proof. vm_compute. repeat split. Qed.
Example ast_if_command_should_recognize_literals_and_names_6 : follows [(TLiteral (s_of "if")); (TWhitespace (s_of " ")); (TLiteral (s_of "guard1")); TNewline; (TLiteral (s_of "then")); TNewline; (TLiteral (s_of "body1")); (TName (s_of "elif")); (TWhitespace (s_of " ")); (TLiteral (s_of "guard2")); TNewline; (TLiteral (s_of "then")); (TWhitespace (s_of " ")); (TLiteral (s_of "body2")); (TLiteral (s_of "else")); (TWhitespace (s_of " ")); (TWhitespace (s_of " ")); (TLiteral (s_of "else part")); TNewline; (TName (s_of "fi"))] [StepOk AIfCommand].
Proof. vm_compute. repeat split. Qed.
Example ast_if_command_should_recognize_literals_and_names_7 : follows [(TLiteral (s_of "if")); (TWhitespace (s_of " ")); (TLiteral (s_of "guard1")); TNewline; (TLiteral (s_of "then")); TNewline; (TLiteral (s_of "body1")); (TName (s_of "elif")); (TWhitespace (s_of " ")); (TLiteral (s_of "guard2")); TNewline; (TLiteral (s_of "then")); (TWhitespace (s_of " ")); (TLiteral (s_of "body2")); (TName (s_of "else")); (TWhitespace (s_of " ")); (TWhitespace (s_of " ")); (TLiteral (s_of "else part")); TNewline; (TLiteral (s_of "fi"))] [StepOk AIfCommand].
Proof. vm_compute. repeat split. Qed.
Example ast_if_command_should_recognize_literals_and_names_8 : follows [(TLiteral (s_of "if")); (TWhitespace (s_of " ")); (TLiteral (s_of "guard1")); TNewline; (TLiteral (s_of "then")); TNewline; (TLiteral (s_of "body1")); (TName (s_of "elif")); (TWhitespace (s_of " ")); (TLiteral (s_of "guard2")); TNewline; (TLiteral (s_of "then")); (TWhitespace (s_of " ")); (TLiteral (s_of "body2")); (TName (s_of "else")); (TWhitespace (s_of " ")); (TWhitespace (s_of " ")); (TLiteral (s_of "else part")); TNewline; (TName (s_of "fi"))] [StepOk AIfCommand].
Proof. vm_compute. repeat split. Qed.
Example ast_if_command_should_recognize_literals_and_names_9 : follows [(TLiteral (s_of "if")); (TWhitespace (s_of " ")); (TLiteral (s_of "guard1")); TNewline; (TName (s_of "then")); TNewline; (TLiteral (s_of "body1")); (TLiteral (s_of "elif")); (TWhitespace (s_of " ")); (TLiteral (s_of "guard2")); TNewline; (TName (s_of "then")); (TWhitespace (s_of " ")); (TLiteral (s_of "body2")); (TLiteral (s_of "else")); (TWhitespace (s_of " ")); (TWhitespace (s_of " ")); (TLiteral (s_of "else part")); TNewline; (TLiteral (s_of "fi"))] [StepOk AIfCommand].
Proof. vm_compute. repeat split. Qed.
Example ast_if_command_should_recognize_literals_and_names_10 : follows [(TLiteral (s_of "if")); (TWhitespace (s_of " ")); (TLiteral (s_of "guard1")); TNewline; (TName (s_of "then")); TNewline; (TLiteral (s_of "body1")); (TLiteral (s_of "elif")); (TWhitespace (s_of " ")); (TLiteral (s_of "guard2")); TNewline; (TName (s_of "then")); (TWhitespace (s_of " ")); (TLiteral (s_of "body2")); (TLiteral (s_of "else")); (TWhitespace (s_of " ")); (TWhitespace (s_of " ")); (TLiteral (s_of "else part")); TNewline; (TName (s_of "fi"))] [StepOk AIfCommand].
Proof. vm_compute. repeat split. Qed.
Example ast_if_command_should_recognize_literals_and_names_11 : follows [(TLiteral (s_of "if")); (TWhitespace (s_of " ")); (TLiteral (s_of "guard1")); TNewline; (TName (s_of "then")); TNewline; (TLiteral (s_of "body1")); (TLiteral (s_of "elif")); (TWhitespace (s_of " ")); (TLiteral (s_of "guard2")); TNewline; (TName (s_of "then")); (TWhitespace (s_of " ")); (TLiteral (s_of "body2")); (TName (s_of "else")); (TWhitespace (s_of " ")); (TWhitespace (s_of " ")); (TLiteral (s_of "else part")); TNewline; (TLiteral (s_of "fi"))] [StepOk AIfCommand].
Proof. vm_compute. repeat split. Qed.
Example ast_if_command_should_recognize_literals_and_names_12 : follows [(TLiteral (s_of "if")); (TWhitespace (s_of " ")); (TLiteral (s_of "guard1")); TNewline; (TName (s_of "then")); TNewline; (TLiteral (s_of "body1")); (TLiteral (s_of "elif")); (TWhitespace (s_of " ")); (TLiteral (s_of "guard2")); TNewline; (TName (s_of "then")); (TWhitespace (s_of " ")); (TLiteral (s_of "body2")); (TName (s_of "else")); (TWhitespace (s_of " ")); (TWhitespace (s_of " ")); (TLiteral (s_of "else part")); TNewline; (TName (s_of "fi"))] [StepOk AIfCommand].
Proof. vm_compute. repeat split. Qed.
Example ast_if_command_should_recognize_literals_and_names_13 : follows [(TLiteral (s_of "if")); (TWhitespace (s_of " ")); (TLiteral (s_of "guard1")); TNewline; (TName (s_of "then")); TNewline; (TLiteral (s_of "body1")); (TName (s_of "elif")); (TWhitespace (s_of " ")); (TLiteral (s_of "guard2")); TNewline; (TName (s_of "then")); (TWhitespace (s_of " ")); (TLiteral (s_of "body2")); (TLiteral (s_of "else")); (TWhitespace (s_of " ")); (TWhitespace (s_of " ")); (TLiteral (s_of "else part")); TNewline; (TLiteral (s_of "fi"))] [StepOk AIfCommand].
Proof. vm_compute. repeat split. Qed.
Example ast_if_command_should_recognize_literals_and_names_14 : follows [(TLiteral (s_of "if")); (TWhitespace (s_of " ")); (TLiteral (s_of "guard1")); TNewline; (TName (s_of "then")); TNewline; (TLiteral (s_of "body1")); (TName (s_of "elif")); (TWhitespace (s_of " ")); (TLiteral (s_of "guard2")); TNewline; (TName (s_of "then")); (TWhitespace (s_of " ")); (TLiteral (s_of "body2")); (TLiteral (s_of "else")); (TWhitespace (s_of " ")); (TWhitespace (s_of " ")); (TLiteral (s_of "else part")); TNewline; (TName (s_of "fi"))] [StepOk AIfCommand].
Proof. vm_compute. repeat split. Qed.
Example ast_if_command_should_recognize_literals_and_names_15 : follows [(TLiteral (s_of "if")); (TWhitespace (s_of " ")); (TLiteral (s_of "guard1")); TNewline; (TName (s_of "then")); TNewline; (TLiteral (s_of "body1")); (TName (s_of "elif")); (TWhitespace (s_of " ")); (TLiteral (s_of "guard2")); TNewline; (TName (s_of "then")); (TWhitespace (s_of " ")); (TLiteral (s_of "body2")); (TName (s_of "else")); (TWhitespace (s_of " ")); (TWhitespace (s_of " ")); (TLiteral (s_of "else part")); TNewline; (TLiteral (s_of "fi"))] [StepOk AIfCommand].
Proof. vm_compute. repeat split. Qed.
Example ast_if_command_should_recognize_literals_and_names_16 : follows [(TLiteral (s_of "if")); (TWhitespace (s_of " ")); (TLiteral (s_of "guard1")); TNewline; (TName (s_of "then")); TNewline; (TLiteral (s_of "body1")); (TName (s_of "elif")); (TWhitespace (s_of " ")); (TLiteral (s_of "guard2")); TNewline; (TName (s_of "then")); (TWhitespace (s_of " ")); (TLiteral (s_of "body2")); (TName (s_of "else")); (TWhitespace (s_of " ")); (TWhitespace (s_of " ")); (TLiteral (s_of "else part")); TNewline; (TName (s_of "fi"))] [StepOk AIfCommand].
Proof. vm_compute. repeat split. Qed.
Example ast_if_command_should_recognize_literals_and_names_17 : follows [(TName (s_of "if")); (TWhitespace (s_of " ")); (TLiteral (s_of "guard1")); TNewline; (TLiteral (s_of "then")); TNewline; (TLiteral (s_of "body1")); (TLiteral (s_of "elif")); (TWhitespace (s_of " ")); (TLiteral (s_of "guard2")); TNewline; (TLiteral (s_of "then")); (TWhitespace (s_of " ")); (TLiteral (s_of "body2")); (TLiteral (s_of "else")); (TWhitespace (s_of " ")); (TWhitespace (s_of " ")); (TLiteral (s_of "else part")); TNewline; (TLiteral (s_of "fi"))] [StepOk AIfCommand].
Proof. vm_compute. repeat split. Qed.
Example ast_if_command_should_recognize_literals_and_names_18 : follows [(TName (s_of "if")); (TWhitespace (s_of " ")); (TLiteral (s_of "guard1")); TNewline; (TLiteral (s_of "then")); TNewline; (TLiteral (s_of "body1")); (TLiteral (s_of "elif")); (TWhitespace (s_of " ")); (TLiteral (s_of "guard2")); TNewline; (TLiteral (s_of "then")); (TWhitespace (s_of " ")); (TLiteral (s_of "body2")); (TLiteral (s_of "else")); (TWhitespace (s_of " ")); (TWhitespace (s_of " ")); (TLiteral (s_of "else part")); TNewline; (TName (s_of "fi"))] [StepOk AIfCommand].
Proof. vm_compute. repeat split. Qed.
Example ast_if_command_should_recognize_literals_and_names_19 : follows [(TName (s_of "if")); (TWhitespace (s_of " ")); (TLiteral (s_of "guard1")); TNewline; (TLiteral (s_of "then")); TNewline; (TLiteral (s_of "body1")); (TLiteral (s_of "elif")); (TWhitespace (s_of " ")); (TLiteral (s_of "guard2")); TNewline; (TLiteral (s_of "then")); (TWhitespace (s_of " ")); (TLiteral (s_of "body2")); (TName (s_of "else")); (TWhitespace (s_of " ")); (TWhitespace (s_of " ")); (TLiteral (s_of "else part")); TNewline; (TLiteral (s_of "fi"))] [StepOk AIfCommand].
Proof. vm_compute. repeat split. Qed.
Example ast_if_command_should_recognize_literals_and_names_20 : follows [(TName (s_of "if")); (TWhitespace (s_of " ")); (TLiteral (s_of "guard1")); TNewline; (TLiteral (s_of "then")); TNewline; (TLiteral (s_of "body1")); (TLiteral (s_of "elif")); (TWhitespace (s_of " ")); (TLiteral (s_of "guard2")); TNewline; (TLiteral (s_of "then")); (TWhitespace (s_of " ")); (TLiteral (s_of "body2")); (TName (s_of "else")); (TWhitespace (s_of " ")); (TWhitespace (s_of " ")); (TLiteral (s_of "else part")); TNewline; (TName (s_of "fi"))] [StepOk AIfCommand].
Proof. vm_compute. repeat split. Qed.
Example ast_if_command_should_recognize_literals_and_names_21 : follows [(TName (s_of "if")); (TWhitespace (s_of " ")); (TLiteral (s_of "guard1")); TNewline; (TLiteral (s_of "then")); TNewline; (TLiteral (s_of "body1")); (TName (s_of "elif")); (TWhitespace (s_of " ")); (TLiteral (s_of "guard2")); TNewline; (TLiteral (s_of "then")); (TWhitespace (s_of " ")); (TLiteral (s_of "body2")); (TLiteral (s_of "else")); (TWhitespace (s_of " ")); (TWhitespace (s_of " ")); (TLiteral (s_of "else part")); TNewline; (TLiteral (s_of "fi"))] [StepOk AIfCommand].
Proof. vm_compute. repeat split. Qed.
Example ast_if_command_should_recognize_literals_and_names_22 : follows [(TName (s_of "if")); (TWhitespace (s_of " ")); (TLiteral (s_of "guard1")); TNewline; (TLiteral (s_of "then")); TNewline; (TLiteral (s_of "body1")); (TName (s_of "elif")); (TWhitespace (s_of " ")); (TLiteral (s_of "guard2")); TNewline; (TLiteral (s_of "then")); (TWhitespace (s_of " ")); (TLiteral (s_of "body2")); (TLiteral (s_of "else")); (TWhitespace (s_of " ")); (TWhitespace (s_of " ")); (TLiteral (s_of "else part")); TNewline; (TName (s_of "fi"))] [StepOk AIfCommand].
Proof. vm_compute. repeat split. Qed.
Example ast_if_command_should_recognize_literals_and_names_23 : follows [(TName (s_of "if")); (TWhitespace (s_of " ")); (TLiteral (s_of "guard1")); TNewline; (TLiteral (s_of "then")); TNewline; (TLiteral (s_of "body1")); (TName (s_of "elif")); (TWhitespace (s_of " ")); (TLiteral (s_of "guard2")); TNewline; (TLiteral (s_of "then")); (TWhitespace (s_of " ")); (TLiteral (s_of "body2")); (TName (s_of "else")); (TWhitespace (s_of " ")); (TWhitespace (s_of " ")); (TLiteral (s_of "else part")); TNewline; (TLiteral (s_of "fi"))] [StepOk AIfCommand].
Proof. vm_compute. repeat split. Qed.
Example ast_if_command_should_recognize_literals_and_names_24 : follows [(TName (s_of "if")); (TWhitespace (s_of " ")); (TLiteral (s_of "guard1")); TNewline; (TLiteral (s_of "then")); TNewline; (TLiteral (s_of "body1")); (TName (s_of "elif")); (TWhitespace (s_of " ")); (TLiteral (s_of "guard2")); TNewline; (TLiteral (s_of "then")); (TWhitespace (s_of " ")); (TLiteral (s_of "body2")); (TName (s_of "else")); (TWhitespace (s_of " ")); (TWhitespace (s_of " ")); (TLiteral (s_of "else part")); TNewline; (TName (s_of "fi"))] [StepOk AIfCommand].
Proof. vm_compute. repeat split. Qed.
Example ast_if_command_should_recognize_literals_and_names_25 : follows [(TName (s_of "if")); (TWhitespace (s_of " ")); (TLiteral (s_of "guard1")); TNewline; (TName (s_of "then")); TNewline; (TLiteral (s_of "body1")); (TLiteral (s_of "elif")); (TWhitespace (s_of " ")); (TLiteral (s_of "guard2")); TNewline; (TName (s_of "then")); (TWhitespace (s_of " ")); (TLiteral (s_of "body2")); (TLiteral (s_of "else")); (TWhitespace (s_of " ")); (TWhitespace (s_of " ")); (TLiteral (s_of "else part")); TNewline; (TLiteral (s_of "fi"))] [StepOk AIfCommand].
Proof. vm_compute. repeat split. Qed.
Example ast_if_command_should_recognize_literals_and_names_26 : follows [(TName (s_of "if")); (TWhitespace (s_of " ")); (TLiteral (s_of "guard1")); TNewline; (TName (s_of "then")); TNewline; (TLiteral (s_of "body1")); (TLiteral (s_of "elif")); (TWhitespace (s_of " ")); (TLiteral (s_of "guard2")); TNewline; (TName (s_of "then")); (TWhitespace (s_of " ")); (TLiteral (s_of "body2")); (TLiteral (s_of "else")); (TWhitespace (s_of " ")); (TWhitespace (s_of " ")); (TLiteral (s_of "else part")); TNewline; (TName (s_of "fi"))] [StepOk AIfCommand].
Proof. vm_compute. repeat split. Qed.
Example ast_if_command_should_recognize_literals_and_names_27 : follows [(TName (s_of "if")); (TWhitespace (s_of " ")); (TLiteral (s_of "guard1")); TNewline; (TName (s_of "then")); TNewline; (TLiteral (s_of "body1")); (TLiteral (s_of "elif")); (TWhitespace (s_of " ")); (TLiteral (s_of "guard2")); TNewline; (TName (s_of "then")); (TWhitespace (s_of " ")); (TLiteral (s_of "body2")); (TName (s_of "else")); (TWhitespace (s_of " ")); (TWhitespace (s_of " ")); (TLiteral (s_of "else part")); TNewline; (TLiteral (s_of "fi"))] [StepOk AIfCommand].
Proof. vm_compute. repeat split. Qed.
Example ast_if_command_should_recognize_literals_and_names_28 : follows [(TName (s_of "if")); (TWhitespace (s_of " ")); (TLiteral (s_of "guard1")); TNewline; (TName (s_of "then")); TNewline; (TLiteral (s_of "body1")); (TLiteral (s_of "elif")); (TWhitespace (s_of " ")); (TLiteral (s_of "guard2")); TNewline; (TName (s_of "then")); (TWhitespace (s_of " ")); (TLiteral (s_of "body2")); (TName (s_of "else")); (TWhitespace (s_of " ")); (TWhitespace (s_of " ")); (TLiteral (s_of "else part")); TNewline; (TName (s_of "fi"))] [StepOk AIfCommand].
Proof. vm_compute. repeat split. Qed.
Example ast_if_command_should_recognize_literals_and_names_29 : follows [(TName (s_of "if")); (TWhitespace (s_of " ")); (TLiteral (s_of "guard1")); TNewline; (TName (s_of "then")); TNewline; (TLiteral (s_of "body1")); (TName (s_of "elif")); (TWhitespace (s_of " ")); (TLiteral (s_of "guard2")); TNewline; (TName (s_of "then")); (TWhitespace (s_of " ")); (TLiteral (s_of "body2")); (TLiteral (s_of "else")); (TWhitespace (s_of " ")); (TWhitespace (s_of " ")); (TLiteral (s_of "else part")); TNewline; (TLiteral (s_of "fi"))] [StepOk AIfCommand].
Proof. vm_compute. repeat split. Qed.
Example ast_if_command_should_recognize_literals_and_names_30 : follows [(TName (s_of "if")); (TWhitespace (s_of " ")); (TLiteral (s_of "guard1")); TNewline; (TName (s_of "then")); TNewline; (TLiteral (s_of "body1")); (TName (s_of "elif")); (TWhitespace (s_of " ")); (TLiteral (s_of "guard2")); TNewline; (TName (s_of "then")); (TWhitespace (s_of " ")); (TLiteral (s_of "body2")); (TLiteral (s_of "else")); (TWhitespace (s_of " ")); (TWhitespace (s_of " ")); (TLiteral (s_of "else part")); TNewline; (TName (s_of "fi"))] [StepOk AIfCommand].
Proof. vm_compute. repeat split. Qed.
Example ast_if_command_should_recognize_literals_and_names_31 : follows [(TName (s_of "if")); (TWhitespace (s_of " ")); (TLiteral (s_of "guard1")); TNewline; (TName (s_of "then")); TNewline; (TLiteral (s_of "body1")); (TName (s_of "elif")); (TWhitespace (s_of " ")); (TLiteral (s_of "guard2")); TNewline; (TName (s_of "then")); (TWhitespace (s_of " ")); (TLiteral (s_of "body2")); (TName (s_of "else")); (TWhitespace (s_of " ")); (TWhitespace (s_of " ")); (TLiteral (s_of "else part")); TNewline; (TLiteral (s_of "fi"))] [StepOk AIfCommand].
Proof. vm_compute. repeat split. Qed.
Example ast_if_command_should_recognize_literals_and_names_32 : follows [(TName (s_of "if")); (TWhitespace (s_of " ")); (TLiteral (s_of "guard1")); TNewline; (TName (s_of "then")); TNewline; (TLiteral (s_of "body1")); (TName (s_of "elif")); (TWhitespace (s_of " ")); (TLiteral (s_of "guard2")); TNewline; (TName (s_of "then")); (TWhitespace (s_of " ")); (TLiteral (s_of "body2")); (TName (s_of "else")); (TWhitespace (s_of " ")); (TWhitespace (s_of " ")); (TLiteral (s_of "else part")); TNewline; (TName (s_of "fi"))] [StepOk AIfCommand].
Proof. vm_compute. repeat split. Qed.
Example ast_loop_command_invalid_missing_separator_1 : follows (@lex ascii_uni [119;104;105;108;101;32;103;117;97;114;100;32;100;111;32;102;111;111;10;98;97;114;59;32;98;97;122;59;32;100;111;110;101]%N) [Step ALoopCommand (Some (OErr (IncompleteCmd (s_of "while") (mkPos 0 1 1) (s_of "do") (mkPos 33 2 15))))].
Proof. vm_compute. repeat split. Qed.
Example ast_loop_command_invalid_missing_separator_2 : follows (@lex ascii_uni [119;104;105;108;101;32;103;117;97;114;100;59;32;100;111;32;102;111;111;10;98;97;114;59;32;98;97;122;32;100;111;110;101]%N) [Step ALoopCommand (Some (OErr (IncompleteCmd (s_of "do") (mkPos 13 1 14) (s_of "done") (mkPos 33 2 14))))].
Proof. vm_compute. repeat split. Qed.
Example ast_loop_command_invalid_missing_keyword_1 : follows (@lex ascii_uni [103;117;97;114;100;59;32;100;111;32;102;111;111;10;98;97;114;59;32;98;97;122;59;32;100;111;110;101]%N) [Step ALoopCommand (Some (OErr (Unexpected (TName (s_of "guard")) (mkPos 0 1 1))))].
Proof. vm_compute. repeat split. Qed.
Example ast_loop_command_invalid_missing_guard_1 : follows (@lex ascii_uni [119;104;105;108;101;59;32;100;111;32;102;111;111;10;98;97;114;59;32;98;97;122;59;32;100;111;110;101]%N) [Step ALoopCommand (Some (OErr (Unexpected TSemi (mkPos 5 1 6))))].
Proof. vm_compute. repeat split. Qed.
Example ast_loop_command_invalid_missing_guard_2 : follows (@lex ascii_uni [117;110;116;105;108;59;32;100;111;32;102;111;111;10;98;97;114;59;32;98;97;122;59;32;100;111;110;101]%N) [Step ALoopCommand (Some (OErr (Unexpected TSemi (mkPos 5 1 6))))].
Proof. vm_compute. repeat split. Qed.
Example ast_loop_command_invalid_missing_guard_3 : follows (@lex ascii_uni [119;104;105;108;101;32;100;111;32;102;111;111;10;98;97;114;59;32;98;97;122;59;32;100;111;110;101]%N) [Step ALoopCommand (Some (OErr (Unexpected (TName (s_of "do")) (mkPos 6 1 7))))].
Proof. vm_compute. repeat split. Qed.
Example ast_loop_command_invalid_missing_guard_4 : follows (@lex ascii_uni [117;110;116;105;108;32;100;111;32;102;111;111;10;98;97;114;59;32;98;97;122;59;32;100;111;110;101]%N) [Step ALoopCommand (Some (OErr (Unexpected (TName (s_of "do")) (mkPos 6 1 7))))].
Proof. vm_compute. repeat split. Qed.
Example ast_loop_command_invalid_quoted_1 : follows (@lex ascii_uni [39;119;104;105;108;101;39;32;103;117;97;114;100;32;100;111;32;102;111;111;10;98;97;114;59;32;98;97;122;59;32;100;111;110;101]%N) [Step ALoopCommand (Some (OErr (Unexpected TSingleQuote (mkPos 0 1 1))))].
Proof. vm_compute. repeat split. Qed.
Example ast_loop_command_invalid_quoted_2 : follows (@lex ascii_uni [39;117;110;116;105;108;39;32;103;117;97;114;100;32;100;111;32;102;111;111;10;98;97;114;59;32;98;97;122;59;32;100;111;110;101]%N) [Step ALoopCommand (Some (OErr (Unexpected TSingleQuote (mkPos 0 1 1))))].
Proof. vm_compute. repeat split. Qed.
Example ast_loop_command_invalid_quoted_3 : follows (@lex ascii_uni [34;119;104;105;108;101;34;32;103;117;97;114;100;32;100;111;32;102;111;111;10;98;97;114;59;32;98;97;122;59;32;100;111;110;101]%N) [Step ALoopCommand (Some (OErr (Unexpected TDoubleQuote (mkPos 0 1 1))))].
Proof. vm_compute. repeat split. Qed.
Example ast_loop_command_invalid_quoted_4 : follows (@lex ascii_uni [34;117;110;116;105;108;34;32;103;117;97;114;100;32;100;111;32;102;111;111;10;98;97;114;59;32;98;97;122;59;32;100;111;110;101]%N) [Step ALoopCommand (Some (OErr (Unexpected TDoubleQuote (mkPos 0 1 1))))].
Proof. vm_compute. repeat split. Qed.
Example ast_loop_command_invalid_concat_1 : follows [(TLiteral (s_of "whi")); (TLiteral (s_of "le")); TNewline; (TLiteral (s_of "guard")); TNewline; (TLiteral (s_of "do")); (TLiteral (s_of "foo")); TNewline; (TLiteral (s_of "done"))] [Step ALoopCommand (Some (OErr (Unexpected (TLiteral (s_of "whi")) (mkPos 0 1 1))))].
Proof. vm_compute. repeat split. Qed.
Example ast_loop_command_invalid_concat_2 : follows [(TLiteral (s_of "un")); (TLiteral (s_of "til")); TNewline; (TLiteral (s_of "guard")); TNewline; (TLiteral (s_of "do")); (TLiteral (s_of "foo")); TNewline; (TLiteral (s_of "done"))] [Step ALoopCommand (Some (OErr (Unexpected (TLiteral (s_of "un")) (mkPos 0 1 1))))].
Proof. vm_compute. repeat split. Qed.
Example ast_loop_command_should_recognize_literals_and_names_1 : follows [(TLiteral (s_of "while")); TNewline; (TLiteral (s_of "guard")); TNewline; (TLiteral (s_of "do")); TNewline; (TLiteral (s_of "foo")); TNewline; (TLiteral (s_of "done"))] [StepOk ALoopCommand].
Proof. vm_compute. repeat split. Qed.
Example ast_loop_command_should_recognize_literals_and_names_2 : follows [(TName (s_of "while")); TNewline; (TLiteral (s_of "guard")); TNewline; (TLiteral (s_of "do")); TNewline; (TLiteral (s_of "foo")); TNewline; (TLiteral (s_of "done"))] [StepOk ALoopCommand].
Proof. vm_compute. repeat split. Qed.
Example ast_loop_command_should_recognize_literals_and_names_3 : follows [(TLiteral (s_of "until")); TNewline; (TLiteral (s_of "guard")); TNewline; (TLiteral (s_of "do")); TNewline; (TLiteral (s_of "foo")); TNewline; (TLiteral (s_of "done"))] [StepOk ALoopCommand].
Proof. vm_compute. repeat split. Qed.
Example ast_loop_command_should_recognize_literals_and_names_4 : follows [(TName (s_of "until")); TNewline; (TLiteral (s_of "guard")); TNewline; (TLiteral (s_of "do")); TNewline; (TLiteral (s_of "foo")); TNewline; (TLiteral (s_of "done"))] [StepOk ALoopCommand].
Proof. vm_compute. repeat split. Qed.
Example ast_parameter_short_1 : follows (@lex ascii_uni (s_of "$@$*$#$?$-$$$!$3$")) [Step AParameter (Some (OOk (TLWord (WSingle (WSimple (WParam PmAt)))))); Step AParameter (Some (OOk (TLWord (WSingle (WSimple (WParam PmStar)))))); Step AParameter (Some (OOk (TLWord (WSingle (WSimple (WParam PmPound)))))); Step AParameter (Some (OOk (TLWord (WSingle (WSimple (WParam PmQuestion)))))); Step AParameter (Some (OOk (TLWord (WSingle (WSimple (WParam PmDash)))))); Step AParameter (Some (OOk (TLWord (WSingle (WSimple (WParam PmDollar)))))); Step AParameter (Some (OOk (TLWord (WSingle (WSimple (WParam PmBang)))))); Step AParameter (Some (OOk (TLWord (WSingle (WSimple (WParam (PmPositional 3%N))))))); Step AParameter (Some (OOk (TLWord (WSingle (WSimple (WLiteral (s_of "$"))))))); Step AParameter (Some (OErr UnexpectedEOF))].
Proof. vm_compute. repeat split. Qed.
Example ast_parameter_short_in_curlies_1 : follows (@lex ascii_uni (s_of "${@}${*}${#}${?}${-}${$}${!}${foo}${3}${1000}")) [Step AParameter (Some (OOk (TLWord (WSingle (WSimple (WParam PmAt)))))); Step AParameter (Some (OOk (TLWord (WSingle (WSimple (WParam PmStar)))))); Step AParameter (Some (OOk (TLWord (WSingle (WSimple (WParam PmPound)))))); Step AParameter (Some (OOk (TLWord (WSingle (WSimple (WParam PmQuestion)))))); Step AParameter (Some (OOk (TLWord (WSingle (WSimple (WParam PmDash)))))); Step AParameter (Some (OOk (TLWord (WSingle (WSimple (WParam PmDollar)))))); Step AParameter (Some (OOk (TLWord (WSingle (WSimple (WParam PmBang)))))); Step AParameter (Some (OOk (TLWord (WSingle (WSimple (WParam (PmVar (s_of "foo")))))))); Step AParameter (Some (OOk (TLWord (WSingle (WSimple (WParam (PmPositional 3%N))))))); Step AParameter (Some (OOk (TLWord (WSingle (WSimple (WParam (PmPositional 1000%N))))))); Step AParameter (Some (OErr UnexpectedEOF))].
Proof. vm_compute. repeat split. Qed.
Example ast_parameter_command_substitution_1 : follows (@lex ascii_uni (s_of "$(echo hello; echo world)")) [Step AParameter (Some (OOk (TLWord (WSingle (WSimple (WSubst (SCommand [(TLCmd (CList (mkAOL (LSingle (PSimple (mkSC [] [(DCmdWord (TLWord (WSingle (WSimple (WLiteral (s_of "echo")))))); (DCmdWord (TLWord (WSingle (WSimple (WLiteral (s_of "hello"))))))]))) []))); (TLCmd (CList (mkAOL (LSingle (PSimple (mkSC [] [(DCmdWord (TLWord (WSingle (WSimple (WLiteral (s_of "echo")))))); (DCmdWord (TLWord (WSingle (WSimple (WLiteral (s_of "world"))))))]))) [])))])))))))].
Proof. vm_compute. repeat split. Qed.
Example ast_parameter_command_substitution_valid_empty_substitution_1 : follows (@lex ascii_uni (s_of "$()")) [Step AParameter (Some (OOk (TLWord (WSingle (WSimple (WSubst (SCommand [])))))))].
Proof. vm_compute. repeat split. Qed.
Example ast_parameter_command_substitution_valid_empty_substitution_2 : follows (@lex ascii_uni (s_of "$(     )")) [Step AParameter (Some (OOk (TLWord (WSingle (WSimple (WSubst (SCommand [])))))))].
Proof. vm_compute. repeat split. Qed.
Example ast_parameter_command_substitution_valid_empty_substitution_3 : follows (@lex ascii_uni [36;40;10;10;41]%N) [Step AParameter (Some (OOk (TLWord (WSingle (WSimple (WSubst (SCommand [])))))))].
Proof. vm_compute. repeat split. Qed.
Example ast_parameter_literal_dollar_if_no_param_1 : follows (@lex ascii_uni (s_of "$%asdf")) [Step AParameter (Some (OOk (TLWord (WSingle (WSimple (WLiteral (s_of "$"))))))); Step AWord (Some (OOk (Some (TLWord (WSingle (WSimple (WLiteral (s_of "%asdf"))))))))].
Proof. vm_compute. repeat split. Qed.
Example ast_linebreak_valid_with_comments_and_whitespace_1 : follows (@lex ascii_uni [10;9;9;9;10;32;35;32;99;111;109;109;101;110;116;49;10;35;99;111;109;109;101;110;116;50;10;32;32;32;10]%N) [Step ALinebreak (Some (OOk [(Newline None); (Newline None); (Newline (Some (s_of "# comment1"))); (Newline (Some (s_of "#comment2"))); (Newline None)]))].
Proof. vm_compute. repeat split. Qed.
Example ast_linebreak_valid_empty_1 : follows (@lex ascii_uni (s_of "")) [Step ALinebreak (Some (OOk []))].
Proof. vm_compute. repeat split. Qed.
Example ast_linebreak_valid_nonnewline_1 : follows (@lex ascii_uni (s_of "hello world")) [Step ALinebreak (Some (OOk []))].
Proof. vm_compute. repeat split. Qed.
Example ast_linebreak_valid_eof_instead_of_newline_1 : follows (@lex ascii_uni (s_of "#comment")) [Step ALinebreak (Some (OOk [(Newline (Some (s_of "#comment")))]))].
Proof. vm_compute. repeat split. Qed.
Example ast_linebreak_single_quote_insiginificant_1 : follows (@lex ascii_uni (s_of "#unclosed quote ' comment")) [Step ALinebreak (Some (OOk [(Newline (Some (s_of "#unclosed quote ' comment")))]))].
Proof. vm_compute. repeat split. Qed.
Example ast_linebreak_double_quote_insiginificant_1 : follows (@lex ascii_uni (s_of "#unclosed quote "" comment")) [Step ALinebreak (Some (OOk [(Newline (Some (s_of "#unclosed quote "" comment")))]))].
Proof. vm_compute. repeat split. Qed.
Example ast_linebreak_escaping_newline_insignificant_1 : follows (@lex ascii_uni [35;99;111;109;109;101;110;116;32;101;115;99;97;112;101;115;32;110;101;119;108;105;110;101;92;10]%N) [Step ALinebreak (Some (OOk [(Newline (Some (s_of "#comment escapes newline\")))]))].
Proof. vm_compute. repeat split. Qed.
Example ast_skip_whitespace_preserve_comments_1 : follows (@lex ascii_uni [32;32;32;32;9;9;32;9;32;9;35;99;111;109;109;101;110;116;10;32;32;32]%N) [Step ASkipWhitespace None; StepLast (Newline (Some (s_of "#comment")))].
Proof. vm_compute. repeat split. Qed.
Example ast_skip_whitespace_comments_capture_all_up_to_newline_1 : follows (@lex ascii_uni [35;99;111;109;109;101;110;116;38;38;124;124;59;59;40;41;60;60;45;10]%N) [StepLast (Newline (Some (s_of "#comment&&||;;()<<-")))].
Proof. vm_compute. repeat split. Qed.
Example ast_skip_whitespace_comments_may_end_with_eof_1 : follows (@lex ascii_uni (s_of "#comment")) [StepLast (Newline (Some (s_of "#comment")))].
Proof. vm_compute. repeat split. Qed.
Example ast_skip_whitespace_skip_escapes_dont_affect_newlines_1 : follows (@lex ascii_uni [32;32;9;32;92;10;32;32;92;10;35;99;111;109;109;101;110;116;10]%N) [Step ASkipWhitespace None; StepLast (Newline (Some (s_of "#comment")))].
Proof. vm_compute. repeat split. Qed.
Example ast_skip_whitespace_skips_escaped_newlines_1 : follows (@lex ascii_uni [92;10;92;10;32;32;32;92;10]%N) [Step ASkipWhitespace None; Step ALinebreak (Some (OOk []))].
Proof. vm_compute. repeat split. Qed.
Example ast_comment_cannot_start_mid_whitespace_delimited_word_1 : follows (@lex ascii_uni (s_of "hello#world")) [Step AWord (Some (OOk (Some (TLWord (WSingle (WSimple (WLiteral (s_of "hello#world"))))))))].
Proof. vm_compute. repeat split. Qed.
Example ast_comment_can_start_if_whitespace_before_pound_1 : follows (@lex ascii_uni (s_of "hello #world")) [StepOk AWord; Step ALinebreak (Some (OOk [(Newline (Some (s_of "#world")))]))].
Proof. vm_compute. repeat split. Qed.
Example ast_braces_literal_unless_brace_group_expected_1 : follows (@lex ascii_uni (s_of "echo {} } {")) [Step AWord (Some (OOk (Some (TLWord (WSingle (WSimple (WLiteral (s_of "echo")))))))); Step AWord (Some (OOk (Some (TLWord (WSingle (WSimple (WLiteral (s_of "{}")))))))); Step AWord (Some (OOk (Some (TLWord (WSingle (WSimple (WLiteral (s_of "}")))))))); Step AWord (Some (OOk (Some (TLWord (WSingle (WSimple (WLiteral (s_of "{"))))))))].
Proof. vm_compute. repeat split. Qed.
Example ast_braces_literal_unless_brace_group_expected_2 : follows (@lex ascii_uni (s_of "echo {} } {")) [Step ACompleteCommand (Some (OOk (Some (TLCmd (CList (mkAOL (LSingle (PSimple (mkSC [] [(DCmdWord (TLWord (WSingle (WSimple (WLiteral (s_of "echo")))))); (DCmdWord (TLWord (WSingle (WSimple (WLiteral (s_of "{}")))))); (DCmdWord (TLWord (WSingle (WSimple (WLiteral (s_of "}")))))); (DCmdWord (TLWord (WSingle (WSimple (WLiteral (s_of "{"))))))]))) []))))))].
Proof. vm_compute. repeat split. Qed.
Example ast_pipeline_valid_bang_1 : follows (@lex ascii_uni (s_of "! foo | bar | baz")) [Step AAndOrList (Some (OOk (mkAOL (LPipe true [(PSimple (mkSC [] [(DCmdWord (TLWord (WSingle (WSimple (WLiteral (s_of "foo"))))))])); (PSimple (mkSC [] [(DCmdWord (TLWord (WSingle (WSimple (WLiteral (s_of "bar"))))))])); (PSimple (mkSC [] [(DCmdWord (TLWord (WSingle (WSimple (WLiteral (s_of "baz"))))))]))]) [])))].
Proof. vm_compute. repeat split. Qed.
Example ast_pipeline_valid_bangs_in_and_or_1 : follows (@lex ascii_uni (s_of "! foo | bar || ! baz && ! foobar")) [Step AAndOrList (Some (OOk (mkAOL (LPipe true [(PSimple (mkSC [] [(DCmdWord (TLWord (WSingle (WSimple (WLiteral (s_of "foo"))))))])); (PSimple (mkSC [] [(DCmdWord (TLWord (WSingle (WSimple (WLiteral (s_of "bar"))))))]))]) [(Or (LPipe true [(PSimple (mkSC [] [(DCmdWord (TLWord (WSingle (WSimple (WLiteral (s_of "baz"))))))]))])); (And (LPipe true [(PSimple (mkSC [] [(DCmdWord (TLWord (WSingle (WSimple (WLiteral (s_of "foobar"))))))]))]))])))].
Proof. vm_compute. repeat split. Qed.
Example ast_pipeline_invalid_multiple_bangs_in_same_pipeline_1 : follows (@lex ascii_uni (s_of "! foo | bar | ! baz")) [Step APipeline (Some (OErr (Unexpected TBang (mkPos 14 1 15))))].
Proof. vm_compute. repeat split. Qed.
Example ast_redirect_valid_close_without_whitespace_1 : follows (@lex ascii_uni (s_of ">&-")) [Step ARedirect (Some (OOk (Some (inl (RDupWrite None (TLWord (WSingle (WSimple (WLiteral (s_of "-"))))))))))].
Proof. vm_compute. repeat split. Qed.
Example ast_redirect_valid_close_with_whitespace_1 : follows (@lex ascii_uni (s_of "<&       -")) [Step ARedirect (Some (OOk (Some (inl (RDupRead None (TLWord (WSingle (WSimple (WLiteral (s_of "-"))))))))))].
Proof. vm_compute. repeat split. Qed.
Example ast_redirect_valid_start_with_dash_if_not_dup_1 : follows (@lex ascii_uni (s_of "4<-test")) [Step ARedirect (Some (OOk (Some (inl (RRead (Some 4%N) (TLWord (WSingle (WSimple (WLiteral (s_of "-test"))))))))))].
Proof. vm_compute. repeat split. Qed.
Example ast_redirect_valid_start_with_dash_if_not_dup_2 : follows (@lex ascii_uni (s_of "4>-test")) [Step ARedirect (Some (OOk (Some (inl (RWrite (Some 4%N) (TLWord (WSingle (WSimple (WLiteral (s_of "-test"))))))))))].
Proof. vm_compute. repeat split. Qed.
Example ast_redirect_valid_start_with_dash_if_not_dup_3 : follows (@lex ascii_uni (s_of "4<>-test")) [Step ARedirect (Some (OOk (Some (inl (RReadWrite (Some 4%N) (TLWord (WSingle (WSimple (WLiteral (s_of "-test"))))))))))].
Proof. vm_compute. repeat split. Qed.
Example ast_redirect_valid_start_with_dash_if_not_dup_4 : follows (@lex ascii_uni (s_of "4>>-test")) [Step ARedirect (Some (OOk (Some (inl (RAppend (Some 4%N) (TLWord (WSingle (WSimple (WLiteral (s_of "-test"))))))))))].
Proof. vm_compute. repeat split. Qed.
Example ast_redirect_valid_start_with_dash_if_not_dup_5 : follows (@lex ascii_uni (s_of "4>|-test")) [Step ARedirect (Some (OOk (Some (inl (RClobber (Some 4%N) (TLWord (WSingle (WSimple (WLiteral (s_of "-test"))))))))))].
Proof. vm_compute. repeat split. Qed.
Example ast_redirect_valid_return_word_if_no_redirect_1 : follows (@lex ascii_uni (s_of "hello")) [Step ARedirect (Some (OOk (Some (inr (TLWord (WSingle (WSimple (WLiteral (s_of "hello")))))))))].
Proof. vm_compute. repeat split. Qed.
Example ast_redirect_valid_return_word_if_src_fd_is_definitely_non_numeric_1 : follows (@lex ascii_uni (s_of "123$$'foo'>out")) [Step ARedirect (Some (OOk (Some (inr (TLWord (WConcat [(WSimple (WLiteral (s_of "123"))); (WSimple (WParam PmDollar)); (WSingleQuoted (s_of "foo"))]))))))].
Proof. vm_compute. repeat split. Qed.
Example ast_redirect_valid_return_word_if_src_fd_has_escaped_numerics_1 : follows (@lex ascii_uni (s_of "\2>")) [Step ARedirect (Some (OOk (Some (inr (TLWord (WSingle (WSimple (WEscaped (s_of "2")))))))))].
Proof. vm_compute. repeat split. Qed.
Example ast_redirect_valid_dst_fd_can_have_escaped_numerics_1 : follows (@lex ascii_uni (s_of ">\2")) [Step ARedirect (Some (OOk (Some (inl (RWrite None (TLWord (WSingle (WSimple (WEscaped (s_of "2"))))))))))].
Proof. vm_compute. repeat split. Qed.
Example ast_redirect_invalid_dup_if_dst_fd_is_definitely_non_numeric_1 : follows (@lex ascii_uni (s_of ">&123$$'foo'")) [Step ARedirect (Some (OErr (BadFd (mkPos 2 1 3) (mkPos 12 1 13))))].
Proof. vm_compute. repeat split. Qed.
Example ast_redirect_valid_dup_return_redirect_if_dst_fd_is_possibly_numeric_1 : follows (@lex ascii_uni (s_of ">&123$$$(echo 2)`echo bar`")) [Step ARedirect (Some (OOk (Some (inl (RDupWrite None (TLWord (WConcat [(WSimple (WLiteral (s_of "123"))); (WSimple (WParam PmDollar)); (WSimple (WSubst (SCommand [(TLCmd (CList (mkAOL (LSingle (PSimple (mkSC [] [(DCmdWord (TLWord (WSingle (WSimple (WLiteral (s_of "echo")))))); (DCmdWord (TLWord (WSingle (WSimple (WLiteral (s_of "2"))))))]))) [])))]))); (WSimple (WSubst (SCommand [(TLCmd (CList (mkAOL (LSingle (PSimple (mkSC [] [(DCmdWord (TLWord (WSingle (WSimple (WLiteral (s_of "echo")))))); (DCmdWord (TLWord (WSingle (WSimple (WLiteral (s_of "bar"))))))]))) [])))])))])))))))].
Proof. vm_compute. repeat split. Qed.
Example ast_redirect_invalid_close_without_whitespace_1 : follows (@lex ascii_uni (s_of ">&-asdf")) [Step ARedirect (Some (OErr (BadFd (mkPos 2 1 3) (mkPos 7 1 8))))].
Proof. vm_compute. repeat split. Qed.
Example ast_redirect_invalid_close_with_whitespace_1 : follows (@lex ascii_uni (s_of "<&       -asdf")) [Step ARedirect (Some (OErr (BadFd (mkPos 9 1 10) (mkPos 14 1 15))))].
Proof. vm_compute. repeat split. Qed.
Example ast_redirect_fd_immediately_preceeding_redirection_1 : follows (@lex ascii_uni (s_of "foo 1>>out")) [Step ASimpleCommand (Some (OOk (PSimple (mkSC [] [(DCmdWord (TLWord (WSingle (WSimple (WLiteral (s_of "foo")))))); (DRedirect (RAppend (Some 1%N) (TLWord (WSingle (WSimple (WLiteral (s_of "out")))))))]))))].
Proof. vm_compute. repeat split. Qed.
Example ast_redirect_fd_must_immediately_preceed_redirection_1 : follows (@lex ascii_uni (s_of "foo 1 <>out")) [Step ASimpleCommand (Some (OOk (PSimple (mkSC [] [(DCmdWord (TLWord (WSingle (WSimple (WLiteral (s_of "foo")))))); (DCmdWord (TLWord (WSingle (WSimple (WLiteral (s_of "1")))))); (DRedirect (RReadWrite None (TLWord (WSingle (WSimple (WLiteral (s_of "out")))))))]))))].
Proof. vm_compute. repeat split. Qed.
Example ast_redirect_valid_dup_with_fd_1 : follows (@lex ascii_uni (s_of "foo 1>&2")) [Step ASimpleCommand (Some (OOk (PSimple (mkSC [] [(DCmdWord (TLWord (WSingle (WSimple (WLiteral (s_of "foo")))))); (DRedirect (RDupWrite (Some 1%N) (TLWord (WSingle (WSimple (WLiteral (s_of "2")))))))]))))].
Proof. vm_compute. repeat split. Qed.
Example ast_redirect_valid_dup_without_fd_1 : follows (@lex ascii_uni (s_of "foo 1 <&2")) [Step ASimpleCommand (Some (OOk (PSimple (mkSC [] [(DCmdWord (TLWord (WSingle (WSimple (WLiteral (s_of "foo")))))); (DCmdWord (TLWord (WSingle (WSimple (WLiteral (s_of "1")))))); (DRedirect (RDupRead None (TLWord (WSingle (WSimple (WLiteral (s_of "2")))))))]))))].
Proof. vm_compute. repeat split. Qed.
Example ast_redirect_valid_dup_with_whitespace_1 : follows (@lex ascii_uni (s_of "foo 1<& 2")) [Step ASimpleCommand (Some (OOk (PSimple (mkSC [] [(DCmdWord (TLWord (WSingle (WSimple (WLiteral (s_of "foo")))))); (DRedirect (RDupRead (Some 1%N) (TLWord (WSingle (WSimple (WLiteral (s_of "2")))))))]))))].
Proof. vm_compute. repeat split. Qed.
Example ast_redirect_valid_single_quoted_dup_fd_1 : follows (@lex ascii_uni (s_of "1>&'2'")) [Step ARedirect (Some (OOk (Some (inl (RDupWrite (Some 1%N) (TLWord (WSingle (WSingleQuoted (s_of "2")))))))))].
Proof. vm_compute. repeat split. Qed.
Example ast_redirect_valid_double_quoted_dup_fd_1 : follows (@lex ascii_uni (s_of ">&""2""")) [Step ARedirect (Some (OOk (Some (inl (RDupWrite None (TLWord (WSingle (WDoubleQuoted [(WLiteral (s_of "2"))]))))))))].
Proof. vm_compute. repeat split. Qed.
Example ast_redirect_src_fd_need_not_be_single_token_1 : follows [(TLiteral (s_of "foo")); (TWhitespace (s_of " ")); (TLiteral (s_of "12")); (TLiteral (s_of "34")); TLessAnd; TDash] [Step ASimpleCommand (Some (OOk (PSimple (mkSC [] [(DCmdWord (TLWord (WSingle (WSimple (WLiteral (s_of "foo")))))); (DRedirect (RDupRead (Some 1234%N) (TLWord (WSingle (WSimple (WLiteral (s_of "-")))))))]))))].
Proof. vm_compute. repeat split. Qed.
Example ast_redirect_dst_fd_need_not_be_single_token_1 : follows [TGreatAnd; (TLiteral (s_of "12")); (TLiteral (s_of "34"))] [Step ARedirect (Some (OOk (Some (inl (RDupWrite None (TLWord (WSingle (WSimple (WLiteral (s_of "1234"))))))))))].
Proof. vm_compute. repeat split. Qed.
Example ast_redirect_accept_literal_and_name_tokens_1 : follows [TGreatAnd; (TLiteral (s_of "12"))] [Step ARedirect (Some (OOk (Some (inl (RDupWrite None (TLWord (WSingle (WSimple (WLiteral (s_of "12"))))))))))].
Proof. vm_compute. repeat split. Qed.
Example ast_redirect_accept_literal_and_name_tokens_2 : follows [TGreatAnd; (TName (s_of "12"))] [Step ARedirect (Some (OOk (Some (inl (RDupWrite None (TLWord (WSingle (WSimple (WLiteral (s_of "12"))))))))))].
Proof. vm_compute. repeat split. Qed.
Example ast_redirect_list_valid_1 : follows (@lex ascii_uni (s_of "1>>out <& 2 2>&-")) [Step ARedirectList (Some (OOk [(RAppend (Some 1%N) (TLWord (WSingle (WSimple (WLiteral (s_of "out")))))); (RDupRead None (TLWord (WSingle (WSimple (WLiteral (s_of "2")))))); (RDupWrite (Some 2%N) (TLWord (WSingle (WSimple (WLiteral (s_of "-"))))))]))].
Proof. vm_compute. repeat split. Qed.
Example ast_redirect_list_rejects_non_fd_words_1 : follows (@lex ascii_uni (s_of "1>>out <in 2>&- abc")) [Step ARedirectList (Some (OErr (BadFd (mkPos 16 1 17) (mkPos 19 1 20))))].
Proof. vm_compute. repeat split. Qed.
Example ast_redirect_list_rejects_non_fd_words_2 : follows (@lex ascii_uni (s_of "1>>out abc<in 2>&-")) [Step ARedirectList (Some (OErr (BadFd (mkPos 7 1 8) (mkPos 10 1 11))))].
Proof. vm_compute. repeat split. Qed.
Example ast_redirect_list_rejects_non_fd_words_3 : follows (@lex ascii_uni (s_of "1>>out abc <in 2>&-")) [Step ARedirectList (Some (OErr (BadFd (mkPos 7 1 8) (mkPos 10 1 11))))].
Proof. vm_compute. repeat split. Qed.
Example ast_simple_command_valid_assignments_at_start_of_command_1 : follows (@lex ascii_uni (s_of "var=val ENV=true BLANK= foo bar baz")) [Step ASimpleCommand (Some (OOk (PSimple (mkSC [(EEnvVar (s_of "var") (Some (TLWord (WSingle (WSimple (WLiteral (s_of "val"))))))); (EEnvVar (s_of "ENV") (Some (TLWord (WSingle (WSimple (WLiteral (s_of "true"))))))); (EEnvVar (s_of "BLANK") None)] [(DCmdWord (TLWord (WSingle (WSimple (WLiteral (s_of "foo")))))); (DCmdWord (TLWord (WSingle (WSimple (WLiteral (s_of "bar")))))); (DCmdWord (TLWord (WSingle (WSimple (WLiteral (s_of "baz"))))))]))))].
Proof. vm_compute. repeat split. Qed.
Example ast_simple_command_assignments_after_start_of_command_should_be_args_1 : follows (@lex ascii_uni (s_of "var=val ENV=true BLANK= foo var2=val2 bar baz var3=val3")) [Step ASimpleCommand (Some (OOk (PSimple (mkSC [(EEnvVar (s_of "var") (Some (TLWord (WSingle (WSimple (WLiteral (s_of "val"))))))); (EEnvVar (s_of "ENV") (Some (TLWord (WSingle (WSimple (WLiteral (s_of "true"))))))); (EEnvVar (s_of "BLANK") None)] [(DCmdWord (TLWord (WSingle (WSimple (WLiteral (s_of "foo")))))); (DCmdWord (TLWord (WSingle (WSimple (WLiteral (s_of "var2=val2")))))); (DCmdWord (TLWord (WSingle (WSimple (WLiteral (s_of "bar")))))); (DCmdWord (TLWord (WSingle (WSimple (WLiteral (s_of "baz")))))); (DCmdWord (TLWord (WSingle (WSimple (WLiteral (s_of "var3=val3"))))))]))))].
Proof. vm_compute. repeat split. Qed.
Example ast_simple_command_redirections_at_start_of_command_1 : follows (@lex ascii_uni (s_of "2>|clob 3<>rw <in var=val ENV=true BLANK= foo bar baz")) [Step ASimpleCommand (Some (OOk (PSimple (mkSC [(ERedirect (RClobber (Some 2%N) (TLWord (WSingle (WSimple (WLiteral (s_of "clob"))))))); (ERedirect (RReadWrite (Some 3%N) (TLWord (WSingle (WSimple (WLiteral (s_of "rw"))))))); (ERedirect (RRead None (TLWord (WSingle (WSimple (WLiteral (s_of "in"))))))); (EEnvVar (s_of "var") (Some (TLWord (WSingle (WSimple (WLiteral (s_of "val"))))))); (EEnvVar (s_of "ENV") (Some (TLWord (WSingle (WSimple (WLiteral (s_of "true"))))))); (EEnvVar (s_of "BLANK") None)] [(DCmdWord (TLWord (WSingle (WSimple (WLiteral (s_of "foo")))))); (DCmdWord (TLWord (WSingle (WSimple (WLiteral (s_of "bar")))))); (DCmdWord (TLWord (WSingle (WSimple (WLiteral (s_of "baz"))))))]))))].
Proof. vm_compute. repeat split. Qed.
Example ast_simple_command_redirections_at_end_of_command_1 : follows (@lex ascii_uni (s_of "var=val ENV=true BLANK= foo bar baz 2>|clob 3<>rw <in")) [Step ASimpleCommand (Some (OOk (PSimple (mkSC [(EEnvVar (s_of "var") (Some (TLWord (WSingle (WSimple (WLiteral (s_of "val"))))))); (EEnvVar (s_of "ENV") (Some (TLWord (WSingle (WSimple (WLiteral (s_of "true"))))))); (EEnvVar (s_of "BLANK") None)] [(DCmdWord (TLWord (WSingle (WSimple (WLiteral (s_of "foo")))))); (DCmdWord (TLWord (WSingle (WSimple (WLiteral (s_of "bar")))))); (DCmdWord (TLWord (WSingle (WSimple (WLiteral (s_of "baz")))))); (DRedirect (RClobber (Some 2%N) (TLWord (WSingle (WSimple (WLiteral (s_of "clob"))))))); (DRedirect (RReadWrite (Some 3%N) (TLWord (WSingle (WSimple (WLiteral (s_of "rw"))))))); (DRedirect (RRead None (TLWord (WSingle (WSimple (WLiteral (s_of "in")))))))]))))].
Proof. vm_compute. repeat split. Qed.
Example ast_simple_command_redirections_throughout_the_command_1 : follows (@lex ascii_uni (s_of "2>|clob var=val 3<>rw ENV=true BLANK= foo bar <in baz 4>&-")) [Step ASimpleCommand (Some (OOk (PSimple (mkSC [(ERedirect (RClobber (Some 2%N) (TLWord (WSingle (WSimple (WLiteral (s_of "clob"))))))); (EEnvVar (s_of "var") (Some (TLWord (WSingle (WSimple (WLiteral (s_of "val"))))))); (ERedirect (RReadWrite (Some 3%N) (TLWord (WSingle (WSimple (WLiteral (s_of "rw"))))))); (EEnvVar (s_of "ENV") (Some (TLWord (WSingle (WSimple (WLiteral (s_of "true"))))))); (EEnvVar (s_of "BLANK") None)] [(DCmdWord (TLWord (WSingle (WSimple (WLiteral (s_of "foo")))))); (DCmdWord (TLWord (WSingle (WSimple (WLiteral (s_of "bar")))))); (DRedirect (RRead None (TLWord (WSingle (WSimple (WLiteral (s_of "in"))))))); (DCmdWord (TLWord (WSingle (WSimple (WLiteral (s_of "baz")))))); (DRedirect (RDupWrite (Some 4%N) (TLWord (WSingle (WSimple (WLiteral (s_of "-")))))))]))))].
Proof. vm_compute. repeat split. Qed.
Example ast_subshell_valid_1 : follows (@lex ascii_uni [40;32;102;111;111;10;98;97;114;59;32;98;97;122;10;35;99;111;109;109;101;110;116;10;32;41]%N) [Step ASubshell (Some (OOk (mkCG [(TLCmd (CList (mkAOL (LSingle (PSimple (mkSC [] [(DCmdWord (TLWord (WSingle (WSimple (WLiteral (s_of "foo"))))))]))) []))); (TLCmd (CList (mkAOL (LSingle (PSimple (mkSC [] [(DCmdWord (TLWord (WSingle (WSimple (WLiteral (s_of "bar"))))))]))) []))); (TLCmd (CList (mkAOL (LSingle (PSimple (mkSC [] [(DCmdWord (TLWord (WSingle (WSimple (WLiteral (s_of "baz"))))))]))) [])))] [(Newline (Some (s_of "#comment")))])))].
Proof. vm_compute. repeat split. Qed.
Example ast_subshell_valid_separator_not_needed_1 : follows (@lex ascii_uni (s_of "( foo )")) [Step ASubshell (Some (OOk (mkCG [(TLCmd (CList (mkAOL (LSingle (PSimple (mkSC [] [(DCmdWord (TLWord (WSingle (WSimple (WLiteral (s_of "foo"))))))]))) [])))] [])))].
Proof. vm_compute. repeat split. Qed.
Example ast_subshell_valid_separator_not_needed_2 : follows (@lex ascii_uni [40;32;102;111;111;10;35;99;111;109;109;101;110;116;10;32;41]%N) [Step ASubshell (Some (OOk (mkCG [(TLCmd (CList (mkAOL (LSingle (PSimple (mkSC [] [(DCmdWord (TLWord (WSingle (WSimple (WLiteral (s_of "foo"))))))]))) [])))] [(Newline (Some (s_of "#comment")))])))].
Proof. vm_compute. repeat split. Qed.
Example ast_subshell_space_between_parens_not_needed_1 : follows (@lex ascii_uni (s_of "(foo )")) [StepOk ASubshell].
Proof. vm_compute. repeat split. Qed.
Example ast_subshell_space_between_parens_not_needed_2 : follows (@lex ascii_uni (s_of "( foo)")) [StepOk ASubshell].
Proof. vm_compute. repeat split. Qed.
Example ast_subshell_space_between_parens_not_needed_3 : follows (@lex ascii_uni (s_of "(foo)")) [StepOk ASubshell].
Proof. vm_compute. repeat split. Qed.
Example ast_subshell_invalid_missing_keyword_1 : follows (@lex ascii_uni [40;32;102;111;111;10;98;97;114;59;32;98;97;122]%N) [Step ASubshell (Some (OErr (Unmatched TParenOpen (mkPos 0 1 1))))].
Proof. vm_compute. repeat split. Qed.
Example ast_subshell_invalid_missing_keyword_2 : follows (@lex ascii_uni [102;111;111;10;98;97;114;59;32;98;97;122;59;32;41]%N) [Step ASubshell (Some (OErr (Unexpected (TName (s_of "foo")) (mkPos 0 1 1))))].
Proof. vm_compute. repeat split. Qed.
Example ast_subshell_invalid_quoted_1 : follows (@lex ascii_uni [39;40;39;32;102;111;111;10;98;97;114;59;32;98;97;122;59;32;41]%N) [Step ASubshell (Some (OErr (Unexpected TSingleQuote (mkPos 0 1 1))))].
Proof. vm_compute. repeat split. Qed.
Example ast_subshell_invalid_quoted_2 : follows (@lex ascii_uni [40;32;102;111;111;10;98;97;114;59;32;98;97;122;59;32;39;41;39]%N) [Step ASubshell (Some (OErr (Unmatched TParenOpen (mkPos 0 1 1))))].
Proof. vm_compute. repeat split. Qed.
Example ast_subshell_invalid_quoted_3 : follows (@lex ascii_uni [34;40;34;32;102;111;111;10;98;97;114;59;32;98;97;122;59;32;41]%N) [Step ASubshell (Some (OErr (Unexpected TDoubleQuote (mkPos 0 1 1))))].
Proof. vm_compute. repeat split. Qed.
Example ast_subshell_invalid_quoted_4 : follows (@lex ascii_uni [40;32;102;111;111;10;98;97;114;59;32;98;97;122;59;32;34;41;34]%N) [Step ASubshell (Some (OErr (Unmatched TParenOpen (mkPos 0 1 1))))].
Proof. vm_compute. repeat split. Qed.
Example ast_subshell_invalid_missing_body_1 : follows (@lex ascii_uni [40;10;41]%N) [Step ASubshell (Some (OErr (Unexpected TParenClose (mkPos 2 2 1))))].
Proof. vm_compute. repeat split. Qed.
Example ast_subshell_invalid_missing_body_2 : follows (@lex ascii_uni (s_of "()")) [Step ASubshell (Some (OErr (Unexpected TParenClose (mkPos 1 1 2))))].
Proof. vm_compute. repeat split. Qed.
Example ast_parameter_substitution_1 : follows (@lex ascii_uni (s_of "${#@}${#*}${##}${#?}${#-}${#$}${#!}${#foo}${#3}${#1000}$(echo foo)")) [Step AParameter (Some (OOk (TLWord (WSingle (WSimple (WSubst (SLen PmAt))))))); Step AParameter (Some (OOk (TLWord (WSingle (WSimple (WSubst (SLen PmStar))))))); Step AParameter (Some (OOk (TLWord (WSingle (WSimple (WSubst (SLen PmPound))))))); Step AParameter (Some (OOk (TLWord (WSingle (WSimple (WSubst (SLen PmQuestion))))))); Step AParameter (Some (OOk (TLWord (WSingle (WSimple (WSubst (SLen PmDash))))))); Step AParameter (Some (OOk (TLWord (WSingle (WSimple (WSubst (SLen PmDollar))))))); Step AParameter (Some (OOk (TLWord (WSingle (WSimple (WSubst (SLen PmBang))))))); Step AParameter (Some (OOk (TLWord (WSingle (WSimple (WSubst (SLen (PmVar (s_of "foo"))))))))); Step AParameter (Some (OOk (TLWord (WSingle (WSimple (WSubst (SLen (PmPositional 3%N)))))))); Step AParameter (Some (OOk (TLWord (WSingle (WSimple (WSubst (SLen (PmPositional 1000%N)))))))); Step AParameter (Some (OOk (TLWord (WSingle (WSimple (WSubst (SCommand [(TLCmd (CList (mkAOL (LSingle (PSimple (mkSC [] [(DCmdWord (TLWord (WSingle (WSimple (WLiteral (s_of "echo")))))); (DCmdWord (TLWord (WSingle (WSimple (WLiteral (s_of "foo"))))))]))) [])))]))))))); Step AParameter (Some (OErr UnexpectedEOF))].
Proof. vm_compute. repeat split. Qed.
Example ast_parameter_substitution_smallest_suffix_1 : follows (@lex ascii_uni (s_of "${@%foo}${*%foo}${#%foo}${?%foo}${-%foo}${$%foo}${!%foo}${0%foo}${10%foo}${100%foo}${foo_bar123%foo}${@%}${*%}${#%}${?%}${-%}${$%}${!%}${0%}${10%}${100%}${foo_bar123%}")) [Step AParameter (Some (OOk (TLWord (WSingle (WSimple (WSubst (SRemoveSmallestSuffix PmAt (Some (TLWord (WSingle (WSimple (WLiteral (s_of "foo"))))))))))))); Step AParameter (Some (OOk (TLWord (WSingle (WSimple (WSubst (SRemoveSmallestSuffix PmStar (Some (TLWord (WSingle (WSimple (WLiteral (s_of "foo"))))))))))))); Step AParameter (Some (OOk (TLWord (WSingle (WSimple (WSubst (SRemoveSmallestSuffix PmPound (Some (TLWord (WSingle (WSimple (WLiteral (s_of "foo"))))))))))))); Step AParameter (Some (OOk (TLWord (WSingle (WSimple (WSubst (SRemoveSmallestSuffix PmQuestion (Some (TLWord (WSingle (WSimple (WLiteral (s_of "foo"))))))))))))); Step AParameter (Some (OOk (TLWord (WSingle (WSimple (WSubst (SRemoveSmallestSuffix PmDash (Some (TLWord (WSingle (WSimple (WLiteral (s_of "foo"))))))))))))); Step AParameter (Some (OOk (TLWord (WSingle (WSimple (WSubst (SRemoveSmallestSuffix PmDollar (Some (TLWord (WSingle (WSimple (WLiteral (s_of "foo"))))))))))))); Step AParameter (Some (OOk (TLWord (WSingle (WSimple (WSubst (SRemoveSmallestSuffix PmBang (Some (TLWord (WSingle (WSimple (WLiteral (s_of "foo"))))))))))))); Step AParameter (Some (OOk (TLWord (WSingle (WSimple (WSubst (SRemoveSmallestSuffix (PmPositional 0%N) (Some (TLWord (WSingle (WSimple (WLiteral (s_of "foo"))))))))))))); Step AParameter (Some (OOk (TLWord (WSingle (WSimple (WSubst (SRemoveSmallestSuffix (PmPositional 10%N) (Some (TLWord (WSingle (WSimple (WLiteral (s_of "foo"))))))))))))); Step AParameter (Some (OOk (TLWord (WSingle (WSimple (WSubst (SRemoveSmallestSuffix (PmPositional 100%N) (Some (TLWord (WSingle (WSimple (WLiteral (s_of "foo"))))))))))))); Step AParameter (Some (OOk (TLWord (WSingle (WSimple (WSubst (SRemoveSmallestSuffix (PmVar (s_of "foo_bar123")) (Some (TLWord (WSingle (WSimple (WLiteral (s_of "foo"))))))))))))); Step AParameter (Some (OOk (TLWord (WSingle (WSimple (WSubst (SRemoveSmallestSuffix PmAt None))))))); Step AParameter (Some (OOk (TLWord (WSingle (WSimple (WSubst (SRemoveSmallestSuffix PmStar None))))))); Step AParameter (Some (OOk (TLWord (WSingle (WSimple (WSubst (SRemoveSmallestSuffix PmPound None))))))); Step AParameter (Some (OOk (TLWord (WSingle (WSimple (WSubst (SRemoveSmallestSuffix PmQuestion None))))))); Step AParameter (Some (OOk (TLWord (WSingle (WSimple (WSubst (SRemoveSmallestSuffix PmDash None))))))); Step AParameter (Some (OOk (TLWord (WSingle (WSimple (WSubst (SRemoveSmallestSuffix PmDollar None))))))); Step AParameter (Some (OOk (TLWord (WSingle (WSimple (WSubst (SRemoveSmallestSuffix PmBang None))))))); Step AParameter (Some (OOk (TLWord (WSingle (WSimple (WSubst (SRemoveSmallestSuffix (PmPositional 0%N) None))))))); Step AParameter (Some (OOk (TLWord (WSingle (WSimple (WSubst (SRemoveSmallestSuffix (PmPositional 10%N) None))))))); Step AParameter (Some (OOk (TLWord (WSingle (WSimple (WSubst (SRemoveSmallestSuffix (PmPositional 100%N) None))))))); Step AParameter (Some (OOk (TLWord (WSingle (WSimple (WSubst (SRemoveSmallestSuffix (PmVar (s_of "foo_bar123")) None))))))); Step AParameter (Some (OErr UnexpectedEOF))].
Proof. vm_compute. repeat split. Qed.
Example ast_parameter_substitution_largest_suffix_1 : follows (@lex ascii_uni (s_of "${@%%foo}${*%%foo}${#%%foo}${?%%foo}${-%%foo}${$%%foo}${!%%foo}${0%%foo}${10%%foo}${100%%foo}${foo_bar123%%foo}${@%%}${*%%}${#%%}${?%%}${-%%}${$%%}${!%%}${0%%}${10%%}${100%%}${foo_bar123%%}")) [Step AParameter (Some (OOk (TLWord (WSingle (WSimple (WSubst (SRemoveLargestSuffix PmAt (Some (TLWord (WSingle (WSimple (WLiteral (s_of "foo"))))))))))))); Step AParameter (Some (OOk (TLWord (WSingle (WSimple (WSubst (SRemoveLargestSuffix PmStar (Some (TLWord (WSingle (WSimple (WLiteral (s_of "foo"))))))))))))); Step AParameter (Some (OOk (TLWord (WSingle (WSimple (WSubst (SRemoveLargestSuffix PmPound (Some (TLWord (WSingle (WSimple (WLiteral (s_of "foo"))))))))))))); Step AParameter (Some (OOk (TLWord (WSingle (WSimple (WSubst (SRemoveLargestSuffix PmQuestion (Some (TLWord (WSingle (WSimple (WLiteral (s_of "foo"))))))))))))); Step AParameter (Some (OOk (TLWord (WSingle (WSimple (WSubst (SRemoveLargestSuffix PmDash (Some (TLWord (WSingle (WSimple (WLiteral (s_of "foo"))))))))))))); Step AParameter (Some (OOk (TLWord (WSingle (WSimple (WSubst (SRemoveLargestSuffix PmDollar (Some (TLWord (WSingle (WSimple (WLiteral (s_of "foo"))))))))))))); Step AParameter (Some (OOk (TLWord (WSingle (WSimple (WSubst (SRemoveLargestSuffix PmBang (Some (TLWord (WSingle (WSimple (WLiteral (s_of "foo"))))))))))))); Step AParameter (Some (OOk (TLWord (WSingle (WSimple (WSubst (SRemoveLargestSuffix (PmPositional 0%N) (Some (TLWord (WSingle (WSimple (WLiteral (s_of "foo"))))))))))))); Step AParameter (Some (OOk (TLWord (WSingle (WSimple (WSubst (SRemoveLargestSuffix (PmPositional 10%N) (Some (TLWord (WSingle (WSimple (WLiteral (s_of "foo"))))))))))))); Step AParameter (Some (OOk (TLWord (WSingle (WSimple (WSubst (SRemoveLargestSuffix (PmPositional 100%N) (Some (TLWord (WSingle (WSimple (WLiteral (s_of "foo"))))))))))))); Step AParameter (Some (OOk (TLWord (WSingle (WSimple (WSubst (SRemoveLargestSuffix (PmVar (s_of "foo_bar123")) (Some (TLWord (WSingle (WSimple (WLiteral (s_of "foo"))))))))))))); Step AParameter (Some (OOk (TLWord (WSingle (WSimple (WSubst (SRemoveLargestSuffix PmAt None))))))); Step AParameter (Some (OOk (TLWord (WSingle (WSimple (WSubst (SRemoveLargestSuffix PmStar None))))))); Step AParameter (Some (OOk (TLWord (WSingle (WSimple (WSubst (SRemoveLargestSuffix PmPound None))))))); Step AParameter (Some (OOk (TLWord (WSingle (WSimple (WSubst (SRemoveLargestSuffix PmQuestion None))))))); Step AParameter (Some (OOk (TLWord (WSingle (WSimple (WSubst (SRemoveLargestSuffix PmDash None))))))); Step AParameter (Some (OOk (TLWord (WSingle (WSimple (WSubst (SRemoveLargestSuffix PmDollar None))))))); Step AParameter (Some (OOk (TLWord (WSingle (WSimple (WSubst (SRemoveLargestSuffix PmBang None))))))); Step AParameter (Some (OOk (TLWord (WSingle (WSimple (WSubst (SRemoveLargestSuffix (PmPositional 0%N) None))))))); Step AParameter (Some (OOk (TLWord (WSingle (WSimple (WSubst (SRemoveLargestSuffix (PmPositional 10%N) None))))))); Step AParameter (Some (OOk (TLWord (WSingle (WSimple (WSubst (SRemoveLargestSuffix (PmPositional 100%N) None))))))); Step AParameter (Some (OOk (TLWord (WSingle (WSimple (WSubst (SRemoveLargestSuffix (PmVar (s_of "foo_bar123")) None))))))); Step AParameter (Some (OErr UnexpectedEOF))].
Proof. vm_compute. repeat split. Qed.
Example ast_parameter_substitution_smallest_prefix_1 : follows (@lex ascii_uni (s_of "${@#foo}${*#foo}${##foo}${?#foo}${-#foo}${$#foo}${!#foo}${0#foo}${10#foo}${100#foo}${foo_bar123#foo}${@#}${*#}${?#}${-#}${$#}${!#}${0#}${10#}${100#}${foo_bar123#}")) [Step AParameter (Some (OOk (TLWord (WSingle (WSimple (WSubst (SRemoveSmallestPrefix PmAt (Some (TLWord (WSingle (WSimple (WLiteral (s_of "foo"))))))))))))); Step AParameter (Some (OOk (TLWord (WSingle (WSimple (WSubst (SRemoveSmallestPrefix PmStar (Some (TLWord (WSingle (WSimple (WLiteral (s_of "foo"))))))))))))); Step AParameter (Some (OOk (TLWord (WSingle (WSimple (WSubst (SRemoveSmallestPrefix PmPound (Some (TLWord (WSingle (WSimple (WLiteral (s_of "foo"))))))))))))); Step AParameter (Some (OOk (TLWord (WSingle (WSimple (WSubst (SRemoveSmallestPrefix PmQuestion (Some (TLWord (WSingle (WSimple (WLiteral (s_of "foo"))))))))))))); Step AParameter (Some (OOk (TLWord (WSingle (WSimple (WSubst (SRemoveSmallestPrefix PmDash (Some (TLWord (WSingle (WSimple (WLiteral (s_of "foo"))))))))))))); Step AParameter (Some (OOk (TLWord (WSingle (WSimple (WSubst (SRemoveSmallestPrefix PmDollar (Some (TLWord (WSingle (WSimple (WLiteral (s_of "foo"))))))))))))); Step AParameter (Some (OOk (TLWord (WSingle (WSimple (WSubst (SRemoveSmallestPrefix PmBang (Some (TLWord (WSingle (WSimple (WLiteral (s_of "foo"))))))))))))); Step AParameter (Some (OOk (TLWord (WSingle (WSimple (WSubst (SRemoveSmallestPrefix (PmPositional 0%N) (Some (TLWord (WSingle (WSimple (WLiteral (s_of "foo"))))))))))))); Step AParameter (Some (OOk (TLWord (WSingle (WSimple (WSubst (SRemoveSmallestPrefix (PmPositional 10%N) (Some (TLWord (WSingle (WSimple (WLiteral (s_of "foo"))))))))))))); Step AParameter (Some (OOk (TLWord (WSingle (WSimple (WSubst (SRemoveSmallestPrefix (PmPositional 100%N) (Some (TLWord (WSingle (WSimple (WLiteral (s_of "foo"))))))))))))); Step AParameter (Some (OOk (TLWord (WSingle (WSimple (WSubst (SRemoveSmallestPrefix (PmVar (s_of "foo_bar123")) (Some (TLWord (WSingle (WSimple (WLiteral (s_of "foo"))))))))))))); Step AParameter (Some (OOk (TLWord (WSingle (WSimple (WSubst (SRemoveSmallestPrefix PmAt None))))))); Step AParameter (Some (OOk (TLWord (WSingle (WSimple (WSubst (SRemoveSmallestPrefix PmStar None))))))); Step AParameter (Some (OOk (TLWord (WSingle (WSimple (WSubst (SRemoveSmallestPrefix PmQuestion None))))))); Step AParameter (Some (OOk (TLWord (WSingle (WSimple (WSubst (SRemoveSmallestPrefix PmDash None))))))); Step AParameter (Some (OOk (TLWord (WSingle (WSimple (WSubst (SRemoveSmallestPrefix PmDollar None))))))); Step AParameter (Some (OOk (TLWord (WSingle (WSimple (WSubst (SRemoveSmallestPrefix PmBang None))))))); Step AParameter (Some (OOk (TLWord (WSingle (WSimple (WSubst (SRemoveSmallestPrefix (PmPositional 0%N) None))))))); Step AParameter (Some (OOk (TLWord (WSingle (WSimple (WSubst (SRemoveSmallestPrefix (PmPositional 10%N) None))))))); Step AParameter (Some (OOk (TLWord (WSingle (WSimple (WSubst (SRemoveSmallestPrefix (PmPositional 100%N) None))))))); Step AParameter (Some (OOk (TLWord (WSingle (WSimple (WSubst (SRemoveSmallestPrefix (PmVar (s_of "foo_bar123")) None))))))); Step AParameter (Some (OErr UnexpectedEOF))].
Proof. vm_compute. repeat split. Qed.
Example ast_parameter_substitution_largest_prefix_1 : follows (@lex ascii_uni (s_of "${@##foo}${*##foo}${###foo}${?##foo}${-##foo}${$##foo}${!##foo}${0##foo}${10##foo}${100##foo}${foo_bar123##foo}${@##}${*##}${###}${?##}${-##}${$##}${!##}${0##}${10##}${100##}${foo_bar123##}")) [Step AParameter (Some (OOk (TLWord (WSingle (WSimple (WSubst (SRemoveLargestPrefix PmAt (Some (TLWord (WSingle (WSimple (WLiteral (s_of "foo"))))))))))))); Step AParameter (Some (OOk (TLWord (WSingle (WSimple (WSubst (SRemoveLargestPrefix PmStar (Some (TLWord (WSingle (WSimple (WLiteral (s_of "foo"))))))))))))); Step AParameter (Some (OOk (TLWord (WSingle (WSimple (WSubst (SRemoveLargestPrefix PmPound (Some (TLWord (WSingle (WSimple (WLiteral (s_of "foo"))))))))))))); Step AParameter (Some (OOk (TLWord (WSingle (WSimple (WSubst (SRemoveLargestPrefix PmQuestion (Some (TLWord (WSingle (WSimple (WLiteral (s_of "foo"))))))))))))); Step AParameter (Some (OOk (TLWord (WSingle (WSimple (WSubst (SRemoveLargestPrefix PmDash (Some (TLWord (WSingle (WSimple (WLiteral (s_of "foo"))))))))))))); Step AParameter (Some (OOk (TLWord (WSingle (WSimple (WSubst (SRemoveLargestPrefix PmDollar (Some (TLWord (WSingle (WSimple (WLiteral (s_of "foo"))))))))))))); Step AParameter (Some (OOk (TLWord (WSingle (WSimple (WSubst (SRemoveLargestPrefix PmBang (Some (TLWord (WSingle (WSimple (WLiteral (s_of "foo"))))))))))))); Step AParameter (Some (OOk (TLWord (WSingle (WSimple (WSubst (SRemoveLargestPrefix (PmPositional 0%N) (Some (TLWord (WSingle (WSimple (WLiteral (s_of "foo"))))))))))))); Step AParameter (Some (OOk (TLWord (WSingle (WSimple (WSubst (SRemoveLargestPrefix (PmPositional 10%N) (Some (TLWord (WSingle (WSimple (WLiteral (s_of "foo"))))))))))))); Step AParameter (Some (OOk (TLWord (WSingle (WSimple (WSubst (SRemoveLargestPrefix (PmPositional 100%N) (Some (TLWord (WSingle (WSimple (WLiteral (s_of "foo"))))))))))))); Step AParameter (Some (OOk (TLWord (WSingle (WSimple (WSubst (SRemoveLargestPrefix (PmVar (s_of "foo_bar123")) (Some (TLWord (WSingle (WSimple (WLiteral (s_of "foo"))))))))))))); Step AParameter (Some (OOk (TLWord (WSingle (WSimple (WSubst (SRemoveLargestPrefix PmAt None))))))); Step AParameter (Some (OOk (TLWord (WSingle (WSimple (WSubst (SRemoveLargestPrefix PmStar None))))))); Step AParameter (Some (OOk (TLWord (WSingle (WSimple (WSubst (SRemoveLargestPrefix PmPound None))))))); Step AParameter (Some (OOk (TLWord (WSingle (WSimple (WSubst (SRemoveLargestPrefix PmQuestion None))))))); Step AParameter (Some (OOk (TLWord (WSingle (WSimple (WSubst (SRemoveLargestPrefix PmDash None))))))); Step AParameter (Some (OOk (TLWord (WSingle (WSimple (WSubst (SRemoveLargestPrefix PmDollar None))))))); Step AParameter (Some (OOk (TLWord (WSingle (WSimple (WSubst (SRemoveLargestPrefix PmBang None))))))); Step AParameter (Some (OOk (TLWord (WSingle (WSimple (WSubst (SRemoveLargestPrefix (PmPositional 0%N) None))))))); Step AParameter (Some (OOk (TLWord (WSingle (WSimple (WSubst (SRemoveLargestPrefix (PmPositional 10%N) None))))))); Step AParameter (Some (OOk (TLWord (WSingle (WSimple (WSubst (SRemoveLargestPrefix (PmPositional 100%N) None))))))); Step AParameter (Some (OOk (TLWord (WSingle (WSimple (WSubst (SRemoveLargestPrefix (PmVar (s_of "foo_bar123")) None))))))); Step AParameter (Some (OErr UnexpectedEOF))].
Proof. vm_compute. repeat split. Qed.
Example ast_parameter_substitution_default_1 : follows (@lex ascii_uni (s_of "${@:-foo}${*:-foo}${#:-foo}${?:-foo}${-:-foo}${$:-foo}${!:-foo}${0:-foo}${10:-foo}${100:-foo}${foo_bar123:-foo}${@:-}${*:-}${#:-}${?:-}${-:-}${$:-}${!:-}${0:-}${10:-}${100:-}${foo_bar123:-}")) [Step AParameter (Some (OOk (TLWord (WSingle (WSimple (WSubst (SDefault true PmAt (Some (TLWord (WSingle (WSimple (WLiteral (s_of "foo"))))))))))))); Step AParameter (Some (OOk (TLWord (WSingle (WSimple (WSubst (SDefault true PmStar (Some (TLWord (WSingle (WSimple (WLiteral (s_of "foo"))))))))))))); Step AParameter (Some (OOk (TLWord (WSingle (WSimple (WSubst (SDefault true PmPound (Some (TLWord (WSingle (WSimple (WLiteral (s_of "foo"))))))))))))); Step AParameter (Some (OOk (TLWord (WSingle (WSimple (WSubst (SDefault true PmQuestion (Some (TLWord (WSingle (WSimple (WLiteral (s_of "foo"))))))))))))); Step AParameter (Some (OOk (TLWord (WSingle (WSimple (WSubst (SDefault true PmDash (Some (TLWord (WSingle (WSimple (WLiteral (s_of "foo"))))))))))))); Step AParameter (Some (OOk (TLWord (WSingle (WSimple (WSubst (SDefault true PmDollar (Some (TLWord (WSingle (WSimple (WLiteral (s_of "foo"))))))))))))); Step AParameter (Some (OOk (TLWord (WSingle (WSimple (WSubst (SDefault true PmBang (Some (TLWord (WSingle (WSimple (WLiteral (s_of "foo"))))))))))))); Step AParameter (Some (OOk (TLWord (WSingle (WSimple (WSubst (SDefault true (PmPositional 0%N) (Some (TLWord (WSingle (WSimple (WLiteral (s_of "foo"))))))))))))); Step AParameter (Some (OOk (TLWord (WSingle (WSimple (WSubst (SDefault true (PmPositional 10%N) (Some (TLWord (WSingle (WSimple (WLiteral (s_of "foo"))))))))))))); Step AParameter (Some (OOk (TLWord (WSingle (WSimple (WSubst (SDefault true (PmPositional 100%N) (Some (TLWord (WSingle (WSimple (WLiteral (s_of "foo"))))))))))))); Step AParameter (Some (OOk (TLWord (WSingle (WSimple (WSubst (SDefault true (PmVar (s_of "foo_bar123")) (Some (TLWord (WSingle (WSimple (WLiteral (s_of "foo"))))))))))))); Step AParameter (Some (OOk (TLWord (WSingle (WSimple (WSubst (SDefault true PmAt None))))))); Step AParameter (Some (OOk (TLWord (WSingle (WSimple (WSubst (SDefault true PmStar None))))))); Step AParameter (Some (OOk (TLWord (WSingle (WSimple (WSubst (SDefault true PmPound None))))))); Step AParameter (Some (OOk (TLWord (WSingle (WSimple (WSubst (SDefault true PmQuestion None))))))); Step AParameter (Some (OOk (TLWord (WSingle (WSimple (WSubst (SDefault true PmDash None))))))); Step AParameter (Some (OOk (TLWord (WSingle (WSimple (WSubst (SDefault true PmDollar None))))))); Step AParameter (Some (OOk (TLWord (WSingle (WSimple (WSubst (SDefault true PmBang None))))))); Step AParameter (Some (OOk (TLWord (WSingle (WSimple (WSubst (SDefault true (PmPositional 0%N) None))))))); Step AParameter (Some (OOk (TLWord (WSingle (WSimple (WSubst (SDefault true (PmPositional 10%N) None))))))); Step AParameter (Some (OOk (TLWord (WSingle (WSimple (WSubst (SDefault true (PmPositional 100%N) None))))))); Step AParameter (Some (OOk (TLWord (WSingle (WSimple (WSubst (SDefault true (PmVar (s_of "foo_bar123")) None))))))); Step AParameter (Some (OErr UnexpectedEOF))].
Proof. vm_compute. repeat split. Qed.
Example ast_parameter_substitution_default_2 : follows (@lex ascii_uni (s_of "${@-foo}${*-foo}${#-foo}${?-foo}${--foo}${$-foo}${!-foo}${0-foo}${10-foo}${100-foo}${foo_bar123-foo}${@-}${*-}${?-}${--}${$-}${!-}${0-}${10-}${100-}${foo_bar123-}")) [Step AParameter (Some (OOk (TLWord (WSingle (WSimple (WSubst (SDefault false PmAt (Some (TLWord (WSingle (WSimple (WLiteral (s_of "foo"))))))))))))); Step AParameter (Some (OOk (TLWord (WSingle (WSimple (WSubst (SDefault false PmStar (Some (TLWord (WSingle (WSimple (WLiteral (s_of "foo"))))))))))))); Step AParameter (Some (OOk (TLWord (WSingle (WSimple (WSubst (SDefault false PmPound (Some (TLWord (WSingle (WSimple (WLiteral (s_of "foo"))))))))))))); Step AParameter (Some (OOk (TLWord (WSingle (WSimple (WSubst (SDefault false PmQuestion (Some (TLWord (WSingle (WSimple (WLiteral (s_of "foo"))))))))))))); Step AParameter (Some (OOk (TLWord (WSingle (WSimple (WSubst (SDefault false PmDash (Some (TLWord (WSingle (WSimple (WLiteral (s_of "foo"))))))))))))); Step AParameter (Some (OOk (TLWord (WSingle (WSimple (WSubst (SDefault false PmDollar (Some (TLWord (WSingle (WSimple (WLiteral (s_of "foo"))))))))))))); Step AParameter (Some (OOk (TLWord (WSingle (WSimple (WSubst (SDefault false PmBang (Some (TLWord (WSingle (WSimple (WLiteral (s_of "foo"))))))))))))); Step AParameter (Some (OOk (TLWord (WSingle (WSimple (WSubst (SDefault false (PmPositional 0%N) (Some (TLWord (WSingle (WSimple (WLiteral (s_of "foo"))))))))))))); Step AParameter (Some (OOk (TLWord (WSingle (WSimple (WSubst (SDefault false (PmPositional 10%N) (Some (TLWord (WSingle (WSimple (WLiteral (s_of "foo"))))))))))))); Step AParameter (Some (OOk (TLWord (WSingle (WSimple (WSubst (SDefault false (PmPositional 100%N) (Some (TLWord (WSingle (WSimple (WLiteral (s_of "foo"))))))))))))); Step AParameter (Some (OOk (TLWord (WSingle (WSimple (WSubst (SDefault false (PmVar (s_of "foo_bar123")) (Some (TLWord (WSingle (WSimple (WLiteral (s_of "foo"))))))))))))); Step AParameter (Some (OOk (TLWord (WSingle (WSimple (WSubst (SDefault false PmAt None))))))); Step AParameter (Some (OOk (TLWord (WSingle (WSimple (WSubst (SDefault false PmStar None))))))); Step AParameter (Some (OOk (TLWord (WSingle (WSimple (WSubst (SDefault false PmQuestion None))))))); Step AParameter (Some (OOk (TLWord (WSingle (WSimple (WSubst (SDefault false PmDash None))))))); Step AParameter (Some (OOk (TLWord (WSingle (WSimple (WSubst (SDefault false PmDollar None))))))); Step AParameter (Some (OOk (TLWord (WSingle (WSimple (WSubst (SDefault false PmBang None))))))); Step AParameter (Some (OOk (TLWord (WSingle (WSimple (WSubst (SDefault false (PmPositional 0%N) None))))))); Step AParameter (Some (OOk (TLWord (WSingle (WSimple (WSubst (SDefault false (PmPositional 10%N) None))))))); Step AParameter (Some (OOk (TLWord (WSingle (WSimple (WSubst (SDefault false (PmPositional 100%N) None))))))); Step AParameter (Some (OOk (TLWord (WSingle (WSimple (WSubst (SDefault false (PmVar (s_of "foo_bar123")) None))))))); Step AParameter (Some (OErr UnexpectedEOF))].
Proof. vm_compute. repeat split. Qed.
Example ast_parameter_substitution_error_1 : follows (@lex ascii_uni (s_of "${@:?foo}${*:?foo}${#:?foo}${?:?foo}${-:?foo}${$:?foo}${!:?foo}${0:?foo}${10:?foo}${100:?foo}${foo_bar123:?foo}${@:?}${*:?}${#:?}${?:?}${-:?}${$:?}${!:?}${0:?}${10:?}${100:?}${foo_bar123:?}")) [Step AParameter (Some (OOk (TLWord (WSingle (WSimple (WSubst (SError true PmAt (Some (TLWord (WSingle (WSimple (WLiteral (s_of "foo"))))))))))))); Step AParameter (Some (OOk (TLWord (WSingle (WSimple (WSubst (SError true PmStar (Some (TLWord (WSingle (WSimple (WLiteral (s_of "foo"))))))))))))); Step AParameter (Some (OOk (TLWord (WSingle (WSimple (WSubst (SError true PmPound (Some (TLWord (WSingle (WSimple (WLiteral (s_of "foo"))))))))))))); Step AParameter (Some (OOk (TLWord (WSingle (WSimple (WSubst (SError true PmQuestion (Some (TLWord (WSingle (WSimple (WLiteral (s_of "foo"))))))))))))); Step AParameter (Some (OOk (TLWord (WSingle (WSimple (WSubst (SError true PmDash (Some (TLWord (WSingle (WSimple (WLiteral (s_of "foo"))))))))))))); Step AParameter (Some (OOk (TLWord (WSingle (WSimple (WSubst (SError true PmDollar (Some (TLWord (WSingle (WSimple (WLiteral (s_of "foo"))))))))))))); Step AParameter (Some (OOk (TLWord (WSingle (WSimple (WSubst (SError true PmBang (Some (TLWord (WSingle (WSimple (WLiteral (s_of "foo"))))))))))))); Step AParameter (Some (OOk (TLWord (WSingle (WSimple (WSubst (SError true (PmPositional 0%N) (Some (TLWord (WSingle (WSimple (WLiteral (s_of "foo"))))))))))))); Step AParameter (Some (OOk (TLWord (WSingle (WSimple (WSubst (SError true (PmPositional 10%N) (Some (TLWord (WSingle (WSimple (WLiteral (s_of "foo"))))))))))))); Step AParameter (Some (OOk (TLWord (WSingle (WSimple (WSubst (SError true (PmPositional 100%N) (Some (TLWord (WSingle (WSimple (WLiteral (s_of "foo"))))))))))))); Step AParameter (Some (OOk (TLWord (WSingle (WSimple (WSubst (SError true (PmVar (s_of "foo_bar123")) (Some (TLWord (WSingle (WSimple (WLiteral (s_of "foo"))))))))))))); Step AParameter (Some (OOk (TLWord (WSingle (WSimple (WSubst (SError true PmAt None))))))); Step AParameter (Some (OOk (TLWord (WSingle (WSimple (WSubst (SError true PmStar None))))))); Step AParameter (Some (OOk (TLWord (WSingle (WSimple (WSubst (SError true PmPound None))))))); Step AParameter (Some (OOk (TLWord (WSingle (WSimple (WSubst (SError true PmQuestion None))))))); Step AParameter (Some (OOk (TLWord (WSingle (WSimple (WSubst (SError true PmDash None))))))); Step AParameter (Some (OOk (TLWord (WSingle (WSimple (WSubst (SError true PmDollar None))))))); Step AParameter (Some (OOk (TLWord (WSingle (WSimple (WSubst (SError true PmBang None))))))); Step AParameter (Some (OOk (TLWord (WSingle (WSimple (WSubst (SError true (PmPositional 0%N) None))))))); Step AParameter (Some (OOk (TLWord (WSingle (WSimple (WSubst (SError true (PmPositional 10%N) None))))))); Step AParameter (Some (OOk (TLWord (WSingle (WSimple (WSubst (SError true (PmPositional 100%N) None))))))); Step AParameter (Some (OOk (TLWord (WSingle (WSimple (WSubst (SError true (PmVar (s_of "foo_bar123")) None))))))); Step AParameter (Some (OErr UnexpectedEOF))].
Proof. vm_compute. repeat split. Qed.
Example ast_parameter_substitution_error_2 : follows (@lex ascii_uni (s_of "${@?foo}${*?foo}${#?foo}${??foo}${-?foo}${$?foo}${!?foo}${0?foo}${10?foo}${100?foo}${foo_bar123?foo}${@?}${*?}${??}${-?}${$?}${!?}${0?}${10?}${100?}${foo_bar123?}")) [Step AParameter (Some (OOk (TLWord (WSingle (WSimple (WSubst (SError false PmAt (Some (TLWord (WSingle (WSimple (WLiteral (s_of "foo"))))))))))))); Step AParameter (Some (OOk (TLWord (WSingle (WSimple (WSubst (SError false PmStar (Some (TLWord (WSingle (WSimple (WLiteral (s_of "foo"))))))))))))); Step AParameter (Some (OOk (TLWord (WSingle (WSimple (WSubst (SError false PmPound (Some (TLWord (WSingle (WSimple (WLiteral (s_of "foo"))))))))))))); Step AParameter (Some (OOk (TLWord (WSingle (WSimple (WSubst (SError false PmQuestion (Some (TLWord (WSingle (WSimple (WLiteral (s_of "foo"))))))))))))); Step AParameter (Some (OOk (TLWord (WSingle (WSimple (WSubst (SError false PmDash (Some (TLWord (WSingle (WSimple (WLiteral (s_of "foo"))))))))))))); Step AParameter (Some (OOk (TLWord (WSingle (WSimple (WSubst (SError false PmDollar (Some (TLWord (WSingle (WSimple (WLiteral (s_of "foo"))))))))))))); Step AParameter (Some (OOk (TLWord (WSingle (WSimple (WSubst (SError false PmBang (Some (TLWord (WSingle (WSimple (WLiteral (s_of "foo"))))))))))))); Step AParameter (Some (OOk (TLWord (WSingle (WSimple (WSubst (SError false (PmPositional 0%N) (Some (TLWord (WSingle (WSimple (WLiteral (s_of "foo"))))))))))))); Step AParameter (Some (OOk (TLWord (WSingle (WSimple (WSubst (SError false (PmPositional 10%N) (Some (TLWord (WSingle (WSimple (WLiteral (s_of "foo"))))))))))))); Step AParameter (Some (OOk (TLWord (WSingle (WSimple (WSubst (SError false (PmPositional 100%N) (Some (TLWord (WSingle (WSimple (WLiteral (s_of "foo"))))))))))))); Step AParameter (Some (OOk (TLWord (WSingle (WSimple (WSubst (SError false (PmVar (s_of "foo_bar123")) (Some (TLWord (WSingle (WSimple (WLiteral (s_of "foo"))))))))))))); Step AParameter (Some (OOk (TLWord (WSingle (WSimple (WSubst (SError false PmAt None))))))); Step AParameter (Some (OOk (TLWord (WSingle (WSimple (WSubst (SError false PmStar None))))))); Step AParameter (Some (OOk (TLWord (WSingle (WSimple (WSubst (SError false PmQuestion None))))))); Step AParameter (Some (OOk (TLWord (WSingle (WSimple (WSubst (SError false PmDash None))))))); Step AParameter (Some (OOk (TLWord (WSingle (WSimple (WSubst (SError false PmDollar None))))))); Step AParameter (Some (OOk (TLWord (WSingle (WSimple (WSubst (SError false PmBang None))))))); Step AParameter (Some (OOk (TLWord (WSingle (WSimple (WSubst (SError false (PmPositional 0%N) None))))))); Step AParameter (Some (OOk (TLWord (WSingle (WSimple (WSubst (SError false (PmPositional 10%N) None))))))); Step AParameter (Some (OOk (TLWord (WSingle (WSimple (WSubst (SError false (PmPositional 100%N) None))))))); Step AParameter (Some (OOk (TLWord (WSingle (WSimple (WSubst (SError false (PmVar (s_of "foo_bar123")) None))))))); Step AParameter (Some (OErr UnexpectedEOF))].
Proof. vm_compute. repeat split. Qed.
Example ast_parameter_substitution_assign_1 : follows (@lex ascii_uni (s_of "${@:=foo}${*:=foo}${#:=foo}${?:=foo}${-:=foo}${$:=foo}${!:=foo}${0:=foo}${10:=foo}${100:=foo}${foo_bar123:=foo}${@:=}${*:=}${#:=}${?:=}${-:=}${$:=}${!:=}${0:=}${10:=}${100:=}${foo_bar123:=}")) [Step AParameter (Some (OOk (TLWord (WSingle (WSimple (WSubst (SAssign true PmAt (Some (TLWord (WSingle (WSimple (WLiteral (s_of "foo"))))))))))))); Step AParameter (Some (OOk (TLWord (WSingle (WSimple (WSubst (SAssign true PmStar (Some (TLWord (WSingle (WSimple (WLiteral (s_of "foo"))))))))))))); Step AParameter (Some (OOk (TLWord (WSingle (WSimple (WSubst (SAssign true PmPound (Some (TLWord (WSingle (WSimple (WLiteral (s_of "foo"))))))))))))); Step AParameter (Some (OOk (TLWord (WSingle (WSimple (WSubst (SAssign true PmQuestion (Some (TLWord (WSingle (WSimple (WLiteral (s_of "foo"))))))))))))); Step AParameter (Some (OOk (TLWord (WSingle (WSimple (WSubst (SAssign true PmDash (Some (TLWord (WSingle (WSimple (WLiteral (s_of "foo"))))))))))))); Step AParameter (Some (OOk (TLWord (WSingle (WSimple (WSubst (SAssign true PmDollar (Some (TLWord (WSingle (WSimple (WLiteral (s_of "foo"))))))))))))); Step AParameter (Some (OOk (TLWord (WSingle (WSimple (WSubst (SAssign true PmBang (Some (TLWord (WSingle (WSimple (WLiteral (s_of "foo"))))))))))))); Step AParameter (Some (OOk (TLWord (WSingle (WSimple (WSubst (SAssign true (PmPositional 0%N) (Some (TLWord (WSingle (WSimple (WLiteral (s_of "foo"))))))))))))); Step AParameter (Some (OOk (TLWord (WSingle (WSimple (WSubst (SAssign true (PmPositional 10%N) (Some (TLWord (WSingle (WSimple (WLiteral (s_of "foo"))))))))))))); Step AParameter (Some (OOk (TLWord (WSingle (WSimple (WSubst (SAssign true (PmPositional 100%N) (Some (TLWord (WSingle (WSimple (WLiteral (s_of "foo"))))))))))))); Step AParameter (Some (OOk (TLWord (WSingle (WSimple (WSubst (SAssign true (PmVar (s_of "foo_bar123")) (Some (TLWord (WSingle (WSimple (WLiteral (s_of "foo"))))))))))))); Step AParameter (Some (OOk (TLWord (WSingle (WSimple (WSubst (SAssign true PmAt None))))))); Step AParameter (Some (OOk (TLWord (WSingle (WSimple (WSubst (SAssign true PmStar None))))))); Step AParameter (Some (OOk (TLWord (WSingle (WSimple (WSubst (SAssign true PmPound None))))))); Step AParameter (Some (OOk (TLWord (WSingle (WSimple (WSubst (SAssign true PmQuestion None))))))); Step AParameter (Some (OOk (TLWord (WSingle (WSimple (WSubst (SAssign true PmDash None))))))); Step AParameter (Some (OOk (TLWord (WSingle (WSimple (WSubst (SAssign true PmDollar None))))))); Step AParameter (Some (OOk (TLWord (WSingle (WSimple (WSubst (SAssign true PmBang None))))))); Step AParameter (Some (OOk (TLWord (WSingle (WSimple (WSubst (SAssign true (PmPositional 0%N) None))))))); Step AParameter (Some (OOk (TLWord (WSingle (WSimple (WSubst (SAssign true (PmPositional 10%N) None))))))); Step AParameter (Some (OOk (TLWord (WSingle (WSimple (WSubst (SAssign true (PmPositional 100%N) None))))))); Step AParameter (Some (OOk (TLWord (WSingle (WSimple (WSubst (SAssign true (PmVar (s_of "foo_bar123")) None))))))); Step AParameter (Some (OErr UnexpectedEOF))].
Proof. vm_compute. repeat split. Qed.
Example ast_parameter_substitution_assign_2 : follows (@lex ascii_uni (s_of "${@=foo}${*=foo}${#=foo}${?=foo}${-=foo}${$=foo}${!=foo}${0=foo}${10=foo}${100=foo}${foo_bar123=foo}${@=}${*=}${#=}${?=}${-=}${$=}${!=}${0=}${10=}${100=}${foo_bar123=}")) [Step AParameter (Some (OOk (TLWord (WSingle (WSimple (WSubst (SAssign false PmAt (Some (TLWord (WSingle (WSimple (WLiteral (s_of "foo"))))))))))))); Step AParameter (Some (OOk (TLWord (WSingle (WSimple (WSubst (SAssign false PmStar (Some (TLWord (WSingle (WSimple (WLiteral (s_of "foo"))))))))))))); Step AParameter (Some (OOk (TLWord (WSingle (WSimple (WSubst (SAssign false PmPound (Some (TLWord (WSingle (WSimple (WLiteral (s_of "foo"))))))))))))); Step AParameter (Some (OOk (TLWord (WSingle (WSimple (WSubst (SAssign false PmQuestion (Some (TLWord (WSingle (WSimple (WLiteral (s_of "foo"))))))))))))); Step AParameter (Some (OOk (TLWord (WSingle (WSimple (WSubst (SAssign false PmDash (Some (TLWord (WSingle (WSimple (WLiteral (s_of "foo"))))))))))))); Step AParameter (Some (OOk (TLWord (WSingle (WSimple (WSubst (SAssign false PmDollar (Some (TLWord (WSingle (WSimple (WLiteral (s_of "foo"))))))))))))); Step AParameter (Some (OOk (TLWord (WSingle (WSimple (WSubst (SAssign false PmBang (Some (TLWord (WSingle (WSimple (WLiteral (s_of "foo"))))))))))))); Step AParameter (Some (OOk (TLWord (WSingle (WSimple (WSubst (SAssign false (PmPositional 0%N) (Some (TLWord (WSingle (WSimple (WLiteral (s_of "foo"))))))))))))); Step AParameter (Some (OOk (TLWord (WSingle (WSimple (WSubst (SAssign false (PmPositional 10%N) (Some (TLWord (WSingle (WSimple (WLiteral (s_of "foo"))))))))))))); Step AParameter (Some (OOk (TLWord (WSingle (WSimple (WSubst (SAssign false (PmPositional 100%N) (Some (TLWord (WSingle (WSimple (WLiteral (s_of "foo"))))))))))))); Step AParameter (Some (OOk (TLWord (WSingle (WSimple (WSubst (SAssign false (PmVar (s_of "foo_bar123")) (Some (TLWord (WSingle (WSimple (WLiteral (s_of "foo"))))))))))))); Step AParameter (Some (OOk (TLWord (WSingle (WSimple (WSubst (SAssign false PmAt None))))))); Step AParameter (Some (OOk (TLWord (WSingle (WSimple (WSubst (SAssign false PmStar None))))))); Step AParameter (Some (OOk (TLWord (WSingle (WSimple (WSubst (SAssign false PmPound None))))))); Step AParameter (Some (OOk (TLWord (WSingle (WSimple (WSubst (SAssign false PmQuestion None))))))); Step AParameter (Some (OOk (TLWord (WSingle (WSimple (WSubst (SAssign false PmDash None))))))); Step AParameter (Some (OOk (TLWord (WSingle (WSimple (WSubst (SAssign false PmDollar None))))))); Step AParameter (Some (OOk (TLWord (WSingle (WSimple (WSubst (SAssign false PmBang None))))))); Step AParameter (Some (OOk (TLWord (WSingle (WSimple (WSubst (SAssign false (PmPositional 0%N) None))))))); Step AParameter (Some (OOk (TLWord (WSingle (WSimple (WSubst (SAssign false (PmPositional 10%N) None))))))); Step AParameter (Some (OOk (TLWord (WSingle (WSimple (WSubst (SAssign false (PmPositional 100%N) None))))))); Step AParameter (Some (OOk (TLWord (WSingle (WSimple (WSubst (SAssign false (PmVar (s_of "foo_bar123")) None))))))); Step AParameter (Some (OErr UnexpectedEOF))].
Proof. vm_compute. repeat split. Qed.
Example ast_parameter_substitution_alternative_1 : follows (@lex ascii_uni (s_of "${@:+foo}${*:+foo}${#:+foo}${?:+foo}${-:+foo}${$:+foo}${!:+foo}${0:+foo}${10:+foo}${100:+foo}${foo_bar123:+foo}${@:+}${*:+}${#:+}${?:+}${-:+}${$:+}${!:+}${0:+}${10:+}${100:+}${foo_bar123:+}")) [Step AParameter (Some (OOk (TLWord (WSingle (WSimple (WSubst (SAlternative true PmAt (Some (TLWord (WSingle (WSimple (WLiteral (s_of "foo"))))))))))))); Step AParameter (Some (OOk (TLWord (WSingle (WSimple (WSubst (SAlternative true PmStar (Some (TLWord (WSingle (WSimple (WLiteral (s_of "foo"))))))))))))); Step AParameter (Some (OOk (TLWord (WSingle (WSimple (WSubst (SAlternative true PmPound (Some (TLWord (WSingle (WSimple (WLiteral (s_of "foo"))))))))))))); Step AParameter (Some (OOk (TLWord (WSingle (WSimple (WSubst (SAlternative true PmQuestion (Some (TLWord (WSingle (WSimple (WLiteral (s_of "foo"))))))))))))); Step AParameter (Some (OOk (TLWord (WSingle (WSimple (WSubst (SAlternative true PmDash (Some (TLWord (WSingle (WSimple (WLiteral (s_of "foo"))))))))))))); Step AParameter (Some (OOk (TLWord (WSingle (WSimple (WSubst (SAlternative true PmDollar (Some (TLWord (WSingle (WSimple (WLiteral (s_of "foo"))))))))))))); Step AParameter (Some (OOk (TLWord (WSingle (WSimple (WSubst (SAlternative true PmBang (Some (TLWord (WSingle (WSimple (WLiteral (s_of "foo"))))))))))))); Step AParameter (Some (OOk (TLWord (WSingle (WSimple (WSubst (SAlternative true (PmPositional 0%N) (Some (TLWord (WSingle (WSimple (WLiteral (s_of "foo"))))))))))))); Step AParameter (Some (OOk (TLWord (WSingle (WSimple (WSubst (SAlternative true (PmPositional 10%N) (Some (TLWord (WSingle (WSimple (WLiteral (s_of "foo"))))))))))))); Step AParameter (Some (OOk (TLWord (WSingle (WSimple (WSubst (SAlternative true (PmPositional 100%N) (Some (TLWord (WSingle (WSimple (WLiteral (s_of "foo"))))))))))))); Step AParameter (Some (OOk (TLWord (WSingle (WSimple (WSubst (SAlternative true (PmVar (s_of "foo_bar123")) (Some (TLWord (WSingle (WSimple (WLiteral (s_of "foo"))))))))))))); Step AParameter (Some (OOk (TLWord (WSingle (WSimple (WSubst (SAlternative true PmAt None))))))); Step AParameter (Some (OOk (TLWord (WSingle (WSimple (WSubst (SAlternative true PmStar None))))))); Step AParameter (Some (OOk (TLWord (WSingle (WSimple (WSubst (SAlternative true PmPound None))))))); Step AParameter (Some (OOk (TLWord (WSingle (WSimple (WSubst (SAlternative true PmQuestion None))))))); Step AParameter (Some (OOk (TLWord (WSingle (WSimple (WSubst (SAlternative true PmDash None))))))); Step AParameter (Some (OOk (TLWord (WSingle (WSimple (WSubst (SAlternative true PmDollar None))))))); Step AParameter (Some (OOk (TLWord (WSingle (WSimple (WSubst (SAlternative true PmBang None))))))); Step AParameter (Some (OOk (TLWord (WSingle (WSimple (WSubst (SAlternative true (PmPositional 0%N) None))))))); Step AParameter (Some (OOk (TLWord (WSingle (WSimple (WSubst (SAlternative true (PmPositional 10%N) None))))))); Step AParameter (Some (OOk (TLWord (WSingle (WSimple (WSubst (SAlternative true (PmPositional 100%N) None))))))); Step AParameter (Some (OOk (TLWord (WSingle (WSimple (WSubst (SAlternative true (PmVar (s_of "foo_bar123")) None))))))); Step AParameter (Some (OErr UnexpectedEOF))].
Proof. vm_compute. repeat split. Qed.
Example ast_parameter_substitution_alternative_2 : follows (@lex ascii_uni (s_of "${@+foo}${*+foo}${#+foo}${?+foo}${-+foo}${$+foo}${!+foo}${0+foo}${10+foo}${100+foo}${foo_bar123+foo}${@+}${*+}${#+}${?+}${-+}${$+}${!+}${0+}${10+}${100+}${foo_bar123+}")) [Step AParameter (Some (OOk (TLWord (WSingle (WSimple (WSubst (SAlternative false PmAt (Some (TLWord (WSingle (WSimple (WLiteral (s_of "foo"))))))))))))); Step AParameter (Some (OOk (TLWord (WSingle (WSimple (WSubst (SAlternative false PmStar (Some (TLWord (WSingle (WSimple (WLiteral (s_of "foo"))))))))))))); Step AParameter (Some (OOk (TLWord (WSingle (WSimple (WSubst (SAlternative false PmPound (Some (TLWord (WSingle (WSimple (WLiteral (s_of "foo"))))))))))))); Step AParameter (Some (OOk (TLWord (WSingle (WSimple (WSubst (SAlternative false PmQuestion (Some (TLWord (WSingle (WSimple (WLiteral (s_of "foo"))))))))))))); Step AParameter (Some (OOk (TLWord (WSingle (WSimple (WSubst (SAlternative false PmDash (Some (TLWord (WSingle (WSimple (WLiteral (s_of "foo"))))))))))))); Step AParameter (Some (OOk (TLWord (WSingle (WSimple (WSubst (SAlternative false PmDollar (Some (TLWord (WSingle (WSimple (WLiteral (s_of "foo"))))))))))))); Step AParameter (Some (OOk (TLWord (WSingle (WSimple (WSubst (SAlternative false PmBang (Some (TLWord (WSingle (WSimple (WLiteral (s_of "foo"))))))))))))); Step AParameter (Some (OOk (TLWord (WSingle (WSimple (WSubst (SAlternative false (PmPositional 0%N) (Some (TLWord (WSingle (WSimple (WLiteral (s_of "foo"))))))))))))); Step AParameter (Some (OOk (TLWord (WSingle (WSimple (WSubst (SAlternative false (PmPositional 10%N) (Some (TLWord (WSingle (WSimple (WLiteral (s_of "foo"))))))))))))); Step AParameter (Some (OOk (TLWord (WSingle (WSimple (WSubst (SAlternative false (PmPositional 100%N) (Some (TLWord (WSingle (WSimple (WLiteral (s_of "foo"))))))))))))); Step AParameter (Some (OOk (TLWord (WSingle (WSimple (WSubst (SAlternative false (PmVar (s_of "foo_bar123")) (Some (TLWord (WSingle (WSimple (WLiteral (s_of "foo"))))))))))))); Step AParameter (Some (OOk (TLWord (WSingle (WSimple (WSubst (SAlternative false PmAt None))))))); Step AParameter (Some (OOk (TLWord (WSingle (WSimple (WSubst (SAlternative false PmStar None))))))); Step AParameter (Some (OOk (TLWord (WSingle (WSimple (WSubst (SAlternative false PmPound None))))))); Step AParameter (Some (OOk (TLWord (WSingle (WSimple (WSubst (SAlternative false PmQuestion None))))))); Step AParameter (Some (OOk (TLWord (WSingle (WSimple (WSubst (SAlternative false PmDash None))))))); Step AParameter (Some (OOk (TLWord (WSingle (WSimple (WSubst (SAlternative false PmDollar None))))))); Step AParameter (Some (OOk (TLWord (WSingle (WSimple (WSubst (SAlternative false PmBang None))))))); Step AParameter (Some (OOk (TLWord (WSingle (WSimple (WSubst (SAlternative false (PmPositional 0%N) None))))))); Step AParameter (Some (OOk (TLWord (WSingle (WSimple (WSubst (SAlternative false (PmPositional 10%N) None))))))); Step AParameter (Some (OOk (TLWord (WSingle (WSimple (WSubst (SAlternative false (PmPositional 100%N) None))))))); Step AParameter (Some (OOk (TLWord (WSingle (WSimple (WSubst (SAlternative false (PmVar (s_of "foo_bar123")) None))))))); Step AParameter (Some (OErr UnexpectedEOF))].
Proof. vm_compute. repeat split. Qed.
Example ast_parameter_substitution_words_can_have_spaces_and_escaped_curlies_1 : follows (@lex ascii_uni [36;123;102;111;111;95;98;97;114;49;50;51;37;102;111;111;123;92;125;32;9;13;32;92;10;98;97;114;32;9;13;32;125]%N) [Step AParameter (Some (OOk (TLWord (WSingle (WSimple (WSubst (SRemoveSmallestSuffix (PmVar (s_of "foo_bar123")) (Some (TLWord (WConcat [(WSimple (WLiteral (s_of "foo{"))); (WSimple (WEscaped (s_of "}"))); (WSimple (WLiteral [32;9;13;32]%N)); (WSimple (WEscaped [10]%N)); (WSimple (WLiteral [98;97;114;32;9;13;32]%N))])))))))))); Step AParameter (Some (OErr UnexpectedEOF))].
Proof. vm_compute. repeat split. Qed.
Example ast_parameter_substitution_words_can_have_spaces_and_escaped_curlies_2 : follows (@lex ascii_uni [36;123;102;111;111;95;98;97;114;49;50;51;37;37;102;111;111;123;92;125;32;9;13;32;92;10;98;97;114;32;9;13;32;125]%N) [Step AParameter (Some (OOk (TLWord (WSingle (WSimple (WSubst (SRemoveLargestSuffix (PmVar (s_of "foo_bar123")) (Some (TLWord (WConcat [(WSimple (WLiteral (s_of "foo{"))); (WSimple (WEscaped (s_of "}"))); (WSimple (WLiteral [32;9;13;32]%N)); (WSimple (WEscaped [10]%N)); (WSimple (WLiteral [98;97;114;32;9;13;32]%N))])))))))))); Step AParameter (Some (OErr UnexpectedEOF))].
Proof. vm_compute. repeat split. Qed.
Example ast_parameter_substitution_words_can_have_spaces_and_escaped_curlies_3 : follows (@lex ascii_uni [36;123;102;111;111;95;98;97;114;49;50;51;35;102;111;111;123;92;125;32;9;13;32;92;10;98;97;114;32;9;13;32;125]%N) [Step AParameter (Some (OOk (TLWord (WSingle (WSimple (WSubst (SRemoveSmallestPrefix (PmVar (s_of "foo_bar123")) (Some (TLWord (WConcat [(WSimple (WLiteral (s_of "foo{"))); (WSimple (WEscaped (s_of "}"))); (WSimple (WLiteral [32;9;13;32]%N)); (WSimple (WEscaped [10]%N)); (WSimple (WLiteral [98;97;114;32;9;13;32]%N))])))))))))); Step AParameter (Some (OErr UnexpectedEOF))].
Proof. vm_compute. repeat split. Qed.
Example ast_parameter_substitution_words_can_have_spaces_and_escaped_curlies_4 : follows (@lex ascii_uni [36;123;102;111;111;95;98;97;114;49;50;51;35;35;102;111;111;123;92;125;32;9;13;32;92;10;98;97;114;32;9;13;32;125]%N) [Step AParameter (Some (OOk (TLWord (WSingle (WSimple (WSubst (SRemoveLargestPrefix (PmVar (s_of "foo_bar123")) (Some (TLWord (WConcat [(WSimple (WLiteral (s_of "foo{"))); (WSimple (WEscaped (s_of "}"))); (WSimple (WLiteral [32;9;13;32]%N)); (WSimple (WEscaped [10]%N)); (WSimple (WLiteral [98;97;114;32;9;13;32]%N))])))))))))); Step AParameter (Some (OErr UnexpectedEOF))].
Proof. vm_compute. repeat split. Qed.
Example ast_parameter_substitution_words_can_have_spaces_and_escaped_curlies_5 : follows (@lex ascii_uni [36;123;102;111;111;95;98;97;114;49;50;51;58;45;102;111;111;123;92;125;32;9;13;32;92;10;98;97;114;32;9;13;32;125]%N) [Step AParameter (Some (OOk (TLWord (WSingle (WSimple (WSubst (SDefault true (PmVar (s_of "foo_bar123")) (Some (TLWord (WConcat [(WSimple (WLiteral (s_of "foo{"))); (WSimple (WEscaped (s_of "}"))); (WSimple (WLiteral [32;9;13;32]%N)); (WSimple (WEscaped [10]%N)); (WSimple (WLiteral [98;97;114;32;9;13;32]%N))])))))))))); Step AParameter (Some (OErr UnexpectedEOF))].
Proof. vm_compute. repeat split. Qed.
Example ast_parameter_substitution_words_can_have_spaces_and_escaped_curlies_6 : follows (@lex ascii_uni [36;123;102;111;111;95;98;97;114;49;50;51;45;102;111;111;123;92;125;32;9;13;32;92;10;98;97;114;32;9;13;32;125]%N) [Step AParameter (Some (OOk (TLWord (WSingle (WSimple (WSubst (SDefault false (PmVar (s_of "foo_bar123")) (Some (TLWord (WConcat [(WSimple (WLiteral (s_of "foo{"))); (WSimple (WEscaped (s_of "}"))); (WSimple (WLiteral [32;9;13;32]%N)); (WSimple (WEscaped [10]%N)); (WSimple (WLiteral [98;97;114;32;9;13;32]%N))])))))))))); Step AParameter (Some (OErr UnexpectedEOF))].
Proof. vm_compute. repeat split. Qed.
Example ast_parameter_substitution_words_can_have_spaces_and_escaped_curlies_7 : follows (@lex ascii_uni [36;123;102;111;111;95;98;97;114;49;50;51;58;61;102;111;111;123;92;125;32;9;13;32;92;10;98;97;114;32;9;13;32;125]%N) [Step AParameter (Some (OOk (TLWord (WSingle (WSimple (WSubst (SAssign true (PmVar (s_of "foo_bar123")) (Some (TLWord (WConcat [(WSimple (WLiteral (s_of "foo{"))); (WSimple (WEscaped (s_of "}"))); (WSimple (WLiteral [32;9;13;32]%N)); (WSimple (WEscaped [10]%N)); (WSimple (WLiteral [98;97;114;32;9;13;32]%N))])))))))))); Step AParameter (Some (OErr UnexpectedEOF))].
Proof. vm_compute. repeat split. Qed.
Example ast_parameter_substitution_words_can_have_spaces_and_escaped_curlies_8 : follows (@lex ascii_uni [36;123;102;111;111;95;98;97;114;49;50;51;61;102;111;111;123;92;125;32;9;13;32;92;10;98;97;114;32;9;13;32;125]%N) [Step AParameter (Some (OOk (TLWord (WSingle (WSimple (WSubst (SAssign false (PmVar (s_of "foo_bar123")) (Some (TLWord (WConcat [(WSimple (WLiteral (s_of "foo{"))); (WSimple (WEscaped (s_of "}"))); (WSimple (WLiteral [32;9;13;32]%N)); (WSimple (WEscaped [10]%N)); (WSimple (WLiteral [98;97;114;32;9;13;32]%N))])))))))))); Step AParameter (Some (OErr UnexpectedEOF))].
Proof. vm_compute. repeat split. Qed.
Example ast_parameter_substitution_words_can_have_spaces_and_escaped_curlies_9 : follows (@lex ascii_uni [36;123;102;111;111;95;98;97;114;49;50;51;58;63;102;111;111;123;92;125;32;9;13;32;92;10;98;97;114;32;9;13;32;125]%N) [Step AParameter (Some (OOk (TLWord (WSingle (WSimple (WSubst (SError true (PmVar (s_of "foo_bar123")) (Some (TLWord (WConcat [(WSimple (WLiteral (s_of "foo{"))); (WSimple (WEscaped (s_of "}"))); (WSimple (WLiteral [32;9;13;32]%N)); (WSimple (WEscaped [10]%N)); (WSimple (WLiteral [98;97;114;32;9;13;32]%N))])))))))))); Step AParameter (Some (OErr UnexpectedEOF))].
Proof. vm_compute. repeat split. Qed.
Example ast_parameter_substitution_words_can_have_spaces_and_escaped_curlies_10 : follows (@lex ascii_uni [36;123;102;111;111;95;98;97;114;49;50;51;63;102;111;111;123;92;125;32;9;13;32;92;10;98;97;114;32;9;13;32;125]%N) [Step AParameter (Some (OOk (TLWord (WSingle (WSimple (WSubst (SError false (PmVar (s_of "foo_bar123")) (Some (TLWord (WConcat [(WSimple (WLiteral (s_of "foo{"))); (WSimple (WEscaped (s_of "}"))); (WSimple (WLiteral [32;9;13;32]%N)); (WSimple (WEscaped [10]%N)); (WSimple (WLiteral [98;97;114;32;9;13;32]%N))])))))))))); Step AParameter (Some (OErr UnexpectedEOF))].
Proof. vm_compute. repeat split. Qed.
Example ast_parameter_substitution_words_can_have_spaces_and_escaped_curlies_11 : follows (@lex ascii_uni [36;123;102;111;111;95;98;97;114;49;50;51;58;43;102;111;111;123;92;125;32;9;13;32;92;10;98;97;114;32;9;13;32;125]%N) [Step AParameter (Some (OOk (TLWord (WSingle (WSimple (WSubst (SAlternative true (PmVar (s_of "foo_bar123")) (Some (TLWord (WConcat [(WSimple (WLiteral (s_of "foo{"))); (WSimple (WEscaped (s_of "}"))); (WSimple (WLiteral [32;9;13;32]%N)); (WSimple (WEscaped [10]%N)); (WSimple (WLiteral [98;97;114;32;9;13;32]%N))])))))))))); Step AParameter (Some (OErr UnexpectedEOF))].
Proof. vm_compute. repeat split. Qed.
Example ast_parameter_substitution_words_can_have_spaces_and_escaped_curlies_12 : follows (@lex ascii_uni [36;123;102;111;111;95;98;97;114;49;50;51;43;102;111;111;123;92;125;32;9;13;32;92;10;98;97;114;32;9;13;32;125]%N) [Step AParameter (Some (OOk (TLWord (WSingle (WSimple (WSubst (SAlternative false (PmVar (s_of "foo_bar123")) (Some (TLWord (WConcat [(WSimple (WLiteral (s_of "foo{"))); (WSimple (WEscaped (s_of "}"))); (WSimple (WLiteral [32;9;13;32]%N)); (WSimple (WEscaped [10]%N)); (WSimple (WLiteral [98;97;114;32;9;13;32]%N))])))))))))); Step AParameter (Some (OErr UnexpectedEOF))].
Proof. vm_compute. repeat split. Qed.
Example ast_parameter_substitution_words_can_start_with_pound_1 : follows (@lex ascii_uni [36;123;102;111;111;95;98;97;114;49;50;51;37;35;102;111;111;123;92;125;32;9;13;32;92;10;98;97;114;32;9;13;32;125]%N) [Step AParameter (Some (OOk (TLWord (WSingle (WSimple (WSubst (SRemoveSmallestSuffix (PmVar (s_of "foo_bar123")) (Some (TLWord (WConcat [(WSimple (WLiteral (s_of "#foo{"))); (WSimple (WEscaped (s_of "}"))); (WSimple (WLiteral [32;9;13;32]%N)); (WSimple (WEscaped [10]%N)); (WSimple (WLiteral [98;97;114;32;9;13;32]%N))])))))))))); Step AParameter (Some (OErr UnexpectedEOF))].
Proof. vm_compute. repeat split. Qed.
Example ast_parameter_substitution_words_can_start_with_pound_2 : follows (@lex ascii_uni [36;123;102;111;111;95;98;97;114;49;50;51;37;37;35;102;111;111;123;92;125;32;9;13;32;92;10;98;97;114;32;9;13;32;125]%N) [Step AParameter (Some (OOk (TLWord (WSingle (WSimple (WSubst (SRemoveLargestSuffix (PmVar (s_of "foo_bar123")) (Some (TLWord (WConcat [(WSimple (WLiteral (s_of "#foo{"))); (WSimple (WEscaped (s_of "}"))); (WSimple (WLiteral [32;9;13;32]%N)); (WSimple (WEscaped [10]%N)); (WSimple (WLiteral [98;97;114;32;9;13;32]%N))])))))))))); Step AParameter (Some (OErr UnexpectedEOF))].
Proof. vm_compute. repeat split. Qed.
Example ast_parameter_substitution_words_can_start_with_pound_3 : follows (@lex ascii_uni [36;123;102;111;111;95;98;97;114;49;50;51;35;35;35;102;111;111;123;92;125;32;9;13;32;92;10;98;97;114;32;9;13;32;125]%N) [Step AParameter (Some (OOk (TLWord (WSingle (WSimple (WSubst (SRemoveLargestPrefix (PmVar (s_of "foo_bar123")) (Some (TLWord (WConcat [(WSimple (WLiteral (s_of "#foo{"))); (WSimple (WEscaped (s_of "}"))); (WSimple (WLiteral [32;9;13;32]%N)); (WSimple (WEscaped [10]%N)); (WSimple (WLiteral [98;97;114;32;9;13;32]%N))])))))))))); Step AParameter (Some (OErr UnexpectedEOF))].
Proof. vm_compute. repeat split. Qed.
Example ast_parameter_substitution_words_can_start_with_pound_4 : follows (@lex ascii_uni [36;123;102;111;111;95;98;97;114;49;50;51;58;45;35;102;111;111;123;92;125;32;9;13;32;92;10;98;97;114;32;9;13;32;125]%N) [Step AParameter (Some (OOk (TLWord (WSingle (WSimple (WSubst (SDefault true (PmVar (s_of "foo_bar123")) (Some (TLWord (WConcat [(WSimple (WLiteral (s_of "#foo{"))); (WSimple (WEscaped (s_of "}"))); (WSimple (WLiteral [32;9;13;32]%N)); (WSimple (WEscaped [10]%N)); (WSimple (WLiteral [98;97;114;32;9;13;32]%N))])))))))))); Step AParameter (Some (OErr UnexpectedEOF))].
Proof. vm_compute. repeat split. Qed.
Example ast_parameter_substitution_words_can_start_with_pound_5 : follows (@lex ascii_uni [36;123;102;111;111;95;98;97;114;49;50;51;45;35;102;111;111;123;92;125;32;9;13;32;92;10;98;97;114;32;9;13;32;125]%N) [Step AParameter (Some (OOk (TLWord (WSingle (WSimple (WSubst (SDefault false (PmVar (s_of "foo_bar123")) (Some (TLWord (WConcat [(WSimple (WLiteral (s_of "#foo{"))); (WSimple (WEscaped (s_of "}"))); (WSimple (WLiteral [32;9;13;32]%N)); (WSimple (WEscaped [10]%N)); (WSimple (WLiteral [98;97;114;32;9;13;32]%N))])))))))))); Step AParameter (Some (OErr UnexpectedEOF))].
Proof. vm_compute. repeat split. Qed.
Example ast_parameter_substitution_words_can_start_with_pound_6 : follows (@lex ascii_uni [36;123;102;111;111;95;98;97;114;49;50;51;58;61;35;102;111;111;123;92;125;32;9;13;32;92;10;98;97;114;32;9;13;32;125]%N) [Step AParameter (Some (OOk (TLWord (WSingle (WSimple (WSubst (SAssign true (PmVar (s_of "foo_bar123")) (Some (TLWord (WConcat [(WSimple (WLiteral (s_of "#foo{"))); (WSimple (WEscaped (s_of "}"))); (WSimple (WLiteral [32;9;13;32]%N)); (WSimple (WEscaped [10]%N)); (WSimple (WLiteral [98;97;114;32;9;13;32]%N))])))))))))); Step AParameter (Some (OErr UnexpectedEOF))].
Proof. vm_compute. repeat split. Qed.
Example ast_parameter_substitution_words_can_start_with_pound_7 : follows (@lex ascii_uni [36;123;102;111;111;95;98;97;114;49;50;51;61;35;102;111;111;123;92;125;32;9;13;32;92;10;98;97;114;32;9;13;32;125]%N) [Step AParameter (Some (OOk (TLWord (WSingle (WSimple (WSubst (SAssign false (PmVar (s_of "foo_bar123")) (Some (TLWord (WConcat [(WSimple (WLiteral (s_of "#foo{"))); (WSimple (WEscaped (s_of "}"))); (WSimple (WLiteral [32;9;13;32]%N)); (WSimple (WEscaped [10]%N)); (WSimple (WLiteral [98;97;114;32;9;13;32]%N))])))))))))); Step AParameter (Some (OErr UnexpectedEOF))].
Proof. vm_compute. repeat split. Qed.
Example ast_parameter_substitution_words_can_start_with_pound_8 : follows (@lex ascii_uni [36;123;102;111;111;95;98;97;114;49;50;51;58;63;35;102;111;111;123;92;125;32;9;13;32;92;10;98;97;114;32;9;13;32;125]%N) [Step AParameter (Some (OOk (TLWord (WSingle (WSimple (WSubst (SError true (PmVar (s_of "foo_bar123")) (Some (TLWord (WConcat [(WSimple (WLiteral (s_of "#foo{"))); (WSimple (WEscaped (s_of "}"))); (WSimple (WLiteral [32;9;13;32]%N)); (WSimple (WEscaped [10]%N)); (WSimple (WLiteral [98;97;114;32;9;13;32]%N))])))))))))); Step AParameter (Some (OErr UnexpectedEOF))].
Proof. vm_compute. repeat split. Qed.
Example ast_parameter_substitution_words_can_start_with_pound_9 : follows (@lex ascii_uni [36;123;102;111;111;95;98;97;114;49;50;51;63;35;102;111;111;123;92;125;32;9;13;32;92;10;98;97;114;32;9;13;32;125]%N) [Step AParameter (Some (OOk (TLWord (WSingle (WSimple (WSubst (SError false (PmVar (s_of "foo_bar123")) (Some (TLWord (WConcat [(WSimple (WLiteral (s_of "#foo{"))); (WSimple (WEscaped (s_of "}"))); (WSimple (WLiteral [32;9;13;32]%N)); (WSimple (WEscaped [10]%N)); (WSimple (WLiteral [98;97;114;32;9;13;32]%N))])))))))))); Step AParameter (Some (OErr UnexpectedEOF))].
Proof. vm_compute. repeat split. Qed.
Example ast_parameter_substitution_words_can_start_with_pound_10 : follows (@lex ascii_uni [36;123;102;111;111;95;98;97;114;49;50;51;58;43;35;102;111;111;123;92;125;32;9;13;32;92;10;98;97;114;32;9;13;32;125]%N) [Step AParameter (Some (OOk (TLWord (WSingle (WSimple (WSubst (SAlternative true (PmVar (s_of "foo_bar123")) (Some (TLWord (WConcat [(WSimple (WLiteral (s_of "#foo{"))); (WSimple (WEscaped (s_of "}"))); (WSimple (WLiteral [32;9;13;32]%N)); (WSimple (WEscaped [10]%N)); (WSimple (WLiteral [98;97;114;32;9;13;32]%N))])))))))))); Step AParameter (Some (OErr UnexpectedEOF))].
Proof. vm_compute. repeat split. Qed.
Example ast_parameter_substitution_words_can_start_with_pound_11 : follows (@lex ascii_uni [36;123;102;111;111;95;98;97;114;49;50;51;43;35;102;111;111;123;92;125;32;9;13;32;92;10;98;97;114;32;9;13;32;125]%N) [Step AParameter (Some (OOk (TLWord (WSingle (WSimple (WSubst (SAlternative false (PmVar (s_of "foo_bar123")) (Some (TLWord (WConcat [(WSimple (WLiteral (s_of "#foo{"))); (WSimple (WEscaped (s_of "}"))); (WSimple (WLiteral [32;9;13;32]%N)); (WSimple (WEscaped [10]%N)); (WSimple (WLiteral [98;97;114;32;9;13;32]%N))])))))))))); Step AParameter (Some (OErr UnexpectedEOF))].
Proof. vm_compute. repeat split. Qed.
Example ast_parameter_substitution_words_can_be_parameters_or_substitutions_as_well_1 : follows (@lex ascii_uni (s_of "${foo_bar123%$@${foo##bar}}")) [Step AParameter (Some (OOk (TLWord (WSingle (WSimple (WSubst (SRemoveSmallestSuffix (PmVar (s_of "foo_bar123")) (Some (TLWord (WConcat [(WSimple (WParam PmAt)); (WSimple (WSubst (SRemoveLargestPrefix (PmVar (s_of "foo")) (Some (TLWord (WSingle (WSimple (WLiteral (s_of "bar")))))))))])))))))))); Step AParameter (Some (OErr UnexpectedEOF))].
Proof. vm_compute. repeat split. Qed.
Example ast_parameter_substitution_words_can_be_parameters_or_substitutions_as_well_2 : follows (@lex ascii_uni (s_of "${foo_bar123%%$@${foo##bar}}")) [Step AParameter (Some (OOk (TLWord (WSingle (WSimple (WSubst (SRemoveLargestSuffix (PmVar (s_of "foo_bar123")) (Some (TLWord (WConcat [(WSimple (WParam PmAt)); (WSimple (WSubst (SRemoveLargestPrefix (PmVar (s_of "foo")) (Some (TLWord (WSingle (WSimple (WLiteral (s_of "bar")))))))))])))))))))); Step AParameter (Some (OErr UnexpectedEOF))].
Proof. vm_compute. repeat split. Qed.
Example ast_parameter_substitution_words_can_be_parameters_or_substitutions_as_well_3 : follows (@lex ascii_uni (s_of "${foo_bar123#$@${foo##bar}}")) [Step AParameter (Some (OOk (TLWord (WSingle (WSimple (WSubst (SRemoveSmallestPrefix (PmVar (s_of "foo_bar123")) (Some (TLWord (WConcat [(WSimple (WParam PmAt)); (WSimple (WSubst (SRemoveLargestPrefix (PmVar (s_of "foo")) (Some (TLWord (WSingle (WSimple (WLiteral (s_of "bar")))))))))])))))))))); Step AParameter (Some (OErr UnexpectedEOF))].
Proof. vm_compute. repeat split. Qed.
Example ast_parameter_substitution_words_can_be_parameters_or_substitutions_as_well_4 : follows (@lex ascii_uni (s_of "${foo_bar123##$@${foo##bar}}")) [Step AParameter (Some (OOk (TLWord (WSingle (WSimple (WSubst (SRemoveLargestPrefix (PmVar (s_of "foo_bar123")) (Some (TLWord (WConcat [(WSimple (WParam PmAt)); (WSimple (WSubst (SRemoveLargestPrefix (PmVar (s_of "foo")) (Some (TLWord (WSingle (WSimple (WLiteral (s_of "bar")))))))))])))))))))); Step AParameter (Some (OErr UnexpectedEOF))].
Proof. vm_compute. repeat split. Qed.
Example ast_parameter_substitution_words_can_be_parameters_or_substitutions_as_well_5 : follows (@lex ascii_uni (s_of "${foo_bar123:-$@${foo##bar}}")) [Step AParameter (Some (OOk (TLWord (WSingle (WSimple (WSubst (SDefault true (PmVar (s_of "foo_bar123")) (Some (TLWord (WConcat [(WSimple (WParam PmAt)); (WSimple (WSubst (SRemoveLargestPrefix (PmVar (s_of "foo")) (Some (TLWord (WSingle (WSimple (WLiteral (s_of "bar")))))))))])))))))))); Step AParameter (Some (OErr UnexpectedEOF))].
Proof. vm_compute. repeat split. Qed.
Example ast_parameter_substitution_words_can_be_parameters_or_substitutions_as_well_6 : follows (@lex ascii_uni (s_of "${foo_bar123-$@${foo##bar}}")) [Step AParameter (Some (OOk (TLWord (WSingle (WSimple (WSubst (SDefault false (PmVar (s_of "foo_bar123")) (Some (TLWord (WConcat [(WSimple (WParam PmAt)); (WSimple (WSubst (SRemoveLargestPrefix (PmVar (s_of "foo")) (Some (TLWord (WSingle (WSimple (WLiteral (s_of "bar")))))))))])))))))))); Step AParameter (Some (OErr UnexpectedEOF))].
Proof. vm_compute. repeat split. Qed.
Example ast_parameter_substitution_words_can_be_parameters_or_substitutions_as_well_7 : follows (@lex ascii_uni (s_of "${foo_bar123:=$@${foo##bar}}")) [Step AParameter (Some (OOk (TLWord (WSingle (WSimple (WSubst (SAssign true (PmVar (s_of "foo_bar123")) (Some (TLWord (WConcat [(WSimple (WParam PmAt)); (WSimple (WSubst (SRemoveLargestPrefix (PmVar (s_of "foo")) (Some (TLWord (WSingle (WSimple (WLiteral (s_of "bar")))))))))])))))))))); Step AParameter (Some (OErr UnexpectedEOF))].
Proof. vm_compute. repeat split. Qed.
Example ast_parameter_substitution_words_can_be_parameters_or_substitutions_as_well_8 : follows (@lex ascii_uni (s_of "${foo_bar123=$@${foo##bar}}")) [Step AParameter (Some (OOk (TLWord (WSingle (WSimple (WSubst (SAssign false (PmVar (s_of "foo_bar123")) (Some (TLWord (WConcat [(WSimple (WParam PmAt)); (WSimple (WSubst (SRemoveLargestPrefix (PmVar (s_of "foo")) (Some (TLWord (WSingle (WSimple (WLiteral (s_of "bar")))))))))])))))))))); Step AParameter (Some (OErr UnexpectedEOF))].
Proof. vm_compute. repeat split. Qed.
Example ast_parameter_substitution_words_can_be_parameters_or_substitutions_as_well_9 : follows (@lex ascii_uni (s_of "${foo_bar123:?$@${foo##bar}}")) [Step AParameter (Some (OOk (TLWord (WSingle (WSimple (WSubst (SError true (PmVar (s_of "foo_bar123")) (Some (TLWord (WConcat [(WSimple (WParam PmAt)); (WSimple (WSubst (SRemoveLargestPrefix (PmVar (s_of "foo")) (Some (TLWord (WSingle (WSimple (WLiteral (s_of "bar")))))))))])))))))))); Step AParameter (Some (OErr UnexpectedEOF))].
Proof. vm_compute. repeat split. Qed.
Example ast_parameter_substitution_words_can_be_parameters_or_substitutions_as_well_10 : follows (@lex ascii_uni (s_of "${foo_bar123?$@${foo##bar}}")) [Step AParameter (Some (OOk (TLWord (WSingle (WSimple (WSubst (SError false (PmVar (s_of "foo_bar123")) (Some (TLWord (WConcat [(WSimple (WParam PmAt)); (WSimple (WSubst (SRemoveLargestPrefix (PmVar (s_of "foo")) (Some (TLWord (WSingle (WSimple (WLiteral (s_of "bar")))))))))])))))))))); Step AParameter (Some (OErr UnexpectedEOF))].
Proof. vm_compute. repeat split. Qed.
Example ast_parameter_substitution_words_can_be_parameters_or_substitutions_as_well_11 : follows (@lex ascii_uni (s_of "${foo_bar123:+$@${foo##bar}}")) [Step AParameter (Some (OOk (TLWord (WSingle (WSimple (WSubst (SAlternative true (PmVar (s_of "foo_bar123")) (Some (TLWord (WConcat [(WSimple (WParam PmAt)); (WSimple (WSubst (SRemoveLargestPrefix (PmVar (s_of "foo")) (Some (TLWord (WSingle (WSimple (WLiteral (s_of "bar")))))))))])))))))))); Step AParameter (Some (OErr UnexpectedEOF))].
Proof. vm_compute. repeat split. Qed.
Example ast_parameter_substitution_words_can_be_parameters_or_substitutions_as_well_12 : follows (@lex ascii_uni (s_of "${foo_bar123+$@${foo##bar}}")) [Step AParameter (Some (OOk (TLWord (WSingle (WSimple (WSubst (SAlternative false (PmVar (s_of "foo_bar123")) (Some (TLWord (WConcat [(WSimple (WParam PmAt)); (WSimple (WSubst (SRemoveLargestPrefix (PmVar (s_of "foo")) (Some (TLWord (WSingle (WSimple (WLiteral (s_of "bar")))))))))])))))))))); Step AParameter (Some (OErr UnexpectedEOF))].
Proof. vm_compute. repeat split. Qed.
Example ast_parameter_substitution_command_close_paren_need_not_be_followed_by_word_delimeter_1 : follows (@lex ascii_uni (s_of "foo ""$(bar)""")) [Step ACompleteCommand (Some (OOk (Some (TLCmd (CList (mkAOL (LSingle (PSimple (mkSC [] [(DCmdWord (TLWord (WSingle (WSimple (WLiteral (s_of "foo")))))); (DCmdWord (TLWord (WSingle (WDoubleQuoted [(WSubst (SCommand [(TLCmd (CList (mkAOL (LSingle (PSimple (mkSC [] [(DCmdWord (TLWord (WSingle (WSimple (WLiteral (s_of "bar"))))))]))) [])))]))]))))]))) []))))))].
Proof. vm_compute. repeat split. Qed.
Example ast_parameter_substitution_invalid_1 : follows (@lex ascii_uni (s_of "$(( x")) [Step AParameter (Some (OErr UnexpectedEOF))].
Proof. vm_compute. repeat split. Qed.
Example ast_parameter_substitution_invalid_2 : follows (@lex ascii_uni (s_of "${foo")) [Step AParameter (Some (OErr (Unmatched TCurlyOpen (mkPos 1 1 2))))].
Proof. vm_compute. repeat split. Qed.
Example ast_parameter_substitution_invalid_3 : follows (@lex ascii_uni (s_of "${ foo}")) [Step AParameter (Some (OErr (BadSubst (TWhitespace (s_of " ")) (mkPos 2 1 3))))].
Proof. vm_compute. repeat split. Qed.
Example ast_parameter_substitution_invalid_4 : follows (@lex ascii_uni (s_of "${foo }")) [Step AParameter (Some (OErr (BadSubst (TWhitespace (s_of " ")) (mkPos 5 1 6))))].
Proof. vm_compute. repeat split. Qed.
Example ast_parameter_substitution_invalid_5 : follows (@lex ascii_uni (s_of "${foo -}")) [Step AParameter (Some (OErr (BadSubst (TWhitespace (s_of " ")) (mkPos 5 1 6))))].
Proof. vm_compute. repeat split. Qed.
Example ast_parameter_substitution_invalid_6 : follows (@lex ascii_uni (s_of "${foo =}")) [Step AParameter (Some (OErr (BadSubst (TWhitespace (s_of " ")) (mkPos 5 1 6))))].
Proof. vm_compute. repeat split. Qed.
Example ast_parameter_substitution_invalid_7 : follows (@lex ascii_uni (s_of "${foo ?}")) [Step AParameter (Some (OErr (BadSubst (TWhitespace (s_of " ")) (mkPos 5 1 6))))].
Proof. vm_compute. repeat split. Qed.
Example ast_parameter_substitution_invalid_8 : follows (@lex ascii_uni (s_of "${foo +}")) [Step AParameter (Some (OErr (BadSubst (TWhitespace (s_of " ")) (mkPos 5 1 6))))].
Proof. vm_compute. repeat split. Qed.
Example ast_parameter_substitution_invalid_9 : follows (@lex ascii_uni (s_of "${foo :-}")) [Step AParameter (Some (OErr (BadSubst (TWhitespace (s_of " ")) (mkPos 5 1 6))))].
Proof. vm_compute. repeat split. Qed.
Example ast_parameter_substitution_invalid_10 : follows (@lex ascii_uni (s_of "${foo :=}")) [Step AParameter (Some (OErr (BadSubst (TWhitespace (s_of " ")) (mkPos 5 1 6))))].
Proof. vm_compute. repeat split. Qed.
Example ast_parameter_substitution_invalid_11 : follows (@lex ascii_uni (s_of "${foo :?}")) [Step AParameter (Some (OErr (BadSubst (TWhitespace (s_of " ")) (mkPos 5 1 6))))].
Proof. vm_compute. repeat split. Qed.
Example ast_parameter_substitution_invalid_12 : follows (@lex ascii_uni (s_of "${foo :+}")) [Step AParameter (Some (OErr (BadSubst (TWhitespace (s_of " ")) (mkPos 5 1 6))))].
Proof. vm_compute. repeat split. Qed.
Example ast_parameter_substitution_invalid_13 : follows (@lex ascii_uni (s_of "${foo: -}")) [Step AParameter (Some (OErr (BadSubst (TWhitespace (s_of " ")) (mkPos 6 1 7))))].
Proof. vm_compute. repeat split. Qed.
Example ast_parameter_substitution_invalid_14 : follows (@lex ascii_uni (s_of "${foo: =}")) [Step AParameter (Some (OErr (BadSubst (TWhitespace (s_of " ")) (mkPos 6 1 7))))].
Proof. vm_compute. repeat split. Qed.
Example ast_parameter_substitution_invalid_15 : follows (@lex ascii_uni (s_of "${foo: ?}")) [Step AParameter (Some (OErr (BadSubst (TWhitespace (s_of " ")) (mkPos 6 1 7))))].
Proof. vm_compute. repeat split. Qed.
Example ast_parameter_substitution_invalid_16 : follows (@lex ascii_uni (s_of "${foo: +}")) [Step AParameter (Some (OErr (BadSubst (TWhitespace (s_of " ")) (mkPos 6 1 7))))].
Proof. vm_compute. repeat split. Qed.
Example ast_parameter_substitution_invalid_17 : follows (@lex ascii_uni (s_of "${foo: %}")) [Step AParameter (Some (OErr (BadSubst (TWhitespace (s_of " ")) (mkPos 6 1 7))))].
Proof. vm_compute. repeat split. Qed.
Example ast_parameter_substitution_invalid_18 : follows (@lex ascii_uni (s_of "${foo: #}")) [Step AParameter (Some (OErr (BadSubst (TWhitespace (s_of " ")) (mkPos 6 1 7))))].
Proof. vm_compute. repeat split. Qed.
Example ast_parameter_substitution_invalid_19 : follows (@lex ascii_uni (s_of "${foo-bar")) [Step AParameter (Some (OErr (Unmatched TCurlyOpen (mkPos 1 1 2))))].
Proof. vm_compute. repeat split. Qed.
Example ast_parameter_substitution_invalid_20 : follows (@lex ascii_uni (s_of "${'foo'}")) [Step AParameter (Some (OErr (BadSubst TSingleQuote (mkPos 2 1 3))))].
Proof. vm_compute. repeat split. Qed.
Example ast_parameter_substitution_invalid_21 : follows (@lex ascii_uni (s_of "${""foo""}")) [Step AParameter (Some (OErr (BadSubst TDoubleQuote (mkPos 2 1 3))))].
Proof. vm_compute. repeat split. Qed.
Example ast_parameter_substitution_invalid_22 : follows (@lex ascii_uni (s_of "${`foo`}")) [Step AParameter (Some (OErr (BadSubst TBacktick (mkPos 2 1 3))))].
Proof. vm_compute. repeat split. Qed.
Example ast_parameter_substitution_can_have_nested_substitution_and_parameter_1 : follows (@lex ascii_uni (s_of "${foo:+${bar:+$$}}")) [Step AParameter (Some (OOk (TLWord (WSingle (WSimple (WSubst (SAlternative true (PmVar (s_of "foo")) (Some (TLWord (WSingle (WSimple (WSubst (SAlternative true (PmVar (s_of "bar")) (Some (TLWord (WSingle (WSimple (WParam PmDollar))))))))))))))))))].
Proof. vm_compute. repeat split. Qed.
Example ast_parameter_substitution_special_tokens_in_words_become_literals_1 : follows (@lex ascii_uni [36;123;102;111;111;58;45;35;40;98;97;114;41;59;38;124;38;38;124;124;59;59;32;60;60;32;62;62;32;60;38;32;62;38;32;60;60;45;32;92;10;10;9;125]%N) [Step AParameter (Some (OOk (TLWord (WSingle (WSimple (WSubst (SDefault true (PmVar (s_of "foo")) (Some (TLWord (WConcat [(WSimple (WLiteral (s_of "#(bar);&|&&||;; << >> <& >& <<- "))); (WSimple (WEscaped [10]%N)); (WSimple (WLiteral [10;9]%N))]))))))))))].
Proof. vm_compute. repeat split. Qed.
Example ast_word_single_quote_valid_1 : follows (@lex ascii_uni [39;97;98;99;38;38;124;124;10;10;35;99;111;109;109;101;110;116;10;97;98;99;39]%N) [Step AWord (Some (OOk (Some (TLWord (WSingle (WSingleQuoted [97;98;99;38;38;124;124;10;10;35;99;111;109;109;101;110;116;10;97;98;99]%N))))))].
Proof. vm_compute. repeat split. Qed.
Example ast_word_single_quote_valid_slash_remains_literal_1 : follows (@lex ascii_uni [39;92;10;39]%N) [Step AWord (Some (OOk (Some (TLWord (WSingle (WSingleQuoted [92;10]%N))))))].
Proof. vm_compute. repeat split. Qed.
Example ast_word_single_quote_valid_does_not_quote_single_quotes_1 : follows (@lex ascii_uni (s_of "'hello \'")) [Step AWord (Some (OOk (Some (TLWord (WSingle (WSingleQuoted (s_of "hello \")))))))].
Proof. vm_compute. repeat split. Qed.
Example ast_word_single_quote_invalid_missing_close_quote_1 : follows (@lex ascii_uni (s_of "'hello")) [Step AWord (Some (OErr (Unmatched TSingleQuote (mkPos 0 1 1))))].
Proof. vm_compute. repeat split. Qed.
Example ast_word_double_quote_valid_1 : follows (@lex ascii_uni [34;97;98;99;38;38;124;124;10;10;35;99;111;109;109;101;110;116;10;97;98;99;34]%N) [Step AWord (Some (OOk (Some (TLWord (WSingle (WDoubleQuoted [(WLiteral [97;98;99;38;38;124;124;10;10;35;99;111;109;109;101;110;116;10;97;98;99]%N)]))))))].
Proof. vm_compute. repeat split. Qed.
Example ast_word_double_quote_valid_recognizes_parameters_1 : follows (@lex ascii_uni (s_of """test asdf$foo $""")) [Step AWord (Some (OOk (Some (TLWord (WSingle (WDoubleQuoted [(WLiteral (s_of "test asdf")); (WParam (PmVar (s_of "foo"))); (WLiteral (s_of " $"))]))))))].
Proof. vm_compute. repeat split. Qed.
Example ast_word_double_quote_valid_recognizes_backticks_1 : follows (@lex ascii_uni (s_of """test asdf `foo`""")) [Step AWord (Some (OOk (Some (TLWord (WSingle (WDoubleQuoted [(WLiteral (s_of "test asdf ")); (WSubst (SCommand [(TLCmd (CList (mkAOL (LSingle (PSimple (mkSC [] [(DCmdWord (TLWord (WSingle (WSimple (WLiteral (s_of "foo"))))))]))) [])))]))]))))))].
Proof. vm_compute. repeat split. Qed.
Example ast_word_double_quote_valid_slash_escapes_dollar_1 : follows (@lex ascii_uni (s_of """test\$foo $@""")) [Step AWord (Some (OOk (Some (TLWord (WSingle (WDoubleQuoted [(WLiteral (s_of "test")); (WEscaped (s_of "$")); (WLiteral (s_of "foo ")); (WParam PmAt)]))))))].
Proof. vm_compute. repeat split. Qed.
Example ast_word_double_quote_valid_slash_escapes_backtick_1 : follows (@lex ascii_uni (s_of """test\` $*""")) [Step AWord (Some (OOk (Some (TLWord (WSingle (WDoubleQuoted [(WLiteral (s_of "test")); (WEscaped (s_of "`")); (WLiteral (s_of " ")); (WParam PmStar)]))))))].
Proof. vm_compute. repeat split. Qed.
Example ast_word_double_quote_valid_slash_escapes_double_quote_1 : follows (@lex ascii_uni (s_of """test\"" $#""")) [Step AWord (Some (OOk (Some (TLWord (WSingle (WDoubleQuoted [(WLiteral (s_of "test")); (WEscaped (s_of """")); (WLiteral (s_of " ")); (WParam PmPound)]))))))].
Proof. vm_compute. repeat split. Qed.
Example ast_word_double_quote_valid_slash_escapes_newline_1 : follows (@lex ascii_uni [34;116;101;115;116;92;10;32;36;63;10;34]%N) [Step AWord (Some (OOk (Some (TLWord (WSingle (WDoubleQuoted [(WLiteral (s_of "test")); (WEscaped [10]%N); (WLiteral (s_of " ")); (WParam PmQuestion); (WLiteral [10]%N)]))))))].
Proof. vm_compute. repeat split. Qed.
Example ast_word_double_quote_valid_slash_escapes_slash_1 : follows (@lex ascii_uni (s_of """test\\ $0""")) [Step AWord (Some (OOk (Some (TLWord (WSingle (WDoubleQuoted [(WLiteral (s_of "test")); (WEscaped (s_of "\")); (WLiteral (s_of " ")); (WParam (PmPositional 0%N))]))))))].
Proof. vm_compute. repeat split. Qed.
Example ast_word_double_quote_valid_slash_remains_literal_in_general_case_1 : follows (@lex ascii_uni (s_of """t\est $$""")) [Step AWord (Some (OOk (Some (TLWord (WSingle (WDoubleQuoted [(WLiteral (s_of "t\est ")); (WParam PmDollar)]))))))].
Proof. vm_compute. repeat split. Qed.
Example ast_word_double_quote_slash_invalid_missing_close_quote_1 : follows (@lex ascii_uni (s_of """hello")) [Step AWord (Some (OErr (Unmatched TDoubleQuote (mkPos 0 1 1))))].
Proof. vm_compute. repeat split. Qed.
Example ast_word_double_quote_slash_invalid_missing_close_quote_2 : follows (@lex ascii_uni (s_of """hello\""")) [Step AWord (Some (OErr (Unmatched TDoubleQuote (mkPos 0 1 1))))].
Proof. vm_compute. repeat split. Qed.
Example ast_word_literal_dollar_if_not_param_1 : follows (@lex ascii_uni (s_of "$%asdf")) [Step AWord (Some (OOk (Some (TLWord (WSingle (WSimple (WLiteral (s_of "$%asdf"))))))))].
Proof. vm_compute. repeat split. Qed.
Example ast_word_does_not_capture_comments_1 : follows (@lex ascii_uni [35;99;111;109;109;101;110;116;10]%N) [Step AWord (Some (OOk None))].
Proof. vm_compute. repeat split. Qed.
Example ast_word_does_not_capture_comments_2 : follows (@lex ascii_uni [32;32;35;99;111;109;109;101;110;116;10]%N) [Step AWord (Some (OOk None))].
Proof. vm_compute. repeat split. Qed.
Example ast_word_does_not_capture_comments_3 : follows (@lex ascii_uni [119;111;114;100;32;32;32;35;99;111;109;109;101;110;116;10]%N) [StepOk AWord; Step AWord (Some (OOk None))].
Proof. vm_compute. repeat split. Qed.
Example ast_word_pound_in_middle_is_not_comment_1 : follows (@lex ascii_uni [97;98;99;35;100;101;102;10]%N) [Step AWord (Some (OOk (Some (TLWord (WSingle (WSimple (WLiteral (s_of "abc#def"))))))))].
Proof. vm_compute. repeat split. Qed.
Example ast_word_concatenation_works_1 : follows (@lex ascii_uni (s_of "foo=bar""double""'single'")) [Step AWord (Some (OOk (Some (TLWord (WConcat [(WSimple (WLiteral (s_of "foo=bar"))); (WDoubleQuoted [(WLiteral (s_of "double"))]); (WSingleQuoted (s_of "single"))])))))].
Proof. vm_compute. repeat split. Qed.
Example ast_word_special_words_recognized_as_such_1 : follows (@lex ascii_uni (s_of "*")) [Step AWord (Some (OOk (Some (TLWord (WSingle (WSimple WStar))))))].
Proof. vm_compute. repeat split. Qed.
Example ast_word_special_words_recognized_as_such_2 : follows (@lex ascii_uni (s_of "?")) [Step AWord (Some (OOk (Some (TLWord (WSingle (WSimple WQuestion))))))].
Proof. vm_compute. repeat split. Qed.
Example ast_word_special_words_recognized_as_such_3 : follows (@lex ascii_uni (s_of "~")) [Step AWord (Some (OOk (Some (TLWord (WSingle (WSimple WTilde))))))].
Proof. vm_compute. repeat split. Qed.
Example ast_word_special_words_recognized_as_such_4 : follows (@lex ascii_uni (s_of "[")) [Step AWord (Some (OOk (Some (TLWord (WSingle (WSimple WSquareOpen))))))].
Proof. vm_compute. repeat split. Qed.
Example ast_word_special_words_recognized_as_such_5 : follows (@lex ascii_uni (s_of "]")) [Step AWord (Some (OOk (Some (TLWord (WSingle (WSimple WSquareClose))))))].
Proof. vm_compute. repeat split. Qed.
Example ast_word_special_words_recognized_as_such_6 : follows (@lex ascii_uni (s_of ":")) [Step AWord (Some (OOk (Some (TLWord (WSingle (WSimple WColon))))))].
Proof. vm_compute. repeat split. Qed.
Example ast_word_escaped_newline_becomes_whitespace_1 : follows (@lex ascii_uni [102;111;111;92;10;98;97;114]%N) [Step AWord (Some (OOk (Some (TLWord (WSingle (WSimple (WLiteral (s_of "foo")))))))); Step AWord (Some (OOk (Some (TLWord (WSingle (WSimple (WLiteral (s_of "bar"))))))))].
Proof. vm_compute. repeat split. Qed.
(* tests/lexer.rs *)
Example lexer_check_Newline : @lex ascii_uni (as_str TNewline) = [TNewline].
Proof. reflexivity. Qed.
Example lexer_check_ParenOpen : @lex ascii_uni (as_str TParenOpen) = [TParenOpen].
Proof. reflexivity. Qed.
Example lexer_check_ParenClose : @lex ascii_uni (as_str TParenClose) = [TParenClose].
Proof. reflexivity. Qed.
Example lexer_check_CurlyOpen : @lex ascii_uni (as_str TCurlyOpen) = [TCurlyOpen].
Proof. reflexivity. Qed.
Example lexer_check_CurlyClose : @lex ascii_uni (as_str TCurlyClose) = [TCurlyClose].
Proof. reflexivity. Qed.
Example lexer_check_SquareOpen : @lex ascii_uni (as_str TSquareOpen) = [TSquareOpen].
Proof. reflexivity. Qed.
Example lexer_check_SquareClose : @lex ascii_uni (as_str TSquareClose) = [TSquareClose].
Proof. reflexivity. Qed.
Example lexer_check_Dollar : @lex ascii_uni (as_str TDollar) = [TDollar].
Proof. reflexivity. Qed.
Example lexer_check_Bang : @lex ascii_uni (as_str TBang) = [TBang].
Proof. reflexivity. Qed.
Example lexer_check_Semi : @lex ascii_uni (as_str TSemi) = [TSemi].
Proof. reflexivity. Qed.
Example lexer_check_Amp : @lex ascii_uni (as_str TAmp) = [TAmp].
Proof. reflexivity. Qed.
Example lexer_check_Less : @lex ascii_uni (as_str TLess) = [TLess].
Proof. reflexivity. Qed.
Example lexer_check_Great : @lex ascii_uni (as_str TGreat) = [TGreat].
Proof. reflexivity. Qed.
Example lexer_check_Pipe : @lex ascii_uni (as_str TPipe) = [TPipe].
Proof. reflexivity. Qed.
Example lexer_check_Tilde : @lex ascii_uni (as_str TTilde) = [TTilde].
Proof. reflexivity. Qed.
Example lexer_check_Star : @lex ascii_uni (as_str TStar) = [TStar].
Proof. reflexivity. Qed.
Example lexer_check_Question : @lex ascii_uni (as_str TQuestion) = [TQuestion].
Proof. reflexivity. Qed.
Example lexer_check_Percent : @lex ascii_uni (as_str TPercent) = [TPercent].
Proof. reflexivity. Qed.
Example lexer_check_Dash : @lex ascii_uni (as_str TDash) = [TDash].
Proof. reflexivity. Qed.
Example lexer_check_Equals : @lex ascii_uni (as_str TEquals) = [TEquals].
Proof. reflexivity. Qed.
Example lexer_check_Plus : @lex ascii_uni (as_str TPlus) = [TPlus].
Proof. reflexivity. Qed.
Example lexer_check_Colon : @lex ascii_uni (as_str TColon) = [TColon].
Proof. reflexivity. Qed.
Example lexer_check_At : @lex ascii_uni (as_str TAt) = [TAt].
Proof. reflexivity. Qed.
Example lexer_check_Caret : @lex ascii_uni (as_str TCaret) = [TCaret].
Proof. reflexivity. Qed.
Example lexer_check_Slash : @lex ascii_uni (as_str TSlash) = [TSlash].
Proof. reflexivity. Qed.
Example lexer_check_Comma : @lex ascii_uni (as_str TComma) = [TComma].
Proof. reflexivity. Qed.
Example lexer_check_Pound : @lex ascii_uni (as_str TPound) = [TPound].
Proof. reflexivity. Qed.
Example lexer_check_DoubleQuote : @lex ascii_uni (as_str TDoubleQuote) = [TDoubleQuote].
Proof. reflexivity. Qed.
Example lexer_check_Backtick : @lex ascii_uni (as_str TBacktick) = [TBacktick].
Proof. reflexivity. Qed.
Example lexer_check_AndIf : @lex ascii_uni (as_str TAndIf) = [TAndIf].
Proof. reflexivity. Qed.
Example lexer_check_OrIf : @lex ascii_uni (as_str TOrIf) = [TOrIf].
Proof. reflexivity. Qed.
Example lexer_check_DSemi : @lex ascii_uni (as_str TDSemi) = [TDSemi].
Proof. reflexivity. Qed.
Example lexer_check_DLess : @lex ascii_uni (as_str TDLess) = [TDLess].
Proof. reflexivity. Qed.
Example lexer_check_DGreat : @lex ascii_uni (as_str TDGreat) = [TDGreat].
Proof. reflexivity. Qed.
Example lexer_check_GreatAnd : @lex ascii_uni (as_str TGreatAnd) = [TGreatAnd].
Proof. reflexivity. Qed.
Example lexer_check_LessAnd : @lex ascii_uni (as_str TLessAnd) = [TLessAnd].
Proof. reflexivity. Qed.
Example lexer_check_DLessDash : @lex ascii_uni (as_str TDLessDash) = [TDLessDash].
Proof. reflexivity. Qed.
Example lexer_check_Clobber : @lex ascii_uni (as_str TClobber) = [TClobber].
Proof. reflexivity. Qed.
Example lexer_check_LessGreat : @lex ascii_uni (as_str TLessGreat) = [TLessGreat].
Proof. reflexivity. Qed.
Example lexer_check_Whitespace : @lex ascii_uni (as_str (TWhitespace [32;9;13]%N)) = [(TWhitespace [32;9;13]%N)].
Proof. reflexivity. Qed.
Example lexer_check_Name : @lex ascii_uni (as_str (TName (s_of "abc_23_defg"))) = [(TName (s_of "abc_23_defg"))].
Proof. reflexivity. Qed.
Example lexer_check_Literal : @lex ascii_uni (as_str (TLiteral (s_of "5abcdefg80hijklmnop"))) = [(TLiteral (s_of "5abcdefg80hijklmnop"))].
Proof. reflexivity. Qed.
Example lexer_check_ParamPositional : @lex ascii_uni (as_str (TParamPositional P9)) = [(TParamPositional P9)].
Proof. reflexivity. Qed.
Example lexer_check_greedy_Amp : @lex ascii_uni (s_of "&&&") = [TAndIf; TAmp].
Proof. reflexivity. Qed.
Example lexer_check_greedy_Pipe : @lex ascii_uni (s_of "|||") = [TOrIf; TPipe].
Proof. reflexivity. Qed.
Example lexer_check_greedy_Semi : @lex ascii_uni (s_of ";;;") = [TDSemi; TSemi].
Proof. reflexivity. Qed.
Example lexer_check_greedy_Less : @lex ascii_uni (s_of "<<<") = [TDLess; TLess].
Proof. reflexivity. Qed.
Example lexer_check_greedy_Great : @lex ascii_uni (s_of ">>>") = [TDGreat; TGreat].
Proof. reflexivity. Qed.
Example lexer_check_greedy_Less2 : @lex ascii_uni (s_of "<<<-") = [TDLess; TLess; TDash].
Proof. reflexivity. Qed.
Example lexer_check_bad_Assigmnent_and_value : @lex ascii_uni (s_of "5foobar=test") = [(TLiteral (s_of "5foobar")); TEquals; (TName (s_of "test"))].
Proof. reflexivity. Qed.
Example lexer_check_Literal_and_Name_combo : @lex ascii_uni (s_of "hello 5asdf5_ 6world __name ^.abc _test2") = [(TName (s_of "hello")); (TWhitespace (s_of " ")); (TLiteral (s_of "5asdf5_")); (TWhitespace (s_of " ")); (TLiteral (s_of "6world")); (TWhitespace (s_of " ")); (TName (s_of "__name")); (TWhitespace (s_of " ")); TCaret; (TLiteral (s_of ".abc")); (TWhitespace (s_of " ")); (TName (s_of "_test2"))].
Proof. reflexivity. Qed.
Example lexer_check_escape_Backslash : @lex ascii_uni (s_of "\\") = [TBackslash; TBackslash].
Proof. reflexivity. Qed.
Example lexer_check_escape_AndIf : @lex ascii_uni (s_of "\&&") = [TBackslash; TAmp; TAmp].
Proof. reflexivity. Qed.
Example lexer_check_escape_DSemi : @lex ascii_uni (s_of "\;;") = [TBackslash; TSemi; TSemi].
Proof. reflexivity. Qed.
Example lexer_check_escape_DLess : @lex ascii_uni (s_of "\<<") = [TBackslash; TLess; TLess].
Proof. reflexivity. Qed.
Example lexer_check_escape_DLessDash : @lex ascii_uni (s_of "\<<-") = [TBackslash; TLess; TLess; TDash].
Proof. reflexivity. Qed.
Example lexer_check_escape_ParamPositional : @lex ascii_uni (s_of "\$0") = [TBackslash; TDollar; (TLiteral (s_of "0"))].
Proof. reflexivity. Qed.
Example lexer_check_escape_Whitespace : @lex ascii_uni (s_of "\  ") = [TBackslash; (TWhitespace (s_of " ")); (TWhitespace (s_of " "))].
Proof. reflexivity. Qed.
Example lexer_check_escape_Name : @lex ascii_uni (s_of "\ab") = [TBackslash; (TName (s_of "a")); (TName (s_of "b"))].
Proof. reflexivity. Qed.
Example lexer_check_escape_Literal : @lex ascii_uni (s_of "\13") = [TBackslash; (TLiteral (s_of "1")); (TLiteral (s_of "3"))].
Proof. reflexivity. Qed.
Example lexer_check_no_tokens_lost : @lex ascii_uni (s_of "word\'") = [(TName (s_of "word")); TBackslash; TSingleQuote].
Proof. reflexivity. Qed.
