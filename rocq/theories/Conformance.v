(** * Conformance of the model with the project's own tests

    Every check below is a unit test of /repo/tests with a literal source, run on the model
    (the concrete token iterator and the default builder) by computation: the methods called, in
    order, each either succeeding or failing with exactly the given error (positions included).
    Generated from the test sources.  These are tests of the model, not proofs. *)
From Verif Require Import Base Token Lexer Pos Ast Builder Prog Iter Command DefaultBuilder.

Definition ascii_uni : Uni := fun _ => false.
Inductive verdict := VOk | VErr (e : perr default_err) | VPanic (s : panic_site) | VFuel.
Definition meth := token_iter -> verdict * token_iter.
Definition m {A} (p : prog unit default_err A) : meth := fun s =>
  match run concrete p s tt with
  | (OOk _, s', _) => (VOk, s')
  | (OErr e, s', _) => (VErr e, s')
  | (OPanic x, s', _) => (VPanic x, s')
  | (OFuel, s', _) => (VFuel, s')
  end.
Fixpoint calls (ms : list meth) (s : token_iter) : list verdict :=
  match ms with
  | [] => []
  | f :: ms' => let (v, s') := f s in v :: calls ms' s'
  end.
Definition parse_with (src : list N) (ms : list meth) : list verdict :=
  calls ms (ti_new (@lex ascii_uni src)).
Notation B := default_builder.
Notation F := 300.
Example test_and_or_correct_associativity_1 : parse_with [102;111;111;32;124;124;32;98;97;114;32;38;38;32;98;97;122]%N [m (p_and_or_list B F)]
  = [VOk].
Proof. vm_compute. reflexivity. Qed.
Example test_and_or_valid_with_newlines_after_operator_1 : parse_with [102;111;111;32;124;124;10;10;10;10;98;97;114;32;38;38;32;98;97;122]%N [m (p_and_or_list B F)]
  = [VOk].
Proof. vm_compute. reflexivity. Qed.
Example test_and_or_invalid_with_newlines_before_operator_1 : parse_with [102;111;111;32;124;124;32;98;97;114;10;10;38;38;32;98;97;122]%N [m (p_and_or_list B F); m (p_complete_command B F)]
  = [VOk; VErr (Unexpected TAndIf (mkPos 12 3 1))].
Proof. vm_compute. reflexivity. Qed.
Example test_arithmetic_substitution_valid_1 : parse_with [36;40;40;32;41;41]%N [m (p_parameter B F)]
  = [VOk].
Proof. vm_compute. reflexivity. Qed.
Example test_arithmetic_substitution_left_to_right_associativity_1 : parse_with [36;40;40;32;120;32;61;32;121;32;61;32;122;32;41;41]%N [m (p_parameter B F)]
  = [VOk].
Proof. vm_compute. reflexivity. Qed.
Example test_arithmetic_substitution_invalid_1 : parse_with [36;40;40;32;53;43;43;32;41;41]%N [m (p_parameter B F)]
  = [VErr (Unexpected TParenClose (mkPos 8 1 9))].
Proof. vm_compute. reflexivity. Qed.
Example test_arithmetic_substitution_invalid_2 : parse_with [36;40;40;32;53;45;45;32;41;41]%N [m (p_parameter B F)]
  = [VErr (Unexpected TParenClose (mkPos 8 1 9))].
Proof. vm_compute. reflexivity. Qed.
Example test_arithmetic_substitution_invalid_3 : parse_with [36;40;40;32;40;120;32;43;32;121;41;43;43;32;41;41]%N [m (p_parameter B F)]
  = [VErr (Unexpected TParenClose (mkPos 14 1 15))].
Proof. vm_compute. reflexivity. Qed.
Example test_arithmetic_substitution_invalid_4 : parse_with [36;40;40;32;40;120;32;43;32;121;41;45;45;32;41;41]%N [m (p_parameter B F)]
  = [VErr (Unexpected TParenClose (mkPos 14 1 15))].
Proof. vm_compute. reflexivity. Qed.
Example test_arithmetic_substitution_invalid_5 : parse_with [36;40;40;32;43;43;53;32;41;41]%N [m (p_parameter B F)]
  = [VErr (Unexpected (TLiteral [53]%N) (mkPos 6 1 7))].
Proof. vm_compute. reflexivity. Qed.
Example test_arithmetic_substitution_invalid_6 : parse_with [36;40;40;32;45;45;53;32;41;41]%N [m (p_parameter B F)]
  = [VErr (Unexpected (TLiteral [53]%N) (mkPos 6 1 7))].
Proof. vm_compute. reflexivity. Qed.
Example test_arithmetic_substitution_invalid_7 : parse_with [36;40;40;32;43;43;40;120;32;43;32;121;41;32;41;41]%N [m (p_parameter B F)]
  = [VErr (Unexpected TParenOpen (mkPos 6 1 7))].
Proof. vm_compute. reflexivity. Qed.
Example test_arithmetic_substitution_invalid_8 : parse_with [36;40;40;32;45;45;40;120;32;43;32;121;41;32;41;41]%N [m (p_parameter B F)]
  = [VErr (Unexpected TParenOpen (mkPos 6 1 7))].
Proof. vm_compute. reflexivity. Qed.
Example test_arithmetic_substitution_invalid_9 : parse_with [36;40;40;32;43;32;41;41]%N [m (p_parameter B F)]
  = [VErr (Unexpected TParenClose (mkPos 6 1 7))].
Proof. vm_compute. reflexivity. Qed.
Example test_arithmetic_substitution_invalid_10 : parse_with [36;40;40;32;45;32;41;41]%N [m (p_parameter B F)]
  = [VErr (Unexpected TParenClose (mkPos 6 1 7))].
Proof. vm_compute. reflexivity. Qed.
Example test_arithmetic_substitution_invalid_11 : parse_with [36;40;40;32;33;32;41;41]%N [m (p_parameter B F)]
  = [VErr (Unexpected TParenClose (mkPos 6 1 7))].
Proof. vm_compute. reflexivity. Qed.
Example test_arithmetic_substitution_invalid_12 : parse_with [36;40;40;32;126;32;41;41]%N [m (p_parameter B F)]
  = [VErr (Unexpected TParenClose (mkPos 6 1 7))].
Proof. vm_compute. reflexivity. Qed.
Example test_arithmetic_substitution_invalid_13 : parse_with [36;40;40;32;120;32;42;42;32;41;41]%N [m (p_parameter B F)]
  = [VErr (Unexpected TParenClose (mkPos 9 1 10))].
Proof. vm_compute. reflexivity. Qed.
Example test_arithmetic_substitution_invalid_14 : parse_with [36;40;40;32;120;32;42;32;32;41;41]%N [m (p_parameter B F)]
  = [VErr (Unexpected TParenClose (mkPos 9 1 10))].
Proof. vm_compute. reflexivity. Qed.
Example test_arithmetic_substitution_invalid_15 : parse_with [36;40;40;32;120;32;47;32;32;41;41]%N [m (p_parameter B F)]
  = [VErr (Unexpected TParenClose (mkPos 9 1 10))].
Proof. vm_compute. reflexivity. Qed.
Example test_arithmetic_substitution_invalid_16 : parse_with [36;40;40;32;120;32;37;32;32;41;41]%N [m (p_parameter B F)]
  = [VErr (Unexpected TParenClose (mkPos 9 1 10))].
Proof. vm_compute. reflexivity. Qed.
Example test_arithmetic_substitution_invalid_17 : parse_with [36;40;40;32;120;32;43;32;32;41;41]%N [m (p_parameter B F)]
  = [VErr (Unexpected TParenClose (mkPos 9 1 10))].
Proof. vm_compute. reflexivity. Qed.
Example test_arithmetic_substitution_invalid_18 : parse_with [36;40;40;32;120;32;45;32;32;41;41]%N [m (p_parameter B F)]
  = [VErr (Unexpected TParenClose (mkPos 9 1 10))].
Proof. vm_compute. reflexivity. Qed.
Example test_arithmetic_substitution_invalid_19 : parse_with [36;40;40;32;120;32;60;60;32;41;41]%N [m (p_parameter B F)]
  = [VErr (Unexpected TParenClose (mkPos 9 1 10))].
Proof. vm_compute. reflexivity. Qed.
Example test_arithmetic_substitution_invalid_20 : parse_with [36;40;40;32;120;32;62;62;32;41;41]%N [m (p_parameter B F)]
  = [VErr (Unexpected TParenClose (mkPos 9 1 10))].
Proof. vm_compute. reflexivity. Qed.
Example test_arithmetic_substitution_invalid_21 : parse_with [36;40;40;32;120;32;60;32;32;41;41]%N [m (p_parameter B F)]
  = [VErr (Unexpected TParenClose (mkPos 9 1 10))].
Proof. vm_compute. reflexivity. Qed.
Example test_arithmetic_substitution_invalid_22 : parse_with [36;40;40;32;120;32;60;61;32;41;41]%N [m (p_parameter B F)]
  = [VErr (Unexpected TParenClose (mkPos 9 1 10))].
Proof. vm_compute. reflexivity. Qed.
Example test_arithmetic_substitution_invalid_23 : parse_with [36;40;40;32;120;32;62;32;32;41;41]%N [m (p_parameter B F)]
  = [VErr (Unexpected TParenClose (mkPos 9 1 10))].
Proof. vm_compute. reflexivity. Qed.
Example test_arithmetic_substitution_invalid_24 : parse_with [36;40;40;32;120;32;62;61;32;41;41]%N [m (p_parameter B F)]
  = [VErr (Unexpected TParenClose (mkPos 9 1 10))].
Proof. vm_compute. reflexivity. Qed.
Example test_arithmetic_substitution_invalid_25 : parse_with [36;40;40;32;120;32;61;61;32;41;41]%N [m (p_parameter B F)]
  = [VErr (Unexpected TParenClose (mkPos 9 1 10))].
Proof. vm_compute. reflexivity. Qed.
Example test_arithmetic_substitution_invalid_26 : parse_with [36;40;40;32;120;32;33;61;32;41;41]%N [m (p_parameter B F)]
  = [VErr (Unexpected TParenClose (mkPos 9 1 10))].
Proof. vm_compute. reflexivity. Qed.
Example test_arithmetic_substitution_invalid_27 : parse_with [36;40;40;32;120;32;38;32;32;41;41]%N [m (p_parameter B F)]
  = [VErr (Unexpected TParenClose (mkPos 9 1 10))].
Proof. vm_compute. reflexivity. Qed.
Example test_arithmetic_substitution_invalid_28 : parse_with [36;40;40;32;120;32;94;32;32;41;41]%N [m (p_parameter B F)]
  = [VErr (Unexpected TParenClose (mkPos 9 1 10))].
Proof. vm_compute. reflexivity. Qed.
Example test_arithmetic_substitution_invalid_29 : parse_with [36;40;40;32;120;32;124;32;32;41;41]%N [m (p_parameter B F)]
  = [VErr (Unexpected TParenClose (mkPos 9 1 10))].
Proof. vm_compute. reflexivity. Qed.
Example test_arithmetic_substitution_invalid_30 : parse_with [36;40;40;32;120;32;38;38;32;41;41]%N [m (p_parameter B F)]
  = [VErr (Unexpected TParenClose (mkPos 9 1 10))].
Proof. vm_compute. reflexivity. Qed.
Example test_arithmetic_substitution_invalid_31 : parse_with [36;40;40;32;120;32;124;124;32;41;41]%N [m (p_parameter B F)]
  = [VErr (Unexpected TParenClose (mkPos 9 1 10))].
Proof. vm_compute. reflexivity. Qed.
Example test_arithmetic_substitution_invalid_32 : parse_with [36;40;40;32;120;32;61;32;32;41;41]%N [m (p_parameter B F)]
  = [VErr (Unexpected TParenClose (mkPos 9 1 10))].
Proof. vm_compute. reflexivity. Qed.
Example test_arithmetic_substitution_invalid_33 : parse_with [36;40;40;32;120;32;42;61;32;41;41]%N [m (p_parameter B F)]
  = [VErr (Unexpected TParenClose (mkPos 9 1 10))].
Proof. vm_compute. reflexivity. Qed.
Example test_arithmetic_substitution_invalid_34 : parse_with [36;40;40;32;120;32;47;61;32;41;41]%N [m (p_parameter B F)]
  = [VErr (Unexpected TParenClose (mkPos 9 1 10))].
Proof. vm_compute. reflexivity. Qed.
Example test_arithmetic_substitution_invalid_35 : parse_with [36;40;40;32;120;32;37;61;32;41;41]%N [m (p_parameter B F)]
  = [VErr (Unexpected TParenClose (mkPos 9 1 10))].
Proof. vm_compute. reflexivity. Qed.
Example test_arithmetic_substitution_invalid_36 : parse_with [36;40;40;32;120;32;43;61;32;41;41]%N [m (p_parameter B F)]
  = [VErr (Unexpected TParenClose (mkPos 9 1 10))].
Proof. vm_compute. reflexivity. Qed.
Example test_arithmetic_substitution_invalid_37 : parse_with [36;40;40;32;120;32;45;61;32;41;41]%N [m (p_parameter B F)]
  = [VErr (Unexpected TParenClose (mkPos 9 1 10))].
Proof. vm_compute. reflexivity. Qed.
Example test_arithmetic_substitution_invalid_38 : parse_with [36;40;40;32;120;32;60;60;61;41;41]%N [m (p_parameter B F)]
  = [VErr (Unexpected TParenClose (mkPos 9 1 10))].
Proof. vm_compute. reflexivity. Qed.
Example test_arithmetic_substitution_invalid_39 : parse_with [36;40;40;32;120;32;62;62;61;41;41]%N [m (p_parameter B F)]
  = [VErr (Unexpected TParenClose (mkPos 9 1 10))].
Proof. vm_compute. reflexivity. Qed.
Example test_arithmetic_substitution_invalid_40 : parse_with [36;40;40;32;120;32;38;61;32;41;41]%N [m (p_parameter B F)]
  = [VErr (Unexpected TParenClose (mkPos 9 1 10))].
Proof. vm_compute. reflexivity. Qed.
Example test_arithmetic_substitution_invalid_41 : parse_with [36;40;40;32;120;32;94;61;32;41;41]%N [m (p_parameter B F)]
  = [VErr (Unexpected TParenClose (mkPos 9 1 10))].
Proof. vm_compute. reflexivity. Qed.
Example test_arithmetic_substitution_invalid_42 : parse_with [36;40;40;32;120;32;124;61;32;41;41]%N [m (p_parameter B F)]
  = [VErr (Unexpected TParenClose (mkPos 9 1 10))].
Proof. vm_compute. reflexivity. Qed.
Example test_arithmetic_substitution_invalid_43 : parse_with [36;40;40;32;120;32;63;32;121;32;58;32;41;41]%N [m (p_parameter B F)]
  = [VErr (Unexpected TParenClose (mkPos 12 1 13))].
Proof. vm_compute. reflexivity. Qed.
Example test_arithmetic_substitution_invalid_44 : parse_with [36;40;40;32;120;32;63;32;32;32;32;32;41;41]%N [m (p_parameter B F)]
  = [VErr (Unexpected TParenClose (mkPos 12 1 13))].
Proof. vm_compute. reflexivity. Qed.
Example test_arithmetic_substitution_invalid_45 : parse_with [36;40;40;32;120;32;61;32;53;44;32;41;41]%N [m (p_parameter B F)]
  = [VErr (Unexpected TParenClose (mkPos 11 1 12))].
Proof. vm_compute. reflexivity. Qed.
Example test_arithmetic_substitution_invalid_46 : parse_with [36;40;40;32;120;32;43;32;40;41;32;41;41]%N [m (p_parameter B F)]
  = [VErr (Unexpected TParenClose (mkPos 9 1 10))].
Proof. vm_compute. reflexivity. Qed.
Example test_arithmetic_substitution_invalid_47 : parse_with [36;40;40;32;42;42;32;121;32;32;41;41]%N [m (p_parameter B F)]
  = [VErr (Unexpected TStar (mkPos 4 1 5))].
Proof. vm_compute. reflexivity. Qed.
Example test_arithmetic_substitution_invalid_48 : parse_with [36;40;40;32;42;32;121;32;32;32;41;41]%N [m (p_parameter B F)]
  = [VErr (Unexpected TStar (mkPos 4 1 5))].
Proof. vm_compute. reflexivity. Qed.
Example test_arithmetic_substitution_invalid_49 : parse_with [36;40;40;32;47;32;121;32;32;32;41;41]%N [m (p_parameter B F)]
  = [VErr (Unexpected TSlash (mkPos 4 1 5))].
Proof. vm_compute. reflexivity. Qed.
Example test_arithmetic_substitution_invalid_50 : parse_with [36;40;40;32;37;32;121;32;32;32;41;41]%N [m (p_parameter B F)]
  = [VErr (Unexpected TPercent (mkPos 4 1 5))].
Proof. vm_compute. reflexivity. Qed.
Example test_arithmetic_substitution_invalid_51 : parse_with [36;40;40;32;60;60;32;121;32;32;41;41]%N [m (p_parameter B F)]
  = [VErr (Unexpected TDLess (mkPos 4 1 5))].
Proof. vm_compute. reflexivity. Qed.
Example test_arithmetic_substitution_invalid_52 : parse_with [36;40;40;32;62;62;32;121;32;32;41;41]%N [m (p_parameter B F)]
  = [VErr (Unexpected TDGreat (mkPos 4 1 5))].
Proof. vm_compute. reflexivity. Qed.
Example test_arithmetic_substitution_invalid_53 : parse_with [36;40;40;32;60;32;121;32;32;32;41;41]%N [m (p_parameter B F)]
  = [VErr (Unexpected TLess (mkPos 4 1 5))].
Proof. vm_compute. reflexivity. Qed.
Example test_arithmetic_substitution_invalid_54 : parse_with [36;40;40;32;60;61;32;121;32;32;41;41]%N [m (p_parameter B F)]
  = [VErr (Unexpected TLess (mkPos 4 1 5))].
Proof. vm_compute. reflexivity. Qed.
Example test_arithmetic_substitution_invalid_55 : parse_with [36;40;40;32;62;32;121;32;32;32;41;41]%N [m (p_parameter B F)]
  = [VErr (Unexpected TGreat (mkPos 4 1 5))].
Proof. vm_compute. reflexivity. Qed.
Example test_arithmetic_substitution_invalid_56 : parse_with [36;40;40;32;62;61;32;121;32;32;41;41]%N [m (p_parameter B F)]
  = [VErr (Unexpected TGreat (mkPos 4 1 5))].
Proof. vm_compute. reflexivity. Qed.
Example test_arithmetic_substitution_invalid_57 : parse_with [36;40;40;32;61;61;32;121;32;32;41;41]%N [m (p_parameter B F)]
  = [VErr (Unexpected TEquals (mkPos 4 1 5))].
Proof. vm_compute. reflexivity. Qed.
Example test_arithmetic_substitution_invalid_58 : parse_with [36;40;40;32;38;32;121;32;32;32;41;41]%N [m (p_parameter B F)]
  = [VErr (Unexpected TAmp (mkPos 4 1 5))].
Proof. vm_compute. reflexivity. Qed.
Example test_arithmetic_substitution_invalid_59 : parse_with [36;40;40;32;94;32;121;32;32;32;41;41]%N [m (p_parameter B F)]
  = [VErr (Unexpected TCaret (mkPos 4 1 5))].
Proof. vm_compute. reflexivity. Qed.
Example test_arithmetic_substitution_invalid_60 : parse_with [36;40;40;32;124;32;121;32;32;32;41;41]%N [m (p_parameter B F)]
  = [VErr (Unexpected TPipe (mkPos 4 1 5))].
Proof. vm_compute. reflexivity. Qed.
Example test_arithmetic_substitution_invalid_61 : parse_with [36;40;40;32;38;38;32;121;32;32;41;41]%N [m (p_parameter B F)]
  = [VErr (Unexpected TAndIf (mkPos 4 1 5))].
Proof. vm_compute. reflexivity. Qed.
Example test_arithmetic_substitution_invalid_62 : parse_with [36;40;40;32;124;124;32;121;32;32;41;41]%N [m (p_parameter B F)]
  = [VErr (Unexpected TOrIf (mkPos 4 1 5))].
Proof. vm_compute. reflexivity. Qed.
Example test_arithmetic_substitution_invalid_63 : parse_with [36;40;40;32;61;32;121;32;32;32;41;41]%N [m (p_parameter B F)]
  = [VErr (Unexpected TEquals (mkPos 4 1 5))].
Proof. vm_compute. reflexivity. Qed.
Example test_arithmetic_substitution_invalid_64 : parse_with [36;40;40;32;42;61;32;121;32;32;41;41]%N [m (p_parameter B F)]
  = [VErr (Unexpected TStar (mkPos 4 1 5))].
Proof. vm_compute. reflexivity. Qed.
Example test_arithmetic_substitution_invalid_65 : parse_with [36;40;40;32;47;61;32;121;32;32;41;41]%N [m (p_parameter B F)]
  = [VErr (Unexpected TSlash (mkPos 4 1 5))].
Proof. vm_compute. reflexivity. Qed.
Example test_arithmetic_substitution_invalid_66 : parse_with [36;40;40;32;37;61;32;121;32;32;41;41]%N [m (p_parameter B F)]
  = [VErr (Unexpected TPercent (mkPos 4 1 5))].
Proof. vm_compute. reflexivity. Qed.
Example test_arithmetic_substitution_invalid_67 : parse_with [36;40;40;32;60;60;61;32;121;32;41;41]%N [m (p_parameter B F)]
  = [VErr (Unexpected TDLess (mkPos 4 1 5))].
Proof. vm_compute. reflexivity. Qed.
Example test_arithmetic_substitution_invalid_68 : parse_with [36;40;40;32;62;62;61;32;121;32;41;41]%N [m (p_parameter B F)]
  = [VErr (Unexpected TDGreat (mkPos 4 1 5))].
Proof. vm_compute. reflexivity. Qed.
Example test_arithmetic_substitution_invalid_69 : parse_with [36;40;40;32;38;61;32;121;32;32;41;41]%N [m (p_parameter B F)]
  = [VErr (Unexpected TAmp (mkPos 4 1 5))].
Proof. vm_compute. reflexivity. Qed.
Example test_arithmetic_substitution_invalid_70 : parse_with [36;40;40;32;94;61;32;121;32;32;41;41]%N [m (p_parameter B F)]
  = [VErr (Unexpected TCaret (mkPos 4 1 5))].
Proof. vm_compute. reflexivity. Qed.
Example test_arithmetic_substitution_invalid_71 : parse_with [36;40;40;32;124;61;32;121;32;32;41;41]%N [m (p_parameter B F)]
  = [VErr (Unexpected TPipe (mkPos 4 1 5))].
Proof. vm_compute. reflexivity. Qed.
Example test_arithmetic_substitution_invalid_72 : parse_with [36;40;40;32;63;32;121;32;58;32;122;32;41;41]%N [m (p_parameter B F)]
  = [VErr (Unexpected TQuestion (mkPos 4 1 5))].
Proof. vm_compute. reflexivity. Qed.
Example test_arithmetic_substitution_invalid_73 : parse_with [36;40;40;32;44;32;120;32;43;32;121;32;41;41]%N [m (p_parameter B F)]
  = [VErr (Unexpected TComma (mkPos 4 1 5))].
Proof. vm_compute. reflexivity. Qed.
Example test_arithmetic_substitution_invalid_74 : parse_with [36;40;40;32;33;61;32;121;32;32;41;41]%N [m (p_parameter B F)]
  = [VErr (Unexpected TEquals (mkPos 5 1 6))].
Proof. vm_compute. reflexivity. Qed.
Example test_arithmetic_substitution_invalid_75 : parse_with [36;40;40;32;43;61;32;121;32;32;41;41]%N [m (p_parameter B F)]
  = [VErr (Unexpected TEquals (mkPos 5 1 6))].
Proof. vm_compute. reflexivity. Qed.
Example test_arithmetic_substitution_invalid_76 : parse_with [36;40;40;32;45;61;32;121;32;32;41;41]%N [m (p_parameter B F)]
  = [VErr (Unexpected TEquals (mkPos 5 1 6))].
Proof. vm_compute. reflexivity. Qed.
Example test_backticked_valid_1 : parse_with [96;102;111;111;96]%N [m (p_backticked_command_substitution B F)]
  = [VOk].
Proof. vm_compute. reflexivity. Qed.
Example test_backticked_valid_backslashes_removed_if_before_dollar_backslash_and_backtick_1 : parse_with [96;102;111;111;32;92;36;92;36;92;92;92;96;92;111;96]%N [m (p_backticked_command_substitution B F)]
  = [VOk].
Proof. vm_compute. reflexivity. Qed.
Example test_backticked_nested_backticks_1 : parse_with [96;102;111;111;32;92;96;98;97;114;32;92;92;92;92;36;92;92;92;92;36;92;96;96]%N [m (p_backticked_command_substitution B F)]
  = [VOk].
Proof. vm_compute. reflexivity. Qed.
Example test_backticked_nested_backticks_x2_1 : parse_with [96;102;111;111;32;92;96;98;97;114;32;92;92;92;96;98;97;122;32;92;92;92;92;92;92;92;92;36;92;92;92;92;92;92;92;92;36;32;92;92;92;96;92;96;96]%N [m (p_backticked_command_substitution B F)]
  = [VOk].
Proof. vm_compute. reflexivity. Qed.
Example test_backticked_nested_backticks_x3_1 : parse_with [96;102;111;111;32;92;96;98;97;114;32;92;92;92;96;98;97;122;32;92;92;92;92;92;92;92;96;113;117;120;32;92;92;92;92;92;92;92;92;92;92;92;92;92;92;92;92;36;92;92;92;92;92;92;92;92;92;92;92;92;92;92;92;92;36;32;92;92;92;92;92;92;92;96;32;92;92;92;96;92;96;96]%N [m (p_backticked_command_substitution B F)]
  = [VOk].
Proof. vm_compute. reflexivity. Qed.
Example test_backticked_invalid_missing_closing_backtick_1 : parse_with [96;102;111;111]%N [m (p_backticked_command_substitution B F)]
  = [VErr (Unmatched TBacktick (mkPos 0 1 1))].
Proof. vm_compute. reflexivity. Qed.
Example test_backticked_invalid_missing_closing_backtick_2 : parse_with [96;102;111;111;32;92;96;98;97;114;32;92;92;92;92;36;92;92;92;92;36;92;96]%N [m (p_backticked_command_substitution B F)]
  = [VErr (Unmatched TBacktick (mkPos 0 1 1))].
Proof. vm_compute. reflexivity. Qed.
Example test_backticked_invalid_missing_closing_backtick_3 : parse_with [96;102;111;111;32;92;96;98;97;114;32;92;92;92;96;98;97;122;32;92;92;92;92;92;92;92;92;36;92;92;92;92;92;92;92;92;36;32;92;92;92;96;92;96]%N [m (p_backticked_command_substitution B F)]
  = [VErr (Unmatched TBacktick (mkPos 0 1 1))].
Proof. vm_compute. reflexivity. Qed.
Example test_backticked_invalid_missing_closing_backtick_4 : parse_with [96;102;111;111;32;92;96;98;97;114;32;92;92;92;96;98;97;122;32;92;92;92;92;92;92;92;96;113;117;120;32;92;92;92;92;92;92;92;92;92;92;92;92;92;92;92;92;36;32;92;92;92;92;92;92;92;92;92;92;92;92;92;92;92;92;36;32;92;92;92;92;92;92;92;96;32;92;92;92;96;92;96]%N [m (p_backticked_command_substitution B F)]
  = [VErr (Unmatched TBacktick (mkPos 0 1 1))].
Proof. vm_compute. reflexivity. Qed.
Example test_backticked_invalid_missing_closing_backtick_5 : parse_with [96;102;111;111;32;92;96;98;97;114;32;92;92;92;92;36;92;92;92;92;36;96]%N [m (p_backticked_command_substitution B F)]
  = [VErr (Unmatched TBacktick (mkPos 6 1 7))].
Proof. vm_compute. reflexivity. Qed.
Example test_backticked_invalid_missing_closing_backtick_6 : parse_with [96;102;111;111;32;92;96;98;97;114;32;92;92;92;96;98;97;122;32;92;92;92;92;92;92;92;92;36;92;92;92;92;92;92;92;92;36;32;92;92;92;96;96]%N [m (p_backticked_command_substitution B F)]
  = [VErr (Unmatched TBacktick (mkPos 6 1 7))].
Proof. vm_compute. reflexivity. Qed.
Example test_backticked_invalid_missing_closing_backtick_7 : parse_with [96;102;111;111;32;92;96;98;97;114;32;92;92;92;96;98;97;122;32;92;92;92;92;92;92;92;96;113;117;120;32;92;92;92;92;92;92;92;92;92;92;92;92;92;92;92;92;36;32;92;92;92;92;92;92;92;92;92;92;92;92;92;92;92;92;36;32;92;92;92;92;92;92;92;96;32;92;92;92;96;96]%N [m (p_backticked_command_substitution B F)]
  = [VErr (Unmatched TBacktick (mkPos 6 1 7))].
Proof. vm_compute. reflexivity. Qed.
Example test_backticked_invalid_missing_closing_backtick_8 : parse_with [96;102;111;111;32;92;96;98;97;114;32;92;92;92;96;98;97;122;32;92;92;92;92;92;92;92;92;36;92;92;92;92;92;92;92;92;36;32;92;96;96]%N [m (p_backticked_command_substitution B F)]
  = [VErr (Unmatched TBacktick (mkPos 14 1 15))].
Proof. vm_compute. reflexivity. Qed.
Example test_backticked_invalid_missing_closing_backtick_9 : parse_with [96;102;111;111;32;92;96;98;97;114;32;92;92;92;96;98;97;122;32;92;92;92;92;92;92;92;96;113;117;120;32;92;92;92;92;92;92;92;92;92;92;92;92;92;92;92;92;36;32;92;92;92;92;92;92;92;92;92;92;92;92;92;92;92;92;36;32;92;92;92;92;92;92;92;96;32;92;96;96]%N [m (p_backticked_command_substitution B F)]
  = [VErr (Unmatched TBacktick (mkPos 14 1 15))].
Proof. vm_compute. reflexivity. Qed.
Example test_backticked_invalid_missing_closing_backtick_10 : parse_with [96;102;111;111;32;92;96;98;97;114;32;92;92;92;96;98;97;122;32;92;92;92;92;92;92;92;96;113;117;120;32;92;92;92;92;92;92;92;92;92;92;92;92;92;92;92;92;36;32;92;92;92;92;92;92;92;92;92;92;92;92;92;92;92;92;36;32;92;92;92;96;92;96;96]%N [m (p_backticked_command_substitution B F)]
  = [VErr (Unmatched TBacktick (mkPos 26 1 27))].
Proof. vm_compute. reflexivity. Qed.
Example test_backticked_invalid_missing_opening_backtick_1 : parse_with [102;111;111;96]%N [m (p_backticked_command_substitution B F)]
  = [VErr (Unexpected (TName [102;111;111]%N) (mkPos 0 1 1))].
Proof. vm_compute. reflexivity. Qed.
Example test_brace_group_valid_1 : parse_with [123;32;102;111;111;10;98;97;114;59;32;98;97;122;10;35;99;111;109;109;101;110;116;49;10;35;99;111;109;109;101;110;116;50;10;32;125]%N [m (p_brace_group B F)]
  = [VOk].
Proof. vm_compute. reflexivity. Qed.
Example test_brace_group_invalid_missing_separator_1 : parse_with [123;32;102;111;111;10;98;97;114;59;32;98;97;122;32;125]%N [m (p_brace_group B F)]
  = [VErr (Unmatched TCurlyOpen (mkPos 0 1 1))].
Proof. vm_compute. reflexivity. Qed.
Example test_brace_group_invalid_start_must_be_whitespace_delimited_1 : parse_with [123;102;111;111;10;98;97;114;59;32;98;97;122;59;32;125]%N [m (p_brace_group B F)]
  = [VErr (Unexpected (TName [102;111;111]%N) (mkPos 1 1 2))].
Proof. vm_compute. reflexivity. Qed.
Example test_brace_group_valid_end_must_be_whitespace_and_separator_delimited_1 : parse_with [123;32;102;111;111;10;98;97;114;125;59;32;98;97;122;59;32;125]%N [m (p_brace_group B F); m (p_complete_command B F)]
  = [VOk; VOk].
Proof. vm_compute. reflexivity. Qed.
Example test_brace_group_valid_end_must_be_whitespace_and_separator_delimited_2 : parse_with [123;32;102;111;111;10;98;97;114;59;32;125;98;97;122;59;32;125]%N [m (p_brace_group B F); m (p_complete_command B F)]
  = [VOk; VOk].
Proof. vm_compute. reflexivity. Qed.
Example test_brace_group_valid_keyword_delimited_by_separator_1 : parse_with [123;32;102;111;111;32;125;59;32;125]%N [m (p_brace_group B F)]
  = [VOk].
Proof. vm_compute. reflexivity. Qed.
Example test_brace_group_invalid_missing_keyword_1 : parse_with [123;32;102;111;111;10;98;97;114;59;32;98;97;122]%N [m (p_brace_group B F)]
  = [VErr (Unmatched TCurlyOpen (mkPos 0 1 1))].
Proof. vm_compute. reflexivity. Qed.
Example test_brace_group_invalid_missing_keyword_2 : parse_with [102;111;111;10;98;97;114;59;32;98;97;122;59;32;125]%N [m (p_brace_group B F)]
  = [VErr (Unexpected (TName [102;111;111]%N) (mkPos 0 1 1))].
Proof. vm_compute. reflexivity. Qed.
Example test_brace_group_invalid_quoted_1 : parse_with [39;123;39;32;102;111;111;10;98;97;114;59;32;98;97;122;59;32;125]%N [m (p_brace_group B F)]
  = [VErr (Unexpected TSingleQuote (mkPos 0 1 1))].
Proof. vm_compute. reflexivity. Qed.
Example test_brace_group_invalid_quoted_2 : parse_with [123;32;102;111;111;10;98;97;114;59;32;98;97;122;59;32;39;125;39]%N [m (p_brace_group B F)]
  = [VErr (Unmatched TCurlyOpen (mkPos 0 1 1))].
Proof. vm_compute. reflexivity. Qed.
Example test_brace_group_invalid_quoted_3 : parse_with [34;123;34;32;102;111;111;10;98;97;114;59;32;98;97;122;59;32;125]%N [m (p_brace_group B F)]
  = [VErr (Unexpected TDoubleQuote (mkPos 0 1 1))].
Proof. vm_compute. reflexivity. Qed.
Example test_brace_group_invalid_quoted_4 : parse_with [123;32;102;111;111;10;98;97;114;59;32;98;97;122;59;32;34;125;34]%N [m (p_brace_group B F)]
  = [VErr (Unmatched TCurlyOpen (mkPos 0 1 1))].
Proof. vm_compute. reflexivity. Qed.
Example test_brace_group_invalid_missing_body_1 : parse_with [123;10;125]%N [m (p_brace_group B F)]
  = [VErr (Unexpected TCurlyClose (mkPos 2 2 1))].
Proof. vm_compute. reflexivity. Qed.
Example test_case_command_word_need_not_be_simple_literal_1 : parse_with [99;97;115;101;32;39;102;111;111;39;98;97;114;36;36;32;105;110;32;102;111;111;41;32;101;99;104;111;32;102;111;111;59;59;32;101;115;97;99]%N [m (p_case_command B F)]
  = [VOk].
Proof. vm_compute. reflexivity. Qed.
Example test_case_command_valid_with_no_arms_1 : parse_with [99;97;115;101;32;102;111;111;32;105;110;32;101;115;97;99]%N [m (p_case_command B F)]
  = [VOk].
Proof. vm_compute. reflexivity. Qed.
Example test_case_command_valid_branch_with_no_command_1 : parse_with [99;97;115;101;32;102;111;111;32;105;110;32;112;97;116;41;10;101;115;97;99]%N [m (p_case_command B F)]
  = [VOk].
Proof. vm_compute. reflexivity. Qed.
Example test_case_command_valid_branch_with_no_command_2 : parse_with [99;97;115;101;32;102;111;111;32;105;110;32;112;97;116;41;59;59;101;115;97;99]%N [m (p_case_command B F)]
  = [VOk].
Proof. vm_compute. reflexivity. Qed.
Example test_case_command_invalid_missing_keyword_1 : parse_with [102;111;111;32;105;110;32;102;111;111;41;32;101;99;104;111;32;102;111;111;59;59;32;98;97;114;41;32;101;99;104;111;32;98;97;114;59;59;32;101;115;97;99]%N [m (p_case_command B F)]
  = [VErr (Unexpected (TName [102;111;111]%N) (mkPos 0 1 1))].
Proof. vm_compute. reflexivity. Qed.
Example test_case_command_invalid_missing_keyword_2 : parse_with [99;97;115;101;32;102;111;111;32;102;111;111;41;32;101;99;104;111;32;102;111;111;59;59;32;98;97;114;41;32;101;99;104;111;32;98;97;114;59;59;32;101;115;97;99]%N [m (p_case_command B F)]
  = [VErr (IncompleteCmd [99;97;115;101]%N (mkPos 0 1 1) [105;110]%N (mkPos 9 1 10))].
Proof. vm_compute. reflexivity. Qed.
Example test_case_command_invalid_missing_keyword_3 : parse_with [99;97;115;101;32;102;111;111;32;105;110;32;102;111;111;41;32;101;99;104;111;32;102;111;111;59;59;32;98;97;114;41;32;101;99;104;111;32;98;97;114;59;59]%N [m (p_case_command B F)]
  = [VErr (IncompleteCmd [99;97;115;101]%N (mkPos 0 1 1) [101;115;97;99]%N (mkPos 43 1 44))].
Proof. vm_compute. reflexivity. Qed.
Example test_case_command_invalid_missing_word_1 : parse_with [99;97;115;101;32;105;110;32;102;111;111;41;32;101;99;104;111;32;102;111;111;59;59;32;98;97;114;41;32;101;99;104;111;32;98;97;114;59;59;32;101;115;97;99]%N [m (p_case_command B F)]
  = [VErr (IncompleteCmd [99;97;115;101]%N (mkPos 0 1 1) [105;110]%N (mkPos 8 1 9))].
Proof. vm_compute. reflexivity. Qed.
Example test_case_command_invalid_quoted_1 : parse_with [39;99;97;115;101;39;32;102;111;111;32;105;110;32;102;111;111;41;32;101;99;104;111;32;102;111;111;59;59;32;98;97;114;41;32;101;99;104;111;32;98;97;114;59;59;32;101;115;97;99]%N [m (p_case_command B F)]
  = [VErr (Unexpected TSingleQuote (mkPos 0 1 1))].
Proof. vm_compute. reflexivity. Qed.
Example test_case_command_invalid_quoted_2 : parse_with [99;97;115;101;32;102;111;111;32;39;105;110;39;32;102;111;111;41;32;101;99;104;111;32;102;111;111;59;59;32;98;97;114;41;32;101;99;104;111;32;98;97;114;59;59;32;101;115;97;99]%N [m (p_case_command B F)]
  = [VErr (IncompleteCmd [99;97;115;101]%N (mkPos 0 1 1) [105;110]%N (mkPos 9 1 10))].
Proof. vm_compute. reflexivity. Qed.
Example test_case_command_invalid_quoted_3 : parse_with [99;97;115;101;32;102;111;111;32;105;110;32;102;111;111;41;32;101;99;104;111;32;102;111;111;59;59;32;98;97;114;39;41;39;32;101;99;104;111;32;98;97;114;59;59;32;101;115;97;99]%N [m (p_case_command B F)]
  = [VErr (Unexpected (TName [101;99;104;111]%N) (mkPos 35 1 36))].
Proof. vm_compute. reflexivity. Qed.
Example test_case_command_invalid_quoted_4 : parse_with [99;97;115;101;32;102;111;111;32;105;110;32;102;111;111;41;32;101;99;104;111;32;102;111;111;59;59;32;98;97;114;41;32;101;99;104;111;32;98;97;114;59;59;32;39;101;115;97;99;39]%N [m (p_case_command B F)]
  = [VErr (IncompleteCmd [99;97;115;101]%N (mkPos 0 1 1) [101;115;97;99]%N (mkPos 50 1 51))].
Proof. vm_compute. reflexivity. Qed.
Example test_case_command_invalid_quoted_5 : parse_with [34;99;97;115;101;34;32;102;111;111;32;105;110;32;102;111;111;41;32;101;99;104;111;32;102;111;111;59;59;32;98;97;114;41;32;101;99;104;111;32;98;97;114;59;59;32;101;115;97;99]%N [m (p_case_command B F)]
  = [VErr (Unexpected TDoubleQuote (mkPos 0 1 1))].
Proof. vm_compute. reflexivity. Qed.
Example test_case_command_invalid_quoted_6 : parse_with [99;97;115;101;32;102;111;111;32;34;105;110;34;32;102;111;111;41;32;101;99;104;111;32;102;111;111;59;59;32;98;97;114;41;32;101;99;104;111;32;98;97;114;59;59;32;101;115;97;99]%N [m (p_case_command B F)]
  = [VErr (IncompleteCmd [99;97;115;101]%N (mkPos 0 1 1) [105;110]%N (mkPos 9 1 10))].
Proof. vm_compute. reflexivity. Qed.
Example test_case_command_invalid_quoted_7 : parse_with [99;97;115;101;32;102;111;111;32;105;110;32;102;111;111;41;32;101;99;104;111;32;102;111;111;59;59;32;98;97;114;34;41;34;32;101;99;104;111;32;98;97;114;59;59;32;101;115;97;99]%N [m (p_case_command B F)]
  = [VErr (Unexpected (TName [101;99;104;111]%N) (mkPos 35 1 36))].
Proof. vm_compute. reflexivity. Qed.
Example test_case_command_invalid_quoted_8 : parse_with [99;97;115;101;32;102;111;111;32;105;110;32;102;111;111;41;32;101;99;104;111;32;102;111;111;59;59;32;98;97;114;41;32;101;99;104;111;32;98;97;114;59;59;32;34;101;115;97;99;34]%N [m (p_case_command B F)]
  = [VErr (IncompleteCmd [99;97;115;101]%N (mkPos 0 1 1) [101;115;97;99]%N (mkPos 50 1 51))].
Proof. vm_compute. reflexivity. Qed.
Example test_case_command_invalid_newline_after_case_1 : parse_with [99;97;115;101;10;102;111;111;32;105;110;32;102;111;111;41;32;101;99;104;111;32;102;111;111;59;59;32;98;97;114;41;32;101;99;104;111;32;98;97;114;59;59;32;101;115;97;99]%N [m (p_case_command B F)]
  = [VErr (Unexpected TNewline (mkPos 4 1 5))].
Proof. vm_compute. reflexivity. Qed.
Example test_command_delegates_valid_commands_brace_1 : parse_with [123;32;102;111;111;59;32;125]%N [m (p_command B F)]
  = [VOk].
Proof. vm_compute. reflexivity. Qed.
Example test_command_delegates_valid_commands_while_1 : parse_with [119;104;105;108;101;32;103;117;97;114;100;59;32;100;111;32;102;111;111;59;32;100;111;110;101]%N [m (p_command B F)]
  = [VOk].
Proof. vm_compute. reflexivity. Qed.
Example test_command_delegates_valid_commands_until_1 : parse_with [117;110;116;105;108;32;103;117;97;114;100;59;32;100;111;32;102;111;111;59;32;100;111;110;101]%N [m (p_command B F)]
  = [VOk].
Proof. vm_compute. reflexivity. Qed.
Example test_command_delegates_valid_commands_for_1 : parse_with [102;111;114;32;118;97;114;32;105;110;59;32;100;111;32;102;111;111;59;32;100;111;110;101]%N [m (p_command B F)]
  = [VOk].
Proof. vm_compute. reflexivity. Qed.
Example test_command_delegates_valid_commands_if_1 : parse_with [105;102;32;103;117;97;114;100;59;32;116;104;101;110;32;98;111;100;121;59;32;102;105]%N [m (p_command B F)]
  = [VOk].
Proof. vm_compute. reflexivity. Qed.
Example test_command_delegates_valid_commands_case_1 : parse_with [99;97;115;101;32;102;111;111;32;105;110;32;101;115;97;99]%N [m (p_command B F)]
  = [VOk].
Proof. vm_compute. reflexivity. Qed.
Example test_command_delegates_valid_simple_commands_1 : parse_with [101;99;104;111;32;102;111;111;32;98;97;114]%N [m (p_command B F)]
  = [VOk].
Proof. vm_compute. reflexivity. Qed.
Example test_do_group_valid_1 : parse_with [100;111;32;102;111;111;10;98;97;114;59;32;98;97;122;10;35;99;111;109;109;101;110;116;10;32;100;111;110;101]%N [m (p_do_group B F)]
  = [VOk].
Proof. vm_compute. reflexivity. Qed.
Example test_do_group_invalid_missing_separator_1 : parse_with [100;111;32;102;111;111;10;98;97;114;59;32;98;97;122;32;100;111;110;101]%N [m (p_do_group B F)]
  = [VErr (IncompleteCmd [100;111]%N (mkPos 0 1 1) [100;111;110;101]%N (mkPos 20 2 14))].
Proof. vm_compute. reflexivity. Qed.
Example test_do_group_valid_keyword_delimited_by_separator_1 : parse_with [100;111;32;102;111;111;32;100;111;110;101;59;32;100;111;110;101]%N [m (p_do_group B F)]
  = [VOk].
Proof. vm_compute. reflexivity. Qed.
Example test_do_group_invalid_missing_keyword_1 : parse_with [102;111;111;10;98;97;114;59;32;98;97;122;59;32;100;111;110;101]%N [m (p_do_group B F)]
  = [VErr (Unexpected (TName [102;111;111]%N) (mkPos 0 1 1))].
Proof. vm_compute. reflexivity. Qed.
Example test_do_group_invalid_missing_keyword_2 : parse_with [100;111;32;102;111;111;10;98;97;114;59;32;98;97;122]%N [m (p_do_group B F)]
  = [VErr (IncompleteCmd [100;111]%N (mkPos 0 1 1) [100;111;110;101]%N (mkPos 15 2 9))].
Proof. vm_compute. reflexivity. Qed.
Example test_do_group_invalid_quoted_1 : parse_with [39;100;111;39;32;102;111;111;10;98;97;114;59;32;98;97;122;59;32;100;111;110;101]%N [m (p_do_group B F)]
  = [VErr (Unexpected TSingleQuote (mkPos 0 1 1))].
Proof. vm_compute. reflexivity. Qed.
Example test_do_group_invalid_quoted_2 : parse_with [100;111;32;102;111;111;10;98;97;114;59;32;98;97;122;59;32;39;100;111;110;101;39]%N [m (p_do_group B F)]
  = [VErr (IncompleteCmd [100;111]%N (mkPos 0 1 1) [100;111;110;101]%N (mkPos 23 2 17))].
Proof. vm_compute. reflexivity. Qed.
Example test_do_group_invalid_quoted_3 : parse_with [34;100;111;34;32;102;111;111;10;98;97;114;59;32;98;97;122;59;32;100;111;110;101]%N [m (p_do_group B F)]
  = [VErr (Unexpected TDoubleQuote (mkPos 0 1 1))].
Proof. vm_compute. reflexivity. Qed.
Example test_do_group_invalid_quoted_4 : parse_with [100;111;32;102;111;111;10;98;97;114;59;32;98;97;122;59;32;34;100;111;110;101;34]%N [m (p_do_group B F)]
  = [VErr (IncompleteCmd [100;111]%N (mkPos 0 1 1) [100;111;110;101]%N (mkPos 23 2 17))].
Proof. vm_compute. reflexivity. Qed.
Example test_compound_command_delegates_valid_commands_brace_1 : parse_with [123;32;102;111;111;59;32;125]%N [m (p_compound_command B F)]
  = [VOk].
Proof. vm_compute. reflexivity. Qed.
Example test_compound_command_delegates_valid_commands_while_1 : parse_with [119;104;105;108;101;32;103;117;97;114;100;59;32;100;111;32;102;111;111;59;32;100;111;110;101]%N [m (p_compound_command B F)]
  = [VOk].
Proof. vm_compute. reflexivity. Qed.
Example test_compound_command_delegates_valid_commands_until_1 : parse_with [117;110;116;105;108;32;103;117;97;114;100;59;32;100;111;32;102;111;111;59;32;100;111;110;101]%N [m (p_compound_command B F)]
  = [VOk].
Proof. vm_compute. reflexivity. Qed.
Example test_compound_command_delegates_valid_commands_for_1 : parse_with [102;111;114;32;118;97;114;32;105;110;59;32;100;111;32;102;111;111;59;32;100;111;110;101]%N [m (p_compound_command B F)]
  = [VOk].
Proof. vm_compute. reflexivity. Qed.
Example test_compound_command_delegates_valid_commands_if_1 : parse_with [105;102;32;103;117;97;114;100;59;32;116;104;101;110;32;98;111;100;121;59;32;102;105]%N [m (p_compound_command B F)]
  = [VOk].
Proof. vm_compute. reflexivity. Qed.
Example test_compound_command_delegates_valid_commands_case_1 : parse_with [99;97;115;101;32;102;111;111;32;105;110;32;101;115;97;99]%N [m (p_compound_command B F)]
  = [VOk].
Proof. vm_compute. reflexivity. Qed.
Example test_compound_command_errors_on_quoted_commands_1 : parse_with [123;102;111;111;59;32;125]%N [m (p_compound_command B F)]
  = [VErr (Unexpected TCurlyOpen (mkPos 0 1 1))].
Proof. vm_compute. reflexivity. Qed.
Example test_compound_command_errors_on_quoted_commands_2 : parse_with [39;123;39;32;102;111;111;59;32;125]%N [m (p_compound_command B F)]
  = [VErr (Unexpected TSingleQuote (mkPos 0 1 1))].
Proof. vm_compute. reflexivity. Qed.
Example test_compound_command_errors_on_quoted_commands_3 : parse_with [39;40;39;32;102;111;111;59;32;41]%N [m (p_compound_command B F)]
  = [VErr (Unexpected TSingleQuote (mkPos 0 1 1))].
Proof. vm_compute. reflexivity. Qed.
Example test_compound_command_errors_on_quoted_commands_4 : parse_with [39;119;104;105;108;101;39;32;103;117;97;114;100;32;100;111;32;102;111;111;59;32;100;111;110;101]%N [m (p_compound_command B F)]
  = [VErr (Unexpected TSingleQuote (mkPos 0 1 1))].
Proof. vm_compute. reflexivity. Qed.
Example test_compound_command_errors_on_quoted_commands_5 : parse_with [39;117;110;116;105;108;39;32;103;117;97;114;100;32;100;111;32;102;111;111;59;32;100;111;110;101]%N [m (p_compound_command B F)]
  = [VErr (Unexpected TSingleQuote (mkPos 0 1 1))].
Proof. vm_compute. reflexivity. Qed.
Example test_compound_command_errors_on_quoted_commands_6 : parse_with [39;105;102;39;32;103;117;97;114;100;59;32;116;104;101;110;32;98;111;100;121;59;32;102;105]%N [m (p_compound_command B F)]
  = [VErr (Unexpected TSingleQuote (mkPos 0 1 1))].
Proof. vm_compute. reflexivity. Qed.
Example test_compound_command_errors_on_quoted_commands_7 : parse_with [39;102;111;114;39;32;118;97;114;32;105;110;59;32;100;111;32;102;111;111;59;32;100;111;110;101]%N [m (p_compound_command B F)]
  = [VErr (Unexpected TSingleQuote (mkPos 0 1 1))].
Proof. vm_compute. reflexivity. Qed.
Example test_compound_command_errors_on_quoted_commands_8 : parse_with [39;99;97;115;101;39;32;102;111;111;32;105;110;32;101;115;97;99]%N [m (p_compound_command B F)]
  = [VErr (Unexpected TSingleQuote (mkPos 0 1 1))].
Proof. vm_compute. reflexivity. Qed.
Example test_compound_command_errors_on_quoted_commands_9 : parse_with [34;123;34;32;102;111;111;59;32;125]%N [m (p_compound_command B F)]
  = [VErr (Unexpected TDoubleQuote (mkPos 0 1 1))].
Proof. vm_compute. reflexivity. Qed.
Example test_compound_command_errors_on_quoted_commands_10 : parse_with [34;40;34;32;102;111;111;59;32;41]%N [m (p_compound_command B F)]
  = [VErr (Unexpected TDoubleQuote (mkPos 0 1 1))].
Proof. vm_compute. reflexivity. Qed.
Example test_compound_command_errors_on_quoted_commands_11 : parse_with [34;119;104;105;108;101;34;32;103;117;97;114;100;32;100;111;32;102;111;111;59;32;100;111;110;101]%N [m (p_compound_command B F)]
  = [VErr (Unexpected TDoubleQuote (mkPos 0 1 1))].
Proof. vm_compute. reflexivity. Qed.
Example test_compound_command_errors_on_quoted_commands_12 : parse_with [34;117;110;116;105;108;34;32;103;117;97;114;100;32;100;111;32;102;111;111;59;32;100;111;110;101]%N [m (p_compound_command B F)]
  = [VErr (Unexpected TDoubleQuote (mkPos 0 1 1))].
Proof. vm_compute. reflexivity. Qed.
Example test_compound_command_errors_on_quoted_commands_13 : parse_with [34;105;102;34;32;103;117;97;114;100;59;32;116;104;101;110;32;98;111;100;121;59;32;102;105]%N [m (p_compound_command B F)]
  = [VErr (Unexpected TDoubleQuote (mkPos 0 1 1))].
Proof. vm_compute. reflexivity. Qed.
Example test_compound_command_errors_on_quoted_commands_14 : parse_with [34;102;111;114;34;32;118;97;114;32;105;110;59;32;100;111;32;102;111;111;59;32;100;111;110;101]%N [m (p_compound_command B F)]
  = [VErr (Unexpected TDoubleQuote (mkPos 0 1 1))].
Proof. vm_compute. reflexivity. Qed.
Example test_compound_command_errors_on_quoted_commands_15 : parse_with [34;99;97;115;101;34;32;102;111;111;32;105;110;32;101;115;97;99]%N [m (p_compound_command B F)]
  = [VErr (Unexpected TDoubleQuote (mkPos 0 1 1))].
Proof. vm_compute. reflexivity. Qed.
Example test_for_command_valid_with_separator_1 : parse_with [102;111;114;32;118;97;114;32;105;110;32;111;110;101;32;116;119;111;32;116;104;114;101;101;10;100;111;32;101;99;104;111;32;36;118;97;114;59;32;100;111;110;101]%N [m (p_for_command B F)]
  = [VOk].
Proof. vm_compute. reflexivity. Qed.
Example test_for_command_valid_with_separator_2 : parse_with [102;111;114;32;118;97;114;32;105;110;32;111;110;101;32;116;119;111;32;116;104;114;101;101;59;100;111;32;101;99;104;111;32;36;118;97;114;59;32;100;111;110;101]%N [m (p_for_command B F)]
  = [VOk].
Proof. vm_compute. reflexivity. Qed.
Example test_for_command_invalid_with_in_no_words_no_with_separator_1 : parse_with [102;111;114;32;118;97;114;32;105;110;32;100;111;32;101;99;104;111;32;36;118;97;114;59;32;100;111;110;101]%N [m (p_for_command B F)]
  = [VErr (IncompleteCmd [102;111;114]%N (mkPos 0 1 1) [100;111]%N (mkPos 25 1 26))].
Proof. vm_compute. reflexivity. Qed.
Example test_for_command_invalid_missing_separator_1 : parse_with [102;111;114;32;118;97;114;32;105;110;32;111;110;101;32;116;119;111;32;116;104;114;101;101;32;100;111;32;101;99;104;111;32;36;118;97;114;59;32;100;111;110;101]%N [m (p_for_command B F)]
  = [VErr (IncompleteCmd [102;111;114]%N (mkPos 0 1 1) [100;111]%N (mkPos 39 1 40))].
Proof. vm_compute. reflexivity. Qed.
Example test_for_command_invalid_amp_not_valid_separator_1 : parse_with [102;111;114;32;118;97;114;32;105;110;32;111;110;101;32;116;119;111;32;116;104;114;101;101;38;32;100;111;32;101;99;104;111;32;36;118;97;114;59;32;100;111;110;101]%N [m (p_for_command B F)]
  = [VErr (Unexpected TAmp (mkPos 24 1 25))].
Proof. vm_compute. reflexivity. Qed.
Example test_for_command_invalid_missing_keyword_1 : parse_with [118;97;114;32;105;110;32;111;110;101;32;116;119;111;32;116;104;114;101;101;10;100;111;32;101;99;104;111;32;36;118;97;114;59;32;100;111;110;101]%N [m (p_for_command B F)]
  = [VErr (Unexpected (TName [118;97;114]%N) (mkPos 0 1 1))].
Proof. vm_compute. reflexivity. Qed.
Example test_for_command_invalid_missing_var_1 : parse_with [102;111;114;32;105;110;32;111;110;101;32;116;119;111;32;116;104;114;101;101;10;100;111;32;101;99;104;111;32;36;118;97;114;59;32;100;111;110;101]%N [m (p_for_command B F)]
  = [VErr (IncompleteCmd [102;111;114]%N (mkPos 0 1 1) [105;110]%N (mkPos 7 1 8))].
Proof. vm_compute. reflexivity. Qed.
Example test_for_command_invalid_missing_body_1 : parse_with [102;111;114;32;118;97;114;32;105;110;32;111;110;101;32;116;119;111;32;116;104;114;101;101;10]%N [m (p_for_command B F)]
  = [VErr (IncompleteCmd [102;111;114]%N (mkPos 0 1 1) [100;111]%N (mkPos 25 2 1))].
Proof. vm_compute. reflexivity. Qed.
Example test_for_command_invalid_quoted_1 : parse_with [39;102;111;114;39;32;118;97;114;32;105;110;32;111;110;101;32;116;119;111;32;116;104;114;101;101;10;100;111;32;101;99;104;111;32;36;118;97;114;59;32;100;111;110;101]%N [m (p_for_command B F)]
  = [VErr (Unexpected TSingleQuote (mkPos 0 1 1))].
Proof. vm_compute. reflexivity. Qed.
Example test_for_command_invalid_quoted_2 : parse_with [102;111;114;32;118;97;114;32;39;105;110;39;32;111;110;101;32;116;119;111;32;116;104;114;101;101;10;100;111;32;101;99;104;111;32;36;118;97;114;59;32;100;111;110;101]%N [m (p_for_command B F)]
  = [VErr (IncompleteCmd [102;111;114]%N (mkPos 0 1 1) [105;110]%N (mkPos 8 1 9))].
Proof. vm_compute. reflexivity. Qed.
Example test_for_command_invalid_quoted_3 : parse_with [34;102;111;114;34;32;118;97;114;32;105;110;32;111;110;101;32;116;119;111;32;116;104;114;101;101;10;100;111;32;101;99;104;111;32;36;118;97;114;59;32;100;111;110;101]%N [m (p_for_command B F)]
  = [VErr (Unexpected TDoubleQuote (mkPos 0 1 1))].
Proof. vm_compute. reflexivity. Qed.
Example test_for_command_invalid_quoted_4 : parse_with [102;111;114;32;118;97;114;32;34;105;110;34;32;111;110;101;32;116;119;111;32;116;104;114;101;101;10;100;111;32;101;99;104;111;32;36;118;97;114;59;32;100;111;110;101]%N [m (p_for_command B F)]
  = [VErr (IncompleteCmd [102;111;114]%N (mkPos 0 1 1) [105;110]%N (mkPos 8 1 9))].
Proof. vm_compute. reflexivity. Qed.
Example test_for_command_invalid_var_must_be_name_1 : parse_with [102;111;114;32;49;50;51;118;97;114;32;105;110;32;111;110;101;32;116;119;111;32;116;104;114;101;101;10;100;111;32;101;99;104;111;32;36;118;97;114;59;32;100;111;110;101]%N [m (p_for_command B F)]
  = [VErr (BadIdent [49;50;51;118;97;114]%N (mkPos 4 1 5))].
Proof. vm_compute. reflexivity. Qed.
Example test_for_command_invalid_var_must_be_name_2 : parse_with [102;111;114;32;39;118;97;114;39;32;105;110;32;111;110;101;32;116;119;111;32;116;104;114;101;101;10;100;111;32;101;99;104;111;32;36;118;97;114;59;32;100;111;110;101]%N [m (p_for_command B F)]
  = [VErr (Unexpected TSingleQuote (mkPos 4 1 5))].
Proof. vm_compute. reflexivity. Qed.
Example test_for_command_invalid_var_must_be_name_3 : parse_with [102;111;114;32;34;118;97;114;34;32;105;110;32;111;110;101;32;116;119;111;32;116;104;114;101;101;10;100;111;32;101;99;104;111;32;36;118;97;114;59;32;100;111;110;101]%N [m (p_for_command B F)]
  = [VErr (Unexpected TDoubleQuote (mkPos 4 1 5))].
Proof. vm_compute. reflexivity. Qed.
Example test_for_command_invalid_var_must_be_name_4 : parse_with [102;111;114;32;118;97;114;42;37;32;105;110;32;111;110;101;32;116;119;111;32;116;104;114;101;101;10;100;111;32;101;99;104;111;32;36;118;97;114;59;32;100;111;110;101]%N [m (p_for_command B F)]
  = [VErr (IncompleteCmd [102;111;114]%N (mkPos 0 1 1) [105;110]%N (mkPos 7 1 8))].
Proof. vm_compute. reflexivity. Qed.
Example test_function_declaration_valid_1 : parse_with [102;117;110;99;116;105;111;110;32;102;111;111;40;41;32;32;32;32;32;32;123;32;101;99;104;111;32;98;111;100;121;59;32;125]%N [m (p_function_declaration B F)]
  = [VOk].
Proof. vm_compute. reflexivity. Qed.
Example test_function_declaration_valid_2 : parse_with [102;117;110;99;116;105;111;110;32;102;111;111;32;40;41;32;32;32;32;32;123;32;101;99;104;111;32;98;111;100;121;59;32;125]%N [m (p_function_declaration B F)]
  = [VOk].
Proof. vm_compute. reflexivity. Qed.
Example test_function_declaration_valid_3 : parse_with [102;117;110;99;116;105;111;110;32;102;111;111;32;40;32;32;32;32;41;32;123;32;101;99;104;111;32;98;111;100;121;59;32;125]%N [m (p_function_declaration B F)]
  = [VOk].
Proof. vm_compute. reflexivity. Qed.
Example test_function_declaration_valid_4 : parse_with [102;117;110;99;116;105;111;110;32;102;111;111;40;32;32;32;32;41;32;32;123;32;101;99;104;111;32;98;111;100;121;59;32;125]%N [m (p_function_declaration B F)]
  = [VOk].
Proof. vm_compute. reflexivity. Qed.
Example test_function_declaration_valid_5 : parse_with [102;117;110;99;116;105;111;110;32;102;111;111;32;32;32;32;32;32;32;32;123;32;101;99;104;111;32;98;111;100;121;59;32;125]%N [m (p_function_declaration B F)]
  = [VOk].
Proof. vm_compute. reflexivity. Qed.
Example test_function_declaration_valid_6 : parse_with [102;111;111;40;41;32;32;32;32;32;32;32;32;32;32;32;32;32;32;32;123;32;101;99;104;111;32;98;111;100;121;59;32;125]%N [m (p_function_declaration B F)]
  = [VOk].
Proof. vm_compute. reflexivity. Qed.
Example test_function_declaration_valid_7 : parse_with [102;111;111;32;40;41;32;32;32;32;32;32;32;32;32;32;32;32;32;32;123;32;101;99;104;111;32;98;111;100;121;59;32;125]%N [m (p_function_declaration B F)]
  = [VOk].
Proof. vm_compute. reflexivity. Qed.
Example test_function_declaration_valid_8 : parse_with [102;111;111;32;40;32;32;32;32;41;32;32;32;32;32;32;32;32;32;32;123;32;101;99;104;111;32;98;111;100;121;59;32;125]%N [m (p_function_declaration B F)]
  = [VOk].
Proof. vm_compute. reflexivity. Qed.
Example test_function_declaration_valid_9 : parse_with [102;111;111;40;32;32;32;32;41;32;32;32;32;32;32;32;32;32;32;32;123;32;101;99;104;111;32;98;111;100;121;59;32;125]%N [m (p_function_declaration B F)]
  = [VOk].
Proof. vm_compute. reflexivity. Qed.
Example test_function_declaration_valid_10 : parse_with [102;117;110;99;116;105;111;110;32;102;111;111;40;41;32;32;32;32;32;10;123;32;101;99;104;111;32;98;111;100;121;59;32;125]%N [m (p_function_declaration B F)]
  = [VOk].
Proof. vm_compute. reflexivity. Qed.
Example test_function_declaration_valid_11 : parse_with [102;117;110;99;116;105;111;110;32;102;111;111;32;40;41;32;32;32;32;10;123;32;101;99;104;111;32;98;111;100;121;59;32;125]%N [m (p_function_declaration B F)]
  = [VOk].
Proof. vm_compute. reflexivity. Qed.
Example test_function_declaration_valid_12 : parse_with [102;117;110;99;116;105;111;110;32;102;111;111;32;40;32;32;32;32;41;10;123;32;101;99;104;111;32;98;111;100;121;59;32;125]%N [m (p_function_declaration B F)]
  = [VOk].
Proof. vm_compute. reflexivity. Qed.
Example test_function_declaration_valid_13 : parse_with [102;117;110;99;116;105;111;110;32;102;111;111;40;32;32;32;32;41;32;10;123;32;101;99;104;111;32;98;111;100;121;59;32;125]%N [m (p_function_declaration B F)]
  = [VOk].
Proof. vm_compute. reflexivity. Qed.
Example test_function_declaration_valid_14 : parse_with [102;117;110;99;116;105;111;110;32;102;111;111;32;32;32;32;32;32;32;10;123;32;101;99;104;111;32;98;111;100;121;59;32;125]%N [m (p_function_declaration B F)]
  = [VOk].
Proof. vm_compute. reflexivity. Qed.
Example test_function_declaration_valid_15 : parse_with [102;111;111;40;41;32;32;32;32;32;32;32;32;32;32;32;32;32;32;10;123;32;101;99;104;111;32;98;111;100;121;59;32;125]%N [m (p_function_declaration B F)]
  = [VOk].
Proof. vm_compute. reflexivity. Qed.
Example test_function_declaration_valid_16 : parse_with [102;111;111;32;40;41;32;32;32;32;32;32;32;32;32;32;32;32;32;10;123;32;101;99;104;111;32;98;111;100;121;59;32;125]%N [m (p_function_declaration B F)]
  = [VOk].
Proof. vm_compute. reflexivity. Qed.
Example test_function_declaration_valid_17 : parse_with [102;111;111;32;40;32;32;32;32;41;32;32;32;32;32;32;32;32;32;10;123;32;101;99;104;111;32;98;111;100;121;59;32;125]%N [m (p_function_declaration B F)]
  = [VOk].
Proof. vm_compute. reflexivity. Qed.
Example test_function_declaration_valid_18 : parse_with [102;111;111;40;32;32;32;32;41;32;32;32;32;32;32;32;32;32;32;10;123;32;101;99;104;111;32;98;111;100;121;59;32;125]%N [m (p_function_declaration B F)]
  = [VOk].
Proof. vm_compute. reflexivity. Qed.
Example test_function_declaration_parens_can_be_subshell_if_function_keyword_present_1 : parse_with [102;117;110;99;116;105;111;110;32;102;111;111;32;40;101;99;104;111;32;115;117;98;115;104;101;108;108;41]%N [m (p_function_declaration B F)]
  = [VOk].
Proof. vm_compute. reflexivity. Qed.
Example test_function_declaration_parens_can_be_subshell_if_function_keyword_present_2 : parse_with [102;117;110;99;116;105;111;110;32;102;111;111;40;41;32;40;101;99;104;111;32;115;117;98;115;104;101;108;108;41]%N [m (p_function_declaration B F)]
  = [VOk].
Proof. vm_compute. reflexivity. Qed.
Example test_function_declaration_parens_can_be_subshell_if_function_keyword_present_3 : parse_with [102;117;110;99;116;105;111;110;32;102;111;111;32;40;41;32;40;101;99;104;111;32;115;117;98;115;104;101;108;108;41]%N [m (p_function_declaration B F)]
  = [VOk].
Proof. vm_compute. reflexivity. Qed.
Example test_function_declaration_parens_can_be_subshell_if_function_keyword_present_4 : parse_with [102;117;110;99;116;105;111;110;32;102;111;111;10;40;101;99;104;111;32;115;117;98;115;104;101;108;108;41]%N [m (p_function_declaration B F)]
  = [VOk].
Proof. vm_compute. reflexivity. Qed.
Example test_function_declaration_invalid_newline_in_declaration_1 : parse_with [102;117;110;99;116;105;111;110;10;110;97;109;101;40;41;32;123;32;101;99;104;111;32;98;111;100;121;59;32;125]%N [m (p_function_declaration B F)]
  = [VErr (Unexpected TNewline (mkPos 8 1 9))].
Proof. vm_compute. reflexivity. Qed.
Example test_function_declaration_invalid_newline_in_declaration_2 : parse_with [102;117;110;99;116;105;111;110;32;110;97;109;101;10;40;41;32;123;32;101;99;104;111;32;98;111;100;121;59;32;125]%N [m (p_function_declaration B F)]
  = [VErr (Unexpected TParenClose (mkPos 15 2 2))].
Proof. vm_compute. reflexivity. Qed.
Example test_function_declaration_invalid_missing_space_after_fn_keyword_and_no_parens_1 : parse_with [102;117;110;99;116;105;111;110;110;97;109;101;32;123;32;101;99;104;111;32;98;111;100;121;59;32;125]%N [m (p_function_declaration B F)]
  = [VErr (Unexpected TCurlyOpen (mkPos 13 1 14))].
Proof. vm_compute. reflexivity. Qed.
Example test_function_declaration_invalid_missing_fn_keyword_and_parens_1 : parse_with [110;97;109;101;32;123;32;101;99;104;111;32;98;111;100;121;59;32;125]%N [m (p_function_declaration B F)]
  = [VErr (Unexpected TCurlyOpen (mkPos 5 1 6))].
Proof. vm_compute. reflexivity. Qed.
Example test_function_declaration_invalid_missing_space_after_name_no_parens_1 : parse_with [102;117;110;99;116;105;111;110;32;110;97;109;101;123;32;101;99;104;111;32;98;111;100;121;59;32;125]%N [m (p_function_declaration B F)]
  = [VErr (Unexpected TCurlyOpen (mkPos 13 1 14))].
Proof. vm_compute. reflexivity. Qed.
Example test_function_declaration_invalid_missing_space_after_name_no_parens_2 : parse_with [102;117;110;99;116;105;111;110;32;110;97;109;101;40;32;101;99;104;111;32;98;111;100;121;59;32;41]%N [m (p_function_declaration B F)]
  = [VErr (Unexpected (TName [101;99;104;111]%N) (mkPos 15 1 16))].
Proof. vm_compute. reflexivity. Qed.
Example test_function_declaration_invalid_missing_name_1 : parse_with [102;117;110;99;116;105;111;110;32;123;32;101;99;104;111;32;98;111;100;121;59;32;125]%N [m (p_function_declaration B F)]
  = [VErr (Unexpected TCurlyOpen (mkPos 9 1 10))].
Proof. vm_compute. reflexivity. Qed.
Example test_function_declaration_invalid_missing_name_2 : parse_with [102;117;110;99;116;105;111;110;32;40;41;32;123;32;101;99;104;111;32;98;111;100;121;59;32;125]%N [m (p_function_declaration B F)]
  = [VErr (Unexpected TParenOpen (mkPos 9 1 10))].
Proof. vm_compute. reflexivity. Qed.
Example test_function_declaration_invalid_missing_name_3 : parse_with [40;41;32;123;32;101;99;104;111;32;98;111;100;121;59;32;125]%N [m (p_function_declaration B F)]
  = [VErr (Unexpected TParenOpen (mkPos 0 1 1))].
Proof. vm_compute. reflexivity. Qed.
Example test_function_declaration_invalid_missing_body_1 : parse_with [102;117;110;99;116;105;111;110;32;110;97;109;101]%N [m (p_function_declaration B F)]
  = [VErr UnexpectedEOF].
Proof. vm_compute. reflexivity. Qed.
Example test_function_declaration_invalid_missing_body_2 : parse_with [102;117;110;99;116;105;111;110;32;110;97;109;101;40;41]%N [m (p_function_declaration B F)]
  = [VErr UnexpectedEOF].
Proof. vm_compute. reflexivity. Qed.
Example test_function_declaration_invalid_missing_body_3 : parse_with [110;97;109;101;40;41]%N [m (p_function_declaration B F)]
  = [VErr UnexpectedEOF].
Proof. vm_compute. reflexivity. Qed.
Example test_function_declaration_invalid_quoted_1 : parse_with [39;102;117;110;99;116;105;111;110;39;32;110;97;109;101;32;123;32;101;99;104;111;32;98;111;100;121;59;32;125]%N [m (p_function_declaration B F)]
  = [VErr (Unexpected TSingleQuote (mkPos 0 1 1))].
Proof. vm_compute. reflexivity. Qed.
Example test_function_declaration_invalid_quoted_2 : parse_with [102;117;110;99;116;105;111;110;32;39;110;97;109;101;39;40;41;32;123;32;101;99;104;111;32;98;111;100;121;59;32;125]%N [m (p_function_declaration B F)]
  = [VErr (Unexpected TSingleQuote (mkPos 9 1 10))].
Proof. vm_compute. reflexivity. Qed.
Example test_function_declaration_invalid_quoted_3 : parse_with [110;97;109;101;39;40;41;39;32;123;32;101;99;104;111;32;98;111;100;121;59;32;125]%N [m (p_function_declaration B F)]
  = [VErr (Unexpected TSingleQuote (mkPos 4 1 5))].
Proof. vm_compute. reflexivity. Qed.
Example test_function_declaration_invalid_quoted_4 : parse_with [34;102;117;110;99;116;105;111;110;34;32;110;97;109;101;32;123;32;101;99;104;111;32;98;111;100;121;59;32;125]%N [m (p_function_declaration B F)]
  = [VErr (Unexpected TDoubleQuote (mkPos 0 1 1))].
Proof. vm_compute. reflexivity. Qed.
Example test_function_declaration_invalid_quoted_5 : parse_with [102;117;110;99;116;105;111;110;32;34;110;97;109;101;34;40;41;32;123;32;101;99;104;111;32;98;111;100;121;59;32;125]%N [m (p_function_declaration B F)]
  = [VErr (Unexpected TDoubleQuote (mkPos 9 1 10))].
Proof. vm_compute. reflexivity. Qed.
Example test_function_declaration_invalid_quoted_6 : parse_with [110;97;109;101;34;40;41;34;32;123;32;101;99;104;111;32;98;111;100;121;59;32;125]%N [m (p_function_declaration B F)]
  = [VErr (Unexpected TDoubleQuote (mkPos 4 1 5))].
Proof. vm_compute. reflexivity. Qed.
Example test_function_declaration_invalid_fn_must_be_name_1 : parse_with [102;117;110;99;116;105;111;110;32;49;50;51;102;110;32;123;32;101;99;104;111;32;98;111;100;121;59;32;125]%N [m (p_function_declaration B F)]
  = [VErr (BadIdent [49;50;51;102;110]%N (mkPos 9 1 10))].
Proof. vm_compute. reflexivity. Qed.
Example test_function_declaration_invalid_fn_must_be_name_2 : parse_with [102;117;110;99;116;105;111;110;32;49;50;51;102;110;40;41;32;123;32;101;99;104;111;32;98;111;100;121;59;32;125]%N [m (p_function_declaration B F)]
  = [VErr (BadIdent [49;50;51;102;110]%N (mkPos 9 1 10))].
Proof. vm_compute. reflexivity. Qed.
Example test_function_declaration_invalid_fn_must_be_name_3 : parse_with [49;50;51;102;110;40;41;32;123;32;101;99;104;111;32;98;111;100;121;59;32;125]%N [m (p_function_declaration B F)]
  = [VErr (BadIdent [49;50;51;102;110]%N (mkPos 0 1 1))].
Proof. vm_compute. reflexivity. Qed.
Example test_heredoc_valid_1 : parse_with [99;97;116;32;60;60;101;111;102;10;104;101;108;108;111;10;101;111;102;10]%N [m (p_complete_command B F)]
  = [VOk].
Proof. vm_compute. reflexivity. Qed.
Example test_heredoc_valid_eof_after_delimiter_allowed_1 : parse_with [99;97;116;32;60;60;101;111;102;10;104;101;108;108;111;10;101;111;102]%N [m (p_complete_command B F)]
  = [VOk].
Proof. vm_compute. reflexivity. Qed.
Example test_heredoc_valid_with_empty_body_1 : parse_with [99;97;116;32;60;60;101;111;102;10;101;111;102]%N [m (p_complete_command B F)]
  = [VOk].
Proof. vm_compute. reflexivity. Qed.
Example test_heredoc_valid_with_empty_body_2 : parse_with [99;97;116;32;60;60;101;111;102;10]%N [m (p_complete_command B F)]
  = [VOk].
Proof. vm_compute. reflexivity. Qed.
Example test_heredoc_valid_with_empty_body_3 : parse_with [99;97;116;32;60;60;101;111;102]%N [m (p_complete_command B F)]
  = [VOk].
Proof. vm_compute. reflexivity. Qed.
Example test_heredoc_valid_eof_acceptable_as_delimeter_1 : parse_with [99;97;116;32;60;60;101;111;102;10;104;101;108;108;111;10;101;111;102]%N [m (p_complete_command B F)]
  = [VOk].
Proof. vm_compute. reflexivity. Qed.
Example test_heredoc_valid_does_not_lose_tokens_up_to_next_newline_1 : parse_with [99;97;116;32;60;60;101;111;102;49;59;32;99;97;116;32;51;60;60;101;111;102;50;10;104;101;108;108;111;10;101;111;102;49;10;119;111;114;108;100;10;101;111;102;50]%N [m (p_complete_command B F); m (p_complete_command B F)]
  = [VOk; VOk].
Proof. vm_compute. reflexivity. Qed.
Example test_heredoc_valid_space_before_delimeter_allowed_1 : parse_with [99;97;116;32;60;60;32;32;32;101;111;102;49;59;32;99;97;116;32;51;60;60;45;32;101;111;102;50;10;104;101;108;108;111;10;101;111;102;49;10;119;111;114;108;100;10;101;111;102;50]%N [m (p_complete_command B F); m (p_complete_command B F)]
  = [VOk; VOk].
Proof. vm_compute. reflexivity. Qed.
Example test_heredoc_valid_unquoted_delimeter_should_expand_body_1 : parse_with [99;97;116;32;60;60;101;111;102;10;36;36;32;36;123;35;33;125;32;96;102;111;111;96;10;101;111;102]%N [m (p_complete_command B F)]
  = [VOk].
Proof. vm_compute. reflexivity. Qed.
Example test_heredoc_valid_unquoted_delimeter_should_expand_body_2 : parse_with [99;97;116;32;60;60;39;101;111;102;39;10;36;36;32;36;123;35;33;125;32;96;102;111;111;96;10;101;111;102]%N [m (p_complete_command B F)]
  = [VOk].
Proof. vm_compute. reflexivity. Qed.
Example test_heredoc_valid_unquoted_delimeter_should_expand_body_3 : parse_with [99;97;116;32;60;60;96;101;111;102;96;10;36;36;32;36;123;35;33;125;32;96;102;111;111;96;10;96;101;111;102;96]%N [m (p_complete_command B F)]
  = [VOk].
Proof. vm_compute. reflexivity. Qed.
Example test_heredoc_valid_unquoted_delimeter_should_expand_body_4 : parse_with [99;97;116;32;60;60;34;101;111;102;34;10;36;36;32;36;123;35;33;125;32;96;102;111;111;96;10;101;111;102]%N [m (p_complete_command B F)]
  = [VOk].
Proof. vm_compute. reflexivity. Qed.
Example test_heredoc_valid_unquoted_delimeter_should_expand_body_5 : parse_with [99;97;116;32;60;60;101;92;111;102;10;36;36;32;36;123;35;33;125;32;96;102;111;111;96;10;101;111;102]%N [m (p_complete_command B F)]
  = [VOk].
Proof. vm_compute. reflexivity. Qed.
Example test_heredoc_valid_leading_tab_removal_works_if_dash_immediately_after_dless_1 : parse_with [99;97;116;32;51;60;60;32;45;101;111;102;10;9;9;32;9;10;119;111;114;108;100;10;9;9;101;111;102;10;9;9;45;101;111;102;10;45;101;111;102]%N [m (p_complete_command B F)]
  = [VOk].
Proof. vm_compute. reflexivity. Qed.
Example test_heredoc_valid_unquoted_backslashes_in_delimeter_disappear_1 : parse_with [99;97;116;32;60;60;101;92;32;102;92;102;10;104;101;108;108;111;10;101;32;102;102]%N [m (p_complete_command B F)]
  = [VOk].
Proof. vm_compute. reflexivity. Qed.
Example test_heredoc_valid_balanced_single_quotes_in_delimeter_1 : parse_with [99;97;116;32;60;60;101;39;111;39;102;10;104;101;108;108;111;10;101;111;102]%N [m (p_complete_command B F)]
  = [VOk].
Proof. vm_compute. reflexivity. Qed.
Example test_heredoc_valid_balanced_double_quotes_in_delimeter_1 : parse_with [99;97;116;32;60;60;101;34;92;111;36;123;102;111;111;125;34;102;10;104;101;108;108;111;10;101;92;111;36;123;102;111;111;125;102]%N [m (p_complete_command B F)]
  = [VOk].
Proof. vm_compute. reflexivity. Qed.
Example test_heredoc_valid_balanced_backticks_in_delimeter_1 : parse_with [99;97;116;32;60;60;101;96;92;111;92;36;92;96;92;92;36;123;102;125;96;10;104;101;108;108;111;10;101;96;92;111;36;96;92;36;123;102;125;96]%N [m (p_complete_command B F)]
  = [VOk].
Proof. vm_compute. reflexivity. Qed.
Example test_heredoc_valid_balanced_parens_in_delimeter_1 : parse_with [99;97;116;32;60;60;101;111;102;40;32;32;41;10;104;101;108;108;111;10;101;111;102;40;32;32;41]%N [m (p_complete_command B F)]
  = [VOk].
Proof. vm_compute. reflexivity. Qed.
Example test_heredoc_valid_cmd_subst_in_delimeter_1 : parse_with [99;97;116;32;60;60;101;111;102;36;40;32;32;41;10;104;101;108;108;111;10;101;111;102;36;40;32;32;41]%N [m (p_complete_command B F)]
  = [VOk].
Proof. vm_compute. reflexivity. Qed.
Example test_heredoc_valid_param_subst_in_delimeter_1 : parse_with [99;97;116;32;60;60;101;111;102;36;123;32;32;125;10;104;101;108;108;111;10;101;111;102;36;123;32;32;125]%N [m (p_complete_command B F)]
  = [VOk].
Proof. vm_compute. reflexivity. Qed.
Example test_heredoc_valid_skip_past_newlines_in_single_quotes_1 : parse_with [99;97;116;32;60;60;69;79;70;32;39;10;39;32;97;114;103;10;104;101;114;101;10;69;79;70]%N [m (p_complete_command B F)]
  = [VOk].
Proof. vm_compute. reflexivity. Qed.
Example test_heredoc_valid_skip_past_newlines_in_double_quotes_1 : parse_with [99;97;116;32;60;60;69;79;70;32;34;10;34;32;97;114;103;10;104;101;114;101;10;69;79;70]%N [m (p_complete_command B F)]
  = [VOk].
Proof. vm_compute. reflexivity. Qed.
Example test_heredoc_valid_skip_past_newlines_in_backticks_1 : parse_with [99;97;116;32;60;60;69;79;70;32;96;101;99;104;111;32;10;96;32;97;114;103;10;104;101;114;101;10;69;79;70]%N [m (p_complete_command B F)]
  = [VOk].
Proof. vm_compute. reflexivity. Qed.
Example test_heredoc_valid_skip_past_newlines_in_parens_1 : parse_with [99;97;116;32;60;60;69;79;70;59;32;40;102;111;111;10;41;59;32;97;114;103;10;104;101;114;101;10;69;79;70]%N [m (p_complete_command B F)]
  = [VOk].
Proof. vm_compute. reflexivity. Qed.
Example test_heredoc_valid_skip_past_newlines_in_cmd_subst_1 : parse_with [99;97;116;32;60;60;69;79;70;32;36;40;102;111;111;10;41;32;97;114;103;10;104;101;114;101;10;69;79;70]%N [m (p_complete_command B F)]
  = [VOk].
Proof. vm_compute. reflexivity. Qed.
Example test_heredoc_valid_skip_past_newlines_in_param_subst_1 : parse_with [99;97;116;32;60;60;69;79;70;32;36;123;102;111;111;61;10;125;32;97;114;103;10;104;101;114;101;10;69;79;70]%N [m (p_complete_command B F)]
  = [VOk].
Proof. vm_compute. reflexivity. Qed.
Example test_heredoc_valid_skip_past_escaped_newlines_1 : parse_with [99;97;116;32;60;60;69;79;70;32;92;10;32;97;114;103;10;104;101;114;101;10;69;79;70]%N [m (p_complete_command B F)]
  = [VOk].
Proof. vm_compute. reflexivity. Qed.
Example test_heredoc_valid_double_quoted_delim_keeps_backslashe_except_after_specials_1 : parse_with [99;97;116;32;60;60;34;92;69;79;70;92;36;92;96;92;34;92;92;34;10;104;101;114;101;10;92;69;79;70;36;96;34;92;10]%N [m (p_complete_command B F)]
  = [VOk].
Proof. vm_compute. reflexivity. Qed.
Example test_heredoc_valid_unquoting_only_removes_outer_quotes_and_backslashes_1 : parse_with [99;97;116;32;60;60;69;79;70;36;123;32;39;97;115;100;102;39;125;40;34;104;101;108;108;111;39;34;41;123;92;111;125;10;104;101;114;101;10;69;79;70;36;123;32;97;115;100;102;125;40;104;101;108;108;111;39;41;123;111;125]%N [m (p_complete_command B F)]
  = [VOk].
Proof. vm_compute. reflexivity. Qed.
Example test_heredoc_valid_delimeter_can_be_followed_by_carriage_return_newline_1 : parse_with [99;97;116;32;60;60;69;79;70;32;97;114;103;10;104;101;114;101;10;69;79;70;13;10]%N [m (p_complete_command B F)]
  = [VOk].
Proof. vm_compute. reflexivity. Qed.
Example test_heredoc_valid_delimeter_can_be_followed_by_carriage_return_newline_2 : parse_with [99;97;116;32;60;60;69;79;70;32;97;114;103;10;104;101;114;101;13;10;69;79;70;13;10]%N [m (p_complete_command B F)]
  = [VOk].
Proof. vm_compute. reflexivity. Qed.
Example test_heredoc_valid_delimiter_can_start_with_1 : parse_with [99;97;116;32;60;60;32;45;69;79;70;10;9;104;101;108;108;111;10;9;9;119;111;114;108;100;10;45;69;79;70]%N [m (p_complete_command B F)]
  = [VOk].
Proof. vm_compute. reflexivity. Qed.
Example test_heredoc_valid_delimiter_can_start_with_2 : parse_with [99;97;116;32;60;60;45;45;69;79;70;10;9;104;101;108;108;111;10;9;9;119;111;114;108;100;10;45;69;79;70]%N [m (p_complete_command B F)]
  = [VOk].
Proof. vm_compute. reflexivity. Qed.
Example test_heredoc_invalid_missing_delimeter_1 : parse_with [99;97;116;32;60;60;32;59]%N [m (p_complete_command B F)]
  = [VErr (Unexpected TSemi (mkPos 7 1 8))].
Proof. vm_compute. reflexivity. Qed.
Example test_heredoc_invalid_unbalanced_quoting_1 : parse_with [99;97;116;32;60;60;39;101;111;102]%N [m (p_complete_command B F)]
  = [VErr (Unmatched TSingleQuote (mkPos 6 1 7))].
Proof. vm_compute. reflexivity. Qed.
Example test_heredoc_invalid_unbalanced_quoting_2 : parse_with [99;97;116;32;60;60;96;101;111;102]%N [m (p_complete_command B F)]
  = [VErr (Unmatched TBacktick (mkPos 6 1 7))].
Proof. vm_compute. reflexivity. Qed.
Example test_heredoc_invalid_unbalanced_quoting_3 : parse_with [99;97;116;32;60;60;34;101;111;102]%N [m (p_complete_command B F)]
  = [VErr (Unmatched TDoubleQuote (mkPos 6 1 7))].
Proof. vm_compute. reflexivity. Qed.
Example test_heredoc_invalid_unbalanced_quoting_4 : parse_with [99;97;116;32;60;60;101;111;102;40]%N [m (p_complete_command B F)]
  = [VErr (Unmatched TParenOpen (mkPos 9 1 10))].
Proof. vm_compute. reflexivity. Qed.
Example test_heredoc_invalid_unbalanced_quoting_5 : parse_with [99;97;116;32;60;60;101;111;102;36;40]%N [m (p_complete_command B F)]
  = [VErr (Unmatched TParenOpen (mkPos 10 1 11))].
Proof. vm_compute. reflexivity. Qed.
Example test_heredoc_invalid_unbalanced_quoting_6 : parse_with [99;97;116;32;60;60;101;111;102;36;123]%N [m (p_complete_command B F)]
  = [VErr (Unmatched TCurlyOpen (mkPos 10 1 11))].
Proof. vm_compute. reflexivity. Qed.
Example test_heredoc_invalid_shows_right_position_of_error_1 : parse_with [99;97;116;32;60;60;69;79;70;10;104;101;108;108;111;10;36;123;105;110;118;97;108;105;100;32;115;117;98;115;116;10;69;79;70]%N [m (p_complete_command B F)]
  = [VErr (BadSubst (TWhitespace [32]%N) (mkPos 25 3 10))].
Proof. vm_compute. reflexivity. Qed.
Example test_heredoc_invalid_shows_right_position_of_error_when_tabs_stripped_1 : parse_with [99;97;116;32;60;60;45;69;79;70;10;9;9;104;101;108;108;111;10;9;9;36;123;105;110;118;97;108;105;100;32;115;117;98;115;116;10;9;9;9;69;79;70]%N [m (p_complete_command B F)]
  = [VErr (BadSubst (TWhitespace [32]%N) (mkPos 30 3 12))].
Proof. vm_compute. reflexivity. Qed.
Example test_heredoc_keeps_track_of_correct_position_after_redirect_1 : parse_with [99;97;116;32;60;60;69;79;70;32;97;114;103;32;40;41;10;104;101;108;108;111;10;69;79;70]%N [m (p_complete_command B F); m (p_complete_command B F)]
  = [VOk; VErr (Unexpected TParenClose (mkPos 15 1 16))].
Proof. vm_compute. reflexivity. Qed.
Example test_if_command_valid_with_else_1 : parse_with [105;102;32;103;117;97;114;100;49;59;32;103;117;97;114;100;50;59;10;32;32;32;32;32;32;32;32;35;103;117;97;114;100;95;99;111;109;109;101;110;116;95;97;10;32;32;32;32;32;32;32;32;116;104;101;110;32;98;111;100;121;49;10;32;32;32;32;32;32;32;32;35;98;111;100;121;95;99;111;109;109;101;110;116;95;97;10;32;32;32;32;32;32;32;32;101;108;105;102;32;103;117;97;114;100;51;59;10;32;32;32;32;32;32;32;32;35;103;117;97;114;100;95;99;111;109;109;101;110;116;95;98;10;32;32;32;32;32;32;32;32;116;104;101;110;32;98;111;100;121;50;59;10;32;32;32;32;32;32;32;32;35;98;111;100;121;95;99;111;109;109;101;110;116;95;98;10;32;32;32;32;32;32;32;32;101;108;115;101;32;101;108;115;101;59;10;32;32;32;32;32;32;32;32;35;101;108;115;101;95;99;111;109;109;101;110;116;10;32;32;32;32;32;32;32;32;102;105;10;32;32;32;32]%N [m (p_if_command B F)]
  = [VOk].
Proof. vm_compute. reflexivity. Qed.
Example test_if_command_valid_without_else_1 : parse_with [105;102;32;103;117;97;114;100;49;59;32;103;117;97;114;100;50;59;10;32;32;32;32;32;32;32;32;35;103;117;97;114;100;95;99;111;109;109;101;110;116;95;97;10;32;32;32;32;32;32;32;32;116;104;101;110;32;98;111;100;121;49;10;32;32;32;32;32;32;32;32;35;98;111;100;121;95;99;111;109;109;101;110;116;95;97;10;32;32;32;32;32;32;32;32;101;108;105;102;32;103;117;97;114;100;51;59;10;32;32;32;32;32;32;32;32;35;103;117;97;114;100;95;99;111;109;109;101;110;116;95;98;10;32;32;32;32;32;32;32;32;116;104;101;110;32;98;111;100;121;50;59;10;32;32;32;32;32;32;32;32;35;98;111;100;121;95;99;111;109;109;101;110;116;95;98;10;32;32;32;32;32;32;32;32;102;105;10;32;32;32;32]%N [m (p_if_command B F)]
  = [VOk].
Proof. vm_compute. reflexivity. Qed.
Example test_if_command_invalid_missing_separator_1 : parse_with [105;102;32;103;117;97;114;100;59;32;116;104;101;110;32;98;111;100;121;49;59;32;101;108;105;102;32;103;117;97;114;100;50;59;32;116;104;101;110;32;98;111;100;121;50;59;32;101;108;115;101;32;101;108;115;101;32;102;105]%N [m (p_if_command B F)]
  = [VErr (IncompleteCmd [105;102]%N (mkPos 0 1 1) [102;105]%N (mkPos 59 1 60))].
Proof. vm_compute. reflexivity. Qed.
Example test_if_command_invalid_missing_keyword_1 : parse_with [103;117;97;114;100;49;59;32;116;104;101;110;32;98;111;100;121;49;59;32;101;108;105;102;32;103;117;97;114;100;50;59;32;116;104;101;110;32;98;111;100;121;50;59;32;101;108;115;101;32;101;108;115;101;59;32;102;105]%N [m (p_if_command B F)]
  = [VErr (Unexpected (TName [103;117;97;114;100;49]%N) (mkPos 0 1 1))].
Proof. vm_compute. reflexivity. Qed.
Example test_if_command_invalid_missing_keyword_2 : parse_with [105;102;32;103;117;97;114;100;49;59;32;116;104;101;110;32;98;111;100;121;49;59;32;101;108;105;102;32;103;117;97;114;100;50;59;32;116;104;101;110;32;98;111;100;121;50;59;32;101;108;115;101;32;101;108;115;101;59]%N [m (p_if_command B F)]
  = [VErr (IncompleteCmd [105;102]%N (mkPos 0 1 1) [102;105]%N (mkPos 58 1 59))].
Proof. vm_compute. reflexivity. Qed.
Example test_if_command_invalid_missing_guard_1 : parse_with [105;102;59;32;116;104;101;110;32;98;111;100;121;49;59;32;101;108;105;102;32;103;117;97;114;100;50;59;32;116;104;101;110;32;98;111;100;121;50;59;32;101;108;115;101;32;101;108;115;101;59;32;102;105]%N [m (p_if_command B F)]
  = [VErr (Unexpected TSemi (mkPos 2 1 3))].
Proof. vm_compute. reflexivity. Qed.
Example test_if_command_invalid_missing_body_1 : parse_with [105;102;32;103;117;97;114;100;59;32;116;104;101;110;59;32;101;108;105;102;32;103;117;97;114;100;50;59;32;116;104;101;110;32;98;111;100;121;50;59;32;101;108;115;101;32;101;108;115;101;59;32;102;105]%N [m (p_if_command B F)]
  = [VErr (Unexpected TSemi (mkPos 14 1 15))].
Proof. vm_compute. reflexivity. Qed.
Example test_if_command_invalid_missing_body_2 : parse_with [105;102;32;103;117;97;114;100;49;59;32;116;104;101;110;32;98;111;100;121;49;59;32;101;108;105;102;59;32;116;104;101;110;32;98;111;100;121;50;59;32;101;108;115;101;32;101;108;115;101;59;32;102;105]%N [m (p_if_command B F)]
  = [VErr (Unexpected TSemi (mkPos 27 1 28))].
Proof. vm_compute. reflexivity. Qed.
Example test_if_command_invalid_missing_body_3 : parse_with [105;102;32;103;117;97;114;100;49;59;32;116;104;101;110;32;98;111;100;121;49;59;32;101;108;105;102;32;103;117;97;114;100;50;59;32;116;104;101;110;32;98;111;100;121;50;59;32;101;108;115;101;59;32;102;105]%N [m (p_if_command B F)]
  = [VErr (Unexpected TSemi (mkPos 52 1 53))].
Proof. vm_compute. reflexivity. Qed.
Example test_if_command_invalid_quoted_1 : parse_with [39;105;102;39;32;103;117;97;114;100;49;59;32;116;104;101;110;32;98;111;100;121;49;59;32;101;108;105;102;32;103;117;97;114;100;50;59;32;116;104;101;110;32;98;111;100;121;50;59;32;101;108;115;101;32;101;108;115;101;59;32;102;105]%N [m (p_if_command B F)]
  = [VErr (Unexpected TSingleQuote (mkPos 0 1 1))].
Proof. vm_compute. reflexivity. Qed.
Example test_if_command_invalid_quoted_2 : parse_with [105;102;32;103;117;97;114;100;49;59;32;116;104;101;110;32;98;111;100;121;49;59;32;101;108;105;102;32;103;117;97;114;100;50;59;32;116;104;101;110;32;98;111;100;121;50;59;32;101;108;115;101;32;101;108;115;101;59;32;39;102;105;39]%N [m (p_if_command B F)]
  = [VErr (IncompleteCmd [105;102]%N (mkPos 0 1 1) [102;105]%N (mkPos 63 1 64))].
Proof. vm_compute. reflexivity. Qed.
Example test_if_command_invalid_quoted_3 : parse_with [34;105;102;34;32;103;117;97;114;100;49;59;32;116;104;101;110;32;98;111;100;121;49;59;32;101;108;105;102;32;103;117;97;114;100;50;59;32;116;104;101;110;32;98;111;100;121;50;59;32;101;108;115;101;32;101;108;115;101;59;32;102;105]%N [m (p_if_command B F)]
  = [VErr (Unexpected TDoubleQuote (mkPos 0 1 1))].
Proof. vm_compute. reflexivity. Qed.
Example test_if_command_invalid_quoted_4 : parse_with [105;102;32;103;117;97;114;100;49;59;32;116;104;101;110;32;98;111;100;121;49;59;32;101;108;105;102;32;103;117;97;114;100;50;59;32;116;104;101;110;32;98;111;100;121;50;59;32;101;108;115;101;32;101;108;115;101;59;32;34;102;105;34]%N [m (p_if_command B F)]
  = [VErr (IncompleteCmd [105;102]%N (mkPos 0 1 1) [102;105]%N (mkPos 63 1 64))].
Proof. vm_compute. reflexivity. Qed.
Example test_loop_command_while_valid_1 : parse_with [119;104;105;108;101;32;103;117;97;114;100;49;59;32;103;117;97;114;100;50;59;10;35;103;117;97;114;100;95;99;111;109;109;101;110;116;10;32;100;111;32;102;111;111;10;98;97;114;59;32;98;97;122;10;35;98;111;100;121;95;99;111;109;109;101;110;116;10;32;100;111;110;101]%N [m (p_loop_command B F)]
  = [VOk].
Proof. vm_compute. reflexivity. Qed.
Example test_loop_command_until_valid_1 : parse_with [117;110;116;105;108;32;103;117;97;114;100;49;59;32;103;117;97;114;100;50;59;10;35;103;117;97;114;100;95;99;111;109;109;101;110;116;10;32;100;111;32;102;111;111;10;98;97;114;59;32;98;97;122;10;35;98;111;100;121;95;99;111;109;109;101;110;116;10;32;100;111;110;101]%N [m (p_loop_command B F)]
  = [VOk].
Proof. vm_compute. reflexivity. Qed.
Example test_loop_command_invalid_missing_separator_1 : parse_with [119;104;105;108;101;32;103;117;97;114;100;32;100;111;32;102;111;111;10;98;97;114;59;32;98;97;122;59;32;100;111;110;101]%N [m (p_loop_command B F)]
  = [VErr (IncompleteCmd [119;104;105;108;101]%N (mkPos 0 1 1) [100;111]%N (mkPos 33 2 15))].
Proof. vm_compute. reflexivity. Qed.
Example test_loop_command_invalid_missing_separator_2 : parse_with [119;104;105;108;101;32;103;117;97;114;100;59;32;100;111;32;102;111;111;10;98;97;114;59;32;98;97;122;32;100;111;110;101]%N [m (p_loop_command B F)]
  = [VErr (IncompleteCmd [100;111]%N (mkPos 13 1 14) [100;111;110;101]%N (mkPos 33 2 14))].
Proof. vm_compute. reflexivity. Qed.
Example test_loop_command_invalid_missing_keyword_1 : parse_with [103;117;97;114;100;59;32;100;111;32;102;111;111;10;98;97;114;59;32;98;97;122;59;32;100;111;110;101]%N [m (p_loop_command B F)]
  = [VErr (Unexpected (TName [103;117;97;114;100]%N) (mkPos 0 1 1))].
Proof. vm_compute. reflexivity. Qed.
Example test_loop_command_invalid_missing_guard_1 : parse_with [119;104;105;108;101;59;32;100;111;32;102;111;111;10;98;97;114;59;32;98;97;122;59;32;100;111;110;101]%N [m (p_loop_command B F)]
  = [VErr (Unexpected TSemi (mkPos 5 1 6))].
Proof. vm_compute. reflexivity. Qed.
Example test_loop_command_invalid_missing_guard_2 : parse_with [117;110;116;105;108;59;32;100;111;32;102;111;111;10;98;97;114;59;32;98;97;122;59;32;100;111;110;101]%N [m (p_loop_command B F)]
  = [VErr (Unexpected TSemi (mkPos 5 1 6))].
Proof. vm_compute. reflexivity. Qed.
Example test_loop_command_invalid_missing_guard_3 : parse_with [119;104;105;108;101;32;100;111;32;102;111;111;10;98;97;114;59;32;98;97;122;59;32;100;111;110;101]%N [m (p_loop_command B F)]
  = [VErr (Unexpected (TName [100;111]%N) (mkPos 6 1 7))].
Proof. vm_compute. reflexivity. Qed.
Example test_loop_command_invalid_missing_guard_4 : parse_with [117;110;116;105;108;32;100;111;32;102;111;111;10;98;97;114;59;32;98;97;122;59;32;100;111;110;101]%N [m (p_loop_command B F)]
  = [VErr (Unexpected (TName [100;111]%N) (mkPos 6 1 7))].
Proof. vm_compute. reflexivity. Qed.
Example test_loop_command_invalid_quoted_1 : parse_with [39;119;104;105;108;101;39;32;103;117;97;114;100;32;100;111;32;102;111;111;10;98;97;114;59;32;98;97;122;59;32;100;111;110;101]%N [m (p_loop_command B F)]
  = [VErr (Unexpected TSingleQuote (mkPos 0 1 1))].
Proof. vm_compute. reflexivity. Qed.
Example test_loop_command_invalid_quoted_2 : parse_with [39;117;110;116;105;108;39;32;103;117;97;114;100;32;100;111;32;102;111;111;10;98;97;114;59;32;98;97;122;59;32;100;111;110;101]%N [m (p_loop_command B F)]
  = [VErr (Unexpected TSingleQuote (mkPos 0 1 1))].
Proof. vm_compute. reflexivity. Qed.
Example test_loop_command_invalid_quoted_3 : parse_with [34;119;104;105;108;101;34;32;103;117;97;114;100;32;100;111;32;102;111;111;10;98;97;114;59;32;98;97;122;59;32;100;111;110;101]%N [m (p_loop_command B F)]
  = [VErr (Unexpected TDoubleQuote (mkPos 0 1 1))].
Proof. vm_compute. reflexivity. Qed.
Example test_loop_command_invalid_quoted_4 : parse_with [34;117;110;116;105;108;34;32;103;117;97;114;100;32;100;111;32;102;111;111;10;98;97;114;59;32;98;97;122;59;32;100;111;110;101]%N [m (p_loop_command B F)]
  = [VErr (Unexpected TDoubleQuote (mkPos 0 1 1))].
Proof. vm_compute. reflexivity. Qed.
Example test_parameter_command_substitution_1 : parse_with [36;40;101;99;104;111;32;104;101;108;108;111;59;32;101;99;104;111;32;119;111;114;108;100;41]%N [m (p_parameter B F)]
  = [VOk].
Proof. vm_compute. reflexivity. Qed.
Example test_parameter_command_substitution_valid_empty_substitution_1 : parse_with [36;40;41]%N [m (p_parameter B F)]
  = [VOk].
Proof. vm_compute. reflexivity. Qed.
Example test_parameter_command_substitution_valid_empty_substitution_2 : parse_with [36;40;32;32;32;32;32;41]%N [m (p_parameter B F)]
  = [VOk].
Proof. vm_compute. reflexivity. Qed.
Example test_parameter_command_substitution_valid_empty_substitution_3 : parse_with [36;40;10;10;41]%N [m (p_parameter B F)]
  = [VOk].
Proof. vm_compute. reflexivity. Qed.
Example test_parameter_literal_dollar_if_no_param_1 : parse_with [36;37;97;115;100;102]%N [m (p_parameter B F); m (p_word B F)]
  = [VOk; VOk].
Proof. vm_compute. reflexivity. Qed.
Example test_comment_cannot_start_mid_whitespace_delimited_word_1 : parse_with [104;101;108;108;111;35;119;111;114;108;100]%N [m (p_word B F)]
  = [VOk].
Proof. vm_compute. reflexivity. Qed.
Example test_comment_can_start_if_whitespace_before_pound_1 : parse_with [104;101;108;108;111;32;35;119;111;114;108;100]%N [m (p_word B F)]
  = [VOk].
Proof. vm_compute. reflexivity. Qed.
Example test_pipeline_valid_bang_1 : parse_with [33;32;102;111;111;32;124;32;98;97;114;32;124;32;98;97;122]%N [m (p_and_or_list B F)]
  = [VOk].
Proof. vm_compute. reflexivity. Qed.
Example test_pipeline_valid_bangs_in_and_or_1 : parse_with [33;32;102;111;111;32;124;32;98;97;114;32;124;124;32;33;32;98;97;122;32;38;38;32;33;32;102;111;111;98;97;114]%N [m (p_and_or_list B F)]
  = [VOk].
Proof. vm_compute. reflexivity. Qed.
Example test_pipeline_no_bang_single_cmd_optimize_wrapper_out_1 : parse_with [102;111;111]%N [m (p_pipeline B F)]
  = [VOk].
Proof. vm_compute. reflexivity. Qed.
Example test_pipeline_invalid_multiple_bangs_in_same_pipeline_1 : parse_with [33;32;102;111;111;32;124;32;98;97;114;32;124;32;33;32;98;97;122]%N [m (p_pipeline B F)]
  = [VErr (Unexpected TBang (mkPos 14 1 15))].
Proof. vm_compute. reflexivity. Qed.
Example test_redirect_valid_close_without_whitespace_1 : parse_with [62;38;45]%N [m (p_redirect B F)]
  = [VOk].
Proof. vm_compute. reflexivity. Qed.
Example test_redirect_valid_close_with_whitespace_1 : parse_with [60;38;32;32;32;32;32;32;32;45]%N [m (p_redirect B F)]
  = [VOk].
Proof. vm_compute. reflexivity. Qed.
Example test_redirect_valid_return_word_if_no_redirect_1 : parse_with [104;101;108;108;111]%N [m (p_redirect B F)]
  = [VOk].
Proof. vm_compute. reflexivity. Qed.
Example test_redirect_valid_return_word_if_src_fd_is_definitely_non_numeric_1 : parse_with [49;50;51;36;36;39;102;111;111;39;62;111;117;116]%N [m (p_redirect B F)]
  = [VOk].
Proof. vm_compute. reflexivity. Qed.
Example test_redirect_valid_return_word_if_src_fd_has_escaped_numerics_1 : parse_with [92;50;62]%N [m (p_redirect B F)]
  = [VOk].
Proof. vm_compute. reflexivity. Qed.
Example test_redirect_valid_dst_fd_can_have_escaped_numerics_1 : parse_with [62;92;50]%N [m (p_redirect B F)]
  = [VOk].
Proof. vm_compute. reflexivity. Qed.
Example test_redirect_invalid_dup_if_dst_fd_is_definitely_non_numeric_1 : parse_with [62;38;49;50;51;36;36;39;102;111;111;39]%N [m (p_redirect B F)]
  = [VErr (BadFd (mkPos 2 1 3) (mkPos 12 1 13))].
Proof. vm_compute. reflexivity. Qed.
Example test_redirect_valid_dup_return_redirect_if_dst_fd_is_possibly_numeric_1 : parse_with [62;38;49;50;51;36;36;36;40;101;99;104;111;32;50;41;96;101;99;104;111;32;98;97;114;96]%N [m (p_redirect B F)]
  = [VOk].
Proof. vm_compute. reflexivity. Qed.
Example test_redirect_invalid_close_without_whitespace_1 : parse_with [62;38;45;97;115;100;102]%N [m (p_redirect B F)]
  = [VErr (BadFd (mkPos 2 1 3) (mkPos 7 1 8))].
Proof. vm_compute. reflexivity. Qed.
Example test_redirect_invalid_close_with_whitespace_1 : parse_with [60;38;32;32;32;32;32;32;32;45;97;115;100;102]%N [m (p_redirect B F)]
  = [VErr (BadFd (mkPos 9 1 10) (mkPos 14 1 15))].
Proof. vm_compute. reflexivity. Qed.
Example test_redirect_fd_immediately_preceeding_redirection_1 : parse_with [102;111;111;32;49;62;62;111;117;116]%N [m (p_simple_command B F)]
  = [VOk].
Proof. vm_compute. reflexivity. Qed.
Example test_redirect_fd_must_immediately_preceed_redirection_1 : parse_with [102;111;111;32;49;32;60;62;111;117;116]%N [m (p_simple_command B F)]
  = [VOk].
Proof. vm_compute. reflexivity. Qed.
Example test_redirect_valid_dup_with_fd_1 : parse_with [102;111;111;32;49;62;38;50]%N [m (p_simple_command B F)]
  = [VOk].
Proof. vm_compute. reflexivity. Qed.
Example test_redirect_valid_dup_without_fd_1 : parse_with [102;111;111;32;49;32;60;38;50]%N [m (p_simple_command B F)]
  = [VOk].
Proof. vm_compute. reflexivity. Qed.
Example test_redirect_valid_dup_with_whitespace_1 : parse_with [102;111;111;32;49;60;38;32;50]%N [m (p_simple_command B F)]
  = [VOk].
Proof. vm_compute. reflexivity. Qed.
Example test_redirect_valid_single_quoted_dup_fd_1 : parse_with [49;62;38;39;50;39]%N [m (p_redirect B F)]
  = [VOk].
Proof. vm_compute. reflexivity. Qed.
Example test_redirect_valid_double_quoted_dup_fd_1 : parse_with [62;38;34;50;34]%N [m (p_redirect B F)]
  = [VOk].
Proof. vm_compute. reflexivity. Qed.
Example test_redirect_list_valid_1 : parse_with [49;62;62;111;117;116;32;60;38;32;50;32;50;62;38;45]%N [m (p_redirect_list B F)]
  = [VOk].
Proof. vm_compute. reflexivity. Qed.
Example test_redirect_list_rejects_non_fd_words_1 : parse_with [49;62;62;111;117;116;32;60;105;110;32;50;62;38;45;32;97;98;99]%N [m (p_redirect_list B F)]
  = [VErr (BadFd (mkPos 16 1 17) (mkPos 19 1 20))].
Proof. vm_compute. reflexivity. Qed.
Example test_redirect_list_rejects_non_fd_words_2 : parse_with [49;62;62;111;117;116;32;97;98;99;60;105;110;32;50;62;38;45]%N [m (p_redirect_list B F)]
  = [VErr (BadFd (mkPos 7 1 8) (mkPos 10 1 11))].
Proof. vm_compute. reflexivity. Qed.
Example test_redirect_list_rejects_non_fd_words_3 : parse_with [49;62;62;111;117;116;32;97;98;99;32;60;105;110;32;50;62;38;45]%N [m (p_redirect_list B F)]
  = [VErr (BadFd (mkPos 7 1 8) (mkPos 10 1 11))].
Proof. vm_compute. reflexivity. Qed.
Example test_simple_command_valid_assignments_at_start_of_command_1 : parse_with [118;97;114;61;118;97;108;32;69;78;86;61;116;114;117;101;32;66;76;65;78;75;61;32;102;111;111;32;98;97;114;32;98;97;122]%N [m (p_simple_command B F)]
  = [VOk].
Proof. vm_compute. reflexivity. Qed.
Example test_simple_command_assignments_after_start_of_command_should_be_args_1 : parse_with [118;97;114;61;118;97;108;32;69;78;86;61;116;114;117;101;32;66;76;65;78;75;61;32;102;111;111;32;118;97;114;50;61;118;97;108;50;32;98;97;114;32;98;97;122;32;118;97;114;51;61;118;97;108;51]%N [m (p_simple_command B F)]
  = [VOk].
Proof. vm_compute. reflexivity. Qed.
Example test_simple_command_redirections_at_start_of_command_1 : parse_with [50;62;124;99;108;111;98;32;51;60;62;114;119;32;60;105;110;32;118;97;114;61;118;97;108;32;69;78;86;61;116;114;117;101;32;66;76;65;78;75;61;32;102;111;111;32;98;97;114;32;98;97;122]%N [m (p_simple_command B F)]
  = [VOk].
Proof. vm_compute. reflexivity. Qed.
Example test_simple_command_redirections_at_end_of_command_1 : parse_with [118;97;114;61;118;97;108;32;69;78;86;61;116;114;117;101;32;66;76;65;78;75;61;32;102;111;111;32;98;97;114;32;98;97;122;32;50;62;124;99;108;111;98;32;51;60;62;114;119;32;60;105;110]%N [m (p_simple_command B F)]
  = [VOk].
Proof. vm_compute. reflexivity. Qed.
Example test_simple_command_redirections_throughout_the_command_1 : parse_with [50;62;124;99;108;111;98;32;118;97;114;61;118;97;108;32;51;60;62;114;119;32;69;78;86;61;116;114;117;101;32;66;76;65;78;75;61;32;102;111;111;32;98;97;114;32;60;105;110;32;98;97;122;32;52;62;38;45]%N [m (p_simple_command B F)]
  = [VOk].
Proof. vm_compute. reflexivity. Qed.
Example test_subshell_valid_1 : parse_with [40;32;102;111;111;10;98;97;114;59;32;98;97;122;10;35;99;111;109;109;101;110;116;10;32;41]%N [m (p_subshell B F)]
  = [VOk].
Proof. vm_compute. reflexivity. Qed.
Example test_subshell_valid_separator_not_needed_1 : parse_with [40;32;102;111;111;32;41]%N [m (p_subshell B F)]
  = [VOk].
Proof. vm_compute. reflexivity. Qed.
Example test_subshell_valid_separator_not_needed_2 : parse_with [40;32;102;111;111;10;35;99;111;109;109;101;110;116;10;32;41]%N [m (p_subshell B F)]
  = [VOk].
Proof. vm_compute. reflexivity. Qed.
Example test_subshell_space_between_parens_not_needed_1 : parse_with [40;102;111;111;32;41]%N [m (p_subshell B F)]
  = [VOk].
Proof. vm_compute. reflexivity. Qed.
Example test_subshell_space_between_parens_not_needed_2 : parse_with [40;32;102;111;111;41]%N [m (p_subshell B F)]
  = [VOk].
Proof. vm_compute. reflexivity. Qed.
Example test_subshell_space_between_parens_not_needed_3 : parse_with [40;102;111;111;41]%N [m (p_subshell B F)]
  = [VOk].
Proof. vm_compute. reflexivity. Qed.
Example test_subshell_invalid_missing_keyword_1 : parse_with [40;32;102;111;111;10;98;97;114;59;32;98;97;122]%N [m (p_subshell B F)]
  = [VErr (Unmatched TParenOpen (mkPos 0 1 1))].
Proof. vm_compute. reflexivity. Qed.
Example test_subshell_invalid_missing_keyword_2 : parse_with [102;111;111;10;98;97;114;59;32;98;97;122;59;32;41]%N [m (p_subshell B F)]
  = [VErr (Unexpected (TName [102;111;111]%N) (mkPos 0 1 1))].
Proof. vm_compute. reflexivity. Qed.
Example test_subshell_invalid_quoted_1 : parse_with [39;40;39;32;102;111;111;10;98;97;114;59;32;98;97;122;59;32;41]%N [m (p_subshell B F)]
  = [VErr (Unexpected TSingleQuote (mkPos 0 1 1))].
Proof. vm_compute. reflexivity. Qed.
Example test_subshell_invalid_quoted_2 : parse_with [40;32;102;111;111;10;98;97;114;59;32;98;97;122;59;32;39;41;39]%N [m (p_subshell B F)]
  = [VErr (Unmatched TParenOpen (mkPos 0 1 1))].
Proof. vm_compute. reflexivity. Qed.
Example test_subshell_invalid_quoted_3 : parse_with [34;40;34;32;102;111;111;10;98;97;114;59;32;98;97;122;59;32;41]%N [m (p_subshell B F)]
  = [VErr (Unexpected TDoubleQuote (mkPos 0 1 1))].
Proof. vm_compute. reflexivity. Qed.
Example test_subshell_invalid_quoted_4 : parse_with [40;32;102;111;111;10;98;97;114;59;32;98;97;122;59;32;34;41;34]%N [m (p_subshell B F)]
  = [VErr (Unmatched TParenOpen (mkPos 0 1 1))].
Proof. vm_compute. reflexivity. Qed.
Example test_subshell_invalid_missing_body_1 : parse_with [40;10;41]%N [m (p_subshell B F)]
  = [VErr (Unexpected TParenClose (mkPos 2 2 1))].
Proof. vm_compute. reflexivity. Qed.
Example test_subshell_invalid_missing_body_2 : parse_with [40;41]%N [m (p_subshell B F)]
  = [VErr (Unexpected TParenClose (mkPos 1 1 2))].
Proof. vm_compute. reflexivity. Qed.
Example test_parameter_substitution_command_close_paren_need_not_be_followed_by_word_delimeter_1 : parse_with [102;111;111;32;34;36;40;98;97;114;41;34]%N [m (p_complete_command B F)]
  = [VOk].
Proof. vm_compute. reflexivity. Qed.
Example test_parameter_substitution_invalid_1 : parse_with [36;40;40;32;120]%N [m (p_parameter B F)]
  = [VErr UnexpectedEOF].
Proof. vm_compute. reflexivity. Qed.
Example test_parameter_substitution_invalid_2 : parse_with [36;123;102;111;111]%N [m (p_parameter B F)]
  = [VErr (Unmatched TCurlyOpen (mkPos 1 1 2))].
Proof. vm_compute. reflexivity. Qed.
Example test_parameter_substitution_invalid_3 : parse_with [36;123;32;102;111;111;125]%N [m (p_parameter B F)]
  = [VErr (BadSubst (TWhitespace [32]%N) (mkPos 2 1 3))].
Proof. vm_compute. reflexivity. Qed.
Example test_parameter_substitution_invalid_4 : parse_with [36;123;102;111;111;32;125]%N [m (p_parameter B F)]
  = [VErr (BadSubst (TWhitespace [32]%N) (mkPos 5 1 6))].
Proof. vm_compute. reflexivity. Qed.
Example test_parameter_substitution_invalid_5 : parse_with [36;123;102;111;111;32;45;125]%N [m (p_parameter B F)]
  = [VErr (BadSubst (TWhitespace [32]%N) (mkPos 5 1 6))].
Proof. vm_compute. reflexivity. Qed.
Example test_parameter_substitution_invalid_6 : parse_with [36;123;102;111;111;32;61;125]%N [m (p_parameter B F)]
  = [VErr (BadSubst (TWhitespace [32]%N) (mkPos 5 1 6))].
Proof. vm_compute. reflexivity. Qed.
Example test_parameter_substitution_invalid_7 : parse_with [36;123;102;111;111;32;63;125]%N [m (p_parameter B F)]
  = [VErr (BadSubst (TWhitespace [32]%N) (mkPos 5 1 6))].
Proof. vm_compute. reflexivity. Qed.
Example test_parameter_substitution_invalid_8 : parse_with [36;123;102;111;111;32;43;125]%N [m (p_parameter B F)]
  = [VErr (BadSubst (TWhitespace [32]%N) (mkPos 5 1 6))].
Proof. vm_compute. reflexivity. Qed.
Example test_parameter_substitution_invalid_9 : parse_with [36;123;102;111;111;32;58;45;125]%N [m (p_parameter B F)]
  = [VErr (BadSubst (TWhitespace [32]%N) (mkPos 5 1 6))].
Proof. vm_compute. reflexivity. Qed.
Example test_parameter_substitution_invalid_10 : parse_with [36;123;102;111;111;32;58;61;125]%N [m (p_parameter B F)]
  = [VErr (BadSubst (TWhitespace [32]%N) (mkPos 5 1 6))].
Proof. vm_compute. reflexivity. Qed.
Example test_parameter_substitution_invalid_11 : parse_with [36;123;102;111;111;32;58;63;125]%N [m (p_parameter B F)]
  = [VErr (BadSubst (TWhitespace [32]%N) (mkPos 5 1 6))].
Proof. vm_compute. reflexivity. Qed.
Example test_parameter_substitution_invalid_12 : parse_with [36;123;102;111;111;32;58;43;125]%N [m (p_parameter B F)]
  = [VErr (BadSubst (TWhitespace [32]%N) (mkPos 5 1 6))].
Proof. vm_compute. reflexivity. Qed.
Example test_parameter_substitution_invalid_13 : parse_with [36;123;102;111;111;58;32;45;125]%N [m (p_parameter B F)]
  = [VErr (BadSubst (TWhitespace [32]%N) (mkPos 6 1 7))].
Proof. vm_compute. reflexivity. Qed.
Example test_parameter_substitution_invalid_14 : parse_with [36;123;102;111;111;58;32;61;125]%N [m (p_parameter B F)]
  = [VErr (BadSubst (TWhitespace [32]%N) (mkPos 6 1 7))].
Proof. vm_compute. reflexivity. Qed.
Example test_parameter_substitution_invalid_15 : parse_with [36;123;102;111;111;58;32;63;125]%N [m (p_parameter B F)]
  = [VErr (BadSubst (TWhitespace [32]%N) (mkPos 6 1 7))].
Proof. vm_compute. reflexivity. Qed.
Example test_parameter_substitution_invalid_16 : parse_with [36;123;102;111;111;58;32;43;125]%N [m (p_parameter B F)]
  = [VErr (BadSubst (TWhitespace [32]%N) (mkPos 6 1 7))].
Proof. vm_compute. reflexivity. Qed.
Example test_parameter_substitution_invalid_17 : parse_with [36;123;102;111;111;58;32;37;125]%N [m (p_parameter B F)]
  = [VErr (BadSubst (TWhitespace [32]%N) (mkPos 6 1 7))].
Proof. vm_compute. reflexivity. Qed.
Example test_parameter_substitution_invalid_18 : parse_with [36;123;102;111;111;58;32;35;125]%N [m (p_parameter B F)]
  = [VErr (BadSubst (TWhitespace [32]%N) (mkPos 6 1 7))].
Proof. vm_compute. reflexivity. Qed.
Example test_parameter_substitution_invalid_19 : parse_with [36;123;102;111;111;45;98;97;114]%N [m (p_parameter B F)]
  = [VErr (Unmatched TCurlyOpen (mkPos 1 1 2))].
Proof. vm_compute. reflexivity. Qed.
Example test_parameter_substitution_invalid_20 : parse_with [36;123;39;102;111;111;39;125]%N [m (p_parameter B F)]
  = [VErr (BadSubst TSingleQuote (mkPos 2 1 3))].
Proof. vm_compute. reflexivity. Qed.
Example test_parameter_substitution_invalid_21 : parse_with [36;123;34;102;111;111;34;125]%N [m (p_parameter B F)]
  = [VErr (BadSubst TDoubleQuote (mkPos 2 1 3))].
Proof. vm_compute. reflexivity. Qed.
Example test_parameter_substitution_invalid_22 : parse_with [36;123;96;102;111;111;96;125]%N [m (p_parameter B F)]
  = [VErr (BadSubst TBacktick (mkPos 2 1 3))].
Proof. vm_compute. reflexivity. Qed.
Example test_word_single_quote_valid_1 : parse_with [39;97;98;99;38;38;124;124;10;10;35;99;111;109;109;101;110;116;10;97;98;99;39]%N [m (p_word B F)]
  = [VOk].
Proof. vm_compute. reflexivity. Qed.
Example test_word_single_quote_valid_slash_remains_literal_1 : parse_with [39;92;10;39]%N [m (p_word B F)]
  = [VOk].
Proof. vm_compute. reflexivity. Qed.
Example test_word_single_quote_valid_does_not_quote_single_quotes_1 : parse_with [39;104;101;108;108;111;32;92;39]%N [m (p_word B F)]
  = [VOk].
Proof. vm_compute. reflexivity. Qed.
Example test_word_single_quote_invalid_missing_close_quote_1 : parse_with [39;104;101;108;108;111]%N [m (p_word B F)]
  = [VErr (Unmatched TSingleQuote (mkPos 0 1 1))].
Proof. vm_compute. reflexivity. Qed.
Example test_word_double_quote_valid_1 : parse_with [34;97;98;99;38;38;124;124;10;10;35;99;111;109;109;101;110;116;10;97;98;99;34]%N [m (p_word B F)]
  = [VOk].
Proof. vm_compute. reflexivity. Qed.
Example test_word_double_quote_valid_recognizes_parameters_1 : parse_with [34;116;101;115;116;32;97;115;100;102;36;102;111;111;32;36;34]%N [m (p_word B F)]
  = [VOk].
Proof. vm_compute. reflexivity. Qed.
Example test_word_double_quote_valid_recognizes_backticks_1 : parse_with [34;116;101;115;116;32;97;115;100;102;32;96;102;111;111;96;34]%N [m (p_word B F)]
  = [VOk].
Proof. vm_compute. reflexivity. Qed.
Example test_word_double_quote_valid_slash_escapes_dollar_1 : parse_with [34;116;101;115;116;92;36;102;111;111;32;36;64;34]%N [m (p_word B F)]
  = [VOk].
Proof. vm_compute. reflexivity. Qed.
Example test_word_double_quote_valid_slash_escapes_backtick_1 : parse_with [34;116;101;115;116;92;96;32;36;42;34]%N [m (p_word B F)]
  = [VOk].
Proof. vm_compute. reflexivity. Qed.
Example test_word_double_quote_valid_slash_escapes_double_quote_1 : parse_with [34;116;101;115;116;92;34;32;36;35;34]%N [m (p_word B F)]
  = [VOk].
Proof. vm_compute. reflexivity. Qed.
Example test_word_double_quote_valid_slash_escapes_newline_1 : parse_with [34;116;101;115;116;92;10;32;36;63;10;34]%N [m (p_word B F)]
  = [VOk].
Proof. vm_compute. reflexivity. Qed.
Example test_word_double_quote_valid_slash_escapes_slash_1 : parse_with [34;116;101;115;116;92;92;32;36;48;34]%N [m (p_word B F)]
  = [VOk].
Proof. vm_compute. reflexivity. Qed.
Example test_word_double_quote_valid_slash_remains_literal_in_general_case_1 : parse_with [34;116;92;101;115;116;32;36;36;34]%N [m (p_word B F)]
  = [VOk].
Proof. vm_compute. reflexivity. Qed.
Example test_word_double_quote_slash_invalid_missing_close_quote_1 : parse_with [34;104;101;108;108;111]%N [m (p_word B F)]
  = [VErr (Unmatched TDoubleQuote (mkPos 0 1 1))].
Proof. vm_compute. reflexivity. Qed.
Example test_word_double_quote_slash_invalid_missing_close_quote_2 : parse_with [34;104;101;108;108;111;92;34]%N [m (p_word B F)]
  = [VErr (Unmatched TDoubleQuote (mkPos 0 1 1))].
Proof. vm_compute. reflexivity. Qed.
Example test_word_literal_dollar_if_not_param_1 : parse_with [36;37;97;115;100;102]%N [m (p_word B F)]
  = [VOk].
Proof. vm_compute. reflexivity. Qed.
Example test_word_does_not_capture_comments_1 : parse_with [119;111;114;100;32;32;32;35;99;111;109;109;101;110;116;10]%N [m (p_word B F)]
  = [VOk].
Proof. vm_compute. reflexivity. Qed.
