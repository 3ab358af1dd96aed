(** * Characters, strings and integer parsing (the parts of Rust's core library used) *)
From Coq Require Export List NArith ZArith Bool Lia Arith.
From Coq Require Import Ascii String.
Export ListNotations.
Local Open Scope N_scope.

(** A Rust [char] is modelled by its code point; a [String]/[&str] by its list of code points. *)
Definition char := N.
Definition str := list char.

(** Literals: only used to write ASCII constants readably. *)
Fixpoint s_of (s : string) : str :=
  match s with
  | EmptyString => []
  | String a r => N_of_ascii a :: s_of r
  end.

(** Equality of strings (Rust [==] on [str]). *)
Fixpoint str_eqb (a b : str) : bool :=
  match a, b with
  | [], [] => true
  | x :: a', y :: b' => (x =? y) && str_eqb a' b'
  | _, _ => false
  end.

Lemma str_eqb_spec : forall a b, reflect (a = b) (str_eqb a b).
Proof.
  induction a as [|x a IH]; destruct b as [|y b]; simpl; try (constructor; congruence).
  destruct (N.eqb_spec x y); simpl.
  - destruct (IH b); constructor; congruence.
  - constructor; congruence.
Qed.

Lemma str_eqb_refl a : str_eqb a a = true.
Proof. destruct (str_eqb_spec a a); congruence. Qed.

Definition str_dec (a b : str) : {a = b} + {a <> b}.
Proof. destruct (str_eqb_spec a b); [left|right]; assumption. Defined.

(** [char::len_utf8]: number of bytes of the UTF-8 encoding (core library; used by
    [Token::len], token.rs 192-194, through [str::len]). *)
Definition len_utf8 (c : char) : nat :=
  if c <? 128 then 1%nat
  else if c <? 2048 then 2%nat
  else if c <? 65536 then 3%nat
  else 4%nat.

(** [str::len] in bytes. *)
Fixpoint str_len (s : str) : nat :=
  match s with
  | [] => 0%nat
  | c :: s' => (len_utf8 c + str_len s')%nat
  end.

Lemma len_utf8_pos c : (1 <= len_utf8 c)%nat.
Proof. unfold len_utf8. repeat (destruct (_ <? _)); lia. Qed.

Lemma str_len_app a b : str_len (a ++ b) = (str_len a + str_len b)%nat.
Proof. induction a; simpl; lia. Qed.

(** Character constants (named after the characters they denote). *)
Definition c_tab : char := 9.
Definition c_newline : char := 10.
Definition c_cr : char := 13.

(** [char::is_whitespace]: the Unicode [White_Space] property (core library). *)
Definition is_whitespace (c : char) : bool :=
  ((9 <=? c) && (c <=? 13)) || (c =? 32) || (c =? 133) || (c =? 160) || (c =? 5760)
  || ((8192 <=? c) && (c <=? 8202)) || (c =? 8232) || (c =? 8233) || (c =? 8239)
  || (c =? 8287) || (c =? 12288).

(** [char::is_digit(10)]: ASCII digits only (core library). *)
Definition is_digit10 (c : char) : bool := (48 <=? c) && (c <=? 57).

(** [char::is_alphabetic].  Exact for ASCII; for every other code point it is an arbitrary
    predicate, a parameter of the model (class [Uni]). *)
Class Uni := uni_alpha : N -> bool.
Definition is_alphabetic {U : Uni} (c : char) : bool :=
  if c <? 128 then ((65 <=? c) && (c <=? 90)) || ((97 <=? c) && (c <=? 122))
  else uni_alpha c.

(** [char::to_digit(radix)] (core library), for radix <= 16. *)
Definition to_digit (radix : N) (c : char) : option N :=
  let d := if (48 <=? c) && (c <=? 57) then Some (c - 48)
           else if (97 <=? c) && (c <=? 122) then Some (c - 87)
           else if (65 <=? c) && (c <=? 90) then Some (c - 55)
           else None in
  match d with
  | Some d => if d <? radix then Some d else None
  | None => None
  end.

(** Value of a digit string, [None] if some character is not a digit. *)
Fixpoint digits_value (radix : N) (acc : N) (s : str) : option N :=
  match s with
  | [] => Some acc
  | c :: s' =>
      match to_digit radix c with
      | Some d => digits_value radix (acc * radix + d) s'
      | None => None
      end
  end.

Definition c_plus : char := 43.
Definition c_minus : char := 45.

(** [uN::from_str_radix(s, radix).ok()] where [max] is the largest value of the type
    (core library).  An empty string, a lone sign, a non-digit and an overflow are errors;
    one leading [+] is accepted; [-] is not a digit. *)
Definition from_str_radix_u (max radix : N) (s : str) : option N :=
  let digits :=
    match s with
    | [] => None
    | c :: rest =>
        if c =? c_plus then (match rest with [] => None | _ => Some rest end) else Some s
    end in
  match digits with
  | None => None
  | Some ds =>
      match digits_value radix 0 ds with
      | Some v => if v <=? max then Some v else None
      | None => None
      end
  end.

(** [isize::from_str_radix(s, radix).ok()] on a 64 bit target (core library). *)
Definition isize_max : Z := (2 ^ 63 - 1)%Z.
Definition isize_min : Z := (- 2 ^ 63)%Z.
Definition from_str_radix_isize (radix : N) (s : str) : option Z :=
  let signed :=
    match s with
    | [] => None
    | c :: rest =>
        if c =? c_plus then (match rest with [] => None | _ => Some (false, rest) end)
        else if c =? c_minus then (match rest with [] => None | _ => Some (true, rest) end)
        else Some (false, s)
    end in
  match signed with
  | None => None
  | Some (neg, ds) =>
      match digits_value radix 0 ds with
      | Some v =>
          let z := if neg : bool then Z.opp (Z.of_N v) else Z.of_N v in
          if ((isize_min <=? z) && (z <=? isize_max))%Z then Some z else None
      | None => None
      end
  end.

Definition u16_max : N := 65535.
Definition u32_max : N := 4294967295.

(** [str::starts_with] for a string pattern. *)
Fixpoint starts_with (p s : str) : bool :=
  match p, s with
  | [], _ => true
  | x :: p', y :: s' => (x =? y) && starts_with p' s'
  | _ :: _, [] => false
  end.

(** [str::trim_start_matches(c)]. *)
Fixpoint trim_start_matches (c : char) (s : str) : str :=
  match s with
  | x :: s' => if x =? c then trim_start_matches c s' else s
  | [] => []
  end.

(** Number of occurrences of a character ([s.chars().filter(..).count()]). *)
Fixpoint count_char (c : char) (s : str) : nat :=
  match s with
  | [] => 0%nat
  | x :: s' => if x =? c then S (count_char c s') else count_char c s'
  end.

Lemma count_char_app c a b : count_char c (a ++ b) = (count_char c a + count_char c b)%nat.
Proof. induction a as [|x a IH]; simpl; [reflexivity|]. destruct (x =? c); simpl; lia. Qed.

Lemma count_char_0 c s : count_char c s = 0%nat <-> ~ In c s.
Proof.
  induction s as [|x s IH]; simpl; [tauto|].
  destruct (N.eqb_spec x c); simpl.
  - split; [discriminate|]. intros H. exfalso. apply H. auto.
  - rewrite IH. split; intros; [intros [|]; auto|]. intros Hin; apply H; auto.
Qed.
