(** * Positional parameter numbers (C35) *)
From Verif Require Import Base Token.

(** [from_num] accepts exactly the numbers 0 to 9, and undoes [as_num]. *)
Theorem from_num_as_num p : from_num (as_num p) = Some p /\ (as_num p <= 9)%N.
Proof. destruct p; split; (reflexivity || (cbn; lia)). Qed.
Theorem as_num_from_num n : (n < 256)%N ->
  match from_num n with Some p => as_num p = n /\ (n <= 9)%N | None => (9 < n)%N end.
Proof.
  intros _. destruct (N.leb_spec n 9) as [H|H].
  - assert (E : (n = 0 \/ n = 1 \/ n = 2 \/ n = 3 \/ n = 4 \/ n = 5 \/ n = 6 \/ n = 7 \/ n = 8 \/ n = 9)%N) by lia.
    repeat (destruct E as [->|E]; [split; [reflexivity|lia]|]). subst. split; [reflexivity|lia].
  - destruct (from_num n) as [p|] eqn:E; [|exact H].
    exfalso. unfold from_num in E.
    repeat match type of E with
    | (match ?x with _ => _ end) = _ => destruct x; try discriminate; try lia
    | (if ?x then _ else _) = _ => destruct x eqn:?; try discriminate
    end.
Qed.
Example positional_witness : from_num 7 = Some P7 /\ from_num 10 = None /\ as_num P7 = 7%N.
Proof. repeat split. Qed.
