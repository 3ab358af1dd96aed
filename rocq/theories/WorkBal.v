(** * How much a call does: balanced text *)
From Verif Require Import Base Token Pos Ast Builder Prog Iter Located IterProofs RunLemmas ParserBase Balanced BalancedTotal Wp
  Total Work WorkBase.
Local Open Scope Z_scope.
#[local] Opaque cost Work.spec.

Section Bal.
Context {BS BE : Type}.
Notation prog := (prog BS BE).
Variables N P : Z.
Hypothesis HN : 0 <= N.
Hypothesis HP : 20 <= P.
Notation spec := (spec N P).

(** What is kept back for the token a backslash escapes. *)
Definition phi (b : balanced) : Z := match escaped b with Some _ => 20 | None => 0 end.
Definition g_bal (b : balanced) (x : option (token + unmatched) * balanced) : Z :=
  match fst x with Some (inl _) => 10 | _ => -8 end + phi (snd x) - phi b.
Ltac wred ::= cbn beta iota delta [g_bal phi escaped fst snd option_map].
Lemma s_bal_new d : spec 1 (fun b => -1 + 5 * phi b) (balanced_new d : prog _).
Proof. wspec. unfold balanced_new. wk. Qed.
Lemma s_bal_next b : spec 8 (g_bal b) (balanced_next b : prog _).
Proof.
  wspec. unfold balanced_next, g_bal, phi. destruct (escaped b) as [[t q]|] eqn:Ee.
  { wk. }
  destruct (bdone b); [wk; rewrite Ee; lia|]. wk1. destruct (otoken_eqb_spec (stack_top (bstack b)) (l_hd l)) as [E|E].
  - destruct (l_hd l) as [t|] eqn:E'; wk.
  - destruct (single_quote_top (bstack b)) as [q|]; wk.
Qed.
Ltac wleaf ::=
  lazymatch goal with
  | |- Work.spec _ _ _ _ (balanced_new _) => apply s_bal_new
  | |- Work.spec _ _ _ _ (balanced_next _) => apply s_bal_next
  | |- _ => whyp
  end.
Lemma phi_range b : 0 <= phi b <= 20.
Proof. unfold phi. destruct (escaped b); lia. Qed.
Ltac ph := repeat match goal with b : balanced |- _ =>
  lazymatch goal with _ : 0 <= phi b <= 20 |- _ => fail | _ => pose proof (phi_range b) end end.
Ltac wred ::= cbv beta iota delta [g_bal fst snd]; ph.
Lemma s_bal_collect : forall n b acc, spec (8 + phi b) (fun _ => -8 - phi b) (balanced_collect n b acc : prog _).
Proof.
  induction n as [|n IH]; intros b acc; wspec; cbn [balanced_collect]; ph; wk.
Qed.
Lemma s_collect n d : spec 10 (fun _ => -10) (collect_balanced n d : prog _).
Proof. wspec. unfold collect_balanced. pose proof s_bal_collect. wk. Qed.

Definition psi (x : option (token + unmatched)) : Z := match x with Some (inl _) => 1 | _ => 0 end.
Definition phi_b (s : bbr) : Z := phi (bbr_iter s) + psi (bbr_peeked s).
Definition g_bbr (b : bbr) (x : option (token + unmatched) * bbr) : Z :=
  match fst x with Some (inl _) => 1 | _ => -16 end + phi_b (snd x) - phi_b b.
Lemma psi_range b : 0 <= psi b <= 10.
Proof. unfold psi. destruct b as [[?|?]|]; lia. Qed.
Ltac wred ::= cbv beta iota delta [g_bal g_bbr phi_b psi bbr_iter bbr_peeked fst snd]; ph.
Lemma s_bbr_next b : spec 20 (g_bbr b) (bbr_next b : prog _).
Proof.
  wspec. destruct b as [b pk d]. unfold bbr_next. wred. destruct pk as [[t|u]|]; wk.
Qed.
Lemma phi_b_range b : 0 <= phi_b b <= 30.
Proof. unfold phi_b. pose proof (phi_range (bbr_iter b)). pose proof (psi_range (bbr_peeked b)). lia. Qed.
Ltac phb := repeat match goal with b : bbr |- _ =>
  lazymatch goal with _ : 0 <= phi_b b <= 30 |- _ => fail | _ => pose proof (phi_b_range b) end end.
Ltac wred ::= cbv beta iota delta [g_bbr fst snd]; phb.
Lemma s_bbr_collect : forall n b acc, spec (20 + phi_b b) (fun _ => -20 - phi_b b) (bbr_collect n b acc : prog _).
Proof.
  pose proof s_bbr_next.
  induction n as [|n IH]; intros b acc; wspec; cbn [bbr_collect]; phb; wk.
Qed.
Ltac wred ::= cbv beta iota delta [fst snd]; ph.
Lemma s_collect_bbr n p : spec 30 (fun _ => -30) (collect_bbr n p : prog _).
Proof.
  wspec. unfold collect_bbr, bbr_new. pose proof s_bbr_collect as H.
  wk1. wk1. wk1. cbv beta. eapply c_end; [apply H| |]; unfold phi_b; cbn [bbr_iter bbr_peeked psi]; intros; ph; lia.
Qed.

Definition lens (l : list (list token * spos)) : Z := Z.of_nat (length (flat_map fst l)).
(** Scanning a command substitution in backquotes. *)
Ltac wred ::= cbv beta iota delta [g_bal fst snd]; ph.
Lemma s_chunks : forall n b all p c, spec (10 + phi b) (fun _ => -10 - phi b) (chunks_loop n b all p c : prog _).
Proof.
  induction n as [|n IH]; intros b all p c; wspec; cbn [chunks_loop]; ph; wk.
Qed.
Lemma s_create n p : spec 20 (fun _ => -20) (create_token_iter n p : prog _).
Proof.
  wspec. unfold create_token_iter. pose proof s_chunks as H. wk.
Qed.
End Bal.
