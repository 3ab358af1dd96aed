(** * Comparing two runs of the parser: different builders, different amounts of fuel

    [sim R p1 p2]: started on the same stream with related builder states, [p1] runs out of fuel,
    or [p1] and [p2] end the same way (same error, same panic, or results related by [R]), with
    the same stream left. *)
From Verif Require Import Base Token Pos Ast Builder Prog Located RunLemmas ParserBase Balanced Arith.

(** Errors are the same, up to the relation of the builders' own errors. *)
Definition err_rel {E1 E2} (RE : E1 -> E2 -> Prop) (e1 : perr E1) (e2 : perr E2) : Prop :=
  match e1, e2 with
  | BadFd a b, BadFd a' b' => a = a' /\ b = b'
  | BadIdent s p, BadIdent s' p' => s = s' /\ p = p'
  | BadSubst t p, BadSubst t' p' => t = t' /\ p = p'
  | Unmatched t p, Unmatched t' p' => t = t' /\ p = p'
  | IncompleteCmd c p k q, IncompleteCmd c' p' k' q' => c = c' /\ p = p' /\ k = k' /\ q = q'
  | Unexpected t p, Unexpected t' p' => t = t' /\ p = p'
  | UnexpectedEOF, UnexpectedEOF => True
  | Custom e, Custom e' => RE e e'
  | _, _ => False
  end.

(** Result types without builder values: the results are equal. *)
Definition same {A} (a1 a2 : A) : Prop := a2 = a1.
(** In general the second result is the image of the first. *)
Definition graph {A1 A2} (f : A1 -> A2) (a1 : A1) (a2 : A2) : Prop := a2 = f a1.

Section Sim.
Context {BS1 BE1 BS2 BE2 : Type}.
Variable RB : BS1 -> BS2 -> Prop.
Variable RE : BE1 -> BE2 -> Prop.
Notation prog1 := (prog BS1 BE1).
Notation prog2 := (prog BS2 BE2).

Definition out_rel {A1 A2} (R : A1 -> A2 -> Prop) (o1 : outcome BE1 A1) (o2 : outcome BE2 A2) : Prop :=
  match o1, o2 with
  | OOk a1, OOk a2 => R a1 a2
  | OErr e1, OErr e2 => err_rel RE e1 e2
  | OPanic s1, OPanic s2 => s1 = s2
  | _, _ => False
  end.

Definition sim {A1 A2} (R : A1 -> A2 -> Prop) (p1 : prog1 A1) (p2 : prog2 A2) : Prop :=
  forall l b1 b2, RB b1 b2 ->
  match lrun p1 l b1, lrun p2 l b2 with
  | (OFuel, _, _), _ => True
  | (o1, l1, b1'), (o2, l2, b2') => out_rel R o1 o2 /\ l1 = l2 /\ RB b1' b2'
  end.

Lemma sim_fuel {A1 A2} (R : A1 -> A2 -> Prop) p2 : sim R outoffuel p2.
Proof. intros l b1 b2 H. rewrite lrun_fuel. exact I. Qed.
Lemma sim_ret {A1 A2} (R : A1 -> A2 -> Prop) a1 a2 : R a1 a2 -> sim R (ret a1) (ret a2).
Proof. intros H l b1 b2 Hb. rewrite !lrun_ret. cbn. auto. Qed.
Lemma sim_throw {A1 A2} (R : A1 -> A2 -> Prop) e1 e2 : err_rel RE e1 e2 -> sim R (throw e1) (throw e2).
Proof. intros H l b1 b2 Hb. rewrite !lrun_throw. cbn. auto. Qed.
Lemma sim_panic {A1 A2} (R : A1 -> A2 -> Prop) s : sim R (panic s) (panic s).
Proof. intros l b1 b2 Hb. rewrite !lrun_panic. cbn. repeat split; auto. Qed.
Lemma sim_bind {A1 A2 C1 C2} (R : A1 -> A2 -> Prop) (S : C1 -> C2 -> Prop) p1 p2 k1 k2 :
  sim R p1 p2 -> (forall a1 a2, R a1 a2 -> sim S (k1 a1) (k2 a2)) -> sim S (bind p1 k1) (bind p2 k2).
Proof.
  intros Hp Hk l b1 b2 Hb. rewrite !lrun_bind. specialize (Hp l b1 b2 Hb).
  destruct (lrun p1 l b1) as [[[a1|e1|s1|] l1] b1'], (lrun p2 l b2) as [[[a2|e2|s2|] l2] b2'];
    cbn in Hp; try tauto; destruct Hp as (H1 & <- & H2); try tauto.
  exact (Hk a1 a2 H1 _ _ _ H2).
Qed.
Lemma sim_next : sim same next next.
Proof. intros l b1 b2 Hb. rewrite !lrun_next. cbn. repeat split; auto. Qed.
Lemma sim_peek : sim same peek peek.
Proof. intros l b1 b2 Hb. rewrite !lrun_peek. cbn. repeat split; auto. Qed.
Lemma sim_getpos : sim same getpos getpos.
Proof. intros l b1 b2 Hb. rewrite !lrun_getpos. cbn. repeat split; auto. Qed.
Lemma sim_multipeek {A} (m : mp A) : sim same (multipeek m) (multipeek m).
Proof. intros l b1 b2 Hb. rewrite !lrun_multipeek. cbn. repeat split; auto. Qed.
Lemma sim_multipeek_gen {A} (R : A -> A -> Prop) (m1 m2 : mp A) :
  (forall ts, R (look m1 ts) (look m2 ts)) -> sim R (multipeek m1) (multipeek m2).
Proof. intros H l b1 b2 Hb. rewrite !lrun_multipeek. cbn. auto. Qed.
Lemma sim_buffer ts p : sim same (buffer ts p) (buffer ts p).
Proof. intros l b1 b2 Hb. rewrite !lrun_buffer. cbn. repeat split; auto. Qed.
Lemma sim_sub {A1 A2} (R : A1 -> A2 -> Prop) i r q1 q2 :
  sim R q1 q2 -> sim R (sub_iter i r q1) (sub_iter i r q2).
Proof.
  intros Hp l b1 b2 Hb. rewrite !lrun_sub. specialize (Hp (l_make i) b1 b2 Hb).
  destruct (lrun q1 (l_make i) b1) as [[[a1|e1|s1|] l1] b1'], (lrun q2 (l_make i) b2) as [[[a2|e2|s2|] l2] b2'];
    cbn in Hp; try tauto; destruct Hp as (H1 & <- & H2); try tauto; cbn; auto.
Qed.

(** Builder calls. *)
Definition bld_rel {A1 A2} (R : A1 -> A2 -> Prop)
    (f1 : BS1 -> (A1 + BE1) * BS1) (f2 : BS2 -> (A2 + BE2) * BS2) : Prop :=
  forall b1 b2, RB b1 b2 ->
  match f1 b1, f2 b2 with
  | (inl a1, b1'), (inl a2, b2') => R a1 a2 /\ RB b1' b2'
  | (inr e1, b1'), (inr e2, b2') => RE e1 e2 /\ RB b1' b2'
  | _, _ => False
  end.
Lemma sim_build {A1 A2} (R : A1 -> A2 -> Prop) f1 f2 : bld_rel R f1 f2 -> sim R (build f1) (build f2).
Proof.
  intros H l b1 b2 Hb. rewrite !lrun_build. specialize (H b1 b2 Hb).
  destruct (f1 b1) as [[a1|e1] b1'], (f2 b2) as [[a2|e2] b2']; cbn; tauto.
Qed.
Lemma sim_mono {A1 A2} (R S : A1 -> A2 -> Prop) p1 p2 :
  sim R p1 p2 -> (forall a1 a2, R a1 a2 -> S a1 a2) -> sim S p1 p2.
Proof.
  intros Hp H l b1 b2 Hb. specialize (Hp l b1 b2 Hb).
  destruct (lrun p1 l b1) as [[[a1|e1|s1|] l1] b1'], (lrun p2 l b2) as [[[a2|e2|s2|] l2] b2'];
    cbn in *; try tauto. destruct Hp as (H1 & H2). split; auto.
Qed.

End Sim.

Create HintDb sim.
#[global] Hint Resolve sim_next sim_peek sim_getpos sim_multipeek sim_buffer sim_fuel sim_panic : sim.

(** A step of a proof of [sim]: follow the two programs, which have the same shape. *)
Ltac sim_leaf := solve [eauto with sim].
Ltac sim_red := cbv beta iota; cbn [same graph fst snd negb andb orb option_map].
Ltac sim_step :=
  lazymatch goal with
  | |- sim _ _ _ (let _ := _ in _) _ => cbv zeta
  | |- sim _ _ _ (bind _ _) (bind _ _) =>
      eapply sim_bind; [sim_leaf|
        let a := fresh "a" in let a2 := fresh "a2" in let H := fresh "H" in
        intros a a2 H; unfold same, graph in H; subst a2; sim_red]
  | |- sim _ _ _ (ret _) (ret _) => apply sim_ret; unfold same, graph; first [reflexivity | idtac]
  | |- sim _ _ _ (throw _) (throw _) => apply sim_throw; first [solve [cbn; auto] | idtac]
  | |- sim _ _ _ (panic _) (panic _) => apply sim_panic
  | |- sim _ _ _ (build _) (build _) => apply sim_build; sim_leaf
  | |- sim _ _ _ outoffuel _ => apply sim_fuel
  | |- sim _ _ _ (match ?x with _ => _ end) _ =>
      first [destruct x | let E := fresh "E" in destruct x eqn:E]; sim_red
  | |- _ => sim_leaf
  end.

(** Loops: the second has at least as much fuel. *)
Ltac sim_loop IH :=
  let n := fresh "n" in
  intros n; induction n as [|n IH]; intros m Hle;
  [intros; apply sim_fuel|destruct m as [|m]; [lia|]; apply le_S_n in Hle; intros].

Section Base.
Context {BS1 BE1 BS2 BE2 : Type}.
Variable RB : BS1 -> BS2 -> Prop.
Variable RE : BE1 -> BE2 -> Prop.
Notation sim := (sim RB RE).

Lemma sim_make_unexpected : sim (err_rel RE) make_unexpected_err make_unexpected_err.
Proof. unfold make_unexpected_err. sim_step. sim_step. apply sim_ret. destruct a0; cbn; auto. Qed.
Lemma sim_unexpected {A1 A2} (R : A1 -> A2 -> Prop) : sim R unexpected unexpected.
Proof.
  unfold unexpected. eapply sim_bind; [apply sim_make_unexpected|]. intros. now apply sim_throw.
Qed.
Hint Resolve sim_unexpected : sim.
Lemma sim_eat t : sim same (eat t) (eat t).
Proof. unfold eat. sim_step. destruct (otoken_eqb a _); repeat sim_step. Qed.
Lemma sim_eat_maybe t : sim same (eat_maybe t) (eat_maybe t).
Proof. unfold eat_maybe. sim_step. destruct (otoken_eqb a _); repeat sim_step. Qed.
Hint Resolve sim_eat sim_eat_maybe : sim.

Lemma sim_skip_blanks : forall n m, (n <= m)%nat -> sim same (skip_blanks n) (skip_blanks m).
Proof. sim_loop IH. cbn [skip_blanks]. repeat sim_step. Qed.

Section Fuel.
Variables f1 f2 : nat.
Hypothesis Hf : (f1 <= f2)%nat.
Hint Resolve sim_skip_blanks : sim.

Lemma sim_skip_loop : forall n m, (n <= m)%nat ->
  sim same (skip_whitespace_loop f1 n) (skip_whitespace_loop f2 m).
Proof. sim_loop IH. cbn [skip_whitespace_loop]. repeat sim_step. Qed.
Lemma sim_skip_whitespace : sim same (skip_whitespace f1) (skip_whitespace f2).
Proof. apply sim_skip_loop. exact Hf. Qed.
Hint Resolve sim_skip_whitespace : sim.

Lemma sim_take_comment : forall n m, (n <= m)%nat -> forall acc,
  sim same (take_comment n acc) (take_comment m acc).
Proof. sim_loop IH. cbn [take_comment]. repeat sim_step. Qed.
Hint Resolve sim_take_comment : sim.

Lemma sim_newline : sim same (newline f1) (newline f2).
Proof. unfold newline. repeat sim_step. Qed.
Hint Resolve sim_newline : sim.

Lemma sim_linebreak_loop : forall n m, (n <= m)%nat -> forall acc,
  sim same (linebreak_loop f1 n acc) (linebreak_loop f2 m acc).
Proof. sim_loop IH. cbn [linebreak_loop]. repeat sim_step. Qed.
Lemma sim_linebreak : sim same (linebreak f1) (linebreak f2).
Proof. apply sim_linebreak_loop. exact Hf. Qed.

Lemma sim_tries ts n : sim same (reserved_token_tries f1 n ts) (reserved_token_tries f2 n ts).
Proof. induction n as [|n IH]; cbn [reserved_token_tries]; repeat sim_step. Qed.
Hint Resolve sim_tries : sim.
Lemma sim_peek_reserved_token ts : sim same (peek_reserved_token f1 ts) (peek_reserved_token f2 ts).
Proof. unfold peek_reserved_token. destruct ts; [sim_step|]. destruct (existsb _ _); repeat sim_step. Qed.
Lemma sim_peek_reserved_word ts : sim same (peek_reserved_word f1 ts) (peek_reserved_word f2 ts).
Proof. unfold peek_reserved_word. destruct ts; repeat sim_step. Qed.
Hint Resolve sim_peek_reserved_word sim_peek_reserved_token : sim.
Lemma sim_reserved_word ts : sim same (reserved_word f1 ts) (reserved_word f2 ts).
Proof. unfold reserved_word. repeat sim_step. Qed.

(** Errors returned as values. *)
Definition res_rel (r1 : token + perr BE1) (r2 : token + perr BE2) : Prop :=
  match r1, r2 with
  | inl t, inl t' => t = t'
  | inr e, inr e' => err_rel RE e e'
  | _, _ => False
  end.
Lemma sim_reserved_token_res ts : sim res_rel (reserved_token_res f1 ts) (reserved_token_res f2 ts).
Proof.
  unfold reserved_token_res. sim_step. destruct a as [t|].
  - sim_step. destruct a as [t'|]; [|apply sim_panic]. apply sim_ret. reflexivity.
  - sim_step. eapply (sim_bind _ _ same).
    + destruct (existsb _ _); repeat sim_step.
    + intros _ _ _. eapply sim_bind; [apply sim_make_unexpected|]. intros e e' He. apply sim_ret. exact He.
Qed.
Lemma sim_reserved_token ts : sim same (reserved_token f1 ts) (reserved_token f2 ts).
Proof.
  unfold reserved_token. eapply sim_bind; [apply sim_reserved_token_res|].
  intros [t|e] [t'|e'] H; cbn in H; try contradiction; [subst; sim_step|now apply sim_throw].
Qed.
End Fuel.

Lemma sim_balanced_new d : sim same (balanced_new d) (balanced_new d).
Proof. unfold balanced_new. repeat sim_step. Qed.
Lemma sim_balanced_next b : sim same (balanced_next b) (balanced_next b).
Proof. unfold balanced_next. repeat sim_step. Qed.
Hint Resolve sim_balanced_new sim_balanced_next : sim.
Lemma sim_balanced_collect : forall n m, (n <= m)%nat -> forall b acc,
  sim same (balanced_collect n b acc) (balanced_collect m b acc).
Proof. sim_loop IH. cbn [balanced_collect]. repeat sim_step. Qed.
Hint Resolve sim_balanced_collect : sim.
Lemma sim_collect_balanced f1 f2 d : (f1 <= f2)%nat -> sim same (collect_balanced f1 d) (collect_balanced f2 d).
Proof. intros. unfold collect_balanced. repeat sim_step. Qed.
Lemma sim_bbr_new p : sim same (bbr_new p) (bbr_new p).
Proof. unfold bbr_new. repeat sim_step. Qed.
Lemma sim_bbr_next b : sim same (bbr_next b) (bbr_next b).
Proof. unfold bbr_next. repeat sim_step. Qed.
Hint Resolve sim_bbr_new sim_bbr_next : sim.
Lemma sim_bbr_collect : forall n m, (n <= m)%nat -> forall b acc,
  sim same (bbr_collect n b acc) (bbr_collect m b acc).
Proof. sim_loop IH. cbn [bbr_collect]. repeat sim_step. Qed.
Hint Resolve sim_bbr_collect : sim.
Lemma sim_collect_bbr f1 f2 p : (f1 <= f2)%nat -> sim same (collect_bbr f1 p) (collect_bbr f2 p).
Proof. intros. unfold collect_bbr. repeat sim_step. Qed.
Lemma sim_chunks_loop : forall n m, (n <= m)%nat -> forall b all p c,
  sim same (chunks_loop n b all p c) (chunks_loop m b all p c).
Proof. sim_loop IH. cbn [chunks_loop]. repeat sim_step. Qed.
Hint Resolve sim_chunks_loop : sim.
Lemma sim_create_token_iter f1 f2 p : (f1 <= f2)%nat -> sim same (create_token_iter f1 p) (create_token_iter f2 p).
Proof. intros. unfold create_token_iter. repeat sim_step. Qed.
End Base.
#[global] Hint Resolve sim_unexpected sim_eat sim_eat_maybe sim_skip_whitespace sim_newline sim_linebreak
  sim_peek_reserved_token sim_peek_reserved_word sim_reserved_word sim_reserved_token sim_balanced_new
  sim_balanced_next sim_collect_balanced sim_collect_bbr sim_create_token_iter sim_take_comment : sim.
