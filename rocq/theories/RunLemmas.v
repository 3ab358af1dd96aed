(** * Running programs on the specification iterator: rewriting lemmas *)
From Verif Require Import Base Token Pos Ast Prog Located.

Section Run.
Context {BS BE : Type}.
Notation prog := (prog BS BE).

Lemma run_bind_gen (I : iterops) {A C} (p : prog A) (f : A -> prog C) s b :
  run I (bind p f) s b =
  match run I p s b with
  | (OOk a, s', b') => run I (f a) s' b'
  | (OErr e, s', b') => (OErr e, s', b')
  | (OPanic x, s', b') => (OPanic x, s', b')
  | (OFuel, s', b') => (OFuel, s', b')
  end.
Proof.
  revert s b.
  induction p as [A a|A e|A x|A|A k IH|A k IH|A k IH|A B m k IH|A ts q k IH|A B i r q IHq k IH|A B g k IH];
    intros s b; cbn [bind run]; auto.
  - destruct (it_next I s) as [[t s']|]; auto.
  - destruct (it_peek I s) as [[t s']|]; auto.
  - destruct (it_multipeek I B m s) as [r s']. apply IH.
  - destruct (run I q (it_make I i) b) as [[[a|e|x|] s'] b']; auto.
  - destruct (g b) as [[a|e] b']; auto.
Qed.

Definition lrun {A} (p : prog A) (l : located) (b : BS) : outcome BE A * located * BS :=
  run located_ops p l b.

Lemma lrun_bind {A C} (p : prog A) (f : A -> prog C) l b :
  lrun (bind p f) l b =
  match lrun p l b with
  | (OOk a, l', b') => lrun (f a) l' b'
  | (OErr e, l', b') => (OErr e, l', b')
  | (OPanic x, l', b') => (OPanic x, l', b')
  | (OFuel, l', b') => (OFuel, l', b')
  end.
Proof. apply (run_bind_gen located_ops). Qed.

Definition l_hd (l : located) : option token := hd_error (map fst (toks l)).
Definition l_tl (l : located) : located := mkL (tl (toks l)) (end_pos l).

Lemma lrun_ret {A} (a : A) l b : lrun (ret a) l b = (OOk a, l, b).
Proof. reflexivity. Qed.
Lemma lrun_throw {A} e l b : lrun (throw e : prog A) l b = (OErr e, l, b).
Proof. reflexivity. Qed.
Lemma lrun_panic {A} e l b : lrun (panic e : prog A) l b = (OPanic e, l, b).
Proof. reflexivity. Qed.
Lemma lrun_fuel {A} l b : lrun (outoffuel : prog A) l b = (OFuel, l, b).
Proof. reflexivity. Qed.
Lemma lrun_next l b : lrun next l b = (OOk (l_hd l), l_tl l, b).
Proof.
  unfold lrun, next. cbn. unfold l_hd, l_tl. destruct l as [[|[t p] ts] e]; reflexivity.
Qed.
Lemma lrun_peek l b : lrun peek l b = (OOk (l_hd l), l, b).
Proof. unfold lrun, peek. cbn. unfold l_hd. destruct l as [[|[t p] ts] e]; reflexivity. Qed.
Lemma lrun_getpos l b : lrun getpos l b = (OOk (l_pos l), l, b).
Proof. reflexivity. Qed.
Lemma lrun_multipeek {B} (m : mp B) l b :
  lrun (multipeek m) l b = (OOk (look m (map fst (toks l))), l, b).
Proof. reflexivity. Qed.
Lemma lrun_buffer ts p l b : lrun (buffer ts p) l b = (OOk tt, l_buffer ts p l, b).
Proof. reflexivity. Qed.
Lemma lrun_sub {B} i r (q : prog B) l b :
  lrun (sub_iter i r q) l b =
  match lrun q (l_make i) b with
  | (OOk x, _, b') => (OOk x, l, b')
  | (OErr e, l', b') => (OErr e, if r then l else l', b')
  | (OPanic x, l', b') => (OPanic x, l', b')
  | (OFuel, l', b') => (OFuel, l', b')
  end.
Proof. reflexivity. Qed.
Lemma lrun_build {B} (f : BS -> (B + BE) * BS) l b :
  lrun (build f) l b =
  match f b with
  | (inl x, b') => (OOk x, l, b')
  | (inr e, b') => (OErr (Custom e), l, b')
  end.
Proof. unfold lrun, build. cbn. destruct (f b) as [[x|e] b']; reflexivity. Qed.

End Run.

Global Hint Rewrite @lrun_bind @lrun_ret @lrun_throw @lrun_panic @lrun_fuel @lrun_next @lrun_peek
  @lrun_getpos @lrun_multipeek @lrun_buffer @lrun_sub @lrun_build : lrun.
