(** * How much a call does: blanks, reserved words, balanced text *)
From Verif Require Import Base Token Pos Ast Builder Prog Iter Located IterProofs RunLemmas ParserBase Balanced BalancedTotal Wp
  Total Work.
Local Open Scope Z_scope.

Section Extra.
Context {BS BE : Type}.
Notation prog := (prog BS BE).
Variables N P : Z.
Lemma c_retb {A C} k r (a : A) (f : A -> prog C) l : cost N P k r (f a) l -> cost N P k r (bind (ret a) f) l.
Proof. exact (fun H => H). Qed.
Lemma c_throwb {A C} k r e (f : A -> prog C) l : 20 <= P -> 0 <= k -> cost N P k r (bind (throw e) f) l.
Proof. intros HP H. exact (c_throw N P HP k r e l H). Qed.
Lemma c_panicb {A C} k r e (f : A -> prog C) l : 20 <= P -> 0 <= k -> cost N P k r (bind (panic e) f) l.
Proof. intros HP H. exact (c_panic N P HP k r e l H). Qed.
Lemma c_fuelb {A C} k r (f : A -> prog C) l : cost N P k r (bind outoffuel f) l.
Proof. exact (c_fuel N P k r l). Qed.
Lemma c_next_some {A} k (r : A -> Z) f l t : l_hd l = Some t ->
  (forall l', sz l' = sz l - 1 -> cost N P (k - 1 + P) r (f (Some t)) l') -> cost N P k r (bind next f : prog A) l.
Proof.
  intros E H. apply c_next; [|congruence]. intros t0 l' E0 Hs. rewrite E in E0. injection E0 as <-. auto.
Qed.
Lemma c_unexpected {A} k (r : A -> Z) l : 20 <= P -> 2 <= k -> cost N P k r (unexpected : prog A) l.
Proof.
  intros HP Hk. unfold unexpected, make_unexpected_err. apply c_assoc, c_getpos. intros p. apply c_assoc, c_next.
  - intros t l' _ _. apply c_retb, c_throw; lia.
  - intros _. apply c_retb, c_throw; lia.
Qed.
Lemma c_unexpectedb {A C} k (r : C -> Z) (f : A -> prog C) l : 20 <= P -> 2 <= k -> cost N P k r (bind unexpected f) l.
Proof.
  intros HP Hk. unfold unexpected. apply c_assoc. unfold make_unexpected_err. apply c_assoc, c_getpos. intros p. apply c_assoc, c_next.
  - intros t l' _ _. apply c_retb, c_throwb; lia.
  - intros _. apply c_retb, c_throwb; lia.
Qed.
Lemma c_end {A} c r1 k r (p : prog A) l : spec N P c r1 p -> c <= k -> (forall a, r a <= k + r1 a) -> cost N P k r p l.
Proof. intros H Hk Hr. eapply c_mono; [apply Z.le_refl|exact Hr|]. exact (H k l Hk). Qed.
Lemma mk_spec {A} c r (p : prog A) : (forall k l, c <= k -> cost N P k (fun a => k + r a) p l) -> spec N P c r p.
Proof. exact (fun H => H). Qed.
End Extra.
#[local] Opaque cost Work.spec.

Ltac whyp := match goal with H : _ |- _ => apply H end.
Ltac wleaf := whyp.
Ltac wdepth := cbn; repeat (first [exact I | intros ? | match goal with |- context [match ?x with _ => _ end] => lazymatch x with context [match _ with _ => _ end] => fail | _ => destruct x end end; cbn]).
Ltac wred := cbn beta iota.
Lemma hd_none l : l_hd l = None -> map fst (toks l) = [].
Proof. unfold l_hd. destruct (map fst (toks l)); [reflexivity|discriminate]. Qed.
Ltac wcase x :=
  lazymatch x with
  | look ?m (map fst (toks ?l)) =>
      lazymatch goal with
      | _ : l_hd l = Some _ |- _ => destruct x eqn:?
      | _ =>
        let E := fresh "E" in destruct (l_hd l) eqn:E;
        [destruct x eqn:? |
         rewrite (hd_none l E);
         match goal with |- context [look m []] => let v := eval cbn in (look m []) in change (look m []) with v end]
      end
  | otoken_eqb ?a ?b => destruct (otoken_eqb_spec a b)
  | _ => first [is_var x; destruct x | destruct x eqn:?]
  end; wred.
Ltac wk1 :=
  lazymatch goal with
  | |- cost _ _ _ _ (bind ?p _) ?l =>
      lazymatch p with
      | bind _ _ => apply c_assoc
      | ret _ => apply c_retb; wred
      | throw _ => apply c_throwb; lia
      | panic _ => apply c_panicb; lia
      | outoffuel => apply c_fuelb
      | unexpected => apply c_unexpectedb; lia
      | peek => apply c_peek
      | getpos => apply c_getpos; intros ?
      | next =>
          lazymatch goal with
          | E : l_hd l = Some _ |- _ => apply (c_next_some _ _ _ _ _ _ _ E); intros ? ?; wred
          | E : l_hd l = None |- _ => apply c_next; [intros ? ? ? ?; congruence|intros ?; wred]
          | _ => apply c_next; [intros ? ? ? ?; wred|intros ?; wred]
          end
      | multipeek _ => apply (c_multipeek _ _ 3); [solve [wdepth]|]
      | build _ => apply c_build; [lia|lia|intros ?]
      | match ?x with _ => _ end => wcase x
      | _ => eapply c_spec; [wleaf|lia|let a := fresh "a" in intros a ? ?; wred; try (lazymatch goal with |- cost _ _ ?k _ _ _ => lazymatch k with context [match a with _ => _ end] => destruct a end end; wred)]
      end
  | |- cost _ _ _ _ (match ?x with _ => _ end) _ => wcase x
  | |- cost _ _ _ _ (ret _) _ => apply c_ret; wred; first [lia | idtac]
  | |- cost _ _ _ _ (throw _) _ => apply c_throw; lia
  | |- cost _ _ _ _ (panic _) _ => apply c_panic; lia
  | |- cost _ _ _ _ outoffuel _ => apply c_fuel
  | |- cost _ _ _ _ unexpected _ => apply c_unexpected; lia
  | |- cost _ _ _ _ _ _ => apply c_eta
  end.
Ltac wk := repeat wk1.
Ltac wspec := apply mk_spec; intros k l Hk.

Section Base.
Context {BS BE : Type}.
Notation prog := (prog BS BE).
Variables N P : Z.
Hypothesis HN : 0 <= N.
Hypothesis HP : 20 <= P.
Notation spec := (spec N P).

Lemma s_eat t : spec 4 (fun _ => P - 2) (eat t : prog _).
Proof. wspec. unfold eat. wk. Qed.
Lemma s_eat_maybe t : spec 1 (fun b : bool => if b then P - 2 else -1) (eat_maybe t : prog _).
Proof. wspec. unfold eat_maybe. wk. Qed.
Lemma s_skip_blanks : forall n, spec 1 (fun _ => -1) (skip_blanks n : prog _).
Proof. induction n as [|n IH]; wspec; cbn [skip_blanks]; wk. Qed.
Ltac wleaf ::=
  lazymatch goal with
  | |- Work.spec _ _ _ _ (eat _) => apply s_eat
  | |- Work.spec _ _ _ _ (eat_maybe _) => apply s_eat_maybe
  | |- Work.spec _ _ _ _ (skip_blanks _) => apply s_skip_blanks
  | |- _ => whyp
  end.
Ltac wih H := eapply c_end; [apply H|lia|intros; wred; lia].
Lemma s_skip_whitespace f : spec 5 (fun _ => -5) (skip_whitespace f : prog _).
Proof. unfold skip_whitespace. generalize f at 2 as n. induction n as [|n IH]; wspec; cbn [skip_whitespace_loop]; wk. Qed.
Lemma s_take_comment : forall n acc, spec 1 (fun _ => -1) (take_comment n acc : prog _).
Proof. induction n as [|n IH]; intros acc; wspec; cbn [take_comment]; wk. Qed.
Lemma c_take_comment n acc k l t : 1 <= k -> l_hd l = Some t -> cost N P k (fun _ => k + P - 2) (take_comment n acc : prog _) l.
Proof. intros Hk E. pose proof s_take_comment. destruct n as [|n]; cbn [take_comment]; wk. Qed.
Ltac wleaf ::=
  lazymatch goal with
  | |- Work.spec _ _ _ _ (eat _) => apply s_eat
  | |- Work.spec _ _ _ _ (eat_maybe _) => apply s_eat_maybe
  | |- Work.spec _ _ _ _ (skip_whitespace _) => apply s_skip_whitespace
  | |- _ => whyp
  end.
Definition g_newline (x : option newline_) : Z := match x with Some _ => P - 9 | None => -6 end.
Ltac wred ::= cbn beta iota delta [g_newline].
Lemma s_newline f : spec 8 g_newline (newline f : prog _).
Proof.
  wspec. unfold newline, g_newline. wk1. wk1. destruct (l_hd l') as [t|] eqn:E; [|wk].
  destruct t; try solve [wk]. eapply c_bind; [eapply c_take_comment; eauto; lia|]. intros; wk.
Qed.
Lemma s_linebreak f : spec 8 (fun _ => -6) (linebreak f : prog _).
Proof.
  unfold linebreak. pose proof (s_newline f) as H. generalize (@nil newline_). generalize f at 2 as n.
  induction n as [|n IH]; intros acc; wspec; cbn [linebreak_loop]; wk.
Qed.
Lemma s_prt f ts : spec 20 (fun _ => -18) (peek_reserved_token f ts : prog _).
Proof. wspec. unfold peek_reserved_token. cbn [reserved_token_tries]. wk. Qed.
Lemma s_prw f ts : spec 10 (fun _ => -9) (peek_reserved_word f ts : prog _).
Proof. wspec. unfold peek_reserved_word. wk. Qed.
Definition g_rtr (x : token + perr BE) : Z := match x with inl _ => P - 20 | inr _ => -24 end.
Ltac wred ::= cbn beta iota delta [g_newline g_rtr].
Lemma s_rtr f ts : spec 24 g_rtr (reserved_token_res f ts : prog _).
Proof. wspec. unfold reserved_token_res, make_unexpected_err, g_rtr. pose proof s_prt. wk. Qed.
Lemma s_rt f ts : spec 24 (fun _ => P - 20) (reserved_token f ts : prog _).
Proof. wspec. unfold reserved_token. pose proof s_rtr. wk. Qed.
Definition g_rw (x : option str) : Z := match x with Some _ => P - 12 | None => -9 end.
Lemma s_rw f ts : spec 10 g_rw (reserved_word f ts : prog _).
Proof.
  wspec. unfold reserved_word, peek_reserved_word, g_rw. destruct ts as [|w ts]; [wk|]. wk1. wk1. wk1.
  destruct (look _ _) as [s|] eqn:E; [|wk].
  assert (E' : exists t, l_hd l' = Some t).
  { unfold l_hd. destruct (map fst (toks l')) as [|t0 ts0]; [discriminate|]. cbn. eauto. }
  destruct E' as [t E']. wk.
Qed.
End Base.
