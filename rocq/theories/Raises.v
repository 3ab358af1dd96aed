(** * Programs that fail on given tokens

    [raises p ts E]: started before the tokens [ts] the program [p] fails with an error [E] (or
    lacks fuel); the counterpart of [runs]. *)
From Verif Require Import Base Token Pos Ast Builder Prog Iter Located IterProofs ParserBase RunLemmas Entry Api Total Runs.

Section Raises.
Context {BS BE : Type}.
Notation prog := (prog BS BE).
Variable E : perr BE -> Prop.

Definition raises {A} (p : prog A) (ts : list token) : Prop :=
  forall L e b, map fst L = ts ->
    match lrun p (mkL L e) b with
    | (OFuel, _, _) => True
    | (OErr x, _, _) => E x
    | _ => False
    end.
Lemma raises_fuel {A} ts : raises (outoffuel : prog A) ts.
Proof. intros L e b H. exact I. Qed.
Lemma raises_throw {A} x ts : E x -> raises (throw x : prog A) ts.
Proof. intros H L e b HL. exact H. Qed.
(** The failing call comes first, or after a call that succeeds. *)
Lemma raises_first {A C} (p : prog A) (f : A -> prog C) ts : raises p ts -> raises (bind p f) ts.
Proof.
  intros Hp L e b H. rewrite lrun_bind. specialize (Hp L e b H).
  destruct (lrun p (mkL L e) b) as [[[x|x|x|] l'] b']; try contradiction; auto.
Qed.
Lemma raises_after {A C} (p : prog A) (f : A -> prog C) ts a mid :
  runs p ts a mid -> raises (f a) mid -> raises (bind p f) ts.
Proof.
  intros Hp Hf L e b H. rewrite lrun_bind. specialize (Hp L e b H).
  destruct (lrun p (mkL L e) b) as [[[x|x|x|] [L' e']] b']; try contradiction; auto.
  destruct Hp as (-> & -> & H1 & H2). cbn in *. subst e'. exact (Hf L' e b H1).
Qed.
Lemma raises_assoc {A C D} (p : prog A) (f : A -> prog C) (g : C -> prog D) ts :
  raises (bind p (fun x => bind (f x) g)) ts -> raises (bind (bind p f) g) ts.
Proof.
  intros H L e b HL. specialize (H L e b HL). revert H. rewrite !lrun_bind.
  destruct (lrun p (mkL L e) b) as [[[x|x|x|] l'] b']; auto. now rewrite lrun_bind.
Qed.
Lemma raises_retb {A C} (a : A) (f : A -> prog C) ts : raises (f a) ts -> raises (bind (ret a) f) ts.
Proof. exact (fun H => H). Qed.
Lemma raises_next {C} (f : option token -> prog C) ts : raises (f (hd_error ts)) (tl ts) -> raises (bind next f) ts.
Proof.
  intros H L e b HL. rewrite lrun_bind, lrun_next. unfold l_hd, l_tl. cbn [toks end_pos].
  rewrite HL. apply H. rewrite <- HL. destruct L; reflexivity.
Qed.
Lemma raises_peek {C} (f : option token -> prog C) ts : raises (f (hd_error ts)) ts -> raises (bind peek f) ts.
Proof. intros H L e b HL. rewrite lrun_bind, lrun_peek. unfold l_hd. cbn [toks]. rewrite HL. now apply H. Qed.
Lemma raises_getpos {C} (f : spos -> prog C) ts : (forall p, raises (f p) ts) -> raises (bind getpos f) ts.
Proof. intros H L e b HL. rewrite lrun_bind, lrun_getpos. now apply H. Qed.
Lemma raises_look {B C} (m : mp B) (f : B -> prog C) ts : raises (f (look m ts)) ts -> raises (bind (multipeek m) f) ts.
Proof. intros H L e b HL. rewrite lrun_bind, lrun_multipeek. cbn [toks]. rewrite HL. now apply H. Qed.
Lemma raises_skip {C} fuel (f : unit -> prog C) ts : raises (f tt) (skipw ts) -> raises (bind (skip_whitespace fuel) f) ts.
Proof. intros H. eapply raises_after; [apply runs_skip_end|exact H]. Qed.
Lemma raises_eat {C} t (f : unit -> prog C) ts : raises (f tt) ts -> raises (bind (eat t) f) (t :: ts).
Proof.
  intros H. unfold eat. apply raises_assoc, raises_peek. cbn [hd_error otoken_eqb].
  rewrite token_eqb_refl. apply raises_assoc, raises_next, raises_retb. exact H.
Qed.
Lemma raises_eat_maybe_no {C} t (f : bool -> prog C) ts : hd_error ts <> Some t ->
  raises (f false) ts -> raises (bind (eat_maybe t) f) ts.
Proof.
  intros Hn H. unfold eat_maybe. apply raises_assoc, raises_peek.
  destruct (otoken_eqb_spec (hd_error ts) (Some t)); [contradiction|]. apply raises_retb. exact H.
Qed.
Lemma raises_eat_maybe_yes {C} t (f : bool -> prog C) ts : 
  raises (f true) ts -> raises (bind (eat_maybe t) f) (t :: ts).
Proof.
  intros H. unfold eat_maybe. apply raises_assoc, raises_peek. cbn [hd_error otoken_eqb].
  rewrite token_eqb_refl. apply raises_assoc, raises_next, raises_retb. exact H.
Qed.
(** Unexpected: the next token is reported. *)
Lemma raises_unexpected {A} t ts : (forall p, E (Unexpected t p)) -> raises (unexpected : prog A) (t :: ts).
Proof.
  intros H L e b HL. destruct L as [|[t' p] L]; [discriminate|]. injection HL as -> _.
  pose proof (H p) as Hp. revert Hp. cbn. auto.
Qed.
End Raises.

Ltac raise_step :=
  lazymatch goal with
  | |- raises _ (bind (bind _ _) _) _ => apply raises_assoc
  | |- raises _ (bind (ret _) _) _ => apply raises_retb
  | |- raises _ outoffuel _ => apply raises_fuel
  | |- raises _ (bind next _) _ => apply raises_next; cbn [hd_error tl]; cbv beta match
  | |- raises _ (bind peek _) _ => apply raises_peek; cbn [hd_error]; cbv beta match
  | |- raises _ (bind getpos _) _ => apply raises_getpos; intros ?
  | |- raises _ (bind (multipeek _) _) _ => apply raises_look
  | |- raises _ (bind (eat ?t) _) (?t :: _) => apply raises_eat
  | |- raises _ (bind (eat_maybe ?t) _) (?t :: _) => apply raises_eat_maybe_yes
  | |- raises _ (bind (skip_whitespace _) _) _ => apply raises_skip
  end.

Theorem raises_concrete B m fuel s b E : parser_reach B s b ->
  (length (tokens_left s) + 2 < fuel)%nat ->
  raises E (call B m fuel) (tokens_left s) ->
  exists x s' b', run concrete (call B m fuel) s b = (OErr x, s', b') /\ E x.
Proof.
  intros HR Hf H.
  pose proof (parser_terminates B _ _ fuel s b (call_entry B m) HR Hf) as Ht.
  pose proof (run_transfer (call B m fuel) s b (parser_reach_good _ _ _ HR)) as T.
  destruct (run concrete (call B m fuel) s b) as [[o s'] b'] eqn:Er.
  destruct T as [T G']. specialize (Ht _ _ _ eq_refl).
  specialize (H (toks (abs s)) (end_pos (abs s)) b (tokens_left_abs s)).
  replace (mkL (toks (abs s)) (end_pos (abs s))) with (abs s) in H by now destruct (abs s).
  unfold lrun in H. rewrite T in H. destruct o as [x|x|x|]; try contradiction; try congruence.
  eexists _, _, _. split; [reflexivity|exact H].
Qed.
