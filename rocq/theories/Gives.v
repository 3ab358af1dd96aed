(** * What a successful run has read

    [gives p ts Q]: if the program [p], started before the tokens [ts], succeeds, then its result
    and the tokens that are left satisfy [Q].  The converse direction of [runs]: nothing is said
    about runs that fail. *)
From Verif Require Import Base Token Pos Ast Builder Prog Iter Located IterProofs ParserBase RunLemmas BaseRun Entry Api Total Runs.

Section Gives.
Context {BS BE : Type}.
Notation prog := (prog BS BE).

Definition gives {A} (p : prog A) (ts : list token) (Q : A -> list token -> Prop) : Prop :=
  forall L e b, map fst L = ts ->
    match lrun p (mkL L e) b with
    | (OOk a, l', _) => Q a (map fst (toks l'))
    | _ => True
    end.
Lemma gives_mono {A} (p : prog A) ts (Q Q' : A -> list token -> Prop) :
  gives p ts Q -> (forall a r, Q a r -> Q' a r) -> gives p ts Q'.
Proof.
  intros H HQ L e b HL. specialize (H L e b HL).
  destruct (lrun p (mkL L e) b) as [[[x|x|x|] l'] b']; auto.
Qed.
Lemma gives_ret {A} (a : A) ts (Q : A -> list token -> Prop) : Q a ts -> gives (ret a) ts Q.
Proof. intros H L e b HL. cbn. now subst ts. Qed.
Lemma gives_fuel {A} ts Q : gives (outoffuel : prog A) ts Q.
Proof. intros L e b H. exact I. Qed.
Lemma gives_throw {A} x ts Q : gives (throw x : prog A) ts Q.
Proof. intros L e b H. exact I. Qed.
Lemma gives_panic {A} x ts Q : gives (panic x : prog A) ts Q.
Proof. intros L e b H. exact I. Qed.
Lemma gives_bind {A C} (p : prog A) (f : A -> prog C) ts Q :
  gives p ts (fun a r => gives (f a) r Q) -> gives (bind p f) ts Q.
Proof.
  intros H L e b HL. rewrite lrun_bind. specialize (H L e b HL).
  destruct (lrun p (mkL L e) b) as [[[x|x|x|] [L' e']] b']; auto. exact (H L' e' b' eq_refl).
Qed.
Lemma gives_next ts (Q : option token -> list token -> Prop) : Q (hd_error ts) (tl ts) -> gives next ts Q.
Proof.
  intros H L e b HL. rewrite lrun_next. unfold l_hd, l_tl. cbn [toks]. rewrite HL.
  replace (map fst (tl L)) with (tl ts); [exact H|]. rewrite <- HL. destruct L; reflexivity.
Qed.
Lemma gives_peek ts (Q : option token -> list token -> Prop) : Q (hd_error ts) ts -> gives peek ts Q.
Proof. intros H L e b HL. rewrite lrun_peek. unfold l_hd. cbn [toks]. now rewrite HL. Qed.
Lemma gives_getpos ts (Q : spos -> list token -> Prop) : (forall p, Q p ts) -> gives getpos ts Q.
Proof. intros H L e b HL. rewrite lrun_getpos. cbn [toks]. now rewrite HL. Qed.
Lemma gives_look {R} (m : mp R) ts (Q : R -> list token -> Prop) : Q (look m ts) ts -> gives (multipeek m) ts Q.
Proof. intros H L e b HL. rewrite lrun_multipeek. cbn [toks]. now rewrite HL. Qed.
Lemma gives_runs {A} (p : prog A) ts a r (Q : A -> list token -> Prop) : runs p ts a r -> Q a r -> gives p ts Q.
Proof.
  intros H HQ L e b HL. specialize (H L e b HL).
  destruct (lrun p (mkL L e) b) as [[[x|x|x|] l'] b']; auto.
  destruct H as (-> & _ & <- & _). exact HQ.
Qed.
Lemma gives_skip fuel ts (Q : unit -> list token -> Prop) :
  (forall w us, blank w -> ts = w ++ us -> skipw us = us -> Q tt us) -> gives (skip_whitespace fuel) ts Q.
Proof.
  intros H. eapply gives_runs; [apply runs_skip_end|]. destruct (skipw_decomp ts) as (w & Hw & E).
  exact (H w _ Hw E (skipw_idem ts)).
Qed.
Lemma gives_unexpected {A} ts Q : gives (unexpected : prog A) ts Q.
Proof. 
  intros L e b HL. unfold unexpected. rewrite lrun_bind. unfold make_unexpected_err.
  destruct L as [|[t p] L]; exact I.
Qed.
Lemma gives_eat t ts (Q : unit -> list token -> Prop) :
  (forall us, ts = t :: us -> Q tt us) -> gives (eat t) ts Q.
Proof.
  intros H. unfold eat. apply gives_bind, gives_peek.
  destruct (otoken_eqb_spec (hd_error ts) (Some t)) as [E|E]; [|apply gives_unexpected].
  destruct ts as [|t' us]; [discriminate|]. injection E as ->.
  apply gives_bind, gives_next, gives_ret. now apply H.
Qed.
Lemma gives_eat_maybe t ts (Q : bool -> list token -> Prop) :
  (forall us, ts = t :: us -> Q true us) -> (hd_error ts <> Some t -> Q false ts) -> gives (eat_maybe t) ts Q.
Proof.
  intros H H'. unfold eat_maybe. apply gives_bind, gives_peek.
  destruct (otoken_eqb_spec (hd_error ts) (Some t)) as [E|E]; [|apply gives_ret; now apply H'].
  destruct ts as [|t' us]; [discriminate|]. injection E as ->.
  apply gives_bind, gives_next, gives_ret. now apply H.
Qed.
End Gives.

Ltac gstep :=
  cbv beta match;
  lazymatch goal with
  | |- gives (bind _ _) _ _ => apply gives_bind
  | |- gives (ret _) _ _ => apply gives_ret
  | |- gives next _ _ => apply gives_next; cbn [hd_error tl]
  | |- gives peek _ _ => apply gives_peek; cbn [hd_error]
  | |- gives getpos _ _ => apply gives_getpos; intros ?
  | |- gives (multipeek _) _ _ => apply gives_look
  | |- gives (skip_whitespace _) ?ts _ =>
      let w := fresh "w" in let us := fresh "us" in let Hw := fresh "Hw" in let E := fresh "E" in let Hk := fresh "Hk" in
      apply gives_skip; intros w us Hw E Hk; subst ts
  | |- gives (eat ?t) ?ts _ =>
      let us := fresh "us" in let E := fresh "E" in
      apply gives_eat; intros us E; (tryif is_var ts then subst ts else first [discriminate E|injection E as E; subst])
  | |- gives (eat_maybe ?t) ?ts _ =>
      let us := fresh "us" in let E := fresh "E" in
      apply gives_eat_maybe; [intros us E; (tryif is_var ts then subst ts else first [discriminate E|injection E as E; subst])|intros E]
  | |- gives unexpected _ _ => apply gives_unexpected
  | |- gives outoffuel _ _ => apply gives_fuel
  | |- gives (throw _) _ _ => apply gives_throw
  | |- gives (panic _) _ _ => apply gives_panic
  end.

Theorem gives_concrete B m fuel s b Q : parser_reach B s b ->
  gives (call B m fuel) (tokens_left s) Q ->
  forall a s' b', run concrete (call B m fuel) s b = (OOk a, s', b') -> Q a (tokens_left s').
Proof.
  intros HR H a s' b' E.
  pose proof (run_transfer (call B m fuel) s b (parser_reach_good _ _ _ HR)) as T.
  rewrite E in T. destruct T as [T G'].
  specialize (H (toks (abs s)) (end_pos (abs s)) b (tokens_left_abs s)).
  replace (mkL (toks (abs s)) (end_pos (abs s))) with (abs s) in H by now destruct (abs s).
  unfold lrun in H. rewrite T in H. now rewrite <- tokens_left_abs.
Qed.
