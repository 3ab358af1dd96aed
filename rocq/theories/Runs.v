(** * Running programs on plain token lists

    [runs p ts a rest]: with enough fuel, [p] started before the tokens [ts] succeeds with [a],
    stops before [rest] and leaves the builder's state as it was, whatever the positions of the
    tokens.  Lack of fuel is allowed here and excluded afterwards by [parser_terminates]. *)
From Verif Require Import Base Token Lexer Pos Ast Builder Prog Iter Located IterProofs RunLemmas
  ParserBase BaseRun Entry Api Total.

(** Blanks and escaped newlines removed from the front. *)
Fixpoint skipw (ts : list token) : list token :=
  match ts with
  | TWhitespace _ :: r => skipw r
  | TBackslash :: TNewline :: r => skipw r
  | _ => ts
  end.
Lemma skipw_skip_ws L : map fst (skip_ws L) = skipw (map fst L).
Proof.
  remember (length L) as n eqn:Hn. assert (H : (length L <= n)%nat) by lia. clear Hn.
  revert L H. induction n as [|n IH]; intros L H.
  - destruct L; [reflexivity|simpl in H; lia].
  - destruct L as [|[t p] L]; [reflexivity|]. rewrite skip_ws_eq. simpl in H.
    destruct t; try reflexivity.
    + destruct L as [|[t2 p2] L]; [reflexivity|]. simpl in H.
      destruct (token_eqb_spec t2 TNewline) as [->|Hn]; [cbn [map fst skipw]; apply IH; lia|].
      cbn [map fst]. destruct t2; try reflexivity. congruence.
    + cbn [map fst skipw]; apply IH; lia.
Qed.
Lemma skipw_idem ts : skipw (skipw ts) = skipw ts.
Proof.
  remember (length ts) as n eqn:Hn. assert (H : (length ts <= n)%nat) by lia. clear Hn.
  revert ts H. induction n as [|n IH]; intros ts H.
  - destruct ts; [reflexivity|simpl in H; lia].
  - destruct ts as [|t ts]; [reflexivity|]. simpl in H. destruct t; try reflexivity.
    + destruct ts as [|t2 ts]; [reflexivity|]. simpl in H. destruct t2; try reflexivity.
      cbn [skipw]. apply IH; lia.
    + cbn [skipw]. apply IH; lia.
Qed.

(** Tokens the parser skips between words. *)
Inductive blank : list token -> Prop :=
  | bl_nil : blank []
  | bl_ws w ts : blank ts -> blank (TWhitespace w :: ts)
  | bl_esc ts : blank ts -> blank (TBackslash :: TNewline :: ts).
Lemma blank_app a b : blank a -> blank b -> blank (a ++ b).
Proof. induction 1; cbn; auto; constructor; auto. Qed.
Lemma skipw_blank w ts : blank w -> skipw (w ++ ts) = skipw ts.
Proof. induction 1; cbn; auto. Qed.
Lemma skipw_blank_all w : blank w -> skipw w = [].
Proof. induction 1; cbn; auto. Qed.
(** A token that is not skipped. *)
Definition solid (t : token) : bool := match t with TWhitespace _ | TBackslash => false | _ => true end.
Lemma skipw_solid t ts : solid t = true -> skipw (t :: ts) = t :: ts.
Proof. destruct t; cbn; congruence. Qed.
Lemma skipw_decomp ts : exists w, blank w /\ ts = w ++ skipw ts.
Proof.
  remember (length ts) as n eqn:Hn. assert (H : (length ts <= n)%nat) by lia. clear Hn.
  revert ts H. induction n as [|n IH]; intros ts H.
  - destruct ts; [exists []; split; [constructor|reflexivity]|simpl in H; lia].
  - destruct ts as [|t ts]; [exists []; split; [constructor|reflexivity]|]. simpl in H.
    destruct t; try (exists []; split; [constructor|reflexivity]).
    + destruct ts as [|t2 ts]; [exists []; split; [constructor|reflexivity]|]. simpl in H.
      destruct t2; try (exists []; split; [constructor|reflexivity]).
      destruct (IH ts ltac:(lia)) as (w & Hw & E).
      exists (TBackslash :: TNewline :: w). split; [now constructor|]. cbn. now rewrite <- E.
    + destruct (IH ts ltac:(lia)) as (w & Hw & E).
      eexists (TWhitespace _ :: w). split; [now constructor|]. cbn. now rewrite <- E.
Qed.

Section Runs.
Context {BS BE : Type}.
Notation prog := (prog BS BE).

Definition runs {A} (p : prog A) (ts : list token) (a : A) (rest : list token) : Prop :=
  forall L e b, map fst L = ts ->
    match lrun p (mkL L e) b with
    | (OFuel, _, _) => True
    | (OOk x, l', b') => x = a /\ b' = b /\ map fst (toks l') = rest /\ end_pos l' = e
    | _ => False
    end.

Lemma runs_ret {A} (a : A) ts : runs (ret a) ts a ts.
Proof. intros L e b H. cbn. auto. Qed.
Lemma runs_fuel {A} (a : A) ts rest : runs outoffuel ts a rest.
Proof. intros L e b H. exact I. Qed.
Lemma runs_call {A C} (p : prog A) (f : A -> prog C) ts a mid c rest :
  runs p ts a mid -> runs (f a) mid c rest -> runs (bind p f) ts c rest.
Proof.
  intros Hp Hf L e b H. rewrite lrun_bind. specialize (Hp L e b H).
  destruct (lrun p (mkL L e) b) as [[[x|x|x|] [L' e']] b']; try contradiction; auto.
  destruct Hp as (-> & -> & H1 & H2). cbn in *. subst e'. exact (Hf L' e b H1).
Qed.
Lemma runs_assoc {A C D} (p : prog A) (f : A -> prog C) (g : C -> prog D) ts c rest :
  runs (bind p (fun x => bind (f x) g)) ts c rest -> runs (bind (bind p f) g) ts c rest.
Proof.
  intros H L e b HL. specialize (H L e b HL). revert H. rewrite !lrun_bind.
  destruct (lrun p (mkL L e) b) as [[[x|x|x|] l'] b']; auto. now rewrite lrun_bind.
Qed.
Lemma runs_retb {A C} (a : A) (f : A -> prog C) ts c rest :
  runs (f a) ts c rest -> runs (bind (ret a) f) ts c rest.
Proof. exact (fun H => H). Qed.
Lemma runs_fuelb {A C} (f : A -> prog C) ts c rest : runs (bind outoffuel f) ts c rest.
Proof. exact (runs_fuel c ts rest). Qed.
Lemma runs_next {C} (f : option token -> prog C) ts c rest :
  runs (f (hd_error ts)) (tl ts) c rest -> runs (bind next f) ts c rest.
Proof.
  intros H L e b HL. rewrite lrun_bind, lrun_next. unfold l_hd, l_tl. cbn [toks end_pos].
  rewrite HL. apply H. rewrite <- HL. destruct L; reflexivity.
Qed.
Lemma runs_peek {C} (f : option token -> prog C) ts c rest :
  runs (f (hd_error ts)) ts c rest -> runs (bind peek f) ts c rest.
Proof. intros H L e b HL. rewrite lrun_bind, lrun_peek. unfold l_hd. cbn [toks]. rewrite HL. now apply H. Qed.
Lemma runs_getpos {C} (f : spos -> prog C) ts c rest :
  (forall p, runs (f p) ts c rest) -> runs (bind getpos f) ts c rest.
Proof. intros H L e b HL. rewrite lrun_bind, lrun_getpos. now apply H. Qed.
Lemma runs_look {B C} (m : mp B) (f : B -> prog C) ts c rest :
  runs (f (look m ts)) ts c rest -> runs (bind (multipeek m) f) ts c rest.
Proof. intros H L e b HL. rewrite lrun_bind, lrun_multipeek. cbn [toks]. rewrite HL. now apply H. Qed.
Lemma runs_buffer {C} us p (f : unit -> prog C) ts c rest :
  runs (f tt) (us ++ ts) c rest -> runs (bind (buffer us p) f) ts c rest.
Proof.
  intros H L e b HL. rewrite lrun_bind, lrun_buffer. apply H. cbn [toks].
  rewrite map_app, HL. f_equal. clear. revert p. induction us as [|u us IH]; intros p; cbn; [reflexivity|].
  now rewrite IH.
Qed.
Lemma locate_toks us p : map fst (locate us p) = us.
Proof. revert p. induction us as [|u us IH]; intros p; cbn; [reflexivity|]. now rewrite IH. Qed.
Definition iter_toks (i : new_iter) : list token :=
  match i with FromTokens ts => ts | FromChunks _ ch => flat_map fst ch end.
Lemma iter_toks_make i : map fst (toks (l_make i)) = iter_toks i.
Proof.
  destruct i as [us|p ch]; cbn; [apply locate_toks|].
  induction ch as [|[us q] ch IH]; cbn; [reflexivity|]. now rewrite map_app, locate_toks, IH.
Qed.
Lemma runs_sub {B C} i r (q : prog B) (f : B -> prog C) ts x mid c rest :
  runs q (iter_toks i) x mid -> runs (f x) ts c rest -> runs (bind (sub_iter i r q) f) ts c rest.
Proof.
  intros Hq H L e b HL. rewrite lrun_bind, lrun_sub.
  specialize (Hq (toks (l_make i)) (end_pos (l_make i)) b (iter_toks_make i)).
  replace (mkL (toks (l_make i)) (end_pos (l_make i))) with (l_make i) in Hq by now destruct (l_make i).
  destruct (lrun q (l_make i) b) as [[[y|y|y|] l'] b']; try contradiction; auto.
  destruct Hq as (-> & -> & _). now apply H.
Qed.
Lemma runs_build {B C} (g : BS -> (B + BE) * BS) (f : B -> prog C) x ts c rest :
  (forall b, g b = (inl x, b)) -> runs (f x) ts c rest -> runs (bind (build g) f) ts c rest.
Proof. intros Hg H L e b HL. rewrite lrun_bind, lrun_build, Hg. now apply H. Qed.
Lemma runs_build_end {B} (g : BS -> (B + BE) * BS) x ts :
  (forall b, g b = (inl x, b)) -> runs (build g) ts x ts.
Proof. intros Hg L e b HL. rewrite lrun_build, Hg. cbn. auto. Qed.
Lemma runs_multipeek_end {B} (m : mp B) ts : runs (multipeek m) ts (look m ts) ts.
Proof. intros L e b HL. rewrite lrun_multipeek. cbn [toks end_pos]. rewrite HL. auto. Qed.
(** A program that ends with a call. *)
Lemma runs_end {A} (p : prog A) ts a rest : runs (bind p (fun x => ret x)) ts a rest -> runs p ts a rest.
Proof.
  intros H L e b HL. specialize (H L e b HL). rewrite lrun_bind in H.
  destruct (lrun p (mkL L e) b) as [[[x|x|x|] l'] b']; auto.
Qed.

(** What a program that reads a fixed number of tokens does. *)
Lemma runs_eat {C} t (f : unit -> prog C) ts c rest :
  runs (f tt) ts c rest -> runs (bind (eat t) f) (t :: ts) c rest.
Proof.
  intros H. unfold eat. apply runs_assoc, runs_peek. cbn [hd_error otoken_eqb].
  rewrite token_eqb_refl. apply runs_assoc, runs_next, runs_retb. exact H.
Qed.
Lemma runs_eat_maybe_yes {C} t (f : bool -> prog C) ts c rest :
  runs (f true) ts c rest -> runs (bind (eat_maybe t) f) (t :: ts) c rest.
Proof.
  intros H. unfold eat_maybe. apply runs_assoc, runs_peek. cbn [hd_error otoken_eqb].
  rewrite token_eqb_refl. apply runs_assoc, runs_next, runs_retb. exact H.
Qed.
Lemma runs_eat_maybe_no {C} t (f : bool -> prog C) ts c rest :
  hd_error ts <> Some t ->
  runs (f false) ts c rest -> runs (bind (eat_maybe t) f) ts c rest.
Proof.
  intros Hn H. unfold eat_maybe. apply runs_assoc, runs_peek.
  destruct (otoken_eqb_spec (hd_error ts) (Some t)); [contradiction|]. apply runs_retb. exact H.
Qed.

Lemma skipw_solid_hd us ts : match us with t :: _ => solid t | [] => false end = true ->
  skipw (us ++ ts) = us ++ ts.
Proof. destruct us as [|t us]; [discriminate|]. cbn [app]. apply skipw_solid. Qed.

Section Fuel.
Variable fuel : nat.

Lemma runs_skip_blanks n : forall ts, runs (skip_blanks n : prog unit) ts tt
  ((fix sk ts := match ts with TWhitespace _ :: r => sk r | _ => ts end) ts).
Proof.
  induction n as [|n IH]; intros ts; [apply runs_fuel|].
  cbn [skip_blanks]. apply runs_peek. destruct ts as [|t ts]; [apply runs_ret|]. cbn [hd_error].
  destruct t; try apply runs_ret. apply runs_next. apply IH.
Qed.
Lemma runs_skip_end ts : runs (skip_whitespace fuel : prog unit) ts tt (skipw ts).
Proof.
  unfold skip_whitespace.
  enough (H : forall n ts, runs (skip_whitespace_loop fuel n : prog unit) ts tt (skipw ts)) by apply H.
  clear ts. induction n as [|n IH]; intros ts; [apply runs_fuel|].
  cbn [skip_whitespace_loop]. eapply runs_call; [apply runs_skip_blanks|].
  induction ts as [|t ts IHt]; [apply runs_look, runs_ret|].
  destruct t; try (apply runs_look, runs_ret).
  - apply runs_look. destruct ts as [|t2 ts]; [apply runs_ret|]. destruct t2; try apply runs_ret.
    cbn. apply runs_next, runs_next. apply IH.
  - exact IHt.
Qed.
Lemma runs_skip {C} (f : unit -> prog C) ts c rest :
  runs (f tt) (skipw ts) c rest -> runs (bind (skip_whitespace fuel) f) ts c rest.
Proof. intros H. eapply runs_call; [apply runs_skip_end|exact H]. Qed.

End Fuel.
End Runs.

Ltac rstep :=
  lazymatch goal with
  | |- runs (bind (bind _ _) _) _ _ _ => apply runs_assoc
  | |- runs (bind (ret _) _) _ _ _ => apply runs_retb
  | |- runs (ret _) _ _ _ => apply runs_ret
  | |- runs outoffuel _ _ _ => apply runs_fuel
  | |- runs (bind outoffuel _) _ _ _ => apply runs_fuelb
  | |- runs (bind next _) _ _ _ => apply runs_next; cbn [hd_error tl]; cbv beta match
  | |- runs (bind peek _) _ _ _ => apply runs_peek; cbn [hd_error]; cbv beta match
  | |- runs (bind getpos _) _ _ _ => apply runs_getpos; intros ?
  | |- runs (bind (multipeek _) _) _ _ _ => apply runs_look
  | |- runs (bind (buffer _ _) _) _ _ _ => apply runs_buffer
  | |- runs (bind (eat ?t) _) (?t :: _) _ _ => apply runs_eat
  | |- runs (bind (eat_maybe ?t) _) (?t :: _) _ _ => apply runs_eat_maybe_yes
  | |- runs (bind (skip_whitespace _) _) _ _ _ => apply runs_skip
  end.

(** ** From token lists to the parser *)

(** The methods of the parser, called before the tokens [ts]. *)
Theorem runs_concrete B m fuel s b a rest : parser_reach B s b ->
  (length (tokens_left s) + 2 < fuel)%nat ->
  runs (call B m fuel) (tokens_left s) a rest ->
  exists s', run concrete (call B m fuel) s b = (OOk a, s', b) /\ tokens_left s' = rest.
Proof.
  intros HR Hf H.
  pose proof (parser_terminates B _ _ fuel s b (call_entry B m) HR Hf) as Ht.
  pose proof (run_transfer (call B m fuel) s b (parser_reach_good _ _ _ HR)) as T.
  destruct (run concrete (call B m fuel) s b) as [[o s'] b'] eqn:E.
  destruct T as [T G']. specialize (Ht _ _ _ eq_refl).
  specialize (H (toks (abs s)) (end_pos (abs s)) b (tokens_left_abs s)).
  replace (mkL (toks (abs s)) (end_pos (abs s))) with (abs s) in H by now destruct (abs s).
  unfold lrun in H. rewrite T in H. destruct o; try contradiction; try congruence.
  destruct H as (-> & -> & H & _). exists s'. split; [reflexivity|].
  now rewrite <- tokens_left_abs.
Qed.
