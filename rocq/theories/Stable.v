(** * Errors that more input cannot repair: the rules and the basic methods

    [stable c p Q] compares two runs of the program [p]: on a stream that ends in a newline (or is
    empty), and on the same stream with more tokens behind it.  [c] and the states given to [Q] say
    what the first run knows about its stream: nothing, its next token, or that it has noticed the
    end.  Until it notices the end the two runs do the same; once it has, it reports no error that
    names a token. *)
From Verif Require Import Base Token Pos Ast Builder Prog Located RunLemmas ParserBase BaseRun Balanced
  BalancedSpec BalancedProofs BalancedTotal Arith.

(** Errors that point at a token that cannot stand where it is. *)
Definition final {E} (e : perr E) : Prop :=
  match e with
  | Unexpected _ _ | BadSubst _ _ | BadIdent _ _ => True
  | _ => False
  end.
(** Whole lines: nothing, or tokens of which the last is a newline. *)
Definition whole_lines (ts : list token) : Prop := ts = [] \/ exists pre, ts = pre ++ [TNewline].
Definition plain_tok (t : token) : Prop := t <> TDLess /\ t <> TDLessDash.
Definition clean (l : located) : Prop :=
  whole_lines (map fst (toks l)) /\ forall t, In t (map fst (toks l)) -> plain_tok t.
(** The stream with more behind it. *)
Definition ext (l : located) (more : list token) : located :=
  mkL (toks l ++ locate more (end_pos l)) (advance_all (end_pos l) more).

Inductive known := Free | Head (t : token) | Ended.
Definition knows (c : known) (l : located) : Prop :=
  match c with
  | Free => True
  | Head t => l_hd l = Some t
  | Ended => toks l = []
  end.

Lemma whole_tl t ts : whole_lines (t :: ts) -> whole_lines ts.
Proof.
  intros [H|[pre H]]; [discriminate|]. destruct pre as [|x pre]; injection H as _ H; [left; exact H|right; eauto].
Qed.
Lemma clean_tl l : clean l -> clean (l_tl l).
Proof.
  destruct l as [[|[t p] ts] e]; auto. intros [H1 H2]. split; cbn in *; [now apply whole_tl in H1|auto].
Qed.
Lemma clean_hd l t : clean l -> l_hd l = Some t -> plain_tok t.
Proof. destruct l as [[|[u p] ts] e]; [discriminate|]. intros [_ H] [= <-]. apply H. now left. Qed.
Lemma ext_hd l more t : l_hd l = Some t -> l_hd (ext l more) = Some t.
Proof. destruct l as [[|[u p] ts] e]; [discriminate|auto]. Qed.
Lemma ext_tl l more t : l_hd l = Some t -> l_tl (ext l more) = ext (l_tl l) more.
Proof. destruct l as [[|[u p] ts] e]; [discriminate|reflexivity]. Qed.
Lemma ext_pos l more : l_pos (ext l more) = l_pos l.
Proof. destruct l as [[|[u p] ts] e]; [|reflexivity]. destruct more; reflexivity. Qed.
Lemma ext_toks l more : map fst (toks (ext l more)) = map fst (toks l) ++ more.
Proof. unfold ext. cbn [toks]. now rewrite map_app, map_fst_locate. Qed.

(** Look-ahead that what follows the last newline does not change, when it starts with a token
    of which [P] holds. *)
Definition insensitive {B} (P : token -> Prop) (m : mp B) : Prop :=
  forall t ts more, P t -> whole_lines (t :: ts) -> look m (t :: ts) = look m ((t :: ts) ++ more).

Section Stable.
Context {BS BE : Type}.
Notation prog := (prog BS BE).

Definition stable {A} (c : known) (p : prog A) (Q : A -> known -> Prop) : Prop :=
  forall l b more, clean l -> knows c l ->
  match lrun p l b with
  | (OOk a, l', b') => exists c', Q a c' /\ knows c' l' /\ clean l' /\ (c = Ended -> c' = Ended) /\
      (c' <> Ended -> lrun p (ext l more) b = (OOk a, ext l' more, b'))
  | (OErr e, l', b') => final e \/ toks l' <> [] -> c <> Ended /\ lrun p (ext l more) b = (OErr e, ext l' more, b')
  | _ => True
  end.
Definition always {A} : A -> known -> Prop := fun _ _ => True.

Lemma stable_bind {A C} (p : prog A) (f : A -> prog C) c (Q : A -> known -> Prop) (R : C -> known -> Prop) :
  stable c p Q -> (forall a c', Q a c' -> stable c' (f a) R) -> stable c (bind p f) R.
Proof.
  intros Hp Hf l b more Hl Hc. specialize (Hp l b more Hl Hc). rewrite lrun_bind.
  destruct (lrun p l b) as [[[a|e|x|] l1] b1]; auto.
  - destruct Hp as (c1 & HQ & Hk & Hcl & Hend & Hsame). specialize (Hf a c1 HQ l1 b1 more Hcl Hk).
    destruct (lrun (f a) l1 b1) as [[[a2|e2|x2|] l2] b2]; auto.
    + destruct Hf as (c2 & H1 & H2 & H3 & H4 & H5). exists c2. split; [exact H1|]. split; [exact H2|]. split; [exact H3|]. split; [auto|].
      intros Hn. assert (c1 <> Ended) by (intros E1; auto). rewrite lrun_bind, Hsame by assumption. auto.
    + intros He. destruct (Hf He) as [Hn H5]. split; [intros E; auto|]. now rewrite lrun_bind, Hsame.
  - intros He. destruct (Hp He) as [Hn H5]. split; [exact Hn|]. now rewrite lrun_bind, H5.
Qed.
Lemma stable_mono {A} (p : prog A) c (Q R : A -> known -> Prop) :
  stable c p Q -> (forall a c', Q a c' -> R a c') -> stable c p R.
Proof.
  intros Hp H l b more Hl Hc. specialize (Hp l b more Hl Hc). destruct (lrun p l b) as [[[a|e|x|] l1] b1]; auto.
  destruct Hp as (c1 & HQ & Hr). eauto.
Qed.
Lemma stable_ret {A} (a : A) c (Q : A -> known -> Prop) : Q a c -> stable c (ret a) Q.
Proof. intros H l b more Hl Hc. rewrite lrun_ret. exists c. split; [exact H|]. split; [exact Hc|]. split; [exact Hl|]. split; [auto|]. intros _. now rewrite lrun_ret. Qed.
Lemma stable_throw {A} e c (Q : A -> known -> Prop) : (final e -> c <> Ended) -> stable c (throw e) Q.
Proof. intros H l b more Hl Hc. rewrite lrun_throw. intros He. split; [|apply lrun_throw].
  destruct He as [He|He]; [auto|]. intros ->. cbn in Hc. auto.
Qed.
Lemma stable_panic {A} x c (Q : A -> known -> Prop) : stable c (panic x) Q.
Proof. intros l b more Hl Hc. exact I. Qed.
Lemma stable_fuel {A} c (Q : A -> known -> Prop) : stable c outoffuel Q.
Proof. intros l b more Hl Hc. exact I. Qed.

Definition nextQ (a : option token) (c : known) : Prop :=
  match a with Some t => c = Free /\ plain_tok t | None => c = Ended end.
Definition peekQ (a : option token) (c : known) : Prop :=
  match a with Some t => c = Head t /\ plain_tok t | None => c = Ended end.
Lemma hd_none l : l_hd l = None -> toks l = [].
Proof. destruct l as [[|[t p] ts] e]; [auto|discriminate]. Qed.
Lemma stable_next c : stable c next nextQ.
Proof.
  intros l b more Hl Hc. rewrite lrun_next. destruct (l_hd l) as [t|] eqn:E.
  - exists Free. split; [split; [reflexivity|exact (clean_hd _ _ Hl E)]|]. split; [exact I|]. split; [now apply clean_tl|].
    split; [intros ->; cbn in Hc; destruct l as [ts e]; cbn in Hc; subst; discriminate|].
    intros _. now rewrite lrun_next, (ext_hd _ _ _ E), (ext_tl _ _ _ E).
  - exists Ended. split; [reflexivity|]. apply hd_none in E. destruct l as [ts e]. cbn in E. subst ts.
    split; [reflexivity|]. split; [exact Hl|]. split; [auto|congruence].
Qed.
Lemma stable_next_head t : stable (Head t) next (fun a c => a = Some t /\ c = Free).
Proof.
  intros l b more Hl Hc. cbn in Hc. rewrite lrun_next, Hc.
  exists Free. split; [auto|]. split; [exact I|]. split; [now apply clean_tl|].
  split; [discriminate|]. intros _. now rewrite lrun_next, (ext_hd _ _ _ Hc), (ext_tl _ _ _ Hc).
Qed.
Lemma stable_peek_head t : stable (Head t) peek (fun a c => a = Some t /\ c = Head t).
Proof.
  intros l b more Hl Hc. cbn in Hc. rewrite lrun_peek, Hc.
  exists (Head t). split; [auto|]. split; [exact Hc|]. split; [exact Hl|].
  split; [discriminate|]. intros _. now rewrite lrun_peek, (ext_hd _ _ _ Hc).
Qed.
Lemma stable_next_ended : stable Ended next (fun a c => a = None /\ c = Ended).
Proof.
  intros l b more Hl Hc. cbn in Hc. destruct l as [ts e]. cbn in Hc. subst ts. rewrite lrun_next.
  exists Ended. split; [auto|]. split; [reflexivity|]. split; [exact Hl|]. split; [auto|congruence].
Qed.
Lemma stable_peek_ended : stable Ended peek (fun a c => a = None /\ c = Ended).
Proof.
  intros l b more Hl Hc. cbn in Hc. destruct l as [ts e]. cbn in Hc. subst ts. rewrite lrun_peek.
  exists Ended. split; [auto|]. split; [reflexivity|]. split; [exact Hl|]. split; [auto|congruence].
Qed.
Lemma stable_peek c : stable c peek peekQ.
Proof.
  intros l b more Hl Hc. rewrite lrun_peek. destruct (l_hd l) as [t|] eqn:E.
  - exists (Head t). split; [split; [reflexivity|exact (clean_hd _ _ Hl E)]|]. split; [exact E|]. split; [exact Hl|].
    split; [intros ->; cbn in Hc; destruct l as [ts e]; cbn in Hc; subst; discriminate|].
    intros _. now rewrite lrun_peek, (ext_hd _ _ _ E).
  - exists Ended. split; [reflexivity|]. apply hd_none in E.
    split; [exact E|]. split; [exact Hl|]. split; [auto|congruence].
Qed.
Lemma stable_getpos c : stable c getpos (fun _ c' => c' = c).
Proof.
  intros l b more Hl Hc. rewrite lrun_getpos. exists c. split; [reflexivity|]. split; [exact Hc|]. split; [exact Hl|]. split; [auto|].
  intros _. now rewrite lrun_getpos, ext_pos.
Qed.
Lemma stable_build {A} (f : BS -> (A + BE) * BS) c : stable c (build f) (fun _ c' => c' = c).
Proof.
  intros l b more Hl Hc. rewrite lrun_build. destruct (f b) as [[a|e] b'] eqn:E.
  2:{ intros [[]|He]. split; [intros ->; cbn in Hc; auto|]. rewrite lrun_build, E. reflexivity. }
  exists c. split; [reflexivity|]. split; [exact Hc|]. split; [exact Hl|]. split; [auto|]. intros _. rewrite lrun_build, E. reflexivity.
Qed.
Lemma stable_multipeek_at {A} (m : mp A) t : insensitive (eq t) m -> stable (Head t) (multipeek m) (fun _ c' => c' = Head t).
Proof.
  intros Hm l b more Hl Hc. rewrite lrun_multipeek. exists (Head t). split; [reflexivity|]. split; [exact Hc|]. split; [exact Hl|]. split; [discriminate|].
  intros _. rewrite lrun_multipeek, ext_toks. destruct l as [[|[u p] ts] e]; [discriminate|]. cbn in Hc. injection Hc as ->.
  cbn [toks map fst]. rewrite <- Hm; auto. apply Hl.
Qed.
Lemma stable_multipeek {A} (m : mp A) c : insensitive (fun _ => True) m ->
  stable c (multipeek m) (fun _ c' => c' = c \/ c' = Ended).
Proof.
  intros Hm l b more Hl Hc. rewrite lrun_multipeek. destruct l as [[|[u p] ts] e].
  - exists Ended. split; [now right|]. split; [reflexivity|]. split; [exact Hl|]. split; [auto|congruence].
  - exists c. split; [now left|]. split; [exact Hc|]. split; [exact Hl|]. split; [auto|].
    intros _. rewrite lrun_multipeek, ext_toks. cbn [toks map fst]. rewrite <- Hm; auto. apply Hl.
Qed.
Lemma stable_sub {A} i (q : prog A) c : c <> Ended -> stable c (sub_iter i true q) (fun _ c' => c' = c).
Proof.
  intros Hn l b more Hl Hc. rewrite lrun_sub. destruct (lrun q (l_make i) b) as [[[a|e|x|] l1] b1] eqn:E; auto.
  - exists c. split; [reflexivity|]. split; [exact Hc|]. split; [exact Hl|]. split; [auto|]. intros _. now rewrite lrun_sub, E.
  - intros He. split; [exact Hn|]. rewrite lrun_sub, E. reflexivity.
Qed.
Lemma steady_of {A} (p : prog A) c (Q : A -> known -> Prop) : stable c p Q -> stable c p always.
Proof. intros H. eapply stable_mono; [exact H|]. intros; exact I. Qed.

(** Reporting the next token. *)
Lemma stable_make_unexpected c : stable c make_unexpected_err (fun e c' => final e -> c' <> Ended).
Proof.
  unfold make_unexpected_err. eapply stable_bind; [apply stable_getpos|]. intros p c1 ->.
  eapply stable_bind; [apply stable_next|]. intros [t|] c1 H; apply stable_ret; cbn in *; [|tauto].
  destruct H as [-> _]. discriminate.
Qed.
Lemma stable_unexpected {A} c (Q : A -> known -> Prop) : stable c unexpected Q.
Proof.
  unfold unexpected. eapply stable_bind; [apply stable_make_unexpected|]. intros e c1 H. apply stable_throw. exact H.
Qed.
End Stable.

Create HintDb stable.
(** A step of a proof of [stable]. *)
Ltac st_leaf := solve [eauto with stable].
Ltac st_red := cbv beta iota; cbn [fst snd negb andb orb option_map].
Ltac st_step :=
  lazymatch goal with
  | |- forall _, _ => intros ?
  | |- stable _ (let _ := _ in _) _ => cbv zeta
  | |- stable (Head _) (bind next _) _ =>
      eapply stable_bind; [apply stable_next_head|]; intros ? ? [-> ->]; st_red
  | |- stable (Head _) (bind peek _) _ =>
      eapply stable_bind; [apply stable_peek_head|]; intros ? ? [-> ->]; st_red
  | |- stable Ended (bind next _) _ =>
      eapply stable_bind; [apply stable_next_ended|]; intros ? ? [-> ->]; st_red
  | |- stable Ended (bind peek _) _ =>
      eapply stable_bind; [apply stable_peek_ended|]; intros ? ? [-> ->]; st_red
  | |- stable _ (bind next _) _ =>
      eapply stable_bind; [apply stable_next|];
      let t := fresh "t" in let c := fresh "c" in let H := fresh "H" in
      intros [t|] c H; cbn in H; [destruct H as [-> H]|subst c]; st_red
  | |- stable _ (bind peek _) _ =>
      eapply stable_bind; [apply stable_peek|];
      let t := fresh "t" in let c := fresh "c" in let H := fresh "H" in
      intros [t|] c H; cbn in H; [destruct H as [-> H]|subst c]; st_red
  | |- stable _ (bind getpos _) _ =>
      eapply stable_bind; [apply stable_getpos|];
      let p := fresh "p" in let c := fresh "c" in intros p c ->; st_red
  | |- stable _ (bind (build _) _) _ =>
      eapply stable_bind; [apply stable_build|];
      let p := fresh "x" in let c := fresh "c" in intros p c ->; st_red
  | |- stable _ (bind (throw _) _) _ =>
      eapply stable_bind; [apply (stable_throw _ _ (fun _ _ => False)); first [solve [cbn; auto; discriminate] | idtac]|intros ? ? []]
  | |- stable _ (bind (ret ?a) _) _ => change (bind (ret a) ?f) with (f a); st_red
  | |- stable _ (bind _ _) _ =>
      eapply stable_bind; [st_leaf|];
      let a := fresh "a" in let c := fresh "c" in intros a c _; st_red
  | |- stable _ (ret _) _ => apply stable_ret; first [exact I | idtac]
  | |- stable _ (throw _) _ => apply stable_throw; first [solve [cbn; auto; discriminate] | idtac]
  | |- stable _ (panic _) _ => apply stable_panic
  | |- stable _ (build _) _ => first [apply stable_build | eapply steady_of; apply stable_build]
  | |- stable _ outoffuel _ => apply stable_fuel
  | |- stable _ unexpected _ => apply stable_unexpected
  | |- stable _ (match ?x with _ => _ end) _ => destruct x; st_red
  | |- _ => st_leaf
  end.
Ltac st_loop IH := let n := fresh "n" in intros n; induction n as [|n IH]; intros; [apply stable_fuel|].

Ltac insens := let t := fresh "t" in let ts := fresh "ts" in let more := fresh "more" in let H := fresh "H" in
  intros t ts more _ H.

Section Base.
Context {BS BE : Type}.
Notation prog := (prog BS BE).
Notation steady p := (forall c, @stable BS BE _ c p always).
Notation stab := (@stable BS BE _).

Lemma steady_eat t : steady (eat t).
Proof. unfold eat. repeat st_step. Qed.
Lemma steady_eat_maybe t : steady (eat_maybe t).
Proof. unfold eat_maybe. repeat st_step. Qed.
Lemma steady_unexpected {A} : steady (unexpected : prog A).
Proof. intros c. apply stable_unexpected. Qed.
Hint Resolve steady_eat steady_eat_maybe steady_unexpected : stable.
Lemma steady_skip_blanks : forall n, steady (skip_blanks n).
Proof. intros n. induction n as [|n IH]; intros c; [apply stable_fuel|]. cbn [skip_blanks]. repeat st_step. Qed.
Hint Resolve steady_skip_blanks : stable.

(** A stream of whole lines has a second token after one that is not a newline. *)
Lemma whole_second t ts : whole_lines (t :: ts) -> t <> TNewline -> exists u us, ts = u :: us /\ whole_lines (u :: us).
Proof.
  intros H Hn. destruct ts as [|u us]; [|exists u, us; split; [reflexivity|exact (whole_tl _ _ H)]].
  destruct H as [H|[pre H]]; [discriminate|]. destruct pre as [|x [|y pre]]; [injection H as ->; congruence|discriminate|discriminate].
Qed.
Lemma insens_backslash_newline : insensitive (fun _ => True) found_backslash_newline.
Proof.
  insens. unfold found_backslash_newline. cbn [look hd_error tl app].
  destruct (token_eqb_spec t TBackslash) as [->|N].
  - destruct (whole_second _ _ H ltac:(discriminate)) as (u & us & -> & _). reflexivity.
  - assert (E : otoken_eqb (Some t) (Some TBackslash) = false) by (cbn; destruct (token_eqb_spec t TBackslash); congruence).
    rewrite E. reflexivity.
Qed.
Section Fuel.
Variable fuel : nat.
Lemma steady_skip_ws_loop : forall n, steady (skip_whitespace_loop fuel n).
Proof.
  intros n. induction n as [|n IH]; intros c; [apply stable_fuel|]. cbn [skip_whitespace_loop]. st_step.
  eapply stable_bind; [apply stable_multipeek, insens_backslash_newline|]. intros x c1 _. repeat st_step.
Qed.
Lemma steady_skip_whitespace : steady (skip_whitespace fuel).
Proof. apply steady_skip_ws_loop. Qed.
Hint Resolve steady_skip_whitespace : stable.
Lemma steady_take_comment : forall n acc, steady (take_comment n acc).
Proof.
  intros n. induction n as [|n IH]; intros acc c; [apply stable_fuel|]. cbn [take_comment]. repeat st_step.
Qed.
Hint Resolve steady_take_comment : stable.
Lemma steady_newline : steady (newline fuel).
Proof. unfold newline. repeat st_step. Qed.
Hint Resolve steady_newline : stable.
Lemma steady_linebreak_loop : forall n acc, steady (linebreak_loop fuel n acc).
Proof.
  intros n. induction n as [|n IH]; intros acc c; [apply stable_fuel|]. cbn [linebreak_loop]. repeat st_step.
Qed.
Lemma steady_linebreak : steady (linebreak fuel).
Proof. apply steady_linebreak_loop. Qed.
Hint Resolve steady_linebreak : stable.

Lemma insens_reserved_token tokens : ~ In TNewline tokens -> insensitive (fun _ => True) (reserved_token_try tokens).
Proof.
  intros Hn. insens. unfold reserved_token_try. cbn [look hd_error tl app].
  destruct (find (fun u => token_eqb u t) tokens) as [u|] eqn:E; [|reflexivity].
  apply find_some in E as [Hi Hu]. destruct (token_eqb_spec u t) as [->|]; [|discriminate].
  destruct (whole_second _ _ H ltac:(intros ->; auto)) as (v & us & -> & _). reflexivity.
Qed.
Lemma insens_reserved_word words : insensitive (fun _ => True) (reserved_word_try words).
Proof.
  insens. unfold reserved_word_try. cbn [look hd_error tl app]. destruct (token_eqb_spec t TNewline) as [->|N].
  - destruct ts as [|v us]; [|reflexivity]. destruct more as [|v us]; [reflexivity|]. cbn. now destruct (is_word_delimiter v).
  - destruct (whole_second _ _ H N) as (v & us & -> & _). reflexivity.
Qed.
Lemma steady_tries tokens n : ~ In TNewline tokens -> steady (reserved_token_tries fuel n tokens).
Proof.
  intros Hn. induction n as [|n IH]; intros c; cbn [reserved_token_tries]; [st_step|].
  eapply stable_bind; [apply stable_multipeek, insens_reserved_token; exact Hn|]. intros a c1 _.
  destruct a as [[t|]|]; repeat st_step.
Qed.
Hint Resolve steady_tries : stable.
Lemma steady_peek_reserved_token tokens : ~ In TNewline tokens -> steady (peek_reserved_token fuel tokens).
Proof.
  intros Hn c. unfold peek_reserved_token. destruct tokens; [st_step|]. destruct (existsb _ _).
  - apply steady_tries. exact Hn.
  - st_step. apply steady_tries. exact Hn.
Qed.
Lemma steady_peek_reserved_word words : steady (peek_reserved_word fuel words).
Proof.
  intros c. unfold peek_reserved_word. destruct words; [st_step|]. st_step.
  eapply steady_of. apply stable_multipeek, insens_reserved_word.
Qed.
Hint Resolve steady_peek_reserved_token steady_peek_reserved_word : stable.
Lemma steady_reserved_word words : steady (reserved_word fuel words).
Proof. intros c. unfold reserved_word. st_step. destruct a; [|st_step]. st_step; st_step. Qed.
Definition resQ (r : token + perr BE) (c : known) : Prop :=
  match r with inl _ => True | inr e => final e -> c <> Ended end.
Lemma stable_reserved_token_res tokens c : ~ In TNewline tokens -> stab c (reserved_token_res fuel tokens) resQ.
Proof.
  intros Hn. unfold reserved_token_res. st_step. destruct a as [t|].
  - st_step; [apply stable_ret; exact I|apply stable_panic].
  - st_step.
    + eapply (stable_bind _ _ _ always); [destruct (existsb _ _); repeat st_step|]. intros _ c1 _.
      eapply stable_bind; [apply stable_make_unexpected|]. intros e c2 H2. apply stable_ret. exact H2.
    + eapply (stable_bind _ _ _ always); [destruct (existsb _ _); repeat st_step|]. intros _ c1 _.
      eapply stable_bind; [apply stable_make_unexpected|]. intros e c2 H2. apply stable_ret. exact H2.
Qed.
Lemma steady_reserved_token tokens : ~ In TNewline tokens -> steady (reserved_token fuel tokens).
Proof.
  intros Hn c. unfold reserved_token. eapply stable_bind; [apply stable_reserved_token_res; exact Hn|].
  intros [t|e] c1 H; [st_step|]. apply stable_throw. exact H.
Qed.
End Fuel.

(** ** Balanced regions *)
Lemma steady_balanced_next b : steady (balanced_next b).
Proof. unfold balanced_next. repeat st_step. Qed.
Hint Resolve steady_balanced_next : stable.
Lemma steady_balanced_collect : forall n b acc, steady (balanced_collect n b acc).
Proof. intros n. induction n as [|n IH]; intros b acc c; [apply stable_fuel|]. cbn [balanced_collect]. repeat st_step. Qed.
Hint Resolve steady_balanced_collect : stable.
Lemma stable_balanced_new d c : stab c (balanced_new d) (fun b c' => c' = c /\ bdone b = false /\
  bstack b = match d with Some x => [x] | None => [] end).
Proof. unfold balanced_new. st_step. apply stable_ret. auto. Qed.
Lemma steady_collect_balanced fuel d : steady (collect_balanced fuel d).
Proof.
  intros c. unfold collect_balanced. eapply stable_bind; [apply stable_balanced_new|]. intros b ? [-> _]. st_step.
Qed.

(** A region with an opening delimiter that has been read to its closing one has not seen the end. *)
Definition balJ (b : balanced) (c : known) : Prop :=
  (bdone b = false -> bstack b <> []) /\ (bdone b = true -> c <> Ended).
Definition balQ (x : option (token + unmatched) * balanced) (c : known) : Prop :=
  match fst x with
  | None => c <> Ended /\ balJ (snd x) c
  | Some (inl _) => balJ (snd x) c
  | Some (inr _) => True
  end.
Ltac bal := lazymatch goal with |- stable _ _ _ => apply stable_ret | _ => idtac end; unfold balQ, balJ; cbn [fst snd bdone bstack orb is_nil option_map];
  try exact I; repeat split; try discriminate; try congruence; auto.
Lemma stable_balanced_next b c : balJ b c -> stab c (balanced_next b) balQ.
Proof.
  intros [J1 J2]. unfold balanced_next. destruct (escaped b) as [[tok pos]|]; [apply stable_ret; split; auto|].
  destruct (bdone b) eqn:Ed.
  { apply stable_ret. split; [auto|]. split; cbn; rewrite Ed; auto. }
  specialize (J1 eq_refl). clear J2. destruct (bstack b) as [|[X q] st] eqn:Es; [congruence|]. clear J1.
  cbn [stack_top tl is_nil single_quote_top orb].
  st_step.
  - destruct (otoken_eqb (Some X) (Some t)).
    + do 2 st_step. destruct (skip_last_delimeter b); destruct st; cbn [is_nil andb]; bal.
    + destruct (token_eqb X TSingleQuote).
      * do 2 st_step. bal.
      * do 2 st_step. destruct t; repeat st_step; bal. destruct (otoken_eqb _ _); discriminate.
  - cbn [otoken_eqb]. destruct (token_eqb X TSingleQuote); do 2 st_step; [bal|].
    st_step. bal.
Qed.
Lemma stable_chunks : forall n b all p chunk c, balJ b c ->
  stab c (chunks_loop n b all p chunk) (fun _ c' => c' <> Ended).
Proof.
  intros n. induction n as [|n IH]; intros b all p chunk c J; [apply stable_fuel|]. cbn [chunks_loop].
  eapply stable_bind; [apply stable_balanced_next; exact J|]. intros [r b1] c1 H1. unfold balQ in H1. cbn [fst snd] in H1.
  destruct r as [[t|[t q]]|]; [|apply stable_throw; cbn; tauto|apply stable_ret; exact (proj1 H1)].
  assert (G : stab c1 (chunks_loop n b1 all p (chunk ++ [t])) (fun _ c' => c' <> Ended)) by (apply IH; exact H1).
  destruct t; try exact G.
  eapply stable_bind; [apply stable_balanced_next; exact H1|]. intros [r2 b2] c2 H2. unfold balQ in H2. cbn [fst snd] in H2.
  destruct r2 as [[t2|[t2 q2]]|]; [|apply stable_throw; cbn; tauto|apply IH; exact (proj2 H2)].
  destruct t2; apply IH; exact H2.
Qed.
Lemma stable_token_iter fuel pos c : c <> Ended -> stab c (create_token_iter fuel pos) (fun _ c' => c' <> Ended).
Proof.
  intros Hc. unfold create_token_iter. eapply stable_bind; [apply stable_balanced_new|]. intros b ? [-> [Hd Hs]].
  eapply stable_bind; [apply stable_chunks; split; [rewrite Hs; discriminate|congruence]|]. intros [ch p1] c1 H. apply stable_ret. exact H.
Qed.
End Base.
#[global] Hint Resolve steady_eat steady_eat_maybe steady_unexpected steady_skip_blanks steady_skip_whitespace
  steady_take_comment steady_newline steady_linebreak steady_peek_reserved_token steady_peek_reserved_word
  steady_reserved_word steady_reserved_token steady_balanced_next steady_collect_balanced : stable.
#[global] Hint Extern 1 (~ In TNewline _) => cbn; intuition discriminate : stable.
