(** * Sources that differ in names and blanks: words and substitutions *)
From Verif Require Import Base Token Pos Ast Builder Prog Located RunLemmas ParserBase Balanced Arith Word Names NamesArith.

(** What the parser hands to the builder, with texts that are not numbers and comments replaced. *)
Definition nnl {A} (l : list A) : list newline_ := map (fun _ => Newline None) l.
Definition nparam (p : param) : param := match p with PmVar v => PmVar (norm v) | p => p end.
Section N.
Context {C : Type}.
Definition ncg (g : cgroup C) : cgroup C := mkCG (commands g) (nnl (trailing_comments g)).
Fixpoint nswk (w : swk C) : swk C :=
  match w with
  | KLiteral s => KLiteral (norm s)
  | KParam p => KParam (nparam p)
  | KSubst s => KSubst (npsk s)
  | KCommandSubst g => KCommandSubst (ncg g)
  | KEscaped s => KEscaped (norm s)
  | w => w
  end
with nwk (w : wk C) : wk C :=
  match w with
  | KSimple s => KSimple (nswk s)
  | KDoubleQuoted l => KDoubleQuoted (map nswk l)
  | KSingleQuoted s => KSingleQuoted (norm s)
  end
with ncwk (w : cwk C) : cwk C :=
  match w with
  | KConcat l => KConcat (map nwk l)
  | KSingle w => KSingle (nwk w)
  end
with npsk (s : psk C) : psk C :=
  match s with
  | KSCommand g => KSCommand (ncg g)
  | KSLen p => KSLen (nparam p)
  | KSArith a => KSArith (option_map narith a)
  | KSDefault c p w => KSDefault c (nparam p) (option_map ncwk w)
  | KSAssign c p w => KSAssign c (nparam p) (option_map ncwk w)
  | KSError c p w => KSError c (nparam p) (option_map ncwk w)
  | KSAlternative c p w => KSAlternative c (nparam p) (option_map ncwk w)
  | KSRemoveSmallestSuffix p w => KSRemoveSmallestSuffix (nparam p) (option_map ncwk w)
  | KSRemoveLargestSuffix p w => KSRemoveLargestSuffix (nparam p) (option_map ncwk w)
  | KSRemoveSmallestPrefix p w => KSRemoveSmallestPrefix (nparam p) (option_map ncwk w)
  | KSRemoveLargestPrefix p w => KSRemoveLargestPrefix (nparam p) (option_map ncwk w)
  end.
End N.
Section NE.
Context {C : Type}.
Lemma ne_nswk_KLiteral s : nswk (KLiteral s : swk C) = KLiteral (norm s).
Proof. reflexivity. Qed.
Lemma ne_nswk_KParam p : nswk (KParam p : swk C) = KParam (nparam p).
Proof. reflexivity. Qed.
Lemma ne_nswk_KSubst s : nswk (KSubst s : swk C) = KSubst (npsk s).
Proof. reflexivity. Qed.
Lemma ne_nswk_KCommandSubst g : nswk (KCommandSubst g : swk C) = KCommandSubst (ncg g).
Proof. reflexivity. Qed.
Lemma ne_nswk_KEscaped s : nswk (KEscaped s : swk C) = KEscaped (norm s).
Proof. reflexivity. Qed.
Lemma ne_nswk_KStar  : nswk (KStar : swk C) = KStar.
Proof. reflexivity. Qed.
Lemma ne_nswk_KQuestion  : nswk (KQuestion : swk C) = KQuestion.
Proof. reflexivity. Qed.
Lemma ne_nswk_KSquareOpen  : nswk (KSquareOpen : swk C) = KSquareOpen.
Proof. reflexivity. Qed.
Lemma ne_nswk_KSquareClose  : nswk (KSquareClose : swk C) = KSquareClose.
Proof. reflexivity. Qed.
Lemma ne_nswk_KTilde  : nswk (KTilde : swk C) = KTilde.
Proof. reflexivity. Qed.
Lemma ne_nswk_KColon  : nswk (KColon : swk C) = KColon.
Proof. reflexivity. Qed.
Lemma ne_nwk_KSimple s : nwk (KSimple s : wk C) = KSimple (nswk s).
Proof. reflexivity. Qed.
Lemma ne_nwk_KDoubleQuoted l : nwk (KDoubleQuoted l : wk C) = KDoubleQuoted (map nswk l).
Proof. reflexivity. Qed.
Lemma ne_nwk_KSingleQuoted s : nwk (KSingleQuoted s : wk C) = KSingleQuoted (norm s).
Proof. reflexivity. Qed.
Lemma ne_ncwk_KConcat l : ncwk (KConcat l : cwk C) = KConcat (map nwk l).
Proof. reflexivity. Qed.
Lemma ne_ncwk_KSingle w : ncwk (KSingle w : cwk C) = KSingle (nwk w).
Proof. reflexivity. Qed.
Lemma ne_npsk_KSCommand g : npsk (KSCommand g : psk C) = KSCommand (ncg g).
Proof. reflexivity. Qed.
Lemma ne_npsk_KSLen p : npsk (KSLen p : psk C) = KSLen (nparam p).
Proof. reflexivity. Qed.
Lemma ne_npsk_KSArith a : npsk (KSArith a : psk C) = KSArith (option_map narith a).
Proof. reflexivity. Qed.
Lemma ne_npsk_KSDefault c p w : npsk (KSDefault c p w : psk C) = KSDefault c (nparam p) (option_map ncwk w).
Proof. reflexivity. Qed.
Lemma ne_npsk_KSAssign c p w : npsk (KSAssign c p w : psk C) = KSAssign c (nparam p) (option_map ncwk w).
Proof. reflexivity. Qed.
Lemma ne_npsk_KSError c p w : npsk (KSError c p w : psk C) = KSError c (nparam p) (option_map ncwk w).
Proof. reflexivity. Qed.
Lemma ne_npsk_KSAlternative c p w : npsk (KSAlternative c p w : psk C) = KSAlternative c (nparam p) (option_map ncwk w).
Proof. reflexivity. Qed.
Lemma ne_npsk_KSRemoveSmallestSuffix p w : npsk (KSRemoveSmallestSuffix p w : psk C) = KSRemoveSmallestSuffix (nparam p) (option_map ncwk w).
Proof. reflexivity. Qed.
Lemma ne_npsk_KSRemoveLargestSuffix p w : npsk (KSRemoveLargestSuffix p w : psk C) = KSRemoveLargestSuffix (nparam p) (option_map ncwk w).
Proof. reflexivity. Qed.
Lemma ne_npsk_KSRemoveSmallestPrefix p w : npsk (KSRemoveSmallestPrefix p w : psk C) = KSRemoveSmallestPrefix (nparam p) (option_map ncwk w).
Proof. reflexivity. Qed.
Lemma ne_npsk_KSRemoveLargestPrefix p w : npsk (KSRemoveLargestPrefix p w : psk C) = KSRemoveLargestPrefix (nparam p) (option_map ncwk w).
Proof. reflexivity. Qed.
End NE.
#[global] Hint Rewrite @ne_nswk_KLiteral @ne_nswk_KParam @ne_nswk_KSubst @ne_nswk_KCommandSubst @ne_nswk_KEscaped @ne_nswk_KStar @ne_nswk_KQuestion @ne_nswk_KSquareOpen @ne_nswk_KSquareClose @ne_nswk_KTilde @ne_nswk_KColon @ne_nwk_KSimple @ne_nwk_KDoubleQuoted @ne_nwk_KSingleQuoted @ne_ncwk_KConcat @ne_ncwk_KSingle @ne_npsk_KSCommand @ne_npsk_KSLen @ne_npsk_KSArith @ne_npsk_KSDefault @ne_npsk_KSAssign @ne_npsk_KSError @ne_npsk_KSAlternative @ne_npsk_KSRemoveSmallestSuffix @ne_npsk_KSRemoveLargestSuffix @ne_npsk_KSRemoveSmallestPrefix @ne_npsk_KSRemoveLargestPrefix : nk.
Ltac nk := cbn [map option_map pack_words]; autorewrite with nk; cbn [map option_map].
Ltac nkin H := cbn [map option_map] in H; autorewrite with nk in H; cbn [map option_map] in H.
Ltac nkall := cbn [map option_map] in *; autorewrite with nk in *; cbn [map option_map] in *.
Notation RP := (by_ nparam).
Notation RG := (by_ ncg).
Notation RW := (by_ nswk).
Notation RWs := (by_ (map nswk)).
Notation RK := (by_ nwk).
Notation RKs := (by_ (map nwk)).
Notation RC := (by_ ncwk).
Notation ROC := (by_ (option_map ncwk)).

Lemma snoc_by {A A'} (N : A -> A') l1 l2 a b : by_ (map N) l1 l2 -> by_ N a b -> by_ (map N) (l1 ++ [a]) (l2 ++ [b]).
Proof. unfold by_. intros H H1. rewrite !map_app. cbn. congruence. Qed.
Lemma app_by {A A'} (N : A -> A') l1 l2 a b : by_ (map N) l1 l2 -> by_ (map N) a b -> by_ (map N) (l1 ++ a) (l2 ++ b).
Proof. unfold by_. intros H H1. rewrite !map_app. congruence. Qed.
Lemma by_refl {A A'} (N : A -> A') a : by_ N a a.
Proof. reflexivity. Qed.
Lemma flush_like {C} (w1 w2 : list (swk C)) b1 b2 : RWs w1 w2 -> RS b1 b2 -> RWs (flush w1 b1) (flush w2 b2).
Proof.
  intros Hw Hb. unfold by_ in Hb. destruct b1 as [|x b1].
  - apply norm_nil in Hb. subst. exact Hw.
  - destruct b2 as [|y b2]; [symmetry in Hb; apply norm_nil in Hb; discriminate|].
    cbn [flush]. apply snoc_by; [exact Hw|]. unfold by_. nk. now rewrite Hb.
Qed.
Lemma pack_like {C} (l1 l2 : list (wk C)) : RKs l1 l2 -> ROC (pack_words l1) (pack_words l2).
Proof.
  unfold by_. intros H. destruct l1 as [|a [|b l1]], l2 as [|c [|d l2]]; try discriminate H.
  - reflexivity.
  - cbn [map] in H. assert (E : nwk a = nwk c) by congruence. nk. now rewrite E.
  - cbn [pack_words option_map]; autorewrite with nk; now rewrite H.
Qed.
Lemma opt_like {C} (a b : option (cwk C)) : ROC a b -> opt RC a b.
Proof. unfold by_. destruct a, b; cbn; intros H; try discriminate H; [now injection H|exact I]. Qed.
Lemma like_opt {C} (a b : option (cwk C)) : opt RC a b -> ROC a b.
Proof. unfold by_. destruct a, b; cbn; intros H; try contradiction; [unfold by_ in H; now rewrite H|reflexivity]. Qed.
Lemma pound_like p q : RP p q -> param_eqb PmPound p = param_eqb PmPound q /\ param_eqb p PmPound = param_eqb q PmPound.
Proof. unfold by_. destruct p, q; cbn; intros H; try discriminate H; split; reflexivity. Qed.
Lemma cg_nil {C} (g1 g2 : cgroup C) : RG g1 g2 -> commands g1 = commands g2 /\ is_nil (trailing_comments g1) = is_nil (trailing_comments g2).
Proof.
  unfold by_, ncg. intros H. injection H as H1 H2. split; [exact H1|].
  destruct (trailing_comments g1), (trailing_comments g2); try discriminate H2; reflexivity.
Qed.
Lemma nnl_len {A} (a b : list A) : same_len a b -> nnl a = nnl b.
Proof. revert b. induction a as [|x a IH]; intros [|y b]; unfold same_len; cbn; intros H; try discriminate; [reflexivity|]. f_equal. apply IH. now injection H. Qed.
Lemma subst_of_op_like {C} op c p q (w1 w2 : option (cwk C)) : RP p q -> ROC w1 w2 ->
  opt (by_ npsk) (subst_of_op op c p w1) (subst_of_op op c q w2).
Proof.
  intros Hp Hw. unfold subst_of_op. destruct (pound_like _ _ Hp) as [_ ->].
  pose proof (opt_like _ _ Hw) as Ho. unfold by_ in Hp, Hw.
  destruct w1 as [w1|], w2 as [w2|]; try contradiction; cbn [opt] in Ho.
  - rewrite !andb_false_r. cbn [andb]. destruct op; cbn [opt]; try exact I; unfold by_; autorewrite with nk; now rewrite Hp, Hw.
  - destruct (_ && token_eqb op TDash); [reflexivity|]. destruct (_ && token_eqb op TQuestion); [reflexivity|].
    destruct op; cbn [opt]; try exact I; unfold by_; nk; now rewrite Hp.
Qed.
Lemma class_like a b : OTR a b -> word_class_of a = word_class_of b.
Proof. destruct 1; reflexivity. Qed.
Lemma special_like a b : OTR a b -> dq_special a = dq_special b.
Proof. destruct 1; reflexivity. Qed.
Definition cfg_ok (cfg : delimiters) : Prop :=
  Forall rigid (reserved_tokens cfg) /\ words_ok (reserved_words cfg) /\ Forall rigid (exact_tokens cfg).

Ltac wfin := unfold by_ in *; nk; congruence.
#[global] Hint Resolve snoc_by by_refl flush_like norm_as_str pack_like : rel.

Section NW.
Context {BS BE C : Type}.
Notation rel := (@rel BS BE _).
Variable f : nat.
Variable K : knots BS BE C.
Record k_like : Prop := mkKLike {
  kl_group : forall cfg, cfg_ok cfg -> rel RG (k_group K cfg) (k_group K cfg);
  kl_param : rel RW (k_param K) (k_param K) }.
Hypothesis HK : k_like.
Let h1 := kl_group HK. Let h2 := kl_param HK.
Hint Resolve h2 : rel.
Ltac cfgok := split; [repeat constructor|]; split; [words_tac|repeat constructor].
Hint Extern 1 (Names.rel _ (k_group _ _) _) => apply h1; cfgok : rel.

Lemma rel_backticked_raw : rel RW (backticked_raw f K) (backticked_raw f K).
Proof.
  unfold backticked_raw. rel_step. rel_step. rel_step. eapply rel_bind; [apply rel_sub; [eassumption|rel_leaf]|].
  intros g1 g2 H1. apply rel_ret. wfin.
Qed.
Hint Resolve rel_backticked_raw : rel.

Definition delim_ok (d : option (token * token)) : Prop := forall o c, d = Some (o, c) -> rigid c.
Lemma rel_interp_loop d p1 p2 : delim_ok d -> forall n w1 w2 b1 b2, RWs w1 w2 -> RS b1 b2 ->
  rel RWs (word_interp_loop f K d p1 n w1 b1) (word_interp_loop f K d p2 n w2 b2).
Proof.
  intros Hd.
  assert (Hd' : forall t, option_map snd d = Some t -> rigid t).
  { intros t H. destruct d as [[o c]|]; [|discriminate]. injection H as <-. now apply (Hd o). }
  induction n as [|n IH]; intros w1 w2 b1 b2 Hw Hb; [apply rel_fuel|]. cbn [word_interp_loop].
  rel_step. rewrite (otr_eqb_o a b _ H Hd'). destruct (otoken_eqb b _); [rel_step; apply rel_ret; now apply flush_like|].
  match goal with |- Names.rel _ (match a with Some _ => _ | None => ?x end) (match b with Some _ => _ | None => ?y end) =>
    assert (HN : rel RWs x y) end.
  { rel_step. rel_step.
    - destruct d as [[o c]|]; [apply rel_throw; reflexivity|]. apply rel_ret. now apply flush_like.
    - assert (L : forall x y, TR x y -> rel RWs (word_interp_loop f K d p1 n w1 (b1 ++ as_str x)) (word_interp_loop f K d p2 n w2 (b2 ++ as_str y))).
      { intros x y Hxy. apply IH; [exact Hw|]. unfold by_ in *. auto with rel. }
      assert (Lt := L t t ltac:(now constructor)).
      destruct t; first [exact Lt|apply rel_panic|idtac].
      rel_step. match goal with H : OTR ?x ?y |- _ => rewrite (special_like x y H), (otr_eqb_o x y _ H Hd') end.
      destruct (_ || _); [|exact Lt]. rel_step. rel_step; try apply rel_panic; (apply IH; [|reflexivity]);
        (apply snoc_by; [now apply flush_like|]); unfold by_; nk; f_equal; auto with rel.
    - apply IH; [exact Hw|]. unfold by_ in *. cbn [as_str]. auto with rel.
    - apply IH; [exact Hw|]. unfold by_ in *. cbn [as_str]. auto with rel. }
  assert (HP : rel RWs (w <- k_param K;; word_interp_loop f K d p1 n (flush w1 b1 ++ [w]) [])
                       (w <- k_param K;; word_interp_loop f K d p2 n (flush w2 b2 ++ [w]) [])).
  { eapply rel_bind; [exact h2|]. intros x y Hxy. apply IH; [|reflexivity]. apply snoc_by; [now apply flush_like|exact Hxy]. }
  destruct H; try exact HN. destruct t; try exact HN; try exact HP.
  rel_step. apply IH; [|reflexivity]. apply snoc_by; [now apply flush_like|assumption].
Qed.
Lemma rel_interp d p1 p2 : delim_ok d -> rel RWs (word_interpolated_raw f K d p1) (word_interpolated_raw f K d p2).
Proof. intros Hd. apply rel_interp_loop; [exact Hd|reflexivity|reflexivity]. Qed.

Lemma rel_word_loop d : (forall t, d = Some t -> rigid t) -> forall n w1 w2, RKs w1 w2 ->
  rel RKs (word_loop f K d n w1) (word_loop f K d n w2).
Proof.
  intros Hd. induction n as [|n IH]; intros w1 w2 Hw; [apply rel_fuel|]. cbn [word_loop].
  rel_step. rewrite (class_like _ _ H).
  replace (match d with Some _ => otoken_eqb a d | None => false end)
    with (match d with Some _ => otoken_eqb b d | None => false end)
    by (destruct d as [t|]; [symmetry; apply otr_eqb; auto|reflexivity]).
  match goal with |- Names.rel _ (if ?c then _ else _) _ => destruct c end; [apply rel_ret, Hw|].
  assert (P : forall x y, RK x y -> rel RKs (word_loop f K d n (w1 ++ [x])) (word_loop f K d n (w2 ++ [y]))).
  { intros x y Hxy. apply IH. now apply snoc_by. }
  destruct (word_class_of b); [|rel_step; apply P; wfin|rel_step; apply P; wfin|apply rel_ret, Hw].
  rel_step. rel_step. 
  match goal with H : OTR ?x ?y |- Names.rel _ (match ?x with _ => _ end) _ => destruct H as [|t Ht|x1 x2 Hx1 Hx2|x1 x2 Hx1 Hx2] end.
  - apply rel_panic.
  - assert (Q : forall k, rel RKs (word_loop f K d n (w1 ++ [k])) (word_loop f K d n (w2 ++ [k]))) by (intros k; apply P; reflexivity).
    destruct t; first [apply Q|apply rel_panic|idtac].
    + rel_step. rel_step; [apply rel_ret, Hw| |apply P; unfold by_; nk; do 2 f_equal; apply norm_as_str; now constructor..].
      destruct t; first [apply Q|apply rel_ret, Hw].
    + eapply rel_bind; [apply rel_collect_balanced; split; [reflexivity|exact I]|]. intros t1 t2 Hts. apply P.
      unfold by_. nk. f_equal. now apply norm_concat.
    + eapply rel_bind; [apply rel_interp; intros o c [= <- <-]; exact I|]. intros l1 l2 Hl. apply P.
      unfold by_ in *. nk. now rewrite Hl.
  - apply P. unfold by_. nk. do 2 f_equal. now apply norm_ordinary.
  - apply rel_panic.
Qed.
Lemma rel_word_raw_with_delim d : (forall t, d = Some t -> rigid t) ->
  rel ROC (word_raw_with_delim f K d) (word_raw_with_delim f K d).
Proof.
  intros Hd. unfold word_raw_with_delim. rel_step. rel_step. rel_eqb. destruct (otoken_eqb _ _); [apply rel_ret; reflexivity|].
  eapply rel_bind; [apply rel_word_loop; [exact Hd|reflexivity]|]. intros l1 l2 Hl. apply rel_ret. now apply pack_like.
Qed.
Lemma rel_word_raw : rel ROC (word_raw f K) (word_raw f K).
Proof. apply rel_word_raw_with_delim. discriminate. Qed.
Hint Resolve rel_word_raw : rel.

Lemma rel_parameter_inner : rel RP parameter_inner parameter_inner.
Proof.
  unfold parameter_inner. repeat rel_step. all: try apply rel_ret; try apply rel_throw; unfold by_; cbn [nparam err_like]; auto with rel.
  f_equal. now apply norm_ordinary.
Qed.
Hint Resolve rel_parameter_inner : rel.

Lemma ml_escaped : mlike eq escaped_newline_try escaped_newline_try.
Proof. unfold escaped_newline_try. repeat ml_step. Qed.
Lemma rel_capture_literals : forall n w1 w2, RKs w1 w2 ->
  rel (pair_ RKs eq) (@capture_literals BS BE C n w1) (@capture_literals BS BE C n w2).
Proof.
  induction n as [|n IH]; intros w1 w2 Hw; [apply rel_fuel|]. cbn [capture_literals]. rel_step.
  assert (L : forall t u, TR t u -> rel (pair_ RKs eq) (next;; capture_literals n (w1 ++ [KSimple (KLiteral (as_str t))])) (next;; capture_literals n (w2 ++ [KSimple (KLiteral (as_str u))]))).
  { intros t u Ht. rel_step. apply IH, snoc_by; [exact Hw|]. unfold by_. nk. do 2 f_equal. now apply norm_as_str. }
  assert (R0 : forall x : bool, rel (pair_ RKs eq) (ret (w1, x)) (ret (w2, x))) by (intros x; apply rel_ret; split; [exact Hw|reflexivity]).
  destruct H as [|t Ht|x y Hx Hy|x y Hx Hy]; cbn [subst_class_of]; try apply R0.
  - destruct t; try apply R0; try (apply L; now constructor).
    eapply rel_bind; [apply rel_multipeek, ml_escaped|]. intros z ? <-. destruct z; [|apply R0].
    rel_step. rel_step. apply IH, snoc_by; [exact Hw|reflexivity].
  - apply L. now constructor.
Qed.
Lemma rel_capture_words : forall n w1 w2, RKs w1 w2 -> rel RKs (capture_words f K n w1) (capture_words f K n w2).
Proof.
  induction n as [|n IH]; intros w1 w2 Hw; [apply rel_fuel|]. cbn [capture_words].
  eapply rel_bind; [apply rel_capture_literals, Hw|]. intros [x1 s1] [x2 s2] [Hx Hs]. cbn [fst snd] in *. subst s2.
  destruct s1; [apply rel_ret, Hx|].
  eapply rel_bind; [apply rel_word_raw_with_delim; intros t [= <-]; exact I|]. intros a b Hab. apply opt_like in Hab.
  destruct a as [a|], b as [b|]; try contradiction; [|apply rel_ret, Hx]. cbn in Hab. unfold by_ in Hab.
  destruct a as [l1|k1], b as [l2|k2]; try discriminate Hab; nkin Hab; injection Hab as Hab; apply IH.
  - now apply app_by.
  - now apply snoc_by.
Qed.
Lemma rel_pswr p1 p2 : rel ROC (parameter_substitution_word_raw f K p1) (parameter_substitution_word_raw f K p2).
Proof.
  unfold parameter_substitution_word_raw. eapply rel_bind; [apply rel_capture_words; reflexivity|]. intros l1 l2 Hl.
  rel_step. rel_step; [apply rel_ret; now apply pack_like|apply rel_throw; reflexivity].
Qed.
Hint Resolve rel_pswr : rel.
Lemma rel_psbr p q1 q2 p' : RP p p' -> rel RW (parameter_substitution_body_raw f K p q1) (parameter_substitution_body_raw f K p' q2).
Proof.
  intros Hp. unfold parameter_substitution_body_raw. rel_step. rel_step. rel_step.
  assert (HS : forall op c, rel RW
    (word <- parameter_substitution_word_raw f K q1;;
     match subst_of_op op c p word with Some s => ret (KSubst s) | None => panic PS_subst_op end)
    (word <- parameter_substitution_word_raw f K q2;;
     match subst_of_op op c p' word with Some s => ret (KSubst s) | None => panic PS_subst_op end)).
  { intros op c. rel_step. match goal with H : by_ (option_map ncwk) ?x ?y |- _ => pose proof (subst_of_op_like op c _ _ _ _ Hp H) as E end.
    match goal with E : opt _ ?x ?y |- _ => destruct x, y; try contradiction end; [|apply rel_panic].
    apply rel_ret. cbn in E. wfin. }
  match goal with H : OTR ?x ?y |- Names.rel _ (match ?x with _ => _ end) _ => destruct H as [|t Ht|x1 x2 Hx1 Hx2|x1 x2 Hx1 Hx2] end;
    try (apply rel_throw; cbn; auto with rel; fail).
  destruct t; first [apply HS|apply rel_throw; cbn; auto with rel; fail|idtac].
  apply rel_ret. wfin.
Qed.
Lemma rel_subshell_internal e : rel RG (subshell_internal K e) (subshell_internal K e).
Proof.
  unfold subshell_internal. rel_step. rel_step. rel_step. 
  match goal with H : by_ ncg ?x ?y |- _ => pose proof (cg_nil _ _ H) as [E _] end.
  rel_step. rel_step; try rel_leaf.
  - apply rel_throw. reflexivity.
  - destruct t; try apply rel_unexpected. rewrite E. destruct (_ || _); [|apply rel_unexpected]. rel_step. rel_step.
Qed.
Hint Resolve rel_subshell_internal : rel.
Lemma ml_arith_try : mlike eq arith_try arith_try.
Proof. unfold arith_try. repeat ml_step. Qed.
Lemma rel_paren_substitution : rel RW (paren_substitution f K) (paren_substitution f K).
Proof.
  unfold paren_substitution. eapply rel_bind; [apply rel_multipeek, ml_arith_try|]. intros z ? <-. destruct z.
  - rel_step. rel_step. rel_step. rel_step. eapply (rel_bind (by_ (option_map narith))).
    { rel_eqb. destruct (otoken_eqb _ _); [apply rel_ret; reflexivity|]. rel_step. apply rel_ret. wfin. }
    intros x y Hxy. repeat rel_step. all: try apply rel_ret; wfin.
  - rel_step. apply rel_ret. wfin.
Qed.
Hint Resolve rel_paren_substitution : rel.
Lemma rel_curly_substitution p1 p2 : rel RW (curly_substitution f K p1) (curly_substitution f K p2).
Proof.
  unfold curly_substitution. rel_step. rel_step.
  match goal with H : by_ nparam ?x ?y |- _ => rename x into p, y into q; rename H into Hp end.
  pose proof (proj1 (pound_like _ _ Hp)) as Ep. rel_step.
  assert (HL : rel (by_ (@nswk C)) (p' <- parameter_inner;; eat TCurlyClose;; ret (KSubst (KSLen p')))
                 (p' <- parameter_inner;; eat TCurlyClose;; ret (KSubst (KSLen p')))).
  { rel_step. rel_step. apply rel_ret. wfin. }
  pose proof (rel_psbr p p1 p2 q Hp) as HB.
  match goal with |- Names.rel _ (match a0 with Some _ => _ | None => ?x end) (match b0 with Some _ => _ | None => ?y end) => idtac | _ => idtac end.
  match goal with H : OTR ?x ?y |- Names.rel _ (match ?x with _ => _ end) _ => destruct H as [|t Ht|x1 x2 Hx1 Hx2|x1 x2 Hx1 Hx2] end;
    try (rewrite <- Ep; destruct (param_eqb PmPound p); [exact HL|exact HB]).
  destruct t; try (rewrite <- Ep; destruct (param_eqb PmPound p); first [exact HL|exact HB]).
  - rel_step. rel_step. rel_step. match goal with H : by_ (option_map ncwk) ?x ?y |- _ => pose proof (opt_like _ _ H) as Ho end.
    unfold by_ in *. match goal with c : bool |- _ => destruct c end; [apply rel_ret; wfin|].
    match goal with H : opt _ ?x ?y |- _ => destruct x as [w1|], y as [w2|]; try contradiction; cbn [opt] in H; unfold by_ in H end.
    + apply rel_ret. wfin.
    + rewrite <- Ep. destruct (param_eqb PmPound p); apply rel_ret; wfin.
  - rel_step. rel_step. rel_step. match goal with c : bool |- _ => destruct c end; apply rel_ret; wfin.
Qed.
Hint Resolve rel_curly_substitution : rel.
Lemma rel_param_subst_raw : rel RW (parameter_substitution_raw f K) (parameter_substitution_raw f K).
Proof. unfold parameter_substitution_raw. repeat rel_step. Qed.
Hint Resolve rel_param_subst_raw : rel.
Lemma rel_parameter_raw : rel RW (parameter_raw f K) (parameter_raw f K).
Proof.
  unfold parameter_raw. rel_step. rel_step. rel_step; try (apply rel_throw; cbn; auto with rel; fail).
  destruct t; try (apply rel_throw; cbn; auto with rel; fail).
  - rel_step. 
    assert (HP : rel (by_ (@nswk C)) (p <- parameter_inner;; ret (KParam p : swk C)) (p <- parameter_inner;; ret (KParam p))).
    { rel_step. apply rel_ret. wfin. }
    rel_step; try exact HP; try (apply rel_ret; reflexivity).
    destruct t; try exact HP; try (apply rel_ret; reflexivity); rel_leaf.
  - apply rel_ret. reflexivity.
Qed.
End NW.
