(** * Comparing runs: words *)
From Verif Require Import Base Token Pos Ast Builder Prog Located RunLemmas ParserBase Balanced Arith Sim
  SimArith Word.

(** ** Replacing the builder's values inside the exchange types *)
Definition map_cg {C1 C2} (f : C1 -> C2) (g : cgroup C1) : cgroup C2 :=
  mkCG (map f (commands g)) (trailing_comments g).
Section Map.
Context {C1 C2 : Type} (f : C1 -> C2).
Fixpoint map_swk (w : swk C1) : swk C2 :=
  match w with
  | KLiteral s => KLiteral s
  | KParam p => KParam p
  | KSubst s => KSubst (map_psk s)
  | KCommandSubst g => KCommandSubst (map_cg f g)
  | KEscaped s => KEscaped s
  | KStar => KStar | KQuestion => KQuestion | KSquareOpen => KSquareOpen
  | KSquareClose => KSquareClose | KTilde => KTilde | KColon => KColon
  end
with map_wk (w : wk C1) : wk C2 :=
  match w with
  | KSimple s => KSimple (map_swk s)
  | KDoubleQuoted l => KDoubleQuoted (map map_swk l)
  | KSingleQuoted s => KSingleQuoted s
  end
with map_cwk (w : cwk C1) : cwk C2 :=
  match w with
  | KConcat l => KConcat (map map_wk l)
  | KSingle w => KSingle (map_wk w)
  end
with map_psk (s : psk C1) : psk C2 :=
  match s with
  | KSCommand g => KSCommand (map_cg f g)
  | KSLen p => KSLen p
  | KSArith a => KSArith a
  | KSDefault c p w => KSDefault c p (option_map map_cwk w)
  | KSAssign c p w => KSAssign c p (option_map map_cwk w)
  | KSError c p w => KSError c p (option_map map_cwk w)
  | KSAlternative c p w => KSAlternative c p (option_map map_cwk w)
  | KSRemoveSmallestSuffix p w => KSRemoveSmallestSuffix p (option_map map_cwk w)
  | KSRemoveLargestSuffix p w => KSRemoveLargestSuffix p (option_map map_cwk w)
  | KSRemoveSmallestPrefix p w => KSRemoveSmallestPrefix p (option_map map_cwk w)
  | KSRemoveLargestPrefix p w => KSRemoveLargestPrefix p (option_map map_cwk w)
  end.

Lemma flush_map words buf : map map_swk (flush words buf) = flush (map map_swk words) buf.
Proof. destruct buf; [reflexivity|]. cbn [flush]. rewrite map_app. reflexivity. Qed.
Lemma pack_map words : pack_words (map map_wk words) = option_map map_cwk (pack_words words).
Proof. destruct words as [|a [|b l]]; reflexivity. Qed.
Lemma is_nil_map {A B} (g : A -> B) l : is_nil (map g l) = is_nil l.
Proof. destruct l; reflexivity. Qed.
Lemma subst_of_op_map op c p w : subst_of_op op c p (option_map map_cwk w) =
  option_map map_psk (subst_of_op op c p w).
Proof.
  unfold subst_of_op. destruct w as [w|]; cbn [option_map].
  - rewrite !andb_false_r. cbn. destruct op; reflexivity.
  - destruct (_ && token_eqb op TDash); [reflexivity|]. destruct (_ && token_eqb op TQuestion); [reflexivity|].
    destruct op; reflexivity.
Qed.
End Map.

Ltac mapnorm := rewrite ?map_app, ?flush_map, ?pack_map; cbn [map map_swk map_wk map_cwk map_psk option_map fst snd];
  try reflexivity.

#[local] Opaque Sim.sim.
Section SimWord.
Context {BS1 BE1 C1 BS2 BE2 C2 : Type}.
Variable RB : BS1 -> BS2 -> Prop.
Variable RE : BE1 -> BE2 -> Prop.
Variable f : C1 -> C2.
Notation sim := (sim RB RE).
Variables f1 f2 : nat.
Hypothesis Hf : (f1 <= f2)%nat.
Variable K1 : knots BS1 BE1 C1.
Variable K2 : knots BS2 BE2 C2.
Record k_rel : Prop := mkKRel {
  kr_group : forall cfg, sim (graph (map_cg f)) (k_group K1 cfg) (k_group K2 cfg);
  kr_param : sim (graph (map_swk f)) (k_param K1) (k_param K2) }.
Hypothesis HK : k_rel.
Let h1 := kr_group HK. Let h2 := kr_param HK.
Hint Resolve h1 h2 sim_sub : sim.

Lemma sim_backticked_raw : sim (graph (map_swk f)) (backticked_raw f1 K1) (backticked_raw f2 K2).
Proof. unfold backticked_raw. repeat sim_step. Qed.
Hint Resolve sim_backticked_raw : sim.

Ltac by_ih IH := apply IH; [assumption|mapnorm].
Ltac disp IH :=
  lazymatch goal with
  | |- Sim.sim _ _ _ (panic _) _ => apply sim_panic
  | |- Sim.sim _ _ _ (bind _ _) _ => idtac
  | |- Sim.sim _ _ _ (ret _) _ => apply sim_ret; reflexivity
  | |- Sim.sim _ _ _ (throw _) _ => apply sim_throw; cbn; auto
  | |- Sim.sim _ _ _ unexpected _ => apply sim_unexpected
  | |- _ => by_ih IH
  end.

Lemma sim_interp_loop d p : forall n m, (n <= m)%nat -> forall words words2 buf,
  words2 = map (map_swk f) words ->
  sim (graph (map (map_swk f))) (word_interp_loop f1 K1 d p n words buf) (word_interp_loop f2 K2 d p m words2 buf).
Proof.
  sim_loop IH. subst words2. cbn [word_interp_loop]. sim_step.
  destruct (otoken_eqb a (option_map snd d)).
  - sim_step. apply sim_ret. unfold graph. mapnorm.
  - match goal with |- sim ?R (match ?a with Some _ => _ | None => ?x end) (match ?a with Some _ => _ | None => ?y end) =>
      assert (HN : sim R x y) end.
    { sim_step. destruct a0 as [t|].
      - destruct t; disp IH.
        sim_step. destruct (_ || _); [|by_ih IH]. sim_step.
        destruct a1; [by_ih IH|apply sim_panic].
      - destruct d as [[o c]|]; [apply sim_throw; cbn; auto|]. apply sim_ret. unfold graph. mapnorm. }
    destruct a as [t|]; [|exact HN].
    destruct t; first [exact HN|idtac].
    + sim_step. by_ih IH.
    + sim_step. by_ih IH.
    + sim_step. by_ih IH.
Qed.
Lemma sim_interp d p : sim (graph (map (map_swk f))) (word_interpolated_raw f1 K1 d p) (word_interpolated_raw f2 K2 d p).
Proof. unfold word_interpolated_raw. apply sim_interp_loop; auto. Qed.
Hint Resolve sim_interp : sim.

Lemma sim_word_loop d : forall n m, (n <= m)%nat -> forall words words2,
  words2 = map (map_wk f) words ->
  sim (graph (map (map_wk f))) (word_loop f1 K1 d n words) (word_loop f2 K2 d m words2).
Proof.
  sim_loop IH. subst words2. cbn [word_loop]. sim_step.
  match goal with |- sim _ (if ?c then _ else _) _ => destruct c end; [apply sim_ret; reflexivity|].
  destruct (word_class_of a); [|sim_step; by_ih IH|sim_step; by_ih IH|apply sim_ret; reflexivity].
  sim_step. sim_step. destruct a1 as [t|]; [|apply sim_panic].
  destruct t; disp IH.
  - sim_step. destruct a1 as [[]|]; disp IH.
  - sim_step. by_ih IH.
  - sim_step. by_ih IH.
Qed.

Lemma sim_word_raw_with_delim d :
  sim (graph (option_map (map_cwk f))) (word_raw_with_delim f1 K1 d) (word_raw_with_delim f2 K2 d).
Proof.
  unfold word_raw_with_delim. sim_step. sim_step. destruct (otoken_eqb _ _); [apply sim_ret; reflexivity|].
  eapply sim_bind; [apply sim_word_loop; [exact Hf|reflexivity]|]. intros w ? ->.
  apply sim_ret. unfold graph. mapnorm.
Qed.
Lemma sim_word_raw : sim (graph (option_map (map_cwk f))) (word_raw f1 K1) (word_raw f2 K2).
Proof. apply sim_word_raw_with_delim. Qed.
Hint Resolve sim_word_raw sim_word_raw_with_delim : sim.

Lemma sim_parameter_inner : sim same parameter_inner parameter_inner.
Proof. unfold parameter_inner. repeat sim_step. Qed.
Hint Resolve sim_parameter_inner : sim.

Lemma sim_capture_literals : forall n m, (n <= m)%nat -> forall words words2,
  words2 = map (map_wk f) words ->
  sim (graph (fun x => (map (map_wk f) (fst x), snd x)))
    (@capture_literals BS1 BE1 C1 n words) (@capture_literals BS2 BE2 C2 m words2).
Proof.
  sim_loop IH. subst words2. cbn [capture_literals]. sim_step. destruct (subst_class_of a).
  - apply sim_ret; reflexivity.
  - sim_step. destruct a0; [|apply sim_ret; reflexivity]. sim_step. sim_step. by_ih IH.
  - sim_step. by_ih IH.
  - apply sim_ret; reflexivity.
Qed.
Lemma sim_capture_words : forall n m, (n <= m)%nat -> forall words words2,
  words2 = map (map_wk f) words ->
  sim (graph (map (map_wk f))) (capture_words f1 K1 n words) (capture_words f2 K2 m words2).
Proof.
  sim_loop IH. subst words2. cbn [capture_words].
  eapply sim_bind; [apply sim_capture_literals; [exact Hf|reflexivity]|].
  intros [w stop] ? ->. cbn [fst snd]. destruct stop; [apply sim_ret; reflexivity|].
  sim_step. destruct a as [[ws|w1]|]; cbn [option_map map_cwk].
  - by_ih IH.
  - by_ih IH.
  - apply sim_ret; reflexivity.
Qed.
Lemma sim_pswr p : sim (graph (option_map (map_cwk f)))
  (parameter_substitution_word_raw f1 K1 p) (parameter_substitution_word_raw f2 K2 p).
Proof.
  unfold parameter_substitution_word_raw.
  eapply sim_bind; [apply sim_capture_words; [exact Hf|reflexivity]|]. intros w ? ->.
  sim_step. destruct a; [|apply sim_throw; cbn; auto]. apply sim_ret. unfold graph. mapnorm.
Qed.
Hint Resolve sim_pswr : sim.
Lemma sim_psbr p q : sim (graph (map_swk f))
  (parameter_substitution_body_raw f1 K1 p q) (parameter_substitution_body_raw f2 K2 p q).
Proof.
  unfold parameter_substitution_body_raw. sim_step. sim_step. sim_step.
  assert (HS : forall op, sim (graph (map_swk f))
    (word <- parameter_substitution_word_raw f1 K1 q;;
     match subst_of_op op a p word with Some s => ret (KSubst s) | None => panic PS_subst_op end)
    (word <- parameter_substitution_word_raw f2 K2 q;;
     match subst_of_op op a p word with Some s => ret (KSubst s) | None => panic PS_subst_op end)).
  { intros op. sim_step. rewrite subst_of_op_map. destruct (subst_of_op op a p a2) as [s|]; cbn [option_map].
    - apply sim_ret. reflexivity.
    - apply sim_panic. }
  destruct a1 as [t|]; [|apply sim_throw; cbn; auto].
  destruct t; first [apply HS|disp HS].
Qed.
Hint Resolve sim_psbr : sim.
Lemma sim_subshell_internal e : sim (graph (map_cg f)) (subshell_internal K1 e) (subshell_internal K2 e).
Proof.
  unfold subshell_internal. sim_step. sim_step. sim_step. sim_step.
  destruct a2 as [t|]; [|apply sim_throw; cbn; auto].
  destruct t; try (apply sim_unexpected). cbn [map_cg commands]. rewrite is_nil_map.
  destruct (_ || _); repeat sim_step.
Qed.
Hint Resolve sim_subshell_internal : sim.
Lemma sim_paren_substitution : sim (graph (map_swk f)) (paren_substitution f1 K1) (paren_substitution f2 K2).
Proof.
  unfold paren_substitution. sim_step. destruct a; [|repeat sim_step].
  sim_step. sim_step. sim_step. sim_step.
  eapply (sim_bind _ _ same); [destruct (otoken_eqb _ _); repeat sim_step|]. intros x ? ->.
  repeat sim_step.
Qed.
Hint Resolve sim_paren_substitution : sim.
Lemma sim_curly_substitution p : sim (graph (map_swk f)) (curly_substitution f1 K1 p) (curly_substitution f2 K2 p).
Proof.
  unfold curly_substitution. sim_step. sim_step. sim_step.
  assert (HL : sim (graph (map_swk f)) (p' <- parameter_inner;; eat TCurlyClose;; ret (KSubst (KSLen p')))
                 (p' <- parameter_inner;; eat TCurlyClose;; ret (KSubst (KSLen p')))) by repeat sim_step.
  match goal with |- sim ?R (match ?a with Some _ => _ | None => ?x end) (match ?a with Some _ => _ | None => ?y end) =>
    assert (HN : sim R x y) end.
  { destruct (param_eqb PmPound a0); [destruct a1 as [[]|]; first [exact HL|sim_leaf]|sim_leaf]. }
  destruct a1 as [t|]; [|exact HN].
  destruct t; try exact HN; try (destruct (param_eqb PmPound a0); first [exact HL|sim_leaf]).
  - sim_step. sim_step. sim_step. apply sim_ret. unfold graph. cbn [map_swk].
    destruct a2; [reflexivity|]. destruct a3; cbn [option_map]; [reflexivity|].
    destruct (param_eqb PmPound a0); reflexivity.
  - sim_step. sim_step. sim_step. apply sim_ret. unfold graph. cbn [map_swk]. destruct a2; reflexivity.
Qed.
Hint Resolve sim_curly_substitution : sim.
Lemma sim_param_subst_raw : sim (graph (map_swk f)) (parameter_substitution_raw f1 K1) (parameter_substitution_raw f2 K2).
Proof. unfold parameter_substitution_raw. repeat sim_step. Qed.
Hint Resolve sim_param_subst_raw : sim.
Lemma sim_parameter_raw : sim (graph (map_swk f)) (parameter_raw f1 K1) (parameter_raw f2 K2).
Proof.
  unfold parameter_raw. sim_step. sim_step. destruct a0 as [t|]; [|apply sim_throw; cbn; auto].
  destruct t; disp HK.
  sim_step. repeat sim_step.
Qed.
End SimWord.
