(** * Termination, panics, progress, completeness (C10-C14) *)
From Coq Require Import String.
From Verif Require Import Base Token Lexer Pos Ast Builder Prog Iter Located IterProofs RunLemmas ParserBase
  BaseRun Balanced BalancedSpec BalancedProofs BalancedTotal Wp Arith Word WpWord Redirect Command
  Entry EntryWp DefaultBuilder EmptyBuilder.

(** A here-document operator. *)
Definition heredoc_op (t : token) : Prop := t = TDLess \/ t = TDLessDash.

Lemma unescape_incl n : forall ts t, (length ts <= n)%nat -> In t (unescape ts) -> In t ts.
Proof.
  induction n as [|n IH]; intros ts t Hn Hi.
  - destruct ts; simpl in *; [contradiction|lia].
  - destruct ts as [|a [|b ts]]; [contradiction|destruct a; exact Hi|].
    rewrite unescape_eq in Hi. simpl in Hn. revert Hi.
    destruct (token_eqb_spec a TBackslash) as [->|]; [destruct (removable b)|]; intros Hi.
    + destruct Hi as [<-|Hi]; [simpl; tauto|]. right. right. apply IH; [lia|exact Hi].
    + destruct Hi as [<-|[<-|Hi]]; [simpl; auto|simpl; auto|]. right. right. apply IH; [lia|exact Hi].
    + destruct Hi as [<-|Hi]; [simpl; tauto|]. right. apply IH; [simpl; lia|exact Hi].
Qed.

(** ** The instance for totality: nothing is said of errors or of the builder. *)
Lemma builder_ok_any B : builder_ok B (fun _ => True) (fun _ _ => True).
Proof.
  assert (H : forall S E R (f : S -> (R + E) * S), bld_ok (fun _ => True) (fun _ _ => True) f).
  { intros S E R f b _. destruct (f b) as [[|] ?]; exact I. }
  split; intros; apply H.
Qed.

(** ** Here-documents that end in a backslash
    The panic needs a here-document whose body ends in a backslash.  Its body ends where the stream does: at
    the end of the source, or of a text between backquotes.  [settled]: blanks aside, the last token is no
    backslash, and either there are no backquotes, or no backslash stands before a backslash or a backquote. *)
Definition not_last (ts : list token) : Prop := forall a, inked ts <> a ++ [TBackslash].
Definition settled (ts : list token) : Prop :=
  not_last ts /\
  (~ In TBacktick ts \/
   forall a t b, inked ts = a ++ TBackslash :: t :: b -> t <> TBackslash /\ t <> TBacktick).

Lemma inked_in ts t : In t (inked ts) -> In t ts.
Proof. unfold inked. intros H. apply filter_In in H. apply H. Qed.
Lemma in_inked ts t : In t ts -> (forall s, t <> TWhitespace s) -> In t (inked ts).
Proof. intros H Ht. apply filter_In. split; [exact H|]. destruct t; auto. now edestruct Ht. Qed.

Lemma app_last {A} (a b c : list A) x : a ++ [x] = b ++ c -> c <> [] -> exists d, c = d ++ [x].
Proof.
  intros E Hc. destruct (exists_last Hc) as (d & y & ->). exists d. f_equal. rewrite app_assoc in E.
  apply app_inj_tail in E. destruct E as [_ <-]. reflexivity.
Qed.

Lemma settled_short xs ys : settled xs -> shortened xs ys -> settled ys.
Proof.
  intros [Hl Hp] (a & b & c & d & Ex & Ey & Hc). split.
  - intros z Ez. rewrite Ey in Ez. destruct d as [|x d].
    + rewrite app_nil_r in Ez. subst b. destruct Hc as [->|[Hc|[y Hc]]].
      * apply (Hl (a ++ z)). rewrite Ex, app_nil_r. now rewrite app_assoc.
      * destruct z; discriminate.
      * apply app_inj_tail in Hc. destruct Hc. discriminate.
    + symmetry in Ez. destruct (app_last _ _ _ _ Ez ltac:(discriminate)) as [d' E'].
      apply (Hl (a ++ b ++ c ++ d')). rewrite Ex, E', !app_assoc. reflexivity.
  - destruct Hp as [Hp|Hp].
    + left. intros Hi. apply Hp. apply inked_in. rewrite Ex. apply in_inked in Hi; [|discriminate].
      rewrite Ey in Hi. apply in_app_or in Hi. rewrite !in_app_iff. tauto.
    + right. intros u t v E. rewrite Ey in E. destruct Hc as [->|Hc].
      * apply (Hp (a ++ u) t v). rewrite Ex. cbn [app]. rewrite E. now rewrite app_assoc.
      * (* the pair is in [b] or in [d]: [b] ends in a newline *)
        assert (D : (exists v', b = u ++ TBackslash :: t :: v') \/ (exists u', d = u' ++ TBackslash :: t :: v) \/
                    (exists w, b = w ++ [TBackslash])).
        { revert u E. clear. induction b as [|x b IH]; intros u E; [right; left; exists u; exact E|].
          destruct u as [|y u].
          - injection E as -> E. destruct b as [|y b]; [right; right; now exists []|]. injection E as -> _.
            left. now exists b.
          - injection E as -> E. destruct (IH _ E) as [[v' ->]|[[u' ->]|[w ->]]].
            + left. now exists v'.
            + right; left; now exists u'.
            + right; right. now exists (y :: w). }
        destruct D as [[v' ->]|[[u' ->]|[w ->]]].
        -- apply (Hp (a ++ u) t (v' ++ c ++ d)). rewrite Ex. now rewrite <- !app_assoc.
        -- apply (Hp (a ++ b ++ c ++ u') t v). rewrite Ex. now rewrite <- !app_assoc.
        -- destruct Hc as [Hc|[y Hc]]; [destruct w; discriminate|]. apply app_inj_tail in Hc. destruct Hc. discriminate.
Qed.

Lemma settled_suffix a ts : settled (a ++ ts) -> settled ts.
Proof.
  intros H. eapply settled_short; [exact H|]. exists (inked a), [], [], (inked ts). cbn [app].
  unfold inked at 1. rewrite filter_app. auto.
Qed.

(** [settled] as a function, for the case with backquotes. *)
Fixpoint calm (l : list token) : Prop :=
  match l with
  | [] => True
  | TBackslash :: l' => match l' with t :: _ => t <> TBackslash /\ t <> TBacktick | [] => False end /\ calm l'
  | _ :: l' => calm l'
  end.
Lemma calm_cons t l : t <> TBackslash -> calm (t :: l) = calm l.
Proof. destruct t; try reflexivity; congruence. Qed.
Lemma calm_intro l : (forall a, l <> a ++ [TBackslash]) ->
  (forall a t b, l = a ++ TBackslash :: t :: b -> t <> TBackslash /\ t <> TBacktick) -> calm l.
Proof.
  induction l as [|x l IH]; intros H1 H2; [exact I|].
  assert (C : calm l).
  { apply IH; [intros a E; apply (H1 (x :: a)); now rewrite E|intros a t b E; apply (H2 (x :: a) t b); now rewrite E]. }
  destruct (token_eqb_spec x TBackslash) as [->|N]; [|now rewrite calm_cons].
  split; [|exact C]. destruct l as [|t l]; [apply (H1 [] eq_refl)|apply (H2 [] t l eq_refl)].
Qed.
Lemma calm_pairs a : forall t b, calm (a ++ TBackslash :: t :: b) -> t <> TBackslash /\ t <> TBacktick.
Proof.
  induction a as [|x a IH]; intros t b H; [apply H|].
  destruct (token_eqb_spec x TBackslash) as [->|N]; [apply IH with b, H|].
  cbn [app] in H. rewrite calm_cons in H by exact N. eauto.
Qed.
Lemma calm_last a : ~ calm (a ++ [TBackslash]).
Proof.
  induction a as [|x a IH]; intros H; [apply H|].
  destruct (token_eqb_spec x TBackslash) as [->|N]; [apply IH, H|].
  cbn [app] in H. rewrite calm_cons in H by exact N. eauto.
Qed.

Lemma inked_cons t ts : (forall s, t <> TWhitespace s) -> inked (t :: ts) = t :: inked ts.
Proof. intros H. destruct t; try reflexivity. now edestruct H. Qed.
Lemma blank_or t : (exists s, t = TWhitespace s) \/ (forall s, t <> TWhitespace s).
Proof. destruct t; try (right; discriminate). left. eauto. Qed.

Lemma unescape_plain_head n : forall ts h r, (length ts <= n)%nat -> inked ts = h :: r -> h <> TBackslash ->
  exists r', inked (unescape ts) = h :: r'.
Proof.
  induction n as [|n IH]; intros ts h r Hn E Hh.
  { destruct ts; [discriminate|simpl in Hn; lia]. }
  destruct ts as [|a [|b ts]]; [discriminate|exists r; destruct a; exact E|].
  rewrite unescape_eq. destruct (token_eqb_spec a TBackslash) as [->|N].
  - injection E as <- _. congruence.
  - destruct (blank_or a) as [[s ->]|B].
    + apply (IH (b :: ts) h r); [simpl in *; lia|exact E|exact Hh].
    + rewrite inked_cons in E by exact B. injection E as -> _. rewrite inked_cons by exact B. eauto.
Qed.
Lemma calm_unescape n : forall ts, (length ts <= n)%nat -> calm (inked ts) -> calm (inked (unescape ts)).
Proof.
  induction n as [|n IH]; intros ts Hn H.
  { destruct ts; [exact I|simpl in Hn; lia]. }
  destruct ts as [|a [|b ts]]; [exact I|destruct a; exact H|]. simpl in Hn.
  rewrite unescape_eq. destruct (token_eqb_spec a TBackslash) as [->|N].
  - rewrite inked_cons in H by discriminate. destruct H as [H0 H].
    destruct (removable b) eqn:R.
    + destruct b; try discriminate R; cbn in H0; try (destruct H0; congruence).
      rewrite inked_cons by discriminate. apply IH; [lia|exact H].
    + rewrite inked_cons by discriminate. destruct (blank_or b) as [[s ->]|B].
      * change (inked (TWhitespace s :: ts)) with (inked ts) in *.
        change (inked (TWhitespace s :: unescape ts)) with (inked (unescape ts)).
        split; [|apply IH; [lia|exact H]]. destruct (inked ts) as [|h r] eqn:E; [contradiction|].
        destruct (unescape_plain_head _ ts h r (le_n _) E (proj1 H0)) as [r' ->]. exact H0.
      * rewrite inked_cons in * by exact B. split; [exact H0|].
        rewrite calm_cons in * by apply H0. apply IH; [lia|exact H].
  - destruct (blank_or a) as [[s ->]|B].
    + change (calm (inked (unescape (b :: ts)))). apply IH; [simpl; lia|exact H].
    + rewrite inked_cons in * by exact B. rewrite calm_cons in * by exact N. apply IH; [simpl; lia|exact H].
Qed.

Lemma settled_tick body rest : settled (TBacktick :: body ++ TBacktick :: rest) -> settled (unescape body).
Proof.
  intros [_ [H|H]]; [destruct H; now left|].
  assert (E : inked (TBacktick :: body ++ TBacktick :: rest) = TBacktick :: inked body ++ TBacktick :: inked rest).
  { unfold inked. cbn [filter]. now rewrite filter_app. }
  assert (C : calm (inked body)).
  { apply calm_intro.
    - intros a Ea. destruct (H (TBacktick :: a) TBacktick (inked rest)) as [_ X]; [|congruence].
      rewrite E, Ea, <- app_assoc. reflexivity.
    - intros a t b Ea. apply (H (TBacktick :: a) t (b ++ TBacktick :: inked rest)).
      rewrite E, Ea, <- app_assoc. reflexivity. }
  apply (calm_unescape _ _ (le_n _)) in C. split.
  - intros a Ea. rewrite Ea in C. exact (calm_last _ C).
  - right. intros a t b Ea. rewrite Ea in C. eapply calm_pairs; eauto.
Qed.

(** A panic needs a here-document operator, and a stream that is not settled. *)
Definition am_total (B : builder) (H P : Prop) : ambient B.
Proof.
  refine (mkAmbient B (fun l => ((exists t, In t (map fst (toks l)) /\ heredoc_op t) -> H) /\
                                (settled (map fst (toks l)) \/ P))
    (fun _ _ => True) (fun _ => True) (fun _ => True) H P (fun ts => settled ts \/ P) True
    (fun _ => True) (fun _ _ => True) _ _ _ _ _ _ _ _ _ _ _ (builder_ok_any B)).
  - intros pre ts e [HI HS]. split.
    + intros (t & Hin & Ht). apply HI. exists t. split; auto. simpl. rewrite map_app. apply in_or_app. auto.
    + cbn [toks] in *. rewrite map_app in HS. destruct HS as [HS|HS]; [left; eapply settled_suffix; eauto|now right].
  - auto.
  - auto.
  - intros l t p [HI _] Hin Ht. apply HI. exists t. split; [|exact Ht]. apply in_map_iff. exists (t, p). auto.
  - intros h l HS. split; [auto|exact HS].
  - intros _ l [_ HS]. exact HS.
  - intros xs ys [HS|HS] Hsh; [left; eapply settled_short; eauto|now right].
  - intros _ [[HS _]|HS]; [|exact HS]. destruct (HS [] eq_refl).
  - intros q0 body q rest e sub [HI HS] Hc Hs _ _. split.
    + intros (t & Hin & Ht). apply HI. exists t. split; auto.
      rewrite Hs in Hin. apply (unescape_incl _ _ _ (le_n _)) in Hin.
      simpl. right. rewrite map_app. apply in_or_app. auto.
    + rewrite Hs. destruct HS as [HS|HS]; [left|now right]. cbn [toks map fst] in HS. rewrite map_app in HS.
      cbn [map fst] in HS. eapply settled_tick; eauto.
  - auto.
  - auto.
Defined.

Section Total.
Variable B : builder.

Lemma size_left s : size (abs s) = length (tokens_left s).
Proof. unfold size. rewrite <- tokens_left_abs. now rewrite map_length. Qed.

(** C10 and C11, together: a call returns with fuel to spare, and panics only in one place. *)
Lemma entry_total_at A P (H H' : Prop) fuel s b : entry_point B A P -> good s ->
  ((exists t, In t (tokens_left s) /\ heredoc_op t) -> H) -> (settled (tokens_left s) \/ H') ->
  (length (tokens_left s) + 2 < fuel)%nat ->
  match run concrete (P fuel) s b with
  | (o, s', _) =>
      good s' /\
      match o with
      | OOk _ => (length (tokens_left s') <= length (tokens_left s))%nat /\ (settled (tokens_left s') \/ H')
      | OErr _ => True
      | OPanic x => H /\ H' /\ x = PS_interp_escaped
      | OFuel => False
      end
  end.
Proof.
  intros HE G HH HS Hf.
  pose proof (entry_wp (am_total B H H') A P HE (fun _ => I) I fuel (abs s)) as W.
  assert (Hok : Inv (am_total B H H') (abs s)).
  { cbn. rewrite tokens_left_abs. split; [|exact HS]. intros (t & Hin & Ht). apply HH. exists t. auto. }
  specialize (W Hok ltac:(rewrite size_left; lia) b I).
  pose proof (run_transfer (P fuel) s b G) as T. destruct (run concrete (P fuel) s b) as [[o s'] b'].
  destruct T as [T G']. split; [exact G'|]. unfold lrun in W. rewrite T in W. destruct o.
  - destruct W as [_ [[_ W1] W2]]. rewrite !size_left in W2. cbn in W1. rewrite tokens_left_abs in W1. auto.
  - exact I.
  - destruct W as [_ W]. exact W.
  - exact W.
Qed.
Lemma entry_total A P (H : Prop) fuel s b : entry_point B A P -> good s ->
  ((exists t, In t (tokens_left s) /\ heredoc_op t) -> H) ->
  (length (tokens_left s) + 2 < fuel)%nat ->
  match run concrete (P fuel) s b with
  | (o, s', _) =>
      good s' /\
      match o with
      | OOk _ => (length (tokens_left s') <= length (tokens_left s))%nat
      | OErr _ => True
      | OPanic x => H /\ x = PS_interp_escaped
      | OFuel => False
      end
  end.
Proof.
  intros HE G HH Hf. pose proof (entry_total_at A P H True fuel s b HE G HH (or_intror I) Hf) as W.
  destruct (run concrete (P fuel) s b) as [[[a|e|x|] s'] b']; destruct W as [G' W]; split; auto; tauto.
Qed.

(** C10: in every state a parser can reach, over any finite token stream (lexed or not), with any
    builder, every public method returns: the model's fuel, which bounds every loop and the depth
    of every recursion, is not exhausted once it exceeds the number of remaining tokens by 3. *)
Theorem parser_terminates A P fuel s b : entry_point B A P -> parser_reach B s b ->
  (length (tokens_left s) + 2 < fuel)%nat ->
  forall o s' b', run concrete (P fuel) s b = (o, s', b') -> o <> OFuel.
Proof.
  intros HE HR Hf o s' b' E.
  pose proof (entry_total A P True fuel s b HE (parser_reach_good _ _ _ HR) (fun _ => I) Hf) as T.
  rewrite E in T. destruct T as [_ T]. destruct o; congruence.
Qed.

(** C11 (partial): a stream without here-document operators never makes any method panic, and on
    any stream at all only one of the 21 panic sites can be reached: the [unwrap] after a
    backslash in an interpolated word, reached for here-document bodies. *)
Theorem parser_never_panics_partial A P fuel s b : entry_point B A P -> parser_reach B s b ->
  (length (tokens_left s) + 2 < fuel)%nat ->
  forall x s' b', run concrete (P fuel) s b = (OPanic x, s', b') ->
  x = PS_interp_escaped /\ exists t, In t (tokens_left s) /\ heredoc_op t.
Proof.
  intros HE HR Hf x s' b' E.
  pose proof (entry_total A P _ fuel s b HE (parser_reach_good _ _ _ HR) (fun h => h) Hf) as T.
  rewrite E in T. destruct T as [_ [T1 T2]]. auto.
Qed.

(** ** Commands *)
Lemma complete_total fuel s b : good s -> (length (tokens_left s) + 2 < fuel)%nat ->
  match run concrete (p_complete_command B fuel) s b with
  | (o, s', _) =>
      good s' /\
      match o with
      | OOk (Some _) => (length (tokens_left s') < length (tokens_left s))%nat
      | OOk None => tokens_left s' = []
      | _ => True
      end
  end.
Proof.
  intros G Hf.
  pose proof (wp_p_complete_command (am_total B True True) fuel (abs s) (conj (fun _ => I) (or_intror I))
                ltac:(rewrite size_left; lia) b I) as W.
  pose proof (run_transfer (p_complete_command B fuel) s b G) as T.
  destruct (run concrete (p_complete_command B fuel) s b) as [[o s'] b'].
  destruct T as [T G']. split; [exact G'|]. unfold lrun in W. rewrite T in W. destruct o; try exact I.
  destruct W as [_ [[[_ W1] W2] W3]]. destruct a.
  - rewrite !size_left in W2. apply W2. discriminate.
  - rewrite <- tokens_left_abs, W3; auto.
Qed.

(** C13: a complete command consumes at least one token. *)
Theorem complete_command_progress fuel s b c s' b' : parser_reach B s b ->
  (length (tokens_left s) + 2 < fuel)%nat ->
  run concrete (p_complete_command B fuel) s b = (OOk (Some c), s', b') ->
  (length (tokens_left s') < length (tokens_left s))%nat.
Proof.
  intros HR Hf E. pose proof (complete_total fuel s b (parser_reach_good _ _ _ HR) Hf) as T.
  rewrite E in T. apply T.
Qed.

(** The iterator yields the commands [cs] and is then in the state [st']. *)
Inductive yields (fuel : nat) : parser_iter concrete B -> list (b_cmd B) -> parser_iter concrete B -> Prop :=
  | y_nil st : yields fuel st [] st
  | y_cons st c st1 cs st2 :
      parser_iter_next concrete B fuel st = (Some (OOk c), st1) ->
      yields fuel st1 cs st2 -> yields fuel st (c :: cs) st2.

Lemma yields_spec fuel ts b cs st :
  yields fuel (parser_iter_new B ts b) cs st -> (length ts + 2 < fuel)%nat ->
  exists s b', st = Some (s, b') /\ good s /\ (length (tokens_left s) + length cs <= length ts)%nat.
Proof.
  intros H Hf. unfold parser_iter_new in H.
  assert (G : good (ti_new ts)) by exact I.
  assert (L : length (tokens_left (ti_new ts)) = length ts) by reflexivity.
  rewrite <- L in *. clear L. revert G H Hf. generalize (ti_new ts) as s0. intros s0 G H Hf.
  remember (Some (s0, b)) as st0 eqn:E0.
  revert s0 b E0 G Hf. induction H as [st|st c st1 cs st2 Hn Hy IH]; intros s0 b E0 G Hf.
  - exists s0, b. simpl. repeat split; auto; lia.
  - subst st. unfold parser_iter_next in Hn.
    pose proof (complete_total fuel s0 b G Hf) as T.
    destruct (run concrete (p_complete_command B fuel) s0 b) as [[o s'] b'].
    destruct o as [[c'|]|e|x|]; try discriminate. injection Hn as <- <-. destruct T as [G' T].
    destruct (IH s' b' eq_refl G' ltac:(lia)) as (s2 & b2 & E & G2 & L). exists s2, b2.
    simpl. repeat split; auto. lia.
Qed.

(** C13: no more commands than tokens. *)
Theorem iterator_at_most_tokens fuel ts b cs st :
  yields fuel (parser_iter_new B ts b) cs st -> (length ts + 2 < fuel)%nat ->
  (length cs <= length ts)%nat.
Proof. intros H Hf. destruct (yields_spec _ _ _ _ _ H Hf) as (s & b' & _ & _ & L). lia. Qed.

(** C12: after any number of commands the iterator yields another command, or it yields [None]
    having read every token, or it yields an error (or the one panic of C11). *)
Theorem iterator_complete fuel ts b cs st : 
  yields fuel (parser_iter_new B ts b) cs st -> (length ts + 2 < fuel)%nat ->
  forall r st', parser_iter_next concrete B fuel st = (r, st') ->
  match r with
  | Some (OOk _) => True
  | None => st' = None /\ exists s b1 s' b2,
      st = Some (s, b1) /\ run concrete (p_complete_command B fuel) s b1 = (OOk None, s', b2) /\
      tokens_left s' = []
  | Some (OErr e) => st' = None
  | Some (OPanic x) => x = PS_interp_escaped
  | Some OFuel => False
  end.
Proof.
  intros H Hf r st' E. destruct (yields_spec _ _ _ _ _ H Hf) as (s & b1 & -> & G & L).
  unfold parser_iter_next in E.
  pose proof (complete_total fuel s b1 G ltac:(lia)) as T.
  pose proof (entry_total _ _ True fuel s b1 (ep_nb _ _ _ (ep_complete_command B)) G (fun _ => I) ltac:(lia)) as T2.
  destruct (run concrete (p_complete_command B fuel) s b1) as [[o s'] b'] eqn:ER.
  destruct T as [G' T], T2 as [_ T2]. destruct o as [[c|]|e|x|]; injection E as <- <-; auto.
  - split; auto. exists s, b1, s', b'. auto.
  - apply T2.
Qed.

(** C12: fused: after [None] or an error, [None] for ever. *)
Fixpoint nexts_of (fuel n : nat) (st : parser_iter concrete B)
  : list (option (outcome (b_err B) (b_cmd B))) :=
  match n with
  | O => []
  | S n' => let (r, st') := parser_iter_next concrete B fuel st in r :: nexts_of fuel n' st'
  end.

Theorem iterator_fused fuel st r st' :
  parser_iter_next concrete B fuel st = (r, st') ->
  r = None \/ (exists e, r = Some (OErr e)) ->
  forall n, nexts_of fuel n st' = repeat None n.
Proof.
  intros E Hr n. assert (st' = None) as ->.
  { unfold parser_iter_next in E. destruct st as [[s b]|]; [|congruence].
    destruct (run concrete (p_complete_command B fuel) s b) as [[o s'] b'].
    destruct o as [[c|]|e|x|]; injection E as <- <-; auto;
      destruct Hr as [Hr|[e' Hr]]; discriminate. }
  clear. induction n as [|n IH]; [reflexivity|]. cbn [nexts_of parser_iter_next repeat]. now rewrite IH.
Qed.

End Total.

(** ** Witnesses *)

(** C11, refuted as stated: a here-document whose body ends in a backslash makes the parser
    panic, with the default builder and with the empty one. *)
Definition panicking_source : str :=
  s_of "cat <<EOF" ++ [c_newline] ++ s_of "foo\".
Theorem parser_panics_refuted (U : Uni) :
  exists s', run concrete (p_complete_command default_builder 40) (ti_new (lex panicking_source)) tt
    = (OPanic PS_interp_escaped, s', tt).
Proof. eexists. vm_compute. reflexivity. Qed.

(** Cases that meet the hypotheses of the theorems above: on this source the iterator yields two
    commands and then an error, after which it is over. *)
Definition two_and_error (U : Uni) : list token :=
  lex (s_of "if a; then b >f; fi | c & # e" ++ [c_newline] ++ s_of "x=1 f() { g; }; )").
Example iterator_witness (U : Uni) : exists c1 c2 e st,
  yields default_builder 100 (parser_iter_new default_builder (two_and_error U) tt) [c1; c2] st /\
  parser_iter_next concrete default_builder 100 st = (Some (OErr e), None) /\
  (length (two_and_error U) + 2 < 100)%nat /\
  parser_reach default_builder (ti_new (two_and_error U)) tt.
Proof.
  assert (X : match nexts_of default_builder 100 3 (parser_iter_new default_builder (two_and_error U) tt) with
              | [Some (OOk _); Some (OOk _); Some (OErr _)] => True | _ => False end) by (vm_compute; exact I).
  cbn [nexts_of] in X.
  destruct (parser_iter_next concrete default_builder 100 (parser_iter_new default_builder (two_and_error U) tt)) as [r1 st1] eqn:E1.
  destruct (parser_iter_next concrete default_builder 100 st1) as [r2 st2] eqn:E2.
  destruct (parser_iter_next concrete default_builder 100 st2) as [r3 st3] eqn:E3.
  destruct r1 as [[c1|?|?|]|]; try contradiction. destruct r2 as [[c2|?|?|]|]; try contradiction.
  destruct r3 as [[?|e|?|]|]; try contradiction.
  assert (Y : yields default_builder 100 (parser_iter_new default_builder (two_and_error U) tt) [c1; c2] st2).
  { eapply y_cons; [exact E1|]. eapply y_cons; [exact E2|]. apply y_nil. }
  assert (L : (length (two_and_error U) + 2 < 100)%nat) by (vm_compute; lia).
  pose proof (iterator_complete default_builder 100 _ tt _ _ Y L _ _ E3) as N. cbn in N. subst st3.
  exists c1, c2, e, st2. split; [exact Y|]. split; [exact E3|]. split; [exact L|]. apply pr_new.
Qed.
