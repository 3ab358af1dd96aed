(** * Every builder result is used once, in the order of the calls: the proof *)
From Verif Require Import Base Token Pos Ast Builder Prog Iter Located IterProofs RunLemmas ParserBase Balanced Arith
  Word Redirect Command Entry Total Sim SimArith SimWord SimCommand Api SameParse Protocol.

(** ** Programs that call no builder method *)
Section Quiet.
Context {BS BE : Type}.
Notation prog := (prog BS BE).
Definition quiet {A} (p : prog A) : Prop :=
  forall l b, match lrun p l b with (OFuel, _, _) => True | (_, _, b') => b' = b end.
Lemma quiet_sim {A} (p : prog A) : (forall RB, exists R, sim RB eq R p p) -> quiet p.
Proof.
  intros H l b. destruct (H (fun x _ => x = b)) as [R HR]. specialize (HR l b b eq_refl). cbn in HR.
  destruct (lrun p l b) as [[[a|e|s|] l'] b']; auto; apply HR.
Qed.
Lemma quiet_bind {A C} (p : prog A) (f : A -> prog C) : quiet p -> (forall a, quiet (f a)) -> quiet (bind p f).
Proof.
  intros Hp Hf l b. rewrite lrun_bind. specialize (Hp l b).
  destruct (lrun p l b) as [[[a|e|s|] l'] b']; auto. subst b'. apply Hf.
Qed.
Lemma quiet_ret {A} (a : A) : quiet (ret a).
Proof. intros l b. reflexivity. Qed.
Lemma quiet_throw {A} e : quiet (throw e : prog A).
Proof. intros l b. reflexivity. Qed.
Lemma quiet_panic {A} s : quiet (panic s : prog A).
Proof. intros l b. reflexivity. Qed.
Lemma quiet_fuel {A} : quiet (outoffuel : prog A).
Proof. intros l b. exact I. Qed.
Lemma quiet_next : quiet (next : prog _).
Proof. intros l b. rewrite lrun_next. reflexivity. Qed.
Lemma quiet_peek : quiet (peek : prog _).
Proof. intros l b. reflexivity. Qed.
Lemma quiet_getpos : quiet (getpos : prog _).
Proof. intros l b. reflexivity. Qed.
Lemma quiet_multipeek {D} (m : mp D) : quiet (multipeek m : prog _).
Proof. intros l b. rewrite lrun_multipeek. reflexivity. Qed.
Lemma quiet_buffer ts p : quiet (buffer ts p : prog _).
Proof. intros l b. reflexivity. Qed.
Lemma quiet_sub {D} i r (q : prog D) : quiet q -> quiet (sub_iter i r q).
Proof.
  intros H l b. rewrite lrun_sub. specialize (H (l_make i) b).
  destruct (lrun q (l_make i) b) as [[[a|e|s|] l'] b']; auto.
Qed.
Lemma quiet_unexpected {A} : quiet (unexpected : prog A).
Proof. apply quiet_sim. intros RB. exists same. apply sim_unexpected. Qed.
Lemma quiet_eat t : quiet (eat t : prog _).
Proof. apply quiet_sim. intros RB. exists same. apply sim_eat. Qed.
Lemma quiet_eat_maybe t : quiet (eat_maybe t : prog _).
Proof. apply quiet_sim. intros RB. exists same. apply sim_eat_maybe. Qed.
Lemma quiet_skip_whitespace f : quiet (skip_whitespace f : prog _).
Proof. apply quiet_sim. intros RB. exists same. apply sim_skip_whitespace. lia. Qed.
Lemma quiet_newline f : quiet (newline f : prog _).
Proof. apply quiet_sim. intros RB. exists same. apply sim_newline. lia. Qed.
Lemma quiet_linebreak f : quiet (linebreak f : prog _).
Proof. apply quiet_sim. intros RB. exists same. apply sim_linebreak. lia. Qed.
Lemma quiet_prt f ts : quiet (peek_reserved_token f ts : prog _).
Proof. apply quiet_sim. intros RB. exists same. apply sim_peek_reserved_token. lia. Qed.
Lemma quiet_prw f ts : quiet (peek_reserved_word f ts : prog _).
Proof. apply quiet_sim. intros RB. exists same. apply sim_peek_reserved_word. lia. Qed.
Lemma quiet_rw f ts : quiet (reserved_word f ts : prog _).
Proof. apply quiet_sim. intros RB. exists same. apply sim_reserved_word. lia. Qed.
Lemma quiet_rtr f ts : quiet (reserved_token_res f ts : prog _).
Proof. apply quiet_sim. intros RB. eexists. apply sim_reserved_token_res. lia. Qed.
Lemma quiet_rt f ts : quiet (reserved_token f ts : prog _).
Proof. apply quiet_sim. intros RB. exists same. apply sim_reserved_token. lia. Qed.
Lemma quiet_collect f d : quiet (collect_balanced f d : prog _).
Proof. apply quiet_sim. intros RB. exists same. apply sim_collect_balanced. lia. Qed.
Lemma quiet_iter f p : quiet (create_token_iter f p : prog _).
Proof. apply quiet_sim. intros RB. exists same. apply sim_create_token_iter. lia. Qed.
Lemma quiet_arith f : quiet (arithmetic_substitution f : prog _).
Proof. apply quiet_sim. intros RB. exists same. apply sim_arithmetic_substitution. lia. Qed.
Lemma quiet_inner : quiet (parameter_inner : prog _).
Proof. apply quiet_sim. intros RB. exists same. apply sim_parameter_inner. Qed.
Lemma quiet_capture {C} : forall n (w : list (wk C)), quiet (capture_literals n w : prog _).
Proof.
  induction n as [|n IH]; intros w; [apply quiet_fuel|]. cbn [capture_literals].
  apply quiet_bind; [apply quiet_peek|]. intros p. destruct (subst_class_of p).
  - apply quiet_ret.
  - apply quiet_bind; [apply quiet_multipeek|]. intros [|]; [|apply quiet_ret].
    apply quiet_bind; [apply quiet_next|]. intros _. apply quiet_bind; [apply quiet_next|]. intros _. apply IH.
  - apply quiet_bind; [apply quiet_next|]. intros _. apply IH.
  - apply quiet_ret.
Qed.
End Quiet.
Ltac qleaf :=
  lazymatch goal with
  | |- quiet (ret _) => apply quiet_ret
  | |- quiet next => apply quiet_next
  | |- quiet peek => apply quiet_peek
  | |- quiet getpos => apply quiet_getpos
  | |- quiet (multipeek _) => apply quiet_multipeek
  | |- quiet (buffer _ _) => apply quiet_buffer
  | |- quiet unexpected => apply quiet_unexpected
  | |- quiet (eat _) => apply quiet_eat
  | |- quiet (eat_maybe _) => apply quiet_eat_maybe
  | |- quiet (skip_whitespace _) => apply quiet_skip_whitespace
  | |- quiet (newline _) => apply quiet_newline
  | |- quiet (linebreak _) => apply quiet_linebreak
  | |- quiet (peek_reserved_token _ _) => apply quiet_prt
  | |- quiet (peek_reserved_word _ _) => apply quiet_prw
  | |- quiet (reserved_word _ _) => apply quiet_rw
  | |- quiet (reserved_token_res _ _) => apply quiet_rtr
  | |- quiet (reserved_token _ _) => apply quiet_rt
  | |- quiet (collect_balanced _ _) => apply quiet_collect
  | |- quiet (create_token_iter _ _) => apply quiet_iter
  | |- quiet (arithmetic_substitution _) => apply quiet_arith
  | |- quiet parameter_inner => apply quiet_inner
  | |- quiet (capture_literals _ _) => apply quiet_capture
  end.
(** ** A builder whose state keeps a log of its calls *)
Record logger (D : builder) := mkLogger {
  lg : bst D -> list made;
  g_cmd : b_cmd D -> made;
  g_list : b_list D -> made;
  g_listable : b_listable D -> made;
  g_pipeable : b_pipeable D -> made;
  g_compound : b_compound D -> made;
  g_word : b_word D -> made;
  g_redirect : b_redirect D -> made }.
Arguments lg {D}. Arguments g_cmd {D}. Arguments g_list {D}. Arguments g_listable {D}. Arguments g_pipeable {D}.
Arguments g_compound {D}. Arguments g_word {D}. Arguments g_redirect {D}.
(** One call: it is logged, with its number and what it was given, and its result says so. *)
Definition logs {D} (G : logger D) {A} (t : A -> made) (m : method) (from : list made)
    (f : bst D -> (A + b_err D) * bst D) : Prop :=
  forall b, match f b with
  | (inl a, b') => t a = Made m (length (lg G b)) from /\ lg G b' = lg G b ++ [t a]
  | (inr _, b') => lg G b' = lg G b
  end.
Record logging {D} (G : logger D) : Prop := mkLogging {
  lo_complete : forall cs l s c, logs G (g_cmd G) MCompleteCommand [g_list G l] (o_complete_command D cs l s c);
  lo_and_or : forall a l, logs G (g_list G) MAndOrList
    (g_listable G a :: map (fun x => in_and_or (g_listable G) (snd x)) l) (o_and_or_list D a l);
  lo_pipeline : forall b l, logs G (g_listable G) MPipeline (map (fun x => g_pipeable G (snd x)) l) (o_pipeline D b l);
  lo_simple : forall vs l, logs G (g_pipeable G) MSimpleCommand
    (flat_map (in_env (g_word G) (g_redirect G)) vs ++ flat_map (in_arg (g_word G) (g_redirect G)) l)
    (o_simple_command D vs l);
  lo_brace : forall g r, logs G (g_compound G) MBraceGroup (in_group (g_cmd G) g ++ map (g_redirect G) r)
    (o_brace_group D g r);
  lo_subshell : forall g r, logs G (g_compound G) MSubshell (in_group (g_cmd G) g ++ map (g_redirect G) r)
    (o_subshell D g r);
  lo_loop : forall k g r, logs G (g_compound G) MLoopCommand (in_gbpair (g_cmd G) g ++ map (g_redirect G) r)
    (o_loop_command D k g r);
  lo_if : forall g r, logs G (g_compound G) MIfCommand (in_if (g_cmd G) g ++ map (g_redirect G) r)
    (o_if_command D g r);
  lo_for : forall g r, logs G (g_compound G) MForCommand (in_for (g_cmd G) (g_word G) g ++ map (g_redirect G) r)
    (o_for_command D g r);
  lo_case : forall g r, logs G (g_compound G) MCaseCommand (in_case (g_cmd G) (g_word G) g ++ map (g_redirect G) r)
    (o_case_command D g r);
  lo_into : forall c, logs G (g_pipeable G) MIntoPipeable [g_compound G c] (o_compound_command_into_pipeable D c);
  lo_function : forall n cs c, logs G (g_pipeable G) MFunction [g_compound G c] (o_function_declaration D n cs c);
  lo_comments : forall cs b, match o_comments D cs b with
    | (inl _, b') => lg G b' = lg G b ++ [Made MComments (length (lg G b)) []]
    | (inr _, b') => lg G b' = lg G b
    end;
  lo_word : forall w, logs G (g_word G) MWord (in_cwk (g_cmd G) w) (o_word D w);
  lo_redirect : forall r, logs G (g_redirect G) MRedirect (in_redirect (g_word G) r) (o_redirect D r) }.

Section Adds.
Variable D : builder.
Variable G : logger D.
Hypothesis HG : logging G.
Notation prog := (prog (bst D) (b_err D)).
Notation ps := postorders.

(** [adds p R]: [p] appends calls [new] to the log, numbered as they should be; if it succeeds with [a] then
    [R a new]. *)
Definition adds {A} (p : prog A) (R : A -> list made -> Prop) : Prop :=
  forall l b, match lrun p l b with
  | (OFuel, _, _) => True
  | (o, _, b') => exists new, lg G b' = lg G b ++ new /\ map number new = seq (length (lg G b)) (length new) /\
      match o with OOk a => R a new | _ => True end
  end.

Lemma adds_ret {A} (a : A) (R : A -> list made -> Prop) : R a [] -> adds (ret a) R.
Proof. intros H l b. rewrite lrun_ret. exists []. now rewrite app_nil_r. Qed.
Lemma adds_throw {A} e (R : A -> list made -> Prop) : adds (throw e) R.
Proof. intros l b. rewrite lrun_throw. exists []. now rewrite app_nil_r. Qed.
Lemma adds_panic {A} s (R : A -> list made -> Prop) : adds (panic s) R.
Proof. intros l b. rewrite lrun_panic. exists []. now rewrite app_nil_r. Qed.
Lemma adds_fuel {A} (R : A -> list made -> Prop) : adds outoffuel R.
Proof. intros l b. exact I. Qed.
Lemma adds_quiet {A} (p : prog A) (R : A -> list made -> Prop) : quiet p -> (forall a, R a []) -> adds p R.
Proof.
  intros H HR l b. specialize (H l b). destruct (lrun p l b) as [[[a|e|s|] l'] b']; auto; subst b';
    exists []; now rewrite app_nil_r.
Qed.
Lemma adds_mono {A} (p : prog A) (R R' : A -> list made -> Prop) :
  adds p R -> (forall a n, R a n -> R' a n) -> adds p R'.
Proof.
  intros H HR l b. specialize (H l b).
  destruct (lrun p l b) as [[[a|e|s|] l'] b']; auto; destruct H as (n & H1 & H2 & H3); exists n; auto.
Qed.
Lemma adds_bind {A C} (p : prog A) (f : A -> prog C) R1 (R : C -> list made -> Prop) :
  adds p R1 -> (forall a n1, R1 a n1 -> adds (f a) (fun c n2 => R c (n1 ++ n2))) -> adds (bind p f) R.
Proof.
  intros Hp Hf l b. rewrite lrun_bind. specialize (Hp l b).
  destruct (lrun p l b) as [[[a|e|s|] l'] b']; auto;
    destruct Hp as (n1 & E1 & Hn1 & H1); try (exists n1; auto; fail).
  specialize (Hf a n1 H1 l' b').
  destruct (lrun (f a) l' b') as [[[c|e|s|] l2] b2]; auto;
    destruct Hf as (n2 & -> & Hn2 & H2); exists (n1 ++ n2); rewrite E1 in *;
    rewrite app_length in Hn2; rewrite <- app_assoc, app_length, map_app, seq_app, Hn1, Hn2; auto.
Qed.
Lemma adds_bindq {A C} (p : prog A) (f : A -> prog C) (R : C -> list made -> Prop) :
  quiet p -> (forall a, adds (f a) R) -> adds (bind p f) R.
Proof.
  intros Hp Hf. eapply adds_bind; [apply adds_quiet with (R := fun _ n => n = []); auto|].
  intros a n1 ->. apply Hf.
Qed.
Lemma adds_unexpected {A} (R : A -> list made -> Prop) : adds unexpected R.
Proof. unfold unexpected. apply adds_bindq; [|intros; apply adds_throw]. apply quiet_sim. intros X. eexists. apply sim_make_unexpected. Qed.
Lemma adds_sub {X} i r (q : prog X) R : adds q R -> adds (sub_iter i r q) R.
Proof.
  intros H l b. rewrite lrun_sub. specialize (H (l_make i) b).
  destruct (lrun q (l_make i) b) as [[[a|e|s|] l'] b']; auto.
Qed.
Lemma adds_comments cs (R : unit -> list made -> Prop) :
  (forall a i, R a [Made MComments i []]) -> adds (build (o_comments D cs)) R.
Proof.
  intros H l b. rewrite lrun_build. pose proof (lo_comments _ HG cs b) as Hf. destruct (o_comments D cs b) as [[a|e] b'].
  - eexists. split; [exact Hf|]. split; [reflexivity|]. apply H.
  - exists []. rewrite app_nil_r. auto.
Qed.

(** ** Post-orders *)
Lemma ps_app a b : ps (a ++ b) = ps a ++ ps b.
Proof. unfold postorders. now rewrite flat_map_concat_map, map_app, concat_app, <- !flat_map_concat_map. Qed.
Lemma ps_cons x l : ps (x :: l) = postorder x ++ ps l.
Proof. reflexivity. Qed.
Lemma ps_one m i from : ps [Made m i from] = ps from ++ [Made m i from].
Proof. unfold postorders. cbn. now rewrite app_nil_r. Qed.
Lemma ps_nil : ps [] = [].
Proof. reflexivity. Qed.
Lemma adds_build {A} (t : A -> made) m from f (R : A -> list made -> Prop) : logs G t m from f ->
  (forall a, ps [t a] = ps from ++ [t a] -> R a [t a]) -> adds (build f) R.
Proof.
  intros Hf H l b. rewrite lrun_build. specialize (Hf b). destruct (f b) as [[a|e] b'].
  - destruct Hf as [Hf1 Hf2]. exists [t a]. split; [exact Hf2|]. split; [cbn; now rewrite Hf1|]. apply H.
    rewrite Hf1. apply ps_one.
  - exists []. rewrite app_nil_r. auto.
Qed.
Lemma adds_built {A} (t : A -> made) m from f : logs G t m from f ->
  adds (build f) (fun a n => n = [t a] /\ ps [t a] = ps from ++ [t a]).
Proof. intros H. eapply adds_build; [exact H|]. auto. Qed.
Lemma flat_one {A} (f : A -> list made) (x : A) : flat_map f [x] = f x.
Proof. cbn. apply app_nil_r. Qed.

(** The relation for whole functions, and for loops that extend what is already there. *)
Definition is {A} (f : A -> list made) (a : A) (n : list made) : Prop := n = ps (f a).
Definition ext {A} (f : A -> list made) (acc : list made) (a : A) (n : list made) : Prop :=
  ps (f a) = ps acc ++ n.
Lemma ext_nil {A} (f : A -> list made) a n : ext f [] a n -> is f a n.
Proof. intros H. now symmetry. Qed.

Variable fuel : nat.
Variable K : knots (bst D) (b_err D) (b_cmd D).
Notation inc := (g_cmd G).
Notation inw := (g_word G).
Notation inr_ := (g_redirect G).
Hypothesis Kg : forall cfg, adds (k_group K cfg) (is (in_group inc)).
Hypothesis Kp : adds (k_param K) (is (in_swk inc)).

Ltac aleaf_base :=
  lazymatch goal with
  | |- adds (k_group _ _) _ => apply Kg
  | |- adds (k_param _) _ => apply Kp
  | |- adds (sub_iter _ _ _) _ => apply adds_sub
  end.
Ltac aleaf := repeat aleaf_base.
Ltac eqs := repeat match goal with
  | H : is _ _ ?n |- _ => unfold is in H; try subst n
  | H : ext _ _ _ _ |- _ => unfold ext in H
  end.
Ltac fin := eqs; unfold is, ext;
  cbn [in_option in_swk in_wk in_cwk in_psk in_group in_gbpair in_if in_for in_arm in_case in_redirect in_env in_arg
       in_and_or in_sum commands gguard gbody conditionals else_branch ff_words ff_body arm_patterns
       pattern_alternatives arm_body cf_word cf_arms fst snd map flat_map];
  rewrite ?flat_map_app, ?map_app;
  cbn [in_option in_swk in_wk in_cwk in_psk in_group in_gbpair in_if in_for in_arm in_case in_redirect in_env in_arg
       in_and_or in_sum commands gguard gbody conditionals else_branch ff_words ff_body arm_patterns
       pattern_alternatives arm_body cf_word cf_arms fst snd map flat_map];
  repeat first [rewrite app_nil_r | rewrite ps_app | rewrite ps_one | rewrite ps_nil | rewrite app_assoc];
  try reflexivity.
Ltac bleaf := lazymatch goal with
  | |- adds (build (o_comments _ _)) _ => apply adds_comments; intros ? ?
  | |- adds (build (o_complete_command _ _ _ _ _)) _ => eapply adds_build; [apply (lo_complete _ HG)|intros ? ?]
  | |- adds (build (o_and_or_list _ _ _)) _ => eapply adds_build; [apply (lo_and_or _ HG)|intros ? ?]
  | |- adds (build (o_pipeline _ _ _)) _ => eapply adds_build; [apply (lo_pipeline _ HG)|intros ? ?]
  | |- adds (build (o_simple_command _ _ _)) _ => eapply adds_build; [apply (lo_simple _ HG)|intros ? ?]
  | |- adds (build (o_brace_group _ _ _)) _ => eapply adds_build; [apply (lo_brace _ HG)|intros ? ?]
  | |- adds (build (o_subshell _ _ _)) _ => eapply adds_build; [apply (lo_subshell _ HG)|intros ? ?]
  | |- adds (build (o_loop_command _ _ _ _)) _ => eapply adds_build; [apply (lo_loop _ HG)|intros ? ?]
  | |- adds (build (o_if_command _ _ _)) _ => eapply adds_build; [apply (lo_if _ HG)|intros ? ?]
  | |- adds (build (o_for_command _ _ _)) _ => eapply adds_build; [apply (lo_for _ HG)|intros ? ?]
  | |- adds (build (o_case_command _ _ _)) _ => eapply adds_build; [apply (lo_case _ HG)|intros ? ?]
  | |- adds (build (o_compound_command_into_pipeable _ _)) _ => eapply adds_build; [apply (lo_into _ HG)|intros ? ?]
  | |- adds (build (o_function_declaration _ _ _ _)) _ => eapply adds_build; [apply (lo_function _ HG)|intros ? ?]
  | |- adds (build (o_word _ _)) _ => eapply adds_build; [apply (lo_word _ HG)|intros ? ?]
  | |- adds (build (o_redirect _ _)) _ => eapply adds_build; [apply (lo_redirect _ HG)|intros ? ?]
  end.
Ltac built := lazymatch goal with
  | |- adds (build (o_complete_command _ _ _ _ _)) _ => eapply adds_built; apply (lo_complete _ HG)
  | |- adds (build (o_and_or_list _ _ _)) _ => eapply adds_built; apply (lo_and_or _ HG)
  | |- adds (build (o_pipeline _ _ _)) _ => eapply adds_built; apply (lo_pipeline _ HG)
  | |- adds (build (o_simple_command _ _ _)) _ => eapply adds_built; apply (lo_simple _ HG)
  | |- adds (build (o_brace_group _ _ _)) _ => eapply adds_built; apply (lo_brace _ HG)
  | |- adds (build (o_subshell _ _ _)) _ => eapply adds_built; apply (lo_subshell _ HG)
  | |- adds (build (o_loop_command _ _ _ _)) _ => eapply adds_built; apply (lo_loop _ HG)
  | |- adds (build (o_if_command _ _ _)) _ => eapply adds_built; apply (lo_if _ HG)
  | |- adds (build (o_for_command _ _ _)) _ => eapply adds_built; apply (lo_for _ HG)
  | |- adds (build (o_case_command _ _ _)) _ => eapply adds_built; apply (lo_case _ HG)
  | |- adds (build (o_compound_command_into_pipeable _ _)) _ => eapply adds_built; apply (lo_into _ HG)
  | |- adds (build (o_function_declaration _ _ _ _)) _ => eapply adds_built; apply (lo_function _ HG)
  | |- adds (build (o_word _ _)) _ => eapply adds_built; apply (lo_word _ HG)
  | |- adds (build (o_redirect _ _)) _ => eapply adds_built; apply (lo_redirect _ HG)
  end.
Ltac ad1 :=
  cbv beta;
  lazymatch goal with
  | |- adds (let _ := _ in _) _ => cbv zeta
  | |- adds (bind _ _) _ =>
      first [apply adds_bindq; [qleaf|intros ?]
            |eapply adds_bind; [aleaf|intros ? ? ?]]
  | |- adds (ret _) _ => apply adds_ret
  | |- adds (throw _) _ => apply adds_throw
  | |- adds (panic _) _ => apply adds_panic
  | |- adds unexpected _ => apply adds_unexpected
  | |- adds outoffuel _ => apply adds_fuel
  | |- adds (build _) _ => bleaf
  | |- adds (match ?x with _ => _ end) _ => destruct x
  | |- adds (if ?x then _ else _) _ => destruct x
  end.

Lemma a_backticked : adds (backticked_raw fuel K) (is (in_swk inc)).
Proof. unfold backticked_raw. repeat ad1. fin. Qed.
Ltac aleaf ::= lazymatch goal with
  | |- adds (backticked_raw _ _) _ => apply a_backticked
  | _ => repeat aleaf_base end.
Lemma in_flush words buf : flat_map (in_swk inc) (flush words buf) = flat_map (in_swk inc) words.
Proof. unfold flush. destruct buf; [reflexivity|]. rewrite flat_map_app. cbn. apply app_nil_r. Qed.
Lemma a_interp_loop d p : forall n words buf,
  adds (word_interp_loop fuel K d p n words buf) (ext (flat_map (in_swk inc)) (flat_map (in_swk inc) words)).
Proof.
  induction n as [|n IH]; intros words buf; [apply adds_fuel|]. cbn [word_interp_loop].
  apply adds_bindq; [qleaf|]. intros q. destruct (otoken_eqb _ _).
  { repeat ad1. unfold ext. now rewrite in_flush, app_nil_r. }
  assert (IH' : forall w n1 words buf buf', n1 = ps (in_swk inc w) ->
    adds (word_interp_loop fuel K d p n (flush words buf ++ [w]) buf')
      (fun a n2 => ext (flat_map (in_swk inc)) (flat_map (in_swk inc) words) a (n1 ++ n2))).
  { intros w n1 ws bf bf' ->. eapply adds_mono; [apply IH|]. unfold ext. intros a n2 H. rewrite H.
    rewrite flat_map_app, in_flush, flat_one, ps_app. now rewrite app_assoc. }
  assert (Hd : adds (t <- next ;;
            match t with
            | Some TBackslash =>
                q <- peek ;;
                if dq_special q || otoken_eqb q (option_map snd d) then
                  e <- next ;;
                  match e with
                  | Some e => word_interp_loop fuel K d p n (flush words buf ++ [KEscaped (as_str e)]) []
                  | None => panic PS_interp_escaped
                  end
                else word_interp_loop fuel K d p n words (buf ++ as_str TBackslash)
            | Some TDollar | Some TBacktick => panic PS_interp_sanity
            | Some t => word_interp_loop fuel K d p n words (buf ++ as_str t)
            | None =>
                match d with
                | Some (o, _) => throw (Unmatched o p)
                | None => ret (flush words buf)
                end
            end) (ext (flat_map (in_swk inc)) (flat_map (in_swk inc) words))).
  { ad1. destruct a as [t|]; [destruct t; try apply IH; try apply adds_panic|].
    - repeat ad1; [|apply IH]. apply (IH' _ []). reflexivity.
    - repeat ad1. unfold ext. now rewrite in_flush, app_nil_r. }
  destruct q as [t|]; [destruct t|]; try exact Hd; ad1; now apply IH'.
Qed.
Lemma a_interp d p : adds (word_interpolated_raw fuel K d p) (is (flat_map (in_swk inc))).
Proof. eapply adds_mono; [apply a_interp_loop|]. intros a n H. now apply ext_nil. Qed.
Ltac aleaf ::= lazymatch goal with
  | |- adds (backticked_raw _ _) _ => apply a_backticked
  | |- adds (word_interpolated_raw _ _ _ _) _ => apply a_interp
  | _ => repeat aleaf_base end.

Lemma a_word_loop d : forall n words,
  adds (word_loop fuel K d n words) (ext (flat_map (in_wk inc)) (flat_map (in_wk inc) words)).
Proof.
  induction n as [|n IH]; intros words; [apply adds_fuel|]. cbn [word_loop].
  assert (IH' : forall w n1, n1 = ps (in_wk inc w) ->
    adds (word_loop fuel K d n (words ++ [w]))
      (fun a n2 => ext (flat_map (in_wk inc)) (flat_map (in_wk inc) words) a (n1 ++ n2))).
  { intros w n1 ->. eapply adds_mono; [apply IH|]. unfold ext. intros a n2 H. rewrite H.
    rewrite flat_map_app, flat_one, ps_app. now rewrite app_assoc. }
  assert (Hret : adds (ret words) (ext (flat_map (in_wk inc)) (flat_map (in_wk inc) words))).
  { apply adds_ret. unfold ext. now rewrite app_nil_r. }
  ad1. destruct (match d with Some _ => _ | None => _ end); [exact Hret|].
  destruct (word_class_of a).
  - ad1. ad1. destruct a1 as [t|]; [|apply adds_panic].
    destruct t; try apply adds_panic; try (apply (IH' _ []); reflexivity).
    all: lazymatch goal with
      | |- adds (bind (collect_balanced _ _) _) _ => ad1; apply (IH' _ []); reflexivity
      | |- adds (bind next _) _ => ad1; destruct a1 as [t|]; [|exact Hret];
          destruct t; try (apply (IH' _ []); reflexivity); exact Hret
      | _ => ad1; now apply IH'
      end.
  - ad1. now apply IH'.
  - ad1. now apply IH'.
  - exact Hret.
Qed.
Lemma in_pack words : in_option (in_cwk inc) (pack_words words) = flat_map (in_wk inc) words.
Proof. destruct words as [|a [|b l]]; cbn; now rewrite ?app_nil_r. Qed.
Lemma a_word_raw_with_delim d : adds (word_raw_with_delim fuel K d) (is (in_option (in_cwk inc))).
Proof.
  unfold word_raw_with_delim. ad1. ad1. ad1; [now apply adds_ret|].
  eapply adds_bind; [apply a_word_loop|]. intros ws n1 H. apply adds_ret. unfold is. rewrite in_pack, app_nil_r.
  symmetry. exact H.
Qed.
Lemma a_word_raw : adds (word_raw fuel K) (is (in_option (in_cwk inc))).
Proof. apply a_word_raw_with_delim. Qed.
Ltac aleaf ::= lazymatch goal with
  | |- adds (backticked_raw _ _) _ => apply a_backticked
  | |- adds (word_interpolated_raw _ _ _ _) _ => apply a_interp
  | |- adds (word_raw_with_delim _ _ _) _ => apply a_word_raw_with_delim
  | |- adds (word_raw _ _) _ => apply a_word_raw
  | _ => repeat aleaf_base end.
Lemma a_literals : forall n words, adds (capture_literals n words)
  (fun x n => n = [] /\ flat_map (in_wk inc) (fst x) = flat_map (in_wk inc) words).
Proof.
  induction n as [|n IH]; intros words; [apply adds_fuel|]. cbn [capture_literals].
  assert (IH' : forall w, in_wk inc w = [] -> adds (capture_literals n (words ++ [w]))
     (fun x n => n = [] /\ flat_map (in_wk inc) (fst x) = flat_map (in_wk inc) words)).
  { intros w Hw. eapply adds_mono; [apply IH|]. intros x n1 [H1 H2]. split; [exact H1|].
    rewrite H2, flat_map_app, flat_one, Hw. apply app_nil_r. }
  ad1. destruct (subst_class_of a); repeat ad1; auto; now apply IH'.
Qed.
Lemma a_capture_words : forall n words,
  adds (capture_words fuel K n words) (ext (flat_map (in_wk inc)) (flat_map (in_wk inc) words)).
Proof.
  induction n as [|n IH]; intros words; [apply adds_fuel|]. cbn [capture_words].
  eapply adds_bind; [apply a_literals|]. intros [ws stop] n1 [-> H1]. cbn [fst app] in *.
  destruct stop.
  { apply adds_ret. unfold ext. now rewrite H1, app_nil_r. }
  ad1. destruct a as [[l|w]|]; unfold is in H; subst n1.
  - eapply adds_mono; [apply IH|]. unfold ext. intros a n2 ->. rewrite flat_map_app, ps_app, H1, app_assoc. reflexivity.
  - eapply adds_mono; [apply IH|]. unfold ext. intros a n2 ->. rewrite flat_map_app, flat_one, ps_app, H1, app_assoc. reflexivity.
  - apply adds_ret. unfold ext. rewrite H1. cbn. now rewrite app_nil_r.
Qed.
Lemma a_pswr p : adds (parameter_substitution_word_raw fuel K p) (is (in_option (in_cwk inc))).
Proof.
  unfold parameter_substitution_word_raw. eapply adds_bind; [apply a_capture_words|]. intros ws n1 H.
  ad1. ad1; [|apply adds_throw]. apply adds_ret. unfold is. rewrite in_pack, app_nil_r. symmetry. exact H.
Qed.
Ltac aleaf ::= lazymatch goal with
  | |- adds (backticked_raw _ _) _ => apply a_backticked
  | |- adds (word_interpolated_raw _ _ _ _) _ => apply a_interp
  | |- adds (word_raw_with_delim _ _ _) _ => apply a_word_raw_with_delim
  | |- adds (word_raw _ _) _ => apply a_word_raw
  | |- adds (parameter_substitution_word_raw _ _ _) _ => apply a_pswr
  | _ => repeat aleaf_base end.
Lemma in_subst_of_op op c p w s : subst_of_op op c p w = Some s -> in_psk inc s = in_option (in_cwk inc) w.
Proof.
  unfold subst_of_op. destruct w as [w|].
  - rewrite !andb_false_r. cbn [andb]. destruct op; intros H; inversion H; reflexivity.
  - destruct (_ && token_eqb op TDash); [intros H; inversion H; reflexivity|].
    destruct (_ && token_eqb op TQuestion); [intros H; inversion H; reflexivity|].
    destruct op; intros H; inversion H; reflexivity.
Qed.
Lemma a_psbr p q : adds (parameter_substitution_body_raw fuel K p q) (is (in_swk inc)).
Proof.
  unfold parameter_substitution_body_raw. ad1. ad1. ad1. destruct a1 as [t|]; [|apply adds_throw].
  destruct t; try apply adds_throw; try (apply adds_ret; reflexivity);
  (ad1; destruct (subst_of_op _ _ _ _) eqn:E; [|apply adds_panic]; apply adds_ret; unfold is in *; subst;
   match goal with |- context [in_swk inc (KSubst ?x)] => change (in_swk inc (KSubst x)) with (in_psk inc x) end;
   rewrite (in_subst_of_op _ _ _ _ _ E), app_nil_r; reflexivity).
Qed.
Lemma a_subshell_internal e : adds (subshell_internal K e) (is (in_group inc)).
Proof.
  unfold subshell_internal. ad1. ad1. ad1. ad1. destruct a2 as [t|]; [|apply adds_throw].
  destruct t; try apply adds_unexpected. destruct (_ || _); [|apply adds_unexpected]. ad1. apply adds_ret.
  unfold is in *. subst. apply app_nil_r.
Qed.
Lemma a_paren : adds (paren_substitution fuel K) (is (in_swk inc)).
Proof.
  unfold paren_substitution. ad1. destruct a.
  - ad1. ad1. ad1. ad1. apply adds_bindq; [destruct (otoken_eqb _ _); [qleaf|]; apply quiet_bind; [qleaf|intros; qleaf]|].
    intros s. repeat ad1. reflexivity.
  - eapply adds_bind; [apply a_subshell_internal|]. intros g n1 ->. apply adds_ret. unfold is. now rewrite app_nil_r.
Qed.
Lemma a_curly p : adds (curly_substitution fuel K p) (is (in_swk inc)).
Proof.
  unfold curly_substitution. ad1. ad1. ad1.
  assert (Hd : adds (if param_eqb PmPound a0 then
        match a1 with
        | Some TColon | Some TDash | Some TEquals | Some TQuestion | Some TPlus
        | Some TCurlyClose => parameter_substitution_body_raw fuel K a0 p
        | _ =>
            p' <- parameter_inner ;;
            eat TCurlyClose ;;
            ret (KSubst (KSLen p'))
        end
      else parameter_substitution_body_raw fuel K a0 p) (is (in_swk inc))).
  { destruct (param_eqb _ _); [|apply a_psbr].
    assert (He : adds (p' <- parameter_inner ;; eat TCurlyClose ;; ret (KSubst (KSLen p'))) (is (in_swk inc)))
      by (repeat ad1; reflexivity).
    destruct a1 as [t|]; [|exact He]. destruct t; try exact He; apply a_psbr. }
  destruct a1 as [t|]; [|exact Hd]. destruct t; try exact Hd.
  - ad1. ad1. ad1. apply adds_ret. unfold is in *. subst. rewrite app_nil_r. destruct a2, a3 as [w|]; try reflexivity.
    cbn. now destruct (param_eqb _ _).
  - ad1. ad1. ad1. apply adds_ret. unfold is in *. subst. rewrite app_nil_r. now destruct a2.
Qed.
Lemma a_psr : adds (parameter_substitution_raw fuel K) (is (in_swk inc)).
Proof.
  unfold parameter_substitution_raw. ad1. ad1. destruct a0 as [t|]; [|apply adds_unexpected].
  destruct t; try apply adds_unexpected; [apply a_paren|apply a_curly].
Qed.
Lemma a_parameter_raw : adds (parameter_raw fuel K) (is (in_swk inc)).
Proof.
  unfold parameter_raw. ad1. ad1. destruct a0 as [t|]; [|apply adds_throw].
  destruct t; try apply adds_throw; try (apply adds_ret; reflexivity).
  ad1. destruct a0 as [t|]; [|apply adds_ret; reflexivity].
  destruct t; try (apply adds_ret; reflexivity); try apply a_psr; repeat ad1; reflexivity.
Qed.

(** ** Words and redirections *)
Ltac done_ := eqs; unfold is in *; cbn [in_option in_swk in_wk in_cwk in_redirect in_sum map flat_map] in *; rewrite ?app_nil_r in *;
  repeat match goal with H : ps [_] = _ |- _ => rewrite H end;
  rewrite ?ps_app, ?app_nil_r, ?app_assoc; reflexivity.
Lemma a_wptw : adds (word_preserve_trailing_whitespace D fuel K) (is (in_option (fun w => [inw w]))).
Proof.
  unfold word_preserve_trailing_whitespace. ad1. destruct a as [w|].
  - eapply adds_bind; [built|]. intros a n2 [-> Ha]. apply adds_ret. done_.
  - apply adds_ret. done_.
Qed.
Lemma a_word : adds (word D fuel K) (is (in_option (fun w => [inw w]))).
Proof.
  unfold word. eapply adds_bind; [apply a_wptw|]. intros w n1 H. ad1. apply adds_ret. done_.
Qed.
Lemma a_bcs : adds (backticked_command_substitution D fuel K) (is (fun w => [inw w])).
Proof. unfold backticked_command_substitution. ad1. bleaf. done_. Qed.
Lemma a_parameter : adds (parameter D fuel K) (is (fun w => [inw w])).
Proof. unfold parameter. eapply adds_bind; [apply a_parameter_raw|]. intros w n1 H. bleaf. done_. Qed.

Lemma in_heredoc_body ws : in_cwk inc (heredoc_body_word ws) = flat_map (in_swk inc) ws.
Proof.
  destruct ws as [|a [|b l]]; cbn; rewrite ?app_nil_r; auto. f_equal. f_equal.
  induction l as [|x l IH]; cbn; [reflexivity|]. now rewrite IH.
Qed.
Lemma quiet_delim_tokens : forall n acc, quiet (delim_tokens_loop D fuel n acc).
Proof.
  induction n as [|n IH]; intros acc; [apply quiet_fuel|]. cbn [delim_tokens_loop].
  apply quiet_bind; [qleaf|]. intros [t|]; [|qleaf]. destruct (_ && _); [qleaf|].
  apply quiet_bind; [qleaf|]. intros ts. apply IH.
Qed.
Lemma quiet_saved : forall n acc, quiet (saved_tokens_loop D fuel n acc).
Proof.
  induction n as [|n IH]; intros acc; [apply quiet_fuel|]. cbn [saved_tokens_loop].
  apply quiet_bind; [qleaf|]. intros [t|]; [|qleaf].
  assert (Hd : quiet (ts <- collect_balanced fuel None ;; saved_tokens_loop D fuel n (acc ++ ts)))
    by (apply quiet_bind; [qleaf|]; intros ts; apply IH).
  destruct t; try exact Hd. apply quiet_bind; [qleaf|]. intros [t|]; [qleaf|apply quiet_panic].
Qed.
Lemma quiet_delim_dq : forall n b d, quiet (delim_dq_loop D n b d).
Proof.
  induction n as [|n IH]; intros b d; [apply quiet_fuel|]. cbn [delim_dq_loop].
  apply quiet_bind; [apply quiet_sim; intros X; exists same; apply sim_balanced_next|].
  intros [[[t|[t p]]|] b1]; [|apply quiet_throw|qleaf].
  destruct t; try apply IH.
  apply quiet_bind; [apply quiet_sim; intros X; exists same; apply sim_balanced_next|].
  intros [[[t|[t p]]|] b2]; [|apply quiet_throw|apply IH]. destruct t; apply IH.
Qed.
Lemma quiet_delim_loop : forall n q d, quiet (delim_loop D fuel n q d).
Proof.
  induction n as [|n IH]; intros q d; [apply quiet_fuel|]. cbn [delim_loop].
  apply quiet_bind; [qleaf|]. intros p. apply quiet_bind; [qleaf|]. intros [t|]; [|qleaf].
  destruct t; try apply IH.
  all: lazymatch goal with
    | |- quiet (bind (balanced_new _) _) =>
        apply quiet_bind; [apply quiet_sim; intros X; exists same; apply sim_balanced_new|intros b];
        apply quiet_bind; [apply quiet_delim_dq|intros x; apply IH]
    | |- quiet (bind (collect_bbr _ _) _) =>
        apply quiet_bind; [apply quiet_sim; intros X; exists same; apply sim_collect_bbr; lia|intros ts; apply IH]
    | _ => apply quiet_bind; [qleaf|intros ts; apply IH]
    end.
Qed.
Lemma quiet_heredoc_line st d : forall n l p, quiet (heredoc_line D st d n l p).
Proof.
  induction n as [|n IH]; intros l p; [apply quiet_fuel|]. cbn [heredoc_line]. apply quiet_bind.
  { destruct st; [|qleaf]. apply quiet_bind; [qleaf|]. intros [t|]; [|qleaf]. destruct t; try qleaf.
    cbv zeta. apply quiet_bind; [qleaf|]. intros; qleaf. }
  intros [l' p']. apply quiet_bind; [qleaf|]. intros [t|].
  - destruct t; try apply IH. destruct (is_delim_line _ _); qleaf.
  - destruct l'; [qleaf|]. destruct (is_delim_line _ _); qleaf.
Qed.
Lemma quiet_heredoc_lines st d : forall n acc, quiet (heredoc_lines D fuel st d n acc).
Proof.
  induction n as [|n IH]; intros acc; [apply quiet_fuel|]. cbn [heredoc_lines].
  apply quiet_bind; [qleaf|]. intros p. apply quiet_bind; [apply quiet_heredoc_line|]. intros [|l q]; [qleaf|apply IH].
Qed.
Lemma a_redirect_heredoc fd : adds (redirect_heredoc D fuel K fd) (is (fun r => [inr_ r])).
Proof.
  unfold redirect_heredoc. ad1. eapply adds_bindq.
  { destruct a as [t|]; [|qleaf]. destruct t; try qleaf; (apply quiet_bind; [qleaf|intros; qleaf]). }
  intros st. ad1. apply adds_bindq; [apply quiet_delim_tokens|]. intros ts.
  apply adds_bindq; [apply quiet_sub; apply quiet_delim_loop|]. intros [d q].
  destruct d as [|c d]; [apply adds_unexpected|].
  ad1. apply adds_bindq; [apply quiet_saved|]. intros sv. ad1. apply adds_bindq; [apply quiet_heredoc_lines|]. intros hd.
  ad1. eapply adds_bind with (R1 := is (in_cwk inc)).
  { destruct q; [now apply adds_ret|]. eapply adds_bind; [apply adds_sub; apply a_interp|].
    intros ws n1 H. apply adds_ret. unfold is in *. now rewrite in_heredoc_body, app_nil_r. }
  intros w n1 H. eapply adds_bind; [built|]. intros x n2 [-> Hx]. bleaf. done_.
Qed.
Lemma a_get_path : adds (get_path D fuel K) (is (fun w => [inw w])).
Proof. unfold get_path. ad1. destruct a as [w|]; [|apply adds_unexpected]. bleaf. done_. Qed.
Lemma a_get_dup_path : adds (get_dup_path D fuel K) (is (fun w => [inw w])).
Proof.
  unfold get_dup_path. ad1. eapply adds_bind with (R1 := is (in_cwk inc)).
  { destruct a as [t|].
    - ad1. now apply adds_ret.
    - ad1. ad1. destruct a0 as [w|]; [|apply adds_unexpected]. cbv zeta.
      match goal with |- adds (if ?c then _ else _) _ => destruct c end; [|ad1; apply adds_throw].
      apply adds_ret. done_. }
  intros w n1 H. bleaf. done_.
Qed.
Lemma a_redirect_op op fd : adds (redirect_op D fuel K op fd) (is (fun r => [inr_ r])).
Proof.
  unfold redirect_op. ad1. eapply adds_bind with (R1 := is (in_redirect inw)).
  { destruct op; try apply adds_panic;
    (eapply adds_bind; [first [apply a_get_path|apply a_get_dup_path]|]; intros w n1 H; apply adds_ret; done_). }
  intros r n1 H. bleaf. done_.
Qed.
Lemma literal_nothing l s : literal_fragments l = Some s -> flat_map (in_wk inc) l = [].
Proof.
  revert s. induction l as [|x l IH]; intros s; [reflexivity|]. destruct x as [[]| |]; try discriminate.
  cbn [literal_fragments]. destruct (literal_fragments l) as [r|]; [|discriminate]. intros _. cbn. exact (IH r eq_refl).
Qed.
Lemma as_num_nothing w n : word_as_num w = Some n -> in_cwk inc w = [].
Proof.
  destruct w as [l|[[]| |]]; try discriminate; [|reflexivity]. cbn [word_as_num].
  destruct (literal_fragments l) as [s|] eqn:E; [|discriminate]. intros _. exact (literal_nothing l s E).
Qed.
Lemma a_redirect_after fd w : in_option (in_cwk inc) w = [] ->
  adds (redirect_after D fuel K fd w) (is (in_option (in_sum inw inr_))).
Proof.
  intros Hw. unfold redirect_after. ad1.
  assert (Hd : adds (match w with
      | Some w => w <- build (o_word D w) ;; ret (Some (inr w))
      | None => ret None
      end) (is (in_option (in_sum inw inr_)))).
  { destruct w as [w|]; [|now apply adds_ret]. eapply adds_bind; [built|]. intros x n1 [-> Hx]. apply adds_ret.
    cbn [in_option] in Hw. rewrite Hw in Hx. done_. }
  destruct a as [t|]; [|exact Hd].
  destruct t; try exact Hd;
    try (ad1; destruct a as [op|]; [|apply adds_panic]; (eapply adds_bind; [apply a_redirect_op|]; intros r n1 H; apply adds_ret; done_));
    (eapply adds_bind; [apply a_redirect_heredoc|]; intros r n1 H; apply adds_ret; done_).
Qed.
Lemma a_redirect : adds (redirect D fuel K) (is (in_option (in_sum inw inr_))).
Proof.
  unfold redirect. ad1. destruct a as [w|].
  - destruct (word_as_num w) as [num|] eqn:E.
    + assert (Hw := as_num_nothing _ _ E). unfold is in H. cbn [in_option] in H. rewrite Hw in H. subst n1. cbn [app].
      apply a_redirect_after. exact Hw.
    + eapply adds_bind; [built|]. intros x n2 [-> Hx]. apply adds_ret. done_.
  - unfold is in H. cbn in H. subst n1. cbn [app]. now apply a_redirect_after.
Qed.
Lemma a_redirect_list_loop : forall n acc, adds (redirect_list_loop D fuel K n acc) (ext (map inr_) (map inr_ acc)).
Proof.
  induction n as [|n IH]; intros acc; [apply adds_fuel|]. cbn [redirect_list_loop]. ad1. ad1.
  eapply adds_bind; [apply a_redirect|]. intros [[io|w]|] n1 H.
  - eapply adds_mono; [apply IH|]. unfold ext. intros a1 n2 ->. rewrite map_app, ps_app, <- app_assoc. rewrite H. reflexivity.
  - ad1. apply adds_throw.
  - apply adds_ret. unfold ext. rewrite H. cbn. now rewrite app_nil_r.
Qed.
Lemma a_redirect_list : adds (redirect_list D fuel K) (is (map inr_)).
Proof. eapply adds_mono; [apply a_redirect_list_loop|]. intros a n H. now apply ext_nil. Qed.

(** ** Commands *)
Lemma a_simple_vars : forall n vars, adds (simple_vars_loop D fuel K n vars)
  (ext (fun x => flat_map (in_env inw inr_) (fst x) ++ in_option (fun w => [inw w]) (snd x)) (flat_map (in_env inw inr_) vars)).
Proof.
  induction n as [|n IH]; intros vars; [apply adds_fuel|]. cbn [simple_vars_loop]. ad1. ad1. destruct a0.
  - ad1. destruct a0 as [t|]; [|apply adds_panic]. destruct t; try apply adds_panic. ad1. ad1.
    eapply adds_bind with (R1 := is (in_option (fun w => [inw w]))).
    { assert (Hw := a_word). destruct a1 as [t|]; [|exact Hw]. destruct t; try exact Hw. now apply adds_ret. }
    intros v n1 H. eapply adds_mono; [apply IH|]. unfold ext. intros a2 n2 ->.
    rewrite flat_map_app, flat_one, ps_app, <- app_assoc, H. reflexivity.
  - eapply adds_bind; [apply a_redirect|]. intros [[io|w]|] n1 H.
    + eapply adds_mono; [apply IH|]. unfold ext. intros a1 n2 ->. rewrite flat_map_app, flat_one, ps_app, <- app_assoc, H. reflexivity.
    + apply adds_ret. unfold ext. cbn [fst snd]. rewrite ps_app, H. now rewrite app_nil_r.
    + apply adds_ret. unfold ext. cbn [fst snd in_option]. rewrite H. cbn. now rewrite !app_nil_r.
Qed.
Lemma a_simple_args : forall n args, adds (simple_args_loop D fuel K n args)
  (ext (flat_map (in_arg inw inr_)) (flat_map (in_arg inw inr_) args)).
Proof.
  induction n as [|n IH]; intros vars; [apply adds_fuel|]. cbn [simple_args_loop].
  eapply adds_bind; [apply a_redirect|]. intros [[io|w]|] n1 H.
  - eapply adds_mono; [apply IH|]. unfold ext. intros a1 n2 ->. rewrite flat_map_app, flat_one, ps_app, <- app_assoc, H. reflexivity.
  - eapply adds_mono; [apply IH|]. unfold ext. intros a1 n2 ->. rewrite flat_map_app, flat_one, ps_app, <- app_assoc, H. reflexivity.
  - apply adds_ret. unfold ext. rewrite H. cbn. now rewrite !app_nil_r.
Qed.
Lemma a_simple_command : adds (simple_command D fuel K) (is (fun x => [g_pipeable G x])).
Proof.
  unfold simple_command. eapply adds_bind; [apply a_simple_vars|]. intros [vars exec] n1 H1.
  eapply adds_bind; [apply a_simple_args|]. intros args n2 H2. destruct (_ && _); [apply adds_unexpected|].
  bleaf. unfold is, ext in *. cbn [fst snd] in *. rewrite H, ps_app, H2. rewrite ps_app in H1. cbn in H1. rewrite <- H1, <- !app_assoc.
  f_equal. destruct exec; reflexivity.
Qed.
Lemma a_command_group cfg : adds (command_group D K cfg) (is (in_group inc)).
Proof. unfold command_group. ad1. destruct (is_nil _); [apply adds_unexpected|]. apply adds_ret. done_. Qed.
Lemma a_do_group : adds (do_group D fuel K) (is (in_group inc)).
Proof.
  unfold do_group. ad1. ad1. destruct a0; [|apply adds_unexpected].
  eapply adds_bind; [apply a_command_group|]. intros g n1 H. ad1. destruct a0.
  - apply adds_ret. done_.
  - ad1. apply adds_throw.
Qed.
Lemma a_brace_group : adds (brace_group D fuel K) (is (in_group inc)).
Proof.
  unfold brace_group. ad1. ad1. eapply adds_bind; [apply a_command_group|]. intros g n1 H. ad1.
  destruct a1; [|apply adds_throw]. apply adds_ret. done_.
Qed.
Lemma a_subshell : adds (subshell D K) (is (in_group inc)).
Proof. apply a_subshell_internal. Qed.
Lemma quiet_next_compound : quiet (next_compound_command_type D fuel).
Proof.
  unfold next_compound_command_type. apply quiet_bind; [qleaf|]. intros _. apply quiet_bind; [qleaf|]. intros p.
  destruct (otoken_eqb _ _); [qleaf|]. apply quiet_bind; [qleaf|]. intros [c|]; [qleaf|].
  apply quiet_bind; [qleaf|]. intros w. qleaf.
Qed.
Lemma a_loop_command : adds (loop_command D fuel K) (is (fun x => in_gbpair inc (snd x))).
Proof.
  unfold loop_command. ad1. ad1. destruct a0 as [w|]; [|apply adds_unexpected].
  apply adds_bindq; [repeat (destruct (str_eqb _ _); [qleaf|]); apply quiet_panic|]. intros k.
  eapply adds_bind; [apply a_command_group|]. intros g n1 H1. ad1. destruct a0.
  - eapply adds_bind; [apply a_do_group|]. intros b n2 H2. apply adds_ret. unfold is, in_gbpair in *. cbn [snd gguard gbody].
    rewrite ps_app, H1, H2. now rewrite app_nil_r.
  - ad1. apply adds_throw.
Qed.
Lemma a_if_loop p : forall n conds, adds (if_loop D fuel K p n conds) (ext (in_if inc) (flat_map (in_gbpair inc) conds)).
Proof.
  induction n as [|n IH]; intros conds; [apply adds_fuel|]. cbn [if_loop].
  eapply adds_bind; [apply a_command_group|]. intros g n1 H1. ad1. destruct a as [t|]; [|ad1; apply adds_throw].
  eapply adds_bind; [apply a_command_group|]. intros b n2 H2. cbv zeta. ad1. destruct a as [k|]; [|ad1; apply adds_throw].
  unfold is in *. subst n1 n2.
  assert (E : forall X, ps (flat_map (in_gbpair inc) (conds ++ [mkGBP g b])) ++ X =
    ps (flat_map (in_gbpair inc) conds) ++ ps (in_group inc g) ++ ps (in_group inc b) ++ X).
  { intros X. rewrite flat_map_app, flat_one, ps_app. unfold in_gbpair at 2. cbn [gguard gbody].
    rewrite ps_app, <- !app_assoc. reflexivity. }
  destruct (str_eqb k ELIF).
  { eapply adds_mono; [apply IH|]. unfold ext. intros a n2 ->. apply E. }
  destruct (str_eqb k ELSE).
  { eapply adds_bind; [apply a_command_group|]. intros e n3 H3. ad1. destruct a as [f|]; [|ad1; apply adds_throw].
    apply adds_ret. unfold ext, in_if. cbn [conditionals else_branch in_option]. rewrite ps_app, E, H3.
    now rewrite app_nil_r. }
  destruct (str_eqb k FI); [|apply adds_panic].
  apply adds_ret. unfold ext, in_if. cbn [conditionals else_branch in_option]. rewrite ps_app, E. reflexivity.
Qed.
Lemma a_if_command : adds (if_command D fuel K) (is (in_if inc)).
Proof.
  unfold if_command. ad1. ad1. destruct a0; [|apply adds_unexpected]. eapply adds_mono; [apply a_if_loop|].
  intros x n H. now apply ext_nil.
Qed.
Lemma a_words_loop : forall n acc, adds (words_loop D fuel K n acc) (ext (map inw) (map inw acc)).
Proof.
  induction n as [|n IH]; intros acc; [apply adds_fuel|]. cbn [words_loop].
  eapply adds_bind; [apply a_word|]. intros [w|] n1 H.
  - eapply adds_mono; [apply IH|]. unfold ext. intros a1 n2 ->. rewrite map_app, ps_app, <- app_assoc, H. reflexivity.
  - apply adds_ret. unfold ext. rewrite H. cbn. now rewrite app_nil_r.
Qed.
Lemma a_for_words p c : adds (for_words D fuel K p c)
  (is (fun x => in_option (fun y => map inw (snd (fst y))) (fst x))).
Proof.
  unfold for_words. ad1. destruct a as [i|].
  - ad1. destruct a as [r|]; [|apply adds_panic]. eapply adds_bind; [apply a_words_loop|]. intros ws n1 H1. ad1. ad1.
    destruct (_ && _); [apply adds_unexpected|]. ad1. apply adds_ret. unfold is. cbn [fst snd in_option].
    rewrite app_nil_r. symmetry. exact H1.
  - ad1. destruct (otoken_eqb _ _).
    + ad1. ad1. now apply adds_ret.
    + ad1. destruct a0; [now apply adds_ret|]. ad1. apply adds_throw.
Qed.
Lemma a_for_command : adds (for_command D fuel K) (is (in_for inc inw)).
Proof.
  unfold for_command. ad1. ad1. destruct a0; [|apply adds_unexpected]. ad1. ad1.
  assert (Hb : adds (var_pos <- getpos ;; t <- next ;;
          match t with
          | Some (TName var) =>
              var_comment <- newline fuel ;;
              post_var_comments <- linebreak fuel ;;
              '(words, pre_body_comments) <- for_words D fuel K a post_var_comments ;;
              d <- peek_reserved_word fuel [DO] ;;
              match d with
              | None => q <- getpos ;; throw (IncompleteCmd FOR a DO q)
              | Some _ =>
                  body <- do_group D fuel K ;;
                  ret (mkFF var var_comment words pre_body_comments body)
              end
          | Some (TLiteral s) => throw (BadIdent s var_pos)
          | _ => panic PS_for_var
          end) (is (in_for inc inw))).
  { ad1. ad1. destruct a3 as [t|]; [|apply adds_panic]. destruct t; try apply adds_panic; try apply adds_throw.
    ad1. ad1. eapply adds_bind; [apply a_for_words|]. intros [ws c] n1 H1. ad1. destruct a5; [|ad1; apply adds_throw].
    eapply adds_bind; [apply a_do_group|]. intros g n2 H2. apply adds_ret. unfold is, in_for in *. cbn [ff_words ff_body fst] in *.
    rewrite ps_app, H1, H2. now rewrite app_nil_r. }
  destruct a1 as [t|]; [|apply adds_unexpected]. destruct t; try apply adds_unexpected; exact Hb.
Qed.
Lemma a_patterns p : forall n acc, adds (patterns_loop D fuel K p n acc) (ext (map inw) (map inw acc)).
Proof.
  induction n as [|n IH]; intros acc; [apply adds_fuel|]. cbn [patterns_loop].
  eapply adds_bind; [apply a_word|]. intros [w|] n1 H; [|apply adds_unexpected]. ad1.
  destruct a as [t|]; [|ad1; apply adds_throw]. destruct t; try apply adds_unexpected.
  all: ad1; first [apply adds_ret; unfold ext; rewrite map_app, ps_app, H; now rewrite app_nil_r
                  |eapply adds_mono; [apply IH|]; unfold ext; intros a1 n2 ->; rewrite map_app, ps_app, <- app_assoc, H; reflexivity].
Qed.
Lemma a_arms p : forall n arms, adds (arms_loop D fuel K p n arms)
  (ext (fun x => flat_map (in_arm inc inw) (fst x)) (flat_map (in_arm inc inw) arms)).
Proof.
  induction n as [|n IH]; intros arms; [apply adds_fuel|]. cbn [arms_loop]. ad1. ad1. destruct a0.
  { apply adds_ret. unfold ext. now rewrite app_nil_r. }
  ad1. ad1. destruct a1; [|ad1; apply adds_throw].
  eapply adds_bind; [apply a_patterns|]. intros ps_ n1 H1. ad1. ad1. ad1.
  assert (E : forall c X, ps (flat_map (in_arm inc inw) (arms ++ [mkCA (mkCP a ps_ a1) a2 c])) ++ X =
    ps (flat_map (in_arm inc inw) arms) ++ n1 ++ n0 ++ X).
  { intros c X. rewrite flat_map_app, flat_one, ps_app. unfold in_arm at 2. cbn [arm_patterns pattern_alternatives arm_body].
    rewrite ps_app, <- !app_assoc, H. do 2 f_equal. exact H1. }
  destruct a3.
  - ad1. eapply adds_mono; [apply IH|]. unfold ext. intros x n2 ->. apply E.
  - apply adds_ret. unfold ext. cbn [fst]. rewrite <- (E None []). now rewrite app_nil_r.
Qed.
Lemma a_case_command : adds (case_command D fuel K) (is (in_case inc inw)).
Proof.
  unfold case_command. ad1. ad1. destruct a0; [|apply adds_unexpected].
  eapply adds_bind; [apply a_word|]. intros [w|] n1 H1; [|apply adds_unexpected]. ad1. ad1.
  destruct a1; [|ad1; apply adds_throw]. ad1. eapply adds_bind; [apply a_arms|]. intros [arms pc] n2 H2. ad1. ad1.
  destruct a3; [|ad1; apply adds_throw]. apply adds_ret. unfold is, in_case in *. cbn [cf_word cf_arms].
  change (inw w :: flat_map (in_arm inc inw) arms) with ([inw w] ++ flat_map (in_arm inc inw) arms).
  rewrite ps_app, H1, app_nil_r. f_equal. symmetry. exact H2.
Qed.
Lemma a_compound_kw kw : adds (compound_command_kw D fuel K kw) (is (fun c => [g_compound G c])).
Proof.
  unfold compound_command_kw. destruct kw as [[]|]; [| | | | | | |apply adds_unexpected].
  all: eapply adds_bind; [first [apply a_for_command|apply a_case_command|apply a_if_command|apply a_loop_command
    |apply a_brace_group|apply a_subshell]|]; intros x n1 H1; try destruct x as [k x];
    (eapply adds_bind; [apply a_redirect_list|]; intros io n2 H2; bleaf; unfold is in *; cbn [snd] in *;
     subst n1 n2; rewrite H, ps_app, <- app_assoc; reflexivity).
Qed.
Lemma a_compound : adds (compound_command D fuel K) (is (fun c => [g_compound G c])).
Proof. unfold compound_command. apply adds_bindq; [apply quiet_next_compound|]. intros kw. apply a_compound_kw. Qed.
Lemma a_function_parens f : adds (function_parens D fuel K f) (is (in_option (fun c => [g_compound G c]))).
Proof.
  unfold function_parens. ad1. destruct (otoken_eqb _ _).
  { ad1. ad1. ad1. now apply adds_ret. }
  destruct (_ && _); [now apply adds_ret|].
  apply adds_bindq.
  { destruct a as [t|]; [|qleaf]. destruct t; try qleaf. apply quiet_bind; [qleaf|intros; qleaf]. }
  intros _. ad1. destruct (negb f).
  { ad1. ad1. ad1. now apply adds_ret. }
  ad1. destruct (otoken_eqb _ _); [|now apply adds_ret].
  eapply adds_bind; [apply a_subshell_internal|]. intros g n1 H1. destruct (is_nil (commands g) && _) eqn:E.
  - apply andb_prop in E. destruct E as [E _]. unfold is in H1. unfold in_group in H1. destruct (commands g); [|discriminate].
    subst n1. now apply adds_ret.
  - eapply adds_bind; [built|]. intros c n2 [-> H2]. apply adds_ret. done_.
Qed.
Lemma a_fdi : adds (function_declaration_internal D fuel K) (is (fun x => [g_compound G (snd x)])).
Proof.
  unfold function_declaration_internal. ad1. apply adds_bindq.
  { destruct a; [|qleaf]. apply quiet_bind; [qleaf|intros; qleaf]. }
  intros ff. ad1. ad1.
  assert (Hb : adds (ident_pos <- getpos ;; t <- next ;;
      match t with
      | Some (TName name) =>
          body <- function_parens D fuel K ff ;;
          match body with
          | Some c => ret (name, [], c)
          | None =>
              lb <- linebreak fuel ;;
              c <- compound_command D fuel K ;;
              ret (name, lb, c)
          end
      | Some (TLiteral s) => throw (BadIdent s ident_pos)
      | _ => panic PS_fn_name
      end) (is (fun x => [g_compound G (snd x)]))).
  { ad1. ad1. destruct a3 as [t|]; [|apply adds_panic]. destruct t; try apply adds_panic; try apply adds_throw.
    eapply adds_bind; [apply a_function_parens|]. intros [c|] n1 H1.
    - apply adds_ret. unfold is in *. cbn [snd]. now rewrite app_nil_r.
    - unfold is in H1. cbn in H1. subst n1. ad1. eapply adds_bind; [apply a_compound|]. intros c n1 H1. apply adds_ret.
      unfold is in *. cbn [snd app]. now rewrite app_nil_r. }
  destruct a1 as [t|]; [|apply adds_unexpected]. destruct t; try apply adds_unexpected; exact Hb.
Qed.
Lemma a_fd : adds (function_declaration D fuel K) (is (fun x => [g_pipeable G x])).
Proof.
  unfold function_declaration. eapply adds_bind; [apply a_fdi|]. intros [[nm cs] c] n1 H1. bleaf. unfold is in *. cbn [snd] in H1.
  subst n1. now rewrite H.
Qed.
Lemma a_maybe_function : adds (maybe_function_declaration D fuel K) (is (in_option (fun x => [g_pipeable G x]))).
Proof.
  unfold maybe_function_declaration. ad1. destruct a.
  - eapply adds_bind; [apply a_fd|]. intros f n1 H1. apply adds_ret. done_.
  - ad1. destruct a; [|now apply adds_ret]. eapply adds_bind; [apply a_fd|]. intros f n1 H1. apply adds_ret. done_.
Qed.
Lemma a_command : adds (command D fuel K) (is (fun x => [g_pipeable G x])).
Proof.
  unfold command. apply adds_bindq; [apply quiet_next_compound|]. intros [kw|].
  - eapply adds_bind; [apply a_compound_kw|]. intros c n1 H1. bleaf. done_.
  - eapply adds_bind; [apply a_maybe_function|]. intros [f|] n1 H1.
    + apply adds_ret. done_.
    + unfold is in H1. cbn in H1. subst n1. apply a_simple_command.
Qed.
Notation inp := (map (fun x : list newline_ * b_pipeable D => g_pipeable G (snd x))).
Lemma a_pipeline_loop : forall n acc, adds (pipeline_loop D fuel K n acc) (ext inp (inp acc)).
Proof.
  induction n as [|n IH]; intros acc; [apply adds_fuel|]. cbn [pipeline_loop]. ad1.
  destruct (otoken_eqb _ _); [apply adds_unexpected|]. eapply adds_bind; [apply a_command|]. intros c n1 H1. ad1.
  destruct a0.
  - ad1. eapply adds_mono; [apply IH|]. unfold ext. intros x n2 ->. rewrite map_app, ps_app, <- app_assoc, H1. reflexivity.
  - apply adds_ret. unfold ext. rewrite map_app, ps_app, H1. now rewrite app_nil_r.
Qed.
Lemma a_pipeline : adds (pipeline D fuel K) (is (fun x => [g_listable G x])).
Proof.
  unfold pipeline. ad1. ad1. eapply adds_bind; [apply a_pipeline_loop|]. intros cs n1 H1. bleaf. unfold is, ext in *.
  rewrite H, H1. reflexivity.
Qed.
Notation ino := (map (fun x : list newline_ * and_or (b_listable D) => in_and_or (g_listable G) (snd x))).
Lemma a_and_or_loop : forall n acc, adds (and_or_loop D fuel K n acc) (ext ino (ino acc)).
Proof.
  induction n as [|n IH]; intros acc; [apply adds_fuel|]. cbn [and_or_loop]. ad1. ad1.
  assert (Hr : adds (ret acc) (ext ino (ino acc))) by (apply adds_ret; unfold ext; now rewrite app_nil_r).
  destruct a0 as [t|]; [|exact Hr]. destruct t; try exact Hr;
    (ad1; ad1; eapply adds_bind; [apply a_pipeline|]; intros c n1 H1; eapply adds_mono; [apply IH|]; unfold ext;
     intros x n2 ->; rewrite map_app, ps_app, <- app_assoc, H1; reflexivity).
Qed.
Lemma a_and_or_list : adds (and_or_list D fuel K) (is (fun x => [g_list G x])).
Proof.
  unfold and_or_list. eapply adds_bind; [apply a_pipeline|]. intros f n1 H1.
  eapply adds_bind; [apply a_and_or_loop|]. intros r n2 H2. bleaf. unfold is, ext in *.
  change (ps (ino [])) with (@nil made) in H2. cbn [app] in H2. rewrite H. subst n1.
  match goal with |- _ = ps (?x :: ?l) ++ _ => change (x :: l) with ([x] ++ l) end. rewrite ps_app, H2, <- app_assoc. reflexivity.
Qed.
Lemma a_ccwlc c : adds (complete_command_with_leading_comments D fuel K c) (is (fun x => [inc x])).
Proof.
  unfold complete_command_with_leading_comments. eapply adds_bind; [apply a_and_or_list|]. intros l n1 H1. ad1.
  apply adds_bindq.
  { assert (Hq : quiet (n <- newline fuel ;; ret (match n with Some _ => SepNewline | None => SepOther end, n)
        : prog (sep_kind * option newline_)))
      by (apply quiet_bind; [qleaf|intros; qleaf]).
    destruct a as [t|]; [|exact Hq]. destruct t; try exact Hq;
      (apply quiet_bind; [qleaf|intros]; apply quiet_bind; [qleaf|intros; qleaf]). }
  intros [sep nl]. bleaf. done_.
Qed.
(** The only call whose outcome is not part of the result: comments at the end of the source. *)
Definition is_complete (r : option (b_cmd D)) (n : list made) : Prop :=
  n = ps (in_option (fun x => [inc x]) r) \/ r = None /\ exists i, n = [Made MComments i []].
Lemma a_complete_command : adds (complete_command D fuel K) is_complete.
Proof.
  unfold complete_command. ad1. ad1. destruct a0.
  - eapply adds_bind; [apply a_ccwlc|]. intros c n1 H1. apply adds_ret. left. rewrite app_nil_r. exact H1.
  - destruct (is_nil a); [apply adds_ret; now left|]. eapply adds_bind with (R1 := fun _ n => exists i, n = [Made MComments i []]).
    + bleaf. eauto.
    + intros u n1 [i ->]. apply adds_ret. right. split; [reflexivity|]. exists i. reflexivity.
Qed.
Lemma quiet_found_delim cfg : quiet (found_delim D fuel cfg).
Proof.
  unfold found_delim. apply quiet_bind.
  { destruct (exact_tokens cfg); [qleaf|]. apply quiet_bind; [qleaf|intros; qleaf]. }
  intros [|]; [qleaf|]. apply quiet_bind; [qleaf|]. intros [w|]; [qleaf|]. apply quiet_bind; [qleaf|]. intros t. qleaf.
Qed.
Lemma a_command_group_loop cfg : forall n cmds, adds (command_group_loop D fuel K cfg n cmds) (ext (in_group inc) (map inc cmds)).
Proof.
  induction n as [|n IH]; intros cmds; [apply adds_fuel|]. cbn [command_group_loop].
  apply adds_bindq; [apply quiet_found_delim|]. intros [|].
  { apply adds_ret. unfold ext. now rewrite app_nil_r. }
  ad1. apply adds_bindq; [apply quiet_found_delim|]. intros d2.
  apply adds_bindq; [destruct d2; [qleaf|]; apply quiet_bind; [qleaf|intros; qleaf]|]. intros [|].
  { apply adds_ret. unfold ext. now rewrite app_nil_r. }
  eapply adds_bind; [apply a_ccwlc|]. intros c n1 H1. eapply adds_mono; [apply IH|]. unfold ext. intros x n2 ->.
  rewrite map_app, ps_app, <- app_assoc, H1. reflexivity.
Qed.
Lemma a_cgi cfg : adds (command_group_internal D fuel K cfg) (is (in_group inc)).
Proof. eapply adds_mono; [apply a_command_group_loop|]. intros x n H. now apply ext_nil. Qed.
End Adds.

Lemma a_knot D (G : logger D) (HG : logging G) fuel : forall n,
  (forall cfg, adds D G (k_group (knot D fuel n) cfg) (is (in_group (g_cmd G)))) /\
  adds D G (k_param (knot D fuel n)) (is (in_swk (g_cmd G))).
Proof.
  induction n as [|n [IH1 IH2]].
  - split; [intros cfg|]; apply adds_fuel.
  - cbn [knot k_group k_param]. split; [intros cfg; now apply a_cgi|now apply a_parameter_raw].
Qed.
