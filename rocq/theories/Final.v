(** * What more input cannot change (C46)

    A shell that reads its input line by line parses what it has read so far; these theorems say what
    it may conclude from the result. *)
From Coq Require Import String.
From Verif Require Import Base Token Lexer LexSpec LexProofs LexTheorems Pos Ast Builder Prog Iter Located IterProofs RunLemmas
  ParserBase Balanced BalancedProofs Arith Word Redirect Command Entry DefaultBuilder Total Api Stable StableWord StableCommand Join Exact.

(** The state of a parser when [more] has been added to the end of its source. *)
Definition with_more (s : token_iter) (more : list token) : token_iter :=
  mkTI (ti_iter s ++ more) (ti_buf s) (ti_pos s).
(** A method that looks for tokens of the caller's choice is not asked for a newline. *)
Definition no_newline_asked (m : api) : Prop :=
  match m with
  | APeekReservedToken ts | AReservedToken ts => ~ In TNewline ts
  | ACommandGroup cfg => ~ In TNewline (reserved_tokens cfg)
  | _ => True
  end.

Lemma abs_more s more : abs (with_more s more) = ext (abs s) more.
Proof.
  destruct s as [iter buf p]. unfold with_more, abs, ext. cbn [ti_iter ti_buf ti_pos].
  revert p. induction buf as [|[t|q] buf IH]; intros p; cbn [den].
  - cbn [toks end_pos]. now rewrite locate_app, advance_all_app.
  - rewrite IH. reflexivity.
  - apply IH.
Qed.
Lemma good_more s more : good s -> good (with_more s more).
Proof. auto. Qed.
Lemma left_ext s s2 more : abs s2 = ext (abs s) more -> tokens_left s2 = tokens_left s ++ more.
Proof. intros E. rewrite <- !tokens_left_abs, E. apply ext_toks. Qed.
Lemma clean_abs s : whole_lines (tokens_left s) -> (forall t, In t (tokens_left s) -> ~ heredoc_op t) -> clean (abs s).
Proof.
  intros H1 H2. split; rewrite tokens_left_abs; [exact H1|]. intros t Ht. split; intros ->; apply (H2 _ Ht); [now left|now right].
Qed.

Lemma steady_heredoc B fuel K fd c : @stable (bst B) (b_err B) _ c (redirect_heredoc B fuel K fd) always.
Proof.
  unfold redirect_heredoc. st_step.
  - eapply (stable_bind _ _ _ (fun _ _ => False)); [|intros ? ? []].
    assert (N : t <> TDLess /\ t <> TDLessDash) by exact H.
    destruct t; try apply stable_unexpected; destruct N; congruence.
  - eapply (stable_bind _ _ _ (fun _ _ => False)); [apply stable_unexpected|intros ? ? []].
Qed.
Lemma stable_call B m fuel : no_newline_asked m -> @stable (bst B) (b_err B) _ Free (call B m fuel) always.
Proof.
  intros Hm. pose proof (steady_knot B fuel fuel) as HK.
  destruct m; cbn [call]; cbn in Hm.
  - now apply steady_complete. 
  - now apply steady_and_or_list.
  - now apply steady_pipeline.
  - now apply steady_command.
  - now apply steady_simple_command.
  - now apply steady_redirect_list.
  - now apply steady_redirect.
  - apply steady_heredoc.
  - now apply steady_word.
  - now apply steady_word_ptw.
  - now apply stable_bcs.
  - now apply steady_parameter.
  - now apply steady_do_group.
  - now apply steady_brace_group.
  - now apply steady_subshell.
  - now apply steady_compound.
  - now apply steady_loop_command.
  - now apply steady_if_command.
  - now apply steady_for_command.
  - now apply steady_case_command.
  - now apply steady_maybe_function.
  - now apply steady_function.
  - apply steady_skip_whitespace.
  - apply steady_linebreak.
  - apply steady_newline.
  - now apply steady_peek_reserved_token.
  - apply steady_peek_reserved_word.
  - now apply steady_reserved_token.
  - apply steady_reserved_word.
  - now apply steady_command_group.
  - apply steady_arithmetic.
Qed.

(** C46, for every method: on whole lines without here-document operators, an error that points at a
    token that cannot stand where it is, and any other result but one for which the last token was
    read, is also what the method gives when there is more input. *)
Theorem more_input B m fuel s b more : parser_reach B s b -> no_newline_asked m ->
  whole_lines (tokens_left s) -> (forall t, In t (tokens_left s) -> ~ heredoc_op t) -> forall o s' b',
  run concrete (call B m fuel) s b = (o, s', b') ->
  match o with
  | OErr e => final e \/ tokens_left s' <> []
  | OOk _ => tokens_left s' <> []
  | _ => False
  end ->
  exists s2, run concrete (call B m fuel) (with_more s more) b = (o, s2, b') /\ tokens_left s2 = tokens_left s' ++ more.
Proof.
  intros HR Hm H1 H2 o s' b' E Ho. pose proof (parser_reach_good _ _ _ HR) as G.
  pose proof (run_transfer (call B m fuel) s b G) as T. rewrite E in T. destruct T as [T G'].
  pose proof (run_transfer (call B m fuel) (with_more s more) b (good_more _ more G)) as T2.
  destruct (run concrete (call B m fuel) (with_more s more) b) as [[o2 s2] b2]. destruct T2 as [T2 G2].
  rewrite abs_more in T2.
  pose proof (stable_call B m fuel Hm (abs s) b more (clean_abs s H1 H2) I) as W. unfold lrun in W. rewrite T in W.
  assert (X : run located_ops (call B m fuel) (ext (abs s) more) b = (o, ext (abs s') more, b')).
  { destruct o as [a|e|x|]; [| |contradiction|contradiction].
    - destruct W as (c' & _ & Hk & _ & _ & W). apply W. intros ->. cbn in Hk. apply Ho. now rewrite <- tokens_left_abs, Hk.
    - apply W. destruct Ho as [Ho|Ho]; [now left|right]. intros Hn. apply Ho. now rewrite <- tokens_left_abs, Hn. }
  rewrite X in T2. injection T2 as <- E2 <-. exists s2. split; [reflexivity|]. apply left_ext. now rewrite E2.
Qed.

(** The iterator. *)
Section Iterator.
Variable B : builder.
Variable fuel : nat.
Variable more : list token.
Lemma next_cases s b r st : parser_iter_next concrete B fuel (Some (s, b)) = (r, st) ->
  match r with
  | Some (OOk c) => exists s' b', st = Some (s', b') /\ run concrete (p_complete_command B fuel) s b = (OOk (Some c), s', b')
  | Some (OErr e) => exists s' b', run concrete (p_complete_command B fuel) s b = (OErr e, s', b') /\ st = None
  | _ => True
  end.
Proof.
  unfold parser_iter_next. destruct (run concrete (p_complete_command B fuel) s b) as [[[[c|]|e|x|] s'] b']; intros [= <- <-]; eauto.
Qed.
Lemma complete_stable s b : good s -> clean (abs s) -> forall c, knows c (abs s) ->
  match run concrete (p_complete_command B fuel) s b with
  | (OOk a, s', b') => good s' /\ clean (abs s') /\ (c = Ended -> toks (abs s') = []) /\
      (toks (abs s') <> [] -> run located_ops (p_complete_command B fuel) (ext (abs s) more) b = (OOk a, ext (abs s') more, b'))
  | (OErr e, s', b') => final e -> c <> Ended /\
      run located_ops (p_complete_command B fuel) (ext (abs s) more) b = (OErr e, ext (abs s') more, b')
  | _ => True
  end.
Proof.
  intros G Hcl c Hk. pose proof (run_transfer (p_complete_command B fuel) s b G) as T.
  destruct (run concrete (p_complete_command B fuel) s b) as [[o s'] b']. destruct T as [T G'].
  pose proof (steady_complete B fuel _ (steady_knot B fuel fuel) c (abs s) b more Hcl Hk) as W. unfold lrun in W.
  change (complete_command B fuel (knot B fuel fuel)) with (p_complete_command B fuel) in W. rewrite T in W.
  destruct o as [a|e|x|]; auto.
  destruct W as (c' & _ & Hk' & Hcl' & He & W). split; [exact G'|]. split; [exact Hcl'|]. split.
  - intros Ec. specialize (He Ec). subst c'. exact Hk'.
  - intros Hn. apply W. intros ->. auto.
Qed.
(** After the last token no final error is reported. *)
Lemma no_error_at_end st cs st' : yields B fuel st cs st' -> forall s b, st = Some (s, b) -> good s -> clean (abs s) ->
  toks (abs s) = [] -> forall e st2, parser_iter_next concrete B fuel st' = (Some (OErr e), st2) -> ~ final e.
Proof.
  induction 1 as [st|st c st1 cs st' En Y IH]; intros s b -> G Hcl Ht e st2 Ee Hf.
  - apply next_cases in Ee as (s1 & b1 & E & _). pose proof (complete_stable s b G Hcl Ended Ht) as W. rewrite E in W.
    destruct (W Hf) as [W1 _]. auto.
  - apply next_cases in En as (s1 & b1 & -> & E). pose proof (complete_stable s b G Hcl Ended Ht) as W. rewrite E in W.
    destruct W as (G1 & C1 & T1 & _). exact (IH s1 b1 eq_refl G1 C1 (T1 eq_refl) e st2 Ee Hf).
Qed.
Lemma iterator_more st cs st' : yields B fuel st cs st' -> forall s b s2, st = Some (s, b) -> good s -> good s2 -> clean (abs s) ->
  abs s2 = ext (abs s) more -> forall e st3, parser_iter_next concrete B fuel st' = (Some (OErr e), st3) -> final e ->
  exists st2, yields B fuel (Some (s2, b)) cs st2 /\ parser_iter_next concrete B fuel st2 = (Some (OErr e), None).
Proof.
  induction 1 as [st|st c st1 cs st' En Y IH]; intros s b s2 -> G G2 Hcl Ea e st3 Ee Hf.
  - apply next_cases in Ee as (s1 & b1 & E & _). pose proof (complete_stable s b G Hcl Free I) as W. rewrite E in W.
    destruct (W Hf) as [_ W1]. exists (Some (s2, b)). split; [constructor|]. unfold parser_iter_next.
    pose proof (run_transfer (p_complete_command B fuel) s2 b G2) as T.
    destruct (run concrete (p_complete_command B fuel) s2 b) as [[o s3] b3]. destruct T as [T _].
    rewrite Ea, W1 in T. injection T as <- _ _. reflexivity.
  - apply next_cases in En as (s1 & b1 & -> & E). pose proof (complete_stable s b G Hcl Free I) as W. rewrite E in W.
    destruct W as (G1 & C1 & _ & W).
    assert (Hn : toks (abs s1) <> []).
    { intros Hn. exact (no_error_at_end _ _ _ Y s1 b1 eq_refl G1 C1 Hn e st3 Ee Hf). }
    specialize (W Hn). pose proof (run_transfer (p_complete_command B fuel) s2 b G2) as T.
    destruct (run concrete (p_complete_command B fuel) s2 b) as [[o s3] b3] eqn:E3. destruct T as [T G3].
    rewrite Ea, W in T. injection T as <- Ea3 <-.
    destruct (IH s1 b1 s3 eq_refl G1 G3 C1 (eq_sym Ea3) e st3 Ee Hf) as (st2 & Y2 & N2).
    exists st2. split; [|exact N2]. eapply y_cons; [|exact Y2]. unfold parser_iter_next. now rewrite E3.
Qed.
End Iterator.

(** C46, for the iterator: an error that points at a token that cannot stand where it is stays, with the
    commands before it, however the source goes on. *)
Theorem error_final B fuel ts more b cs st e : whole_lines ts -> (forall t, In t ts -> ~ heredoc_op t) ->
  yields B fuel (parser_iter_new B ts b) cs st -> parser_iter_next concrete B fuel st = (Some (OErr e), None) -> final e ->
  exists st2, yields B fuel (parser_iter_new B (ts ++ more) b) cs st2 /\
    parser_iter_next concrete B fuel st2 = (Some (OErr e), None).
Proof.
  intros H1 H2 Y N Hf. change (ti_new (ts ++ more)) with (with_more (ti_new ts) more).
  unfold parser_iter_new. change (ti_new (ts ++ more)) with (with_more (ti_new ts) more).
  refine (iterator_more B fuel more _ _ _ Y (ti_new ts) b (with_more (ti_new ts) more) eq_refl I I _ _ e None N Hf).
  - apply clean_abs; assumption.
  - apply abs_more.
Qed.
Lemma yields_det B fuel st cs st1 : yields B fuel st cs st1 -> forall cs' st1' r r' st2 st2',
  yields B fuel st cs' st1' -> parser_iter_next concrete B fuel st1 = (r, st2) -> parser_iter_next concrete B fuel st1' = (r', st2') ->
  (forall c, r <> Some (OOk c)) -> (forall c, r' <> Some (OOk c)) -> cs = cs' /\ r = r'.
Proof.
  induction 1 as [st|st c st1 cs st2 En Y IH]; intros cs' st1' r r' s2 s2' Y' N N' Hr Hr'.
  - destruct Y' as [st|st c st1 cs st2 En Y].
    + rewrite N in N'. injection N' as -> _. auto.
    + rewrite N in En. injection En as -> _. now destruct (Hr c).
  - destruct Y' as [st|st c' st1' cs' st2' En' Y'].
    + rewrite N' in En. injection En as -> _. now destruct (Hr' c).
    + rewrite En in En'. injection En' as <- <-. destruct (IH _ _ _ _ _ _ Y' N N' Hr Hr') as [-> ->]. auto.
Qed.

(** The first lines of a script that parses never give such an error. *)
Theorem prefix_no_final_error B fuel ts more b cs' : whole_lines ts -> (forall t, In t ts -> ~ heredoc_op t) ->
  parses_to B fuel (ts ++ more) b cs' -> forall cs st e,
  yields B fuel (parser_iter_new B ts b) cs st -> parser_iter_next concrete B fuel st = (Some (OErr e), None) -> ~ final e.
Proof.
  intros H1 H2 (st' & Y' & N') cs st e Y N Hf.
  destruct (error_final B fuel ts more b cs st e H1 H2 Y N Hf) as (st2 & Y2 & N2).
  destruct (yields_det _ _ _ _ _ Y2 _ _ _ _ _ _ Y' N2 N' ltac:(discriminate) ltac:(discriminate)) as [_ E]. discriminate.
Qed.

(** The same for source text. *)
Section Source.
Context {U : Uni}.
Definition no_heredoc (s : str) : Prop := forall a b, s <> a ++ 60%N :: 60%N :: b.
Lemma lex_lines s more : lex (s ++ c_newline :: more) = (lex s ++ [TNewline]) ++ lex more.
Proof. rewrite <- app_assoc. apply lex_maximal_munch. apply Lexes_join; apply lex_Lexes. Qed.
Lemma lex_lines_end s : lex (s ++ [c_newline]) = lex s ++ [TNewline].
Proof. rewrite lex_lines. change (lex (@nil char)) with (@nil token). now rewrite app_nil_r. Qed.
Lemma lex_no_heredoc s : no_heredoc s -> forall t, In t (lex s ++ [TNewline]) -> ~ heredoc_op t.
Proof.
  intros H t Hi Ho. apply in_app_or in Hi as [Hi|[<-|[]]]; [|destruct Ho; discriminate].
  pose proof (lex_lossless s) as L. apply in_split in Hi as (a & b & E). rewrite E, concat_tokens_app in L.
  destruct Ho as [-> | ->].
  - exact (H (concat_tokens a) (concat_tokens b) (eq_sym L)).
  - exact (H (concat_tokens a) (45%N :: concat_tokens b) (eq_sym L)).
Qed.
Theorem error_final_source B fuel (lines more : str) b cs st e : no_heredoc lines ->
  yields B fuel (parser_iter_new B (lex (lines ++ [c_newline])) b) cs st ->
  parser_iter_next concrete B fuel st = (Some (OErr e), None) -> final e ->
  exists st2, yields B fuel (parser_iter_new B (lex (lines ++ c_newline :: more)) b) cs st2 /\
    parser_iter_next concrete B fuel st2 = (Some (OErr e), None).
Proof.
  intros H. rewrite lex_lines_end, lex_lines. apply error_final; [right; eauto|now apply lex_no_heredoc].
Qed.
Theorem prefix_no_final_error_source B fuel (lines more : str) b cs' : no_heredoc lines ->
  parses_to B fuel (lex (lines ++ c_newline :: more)) b cs' -> forall cs st e,
  yields B fuel (parser_iter_new B (lex (lines ++ [c_newline])) b) cs st ->
  parser_iter_next concrete B fuel st = (Some (OErr e), None) -> ~ final e.
Proof.
  intros H. rewrite lex_lines_end, lex_lines. apply prefix_no_final_error; [right; eauto|now apply lex_no_heredoc].
Qed.
End Source.

(** ** Cases *)
Section Witness.
#[local] Instance some_uni : Uni := fun _ => false.
Definition nl : string := String (Ascii.ascii_of_nat 10) EmptyString.
Definition results (src : string) (n : nat) := nexts_of default_builder 100 n (parser_iter_new default_builder (lex (s_of src)) tt).
(** The hypotheses of [error_final] hold of a source of two lines with an error in the second, and the
    error is final. *)
Definition lines2 : str := s_of ("a & if b" ++ nl ++ "then x | ; fi").
Example error_final_witness : no_heredoc lines2 /\ exists c e st,
  yields default_builder 100 (parser_iter_new default_builder (lex (lines2 ++ [c_newline])) tt) [c] st /\
  parser_iter_next concrete default_builder 100 st = (Some (OErr e), None) /\ final e.
Proof.
  split.
  { intros a b E. assert (X : existsb (fun x => N.eqb x 60) lines2 = false) by (vm_compute; reflexivity).
    rewrite E, existsb_app in X. cbn in X. rewrite orb_true_r in X. discriminate. }
  assert (X : match nexts_of default_builder 100 2 (parser_iter_new default_builder (lex (lines2 ++ [c_newline])) tt) with
              | [Some (OOk _); Some (OErr e)] => final e | _ => False end) by (vm_compute; exact I).
  cbn [nexts_of] in X.
  destruct (parser_iter_next concrete default_builder 100 (parser_iter_new default_builder (lex (lines2 ++ [c_newline])) tt)) as [r1 st1] eqn:E1.
  destruct (parser_iter_next concrete default_builder 100 st1) as [r2 st2] eqn:E2.
  destruct r1 as [[c|?|?|]|]; try contradiction. destruct r2 as [[?|e|?|]|]; try contradiction.
  assert (Y : yields default_builder 100 (parser_iter_new default_builder (lex (lines2 ++ [c_newline])) tt) [c] st1)
    by (eapply y_cons; [exact E1|constructor]).
  pose proof (iterator_complete default_builder 100 _ tt _ _ Y ltac:(vm_compute; lia) _ _ E2) as N. cbn in N. subst st2.
  exists c, e, st1. auto.
Qed.
(** The first line of a script that parses: an error, but not a final one. *)
Example prefix_witness : (exists c, results ("if a; then" ++ nl ++ "b; fi" ++ nl) 2 = [Some (OOk c); None]) /\
  results ("if a; then" ++ nl) 1 = [Some (OErr UnexpectedEOF)].
Proof. split; [eexists|]; vm_compute; reflexivity. Qed.
(** Without the newline at the end [then] is an unexpected keyword, which more characters repair. *)
Example final_needs_lines : (exists p, results "if then" 1 = [Some (OErr (Unexpected (TName (s_of "then")) p))]) /\
  exists c, results "if thenx; then y; fi" 2 = [Some (OOk c); None].
Proof. split; eexists; vm_compute; reflexivity. Qed.
(** A here-document that is not over takes the lines that follow, so that the command before the error
    changes. *)
Example final_needs_no_heredoc : exists c1 c2 p, results ("cat <<E; )" ++ nl ++ "x" ++ nl) 2 = [Some (OOk c1); Some (OErr (Unexpected TParenClose p))] /\
  results ("cat <<E; )" ++ nl ++ "x" ++ nl ++ "y" ++ nl) 2 = [Some (OOk c2); Some (OErr (Unexpected TParenClose p))] /\ c1 <> c2.
Proof.
  assert (X : match results ("cat <<E; )" ++ nl ++ "x" ++ nl) 2, results ("cat <<E; )" ++ nl ++ "x" ++ nl ++ "y" ++ nl) 2 with
              | [Some (OOk c1); Some (OErr (Unexpected TParenClose p))], [Some (OOk c2); Some (OErr (Unexpected TParenClose q))] => p = q /\ c1 <> c2
              | _, _ => False end) by (vm_compute; split; [reflexivity|discriminate]).
  destruct (results ("cat <<E; )" ++ nl ++ "x" ++ nl) 2) as [|[[c1|?|?|]|] [|[[?|[]|?|]|] []]]; try contradiction;
  destruct (results ("cat <<E; )" ++ nl ++ "x" ++ nl ++ "y" ++ nl) 2) as [|[[c2|?|?|]|] [|[[?|[]|?|]|] []]]; try contradiction;
  destruct t; try contradiction; destruct t0; try contradiction. destruct X as [-> X]. eauto 6.
Qed.
End Witness.
