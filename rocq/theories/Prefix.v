(** * C58: what may be put in front of a script

    A function definition or a negation in front of a script applies to the first command, or pipeline,
    of the script and changes nothing else. *)
From Coq Require Import String.
From Verif Require Import Base Token Pos Lexer LexSpec LexTheorems Ast Builder Prog Iter Located ParserBase
  Arith Word Redirect Command DefaultBuilder Entry Total Api Runs Pure Relex ArithSpec HeredocSpec Forms BaseForms CompoundRuns FormsRuns FormsTheorems
  SoundScript Exact ExactMethods Seams Quotes LexJoin Join Display Printer Nest JoinSep OneLine.

Notation DB := default_builder.
Notation DP := default_pure.

(** A list of pipelines as a command, in the background or not. *)
Definition listed (job : bool) (l : d_list) : tlcmd := TLCmd (if job then CJob l else CList l).

(** ** What starts a command can be replaced *)
Lemma complete_head ns job l ts rest : complete_form DB DP ns (listed job l) ts rest -> exists mid, list_form DB DP l ts mid /\
  forall ns' l' ts', list_form DB DP l' ts' mid -> complete_form DB DP ns' (listed job l') ts' rest.
Proof.
  intros H. remember (listed job l) as c eqn:E. destruct H as [ns l0 nl ts mid rest Hl Hm|ns l0 nl ts mid rest Hl Hm|ns l0 nl ts mid rest Hl Hm|ns l0 ts rest Hl H1 H2 H3 H4];
  destruct job; try discriminate E; injection E as ->; eexists; (split; [exact Hl|]); intros ns' l' ts' H'.
  - exact (cp_semi DB DP ns' l' nl _ _ _ H' Hm).
  - exact (cp_amp DB DP ns' l' nl _ _ _ H' Hm).
  - exact (cp_newline DB DP ns' l' nl _ _ _ H' Hm).
  - exact (cp_other DB DP ns' l' _ _ H' H1 H2 H3 H4).
Qed.
Lemma list_head p more ts rest : list_form DB DP (mkAOL p more) ts rest -> exists mid, pipeline_form DB DP p ts mid /\
  forall p' ts', pipeline_form DB DP p' ts' mid -> list_form DB DP (mkAOL p' more) ts' rest.
Proof.
  intros H. inversion H as [p0 l0 ts0 mid rest0 Hp Ha E]; subst. exists mid. split; [exact Hp|].
  intros p' ts' H'. exact (lf_list DB DP p' l0 ts' mid rest H' Ha).
Qed.
Lemma pipe_head ns p ps ts rest : pipe_form DB DP ((ns, p) :: ps) ts rest -> exists mid, command_form DB DP p (skipw ts) mid /\
  forall p' ts', command_form DB DP p' (skipw ts') mid -> hd_error ts' <> Some TBang -> pipe_form DB DP ((ns, p') :: ps) ts' rest.
Proof.
  intros H. inversion H as [? ? ? Hc Hb Hp|? ? ? ? ? ? ? Hc Hb Hn Hr]; subst; (eexists; split; [exact Hc|]); intros p' ts' Hc' Hb'.
  - now apply pi_last.
  - eapply pi_more; eauto.
Qed.
(** The pipeline of these commands. *)
Definition pipeline_of (bang : bool) (ps : list d_pipeable) : d_listable :=
  match bang, ps with false, [p] => LSingle p | _, _ => LPipe bang ps end.
Lemma pipeline_head bang ps ts rest : pipeline_form DB DP (pipeline_of bang ps) ts rest ->
  exists cs, map snd cs = ps /\ cs <> [] /\
  if bang then exists mid : list token, skipw ts = TBang :: mid /\ pipe_form DB DP cs mid rest
  else hd_error (skipw ts) <> Some TBang /\ pipe_form DB DP cs (skipw ts) rest.
Proof.
  intros H. remember (pipeline_of bang ps) as p eqn:E.
  assert (A : forall cs, cs <> [] -> forall b, pipeline_ast b cs = pipeline_of bang ps -> map snd cs = ps /\ b = bang).
  { intros cs Hne b. destruct cs as [|[n c] [|[n' c'] cs]]; [congruence| |]; destruct b, bang, ps as [|q [|q' ps]]; cbn; intros X; inversion X; auto. }
  destruct H as [cs ts rest Hb Hp|cs ts mid rest Hs Hp].
  - assert (N : cs <> []) by (intros ->; inversion Hp). destruct (A cs N false E) as [<- <-]. exists cs. auto.
  - assert (N : cs <> []) by (intros ->; inversion Hp). destruct (A cs N true E) as [<- <-]. exists cs. split; [reflexivity|]. split; [exact N|]. now exists mid.
Qed.
Lemma pipeline_build (bang : bool) (cs : list (list newline_ * d_pipeable)) ts rest : cs <> [] ->
  (if bang then exists mid : list token, skipw ts = TBang :: mid /\ pipe_form DB DP cs mid rest
   else hd_error (skipw ts) <> Some TBang /\ pipe_form DB DP cs (skipw ts) rest) ->
  pipeline_form DB DP (pipeline_of bang (map snd cs)) ts rest.
Proof.
  intros Hne H. assert (E : pipeline_of bang (map snd cs) = pipeline_ast bang cs).
  { destruct cs as [|[n c] [|[n' c'] cs]]; [congruence| |]; destruct bang; reflexivity. }
  rewrite E. destruct bang.
  - destruct H as (mid & H1 & H2). exact (pp_bang DB DP cs ts mid rest H1 H2).
  - destruct H as [H1 H2]. exact (pp_plain DB DP cs ts rest H1 H2).
Qed.
Lemma compound_head c ts rest : command_form DB DP (PCompound c) ts rest -> compound DB DP c ts rest.
Proof.
  intros H. remember (PCompound c) as p eqn:E. destruct H as [vars args ts rest Hs| c' ts rest Hc| | | | | ]; try discriminate E.
  now injection E as ->.
Qed.

(** ** Source text *)
Section Source.
Context {U : Uni}.
(** The name can be followed by parentheses without being taken for a reserved word. *)
Definition plain_name (v : str) : Prop :=
  Printer.identifier v /\ ~ In v (map s_of ["for"; "case"; "if"; "while"; "until"; "function"]%string).
(** C58: if a script starts with a compound command, then [v() ] before it makes that command the body of a
    function: the rest of the pipeline, of the list and of the script stay as they are. *)
Theorem function_prefix v s job c ps more cs : plain_name v ->
  accepts s (listed job (mkAOL (pipeline_of false (PCompound c :: ps)) more) :: cs) ->
  accepts (v ++ s_of "() " ++ s) (listed job (mkAOL (pipeline_of false (PFunctionDef v c :: ps)) more) :: cs).
Proof.
  intros [Hv Hk] H. apply accepts_script in H as (g & G & E). apply accepts_script.
  destruct (lex_space s) as (b & y & El & Hy).
  assert (L : lex (v ++ s_of "() " ++ s) = TName v :: TParenOpen :: TParenClose :: TWhitespace b :: y).
  { change (s_of "() " ++ s) with (as_str TParenOpen ++ as_str TParenClose ++ 32%N :: s).
    assert (Y : TName v <> TBackslash) by discriminate.
    assert (Z : apart (TName v) (as_str TParenOpen ++ as_str TParenClose ++ 32%N :: s) = true) by reflexivity.
    change (v ++ as_str TParenOpen ++ as_str TParenClose ++ 32%N :: s) with (as_str (TName v) ++ as_str TParenOpen ++ as_str TParenClose ++ 32%N :: s).
    rewrite (lexes_token (TName v) Hv Y _ Z), (lexes_closed TParenOpen eq_refl _ I), (lexes_closed TParenClose eq_refl _ I), El. reflexivity. }
  rewrite L. clear L El.
  inversion G as [|cfg ns c0 cs0 tr ts ts1 ts2 rest Hn He Hc Hr]; subst; [discriminate E|]. cbn [commands] in E. injection E as -> <-.
  destruct (newlines_rest _ _ _ Hn) as [Hn1 Hn2].
  destruct (complete_head _ _ _ _ _ Hc) as (mid & Hl & Bc). destruct (list_head _ _ _ _ Hl) as (mid2 & Hp & Bl).
  destruct (pipeline_head false (PCompound c :: ps) _ _ Hp) as (fs & Efs & Nfs & _ & Hpf). destruct fs as [|[n p] fs]; [congruence|]. injection Efs as -> Eps.
  destruct (pipe_head _ _ _ _ _ Hpf) as (w & Hcf & Bp). rewrite !Hn2 in Hcf. apply compound_head in Hcf.
  set (new := TName v :: TParenOpen :: TParenClose :: TWhitespace b :: y).
  assert (K : forall k r, In k (map s_of ["for"; "case"; "if"; "while"; "until"; "function"]%string) -> ~ keyword k new r).
  { intros k r Hi Hkw. inversion Hkw as [? ? X|? ? X]; subst; [injection X as <- _; contradiction|discriminate X]. }
  assert (F : command_form DB DP (PFunctionDef v c) new w).
  { refine (cf_function DB DP v ns c new (TParenOpen :: TParenClose :: TWhitespace b :: y) (TParenClose :: TWhitespace b :: y) (TWhitespace b :: y) w _ _ eq_refl (or_introl eq_refl) eq_refl _).
    - intros [X|[(t0 & r & [<-|[]] & X & _)|(k & r & Hi & X)]]; [discriminate|discriminate|]. refine (K k r _ X). cbn in Hi |- *. tauto.
    - intros (k & r & Hi & X). refine (K k r _ X). cbn in Hi |- *. tauto.
    - apply (fb_body DB DP ns c _ ts1 w); [|exact Hcf]. refine (newlines_skipw (lex s) (TWhitespace b :: y) ns ts1 _ Hn). cbn [skipw]. now symmetry. }
  pose proof (Bp (PFunctionDef v c) new F ltac:(discriminate)) as P1.
  assert (P2 : pipeline_form DB DP (pipeline_of false (PFunctionDef v c :: ps)) new mid2).
  { rewrite <- Eps. apply (pipeline_build false ((n, PFunctionDef v c) :: fs) new mid2); [discriminate|].
    assert (S1 : skipw new = new) by reflexivity. rewrite S1. split; [discriminate|exact P1]. }
  exists (mkCG (listed job (mkAOL (pipeline_of false (PFunctionDef v c :: ps)) more) :: cs0) tr). split; [|reflexivity].
  eapply (gr_command DB DP no_delims [] _ _ _ new new ts2 []).
  - apply (ns_nil new). split; discriminate.
  - intros [X|[(t & r & _ & [])|[(x & r & [] & _)|(t & r & [] & _)]]]. discriminate.
  - exact (Bc [] _ _ (Bl _ _ P2)).
  - exact Hr.
Qed.
(** C58: [! ] before a script that starts with a pipeline negates that pipeline, and that only. *)
Theorem bang_prefix s job ps more cs : ps <> [] -> no_newline (skipw (lex s)) ->
  accepts s (listed job (mkAOL (pipeline_of false ps) more) :: cs) ->
  accepts (s_of "! " ++ s) (listed job (mkAOL (pipeline_of true ps) more) :: cs).
Proof.
  intros Hps Hnn H. apply accepts_script in H as (g & G & E). apply accepts_script.
  destruct (lex_space s) as (b & y & El & Hy).
  change (s_of "! " ++ s) with (as_str TBang ++ 32%N :: s). rewrite (lexes_closed TBang eq_refl _ I), El. cbn [app].
  inversion G as [|cfg ns c0 cs0 tr ts ts1 ts2 rest Hn He Hc Hr]; subst; [discriminate E|]. cbn [commands] in E. injection E as -> <-.
  destruct (newlines_rest _ _ _ Hn) as [Hn1 Hn2].
  assert (T1 : ts1 = skipw (lex s)).
  { inversion Hn as [? X|? ? ? ? ? Hf]; subst; [reflexivity|]. exfalso. destruct Hnn as [X Y]. inversion Hf as [? ? Z|? ? ? Z|? ? Z]; subst; rewrite Z in X, Y; cbn in X, Y; congruence. }
  destruct (complete_head _ _ _ _ _ Hc) as (mid & Hl & Bc). destruct (list_head _ _ _ _ Hl) as (mid2 & Hp & Bl).
  destruct (pipeline_head false ps _ _ Hp) as (fs & Efs & Nfs & Hb & Hpf). destruct fs as [|[n p] fs]; [congruence|].
  destruct (pipe_head _ _ _ _ _ Hpf) as (w & Hcf & Bp).
  assert (P1 : pipe_form DB DP ((n, p) :: fs) (TWhitespace b :: y) mid2).
  { apply Bp; [|discriminate]. cbn [skipw]. rewrite Hy, <- T1. rewrite !Hn2 in Hcf. exact Hcf. }
  assert (P2 : pipeline_form DB DP (pipeline_of true ps) (TBang :: TWhitespace b :: y) mid2).
  { rewrite <- Efs. apply (pipeline_build true ((n, p) :: fs) (TBang :: TWhitespace b :: y) mid2); [discriminate|].
    exists (TWhitespace b :: y). split; [reflexivity|exact P1]. }
  exists (mkCG (listed job (mkAOL (pipeline_of true ps) more) :: cs0) tr). split; [|reflexivity].
  eapply (gr_command DB DP no_delims [] _ _ _ _ (TBang :: TWhitespace b :: y) ts2 []).
  - apply (ns_nil (TBang :: TWhitespace b :: y)). split; discriminate.
  - intros [X|[(t & r & _ & [])|[(x & r & [] & _)|(t & r & [] & _)]]]. discriminate.
  - exact (Bc [] _ _ (Bl _ _ P2)).
  - exact Hr.
Qed.
End Source.

(** ** Examples *)
Section Examples.
#[local] Instance ex_uni : Uni := fun _ => false.
Definition piped : str := s_of "{ a; } > f | b && c
d".
(** The hypotheses hold of a script of a group in a pipeline in a list; the function is the group alone, and
    what is negated the pipeline alone. *)
Example prefix_witness : plain_name (s_of "f") /\ no_newline (skipw (lex piped)) /\
  exists c p more d, accepts piped (listed false (mkAOL (pipeline_of false (PCompound c :: [p])) more) :: [d]) /\ more <> [] /\
    accepts (s_of "f() " ++ piped) (listed false (mkAOL (pipeline_of false (PFunctionDef (s_of "f") c :: [p])) more) :: [d]) /\
    accepts (s_of "! " ++ piped) (listed false (mkAOL (pipeline_of true (PCompound c :: [p])) more) :: [d]).
Proof.
  assert (F : plain_name (s_of "f")).
  { split.
    - pose proof (lex_lexable (s_of "f")) as L. change (lex (s_of "f")) with [TName (s_of "f")] in L.
      first [now inversion L|apply L; now left].
    - cbn. intuition discriminate. }
  assert (N : no_newline (skipw (lex piped))) by (split; vm_compute; discriminate).
  split; [exact F|]. split; [exact N|].
  assert (X : exists c p more d, accepts piped (listed false (mkAOL (pipeline_of false (PCompound c :: [p])) more) :: [d]) /\ more <> []).
  { eexists _, _, _, _. split; [apply accepts_at; [vm_compute; reflexivity|]; apply (parses_steps 5); [apply enough; vm_compute; reflexivity|]; vm_compute; reflexivity|discriminate]. }
  destruct X as (c & p & more & d & H & Hm). exists c, p, more, d. split; [exact H|]. split; [exact Hm|]. split.
  - exact (function_prefix (s_of "f") piped false c [p] more [d] F H).
  - exact (bang_prefix piped false (PCompound c :: [p]) more [d] ltac:(discriminate) N H).
Qed.
(** A function cannot be given the name of a compound command, and nothing may stand between [!] and its
    pipeline but blanks. *)
Example prefix_needs : (forall cs, ~ accepts (s_of "if() " ++ piped) cs) /\ forall cs, ~ accepts (s_of "! " ++ 10%N :: piped) cs.
Proof.
  split.
  - intros cs H. specialize (H 100%nat ltac:(apply PeanoNat.Nat.ltb_lt; vm_compute; reflexivity)).
    destruct H as (st & Y & E). inversion Y as [x|x c x1 cs' y E1 Y1]; subst; [vm_compute in E|vm_compute in E1]; discriminate.
  - intros cs H. specialize (H 100%nat ltac:(apply PeanoNat.Nat.ltb_lt; vm_compute; reflexivity)).
    destruct H as (st & Y & E). inversion Y as [x|x c x1 cs' y E1 Y1]; subst; [vm_compute in E|vm_compute in E1]; discriminate.
Qed.
End Examples.
