(** * C48: scripts nest

    A script can be put between the delimiters of a compound command or of a command substitution, and
    is read there as it is on its own. *)
From Coq Require Import String.
From Verif Require Import Base Token Pos Lexer LexSpec LexTheorems Ast Builder Prog Iter Located IterProofs RunLemmas ParserBase Balanced BalancedSpec
  BalancedProofs BalancedTotal Wp Arith Word WpWord Redirect Command DefaultBuilder Entry EntryWp Total Api Runs Pure Relex ArithSpec HeredocSpec Forms BaseForms CompoundRuns FormsRuns FormsTheorems
  SoundScript Exact ExactMethods Seams Quotes LexJoin Join Display.

Notation DB := default_builder.
Notation DP := default_pure.

(** ** No command starts with a closing parenthesis *)
Lemma no_close_fd fd ts op us : redirect_token op = true -> ~ fd_form fd (TParenClose :: ts) (op :: us).
Proof.
  intros Ho H. inversion H as [|d n r Hd Hn|d n r Hd Hn]; subst.
  - discriminate.
  - destruct d as [|t d]; [|cbn in *; match goal with E : _ = TParenClose :: _ |- _ => injection E as -> _ end; inversion Hd; discriminate].
    cbn in *. match goal with E : _ = TParenClose :: _ |- _ => injection E as -> _ end. discriminate.
  - destruct d as [|t d]; cbn in *; [discriminate|]. match goal with E : _ = TParenClose :: _ |- _ => injection E as -> _ end. inversion Hd; discriminate.
Qed.
Lemma no_close_redirect r ts rest : ~ redirect_form DB DP r (TParenClose :: ts) rest.
Proof.
  intros H. inversion H; subst;
  match goal with F : fd_form _ (TParenClose :: _) (?op :: _) |- _ => revert F; apply no_close_fd end;
  match goal with X : here_op _ _ |- _ => inversion X | X : redirect_op_form _ _ |- _ => inversion X | X : dup_op_form _ _ |- _ => inversion X end; reflexivity.
Qed.
Lemma no_close_frag w ts rest : ~ frag DB DP w (TParenClose :: ts) rest.
Proof.
  intros H. inversion H as [t r Ht|t s r Ht| | | |s us r He]; subst; try discriminate.
  - inversion Ht.
  - inversion He as [| ? ? ? Hd]; subst. inversion Hd.
Qed.
Lemma no_close_word k ts rest : ~ word_form DB DP k (TParenClose :: ts) rest.
Proof. intros H. inversion H as [w ws ? ? ? Hf]; subst. inversion Hf; subst. eapply no_close_frag; eassumption. Qed.
Lemma no_close_keyword k ts rest : ~ keyword k (TParenClose :: ts) rest.
Proof. intros H. inversion H; discriminate. Qed.
Lemma no_close_command c ts rest : ~ command_form DB DP c (TParenClose :: ts) rest.
Proof.
  intros H. inversion H; subst; try (eapply no_close_keyword; eassumption); try discriminate.
  - match goal with S : simple _ _ _ _ _ _ |- _ => inversion S; subst end; cbn in *; try discriminate.
    + destruct H1; congruence.
    + eapply no_close_redirect; eassumption.
    + eapply no_close_word; eassumption.
  - match goal with S : compound _ _ _ _ _ |- _ => inversion S; subst end; eapply no_close_keyword; eassumption.
Qed.
Lemma no_close_complete ns c ts rest : ~ complete_form DB DP ns c (TParenClose :: ts) rest.
Proof.
  assert (L : forall l rest, ~ list_form DB DP l (TParenClose :: ts) rest).
  { intros l r H. inversion H as [p l0 ? mid ? Hp _]; subst. inversion Hp as [cs ? ? _ Hc|cs ? ? ? E]; subst; [|discriminate].
    change (skipw (TParenClose :: ts)) with (TParenClose :: ts) in Hc.
    inversion Hc as [c0 ? ? Hf|c0 ? ? ? ? ? ? Hf]; subst; exact (no_close_command _ _ _ Hf). }
  intros H. inversion H; subst; eapply L; eassumption.
Qed.

(** ** Tokens left are tokens of the input *)
Lemma newline_form_incl n ts rest : newline_form n ts rest -> incl rest ts.
Proof.
  intros H. assert (S : incl (skipw ts) ts). { destruct (skipw_decomp ts) as (w & _ & E). rewrite E at 2. intros t Ht. apply in_or_app. now right. }
  inversion H as [? ? E|? c ? E|]; subst; [| |intros t []]; intros t Ht; apply S; rewrite E; right; [exact Ht|apply in_or_app; right; now right].
Qed.
Lemma newlines_incl ns ts rest : newlines ns ts rest -> incl rest ts.
Proof.
  induction 1 as [ts _|n ts mid ns rest H _ IH].
  - destruct (skipw_decomp ts) as (w & _ & E). rewrite E at 2. intros t Ht. apply in_or_app. now right.
  - intros t Ht. apply (newline_form_incl _ _ _ H), IH, Ht.
Qed.
Lemma first_command_incl c ts rest : (forall t, In t ts -> ~ heredoc_op t) -> first_command c ts rest -> incl rest (TCurlyOpen :: ts).
Proof.
  intros Hh H. set (fuel := (List.length ts + 3)%nat).
  assert (Hf : (List.length (tokens_left (ti_new ts)) + 2 < fuel)%nat) by (rewrite left_new; unfold fuel; lia).
  apply (complete_command_exact DB DP fuel (ti_new ts) tt (pr_new _ _ _) Hf c rest) in H.
  destruct H as (s' & E & <-).
  set (Ok := fun t => In t (TCurlyOpen :: ts)).
  assert (Oh : forall t, Ok t -> ~ heredoc_op t). { intros t [<-|Ht]; [intros [X|X]; discriminate|now apply Hh]. }
  pose proof (entry_wp (am_named DB Ok Oh) _ (call DB ACompleteCommand) (call_entry DB ACompleteCommand) (fun _ => or_introl eq_refl) I fuel (abs (ti_new ts))) as W.
  assert (Hok : Inv (am_named DB Ok Oh) (abs (ti_new ts))).
  { cbn [Inv am_named]. intros t Ht. right. rewrite tokens_left_abs, left_new in Ht. exact Ht. }
  specialize (W Hok ltac:(rewrite size_left; lia) tt I).
  pose proof (run_transfer (call DB ACompleteCommand fuel) (ti_new ts) tt (parser_reach_good DB (ti_new ts) tt (pr_new DB ts tt))) as T. rewrite E in T. destruct T as [T _].
  unfold lrun in W. rewrite T in W. destruct W as [_ [W _]]. intros t Ht. apply W. now rewrite tokens_left_abs.
Qed.

(** ** A script between delimiters *)
(** None of the tokens can be taken for one of the delimiters. *)
Definition clear_of (cfg : delimiters) (ts : list token) : Prop :=
  forall t, In t ts -> ~ In t (exact_tokens cfg) /\ ~ In t (reserved_tokens cfg) /\
    forall k, In k (reserved_words cfg) -> t <> TName k /\ t <> TLiteral k.
Lemma clear_end cfg ts : ts <> [] -> clear_of cfg ts -> ~ group_end cfg ts.
Proof.
  intros Hn Hc [H|[(t & r & -> & Hi)|[(k & r & Hi & Hk)|(t & r & Hi & Hk & _)]]].
  - contradiction.
  - destruct (Hc t (or_introl eq_refl)) as [X _]. contradiction.
  - destruct (skipw_decomp ts) as (w & _ & E).
    inversion Hk as [? ? Ek|? ? Ek]; subst; rewrite Ek in E; [destruct (Hc (TName k)) as (_ & _ & X)|destruct (Hc (TLiteral k)) as (_ & _ & X)];
      try (rewrite E; apply in_or_app; right; now left); destruct (X k Hi) as [X1 X2]; congruence.
  - destruct (skipw_decomp ts) as (w & _ & E). rewrite Hk in E. destruct (Hc t) as (_ & X & _); [|contradiction].
    rewrite E. apply in_or_app. right. now left.
Qed.

Section Nest.
Variable cfg : delimiters.
Variable close : list token.
Hypothesis close_end : group_end cfg close.
Hypothesis close_plain : no_newline close /\ skipw close = close.
Hypothesis no_nl : ~ In TNewline (reserved_tokens cfg).
(** [A]: the scripts considered. *)
Variable A : list token -> Prop.
Hypothesis A_next : forall c ts ns mid rest, A ts -> joinable ts -> newlines ns ts mid -> complete_form DB DP ns c mid rest -> A rest.
Hypothesis A_open : forall c ts ns mid rest, A ts -> newlines ns ts mid -> complete_form DB DP ns c mid rest -> ~ group_end cfg mid.

Lemma close_newlines ns ts r : newlines ns ts r -> r = close \/ r = TNewline :: close -> exists ns', newlines ns' ts close.
Proof.
  intros H. induction H as [ts Hn|n ts mid ns rest Hn Hns IH]; intros D.
  - exists []. destruct D as [E|E].
    + rewrite <- E. now constructor.
    + rewrite E in Hn. destruct Hn as [Hn _]. now elim Hn.
  - destruct (IH D) as (ns' & H'). exists (n :: ns'). econstructor; eassumption.
Qed.
Lemma group_nest cfg0 g ts rest0 : group DB DP cfg0 g ts rest0 -> cfg0 = no_delims -> rest0 = [] -> joinable ts -> A ts ->
  exists tr, group DB DP cfg (mkCG (commands g) tr) (ts ++ TNewline :: close) close.
Proof.
  assert (N0 : newlines [] close close). { destruct close_plain as [H1 H2]. rewrite <- H2 at 2. constructor. now rewrite H2. }
  induction 1 as [cfg1 ns ts rest Hn He|cfg1 ns c cs1 tr ts t1 t2 rest Hn He Hc Hg IH]; intros -> -> Hj HA.
  - destruct (newlines_end_join ns ts close [] close Hn Hj N0) as (ns' & H). exists ns'. cbn. now constructor.
  - assert (N1 : t1 <> []). { intros ->. now apply complete_form_nil in Hc. }
    destruct (newlines_join TNewline newline_sep close _ _ _ Hn Hj N1) as [J1 Hn'].
    assert (Ho : ~ group_end cfg (t1 ++ TNewline :: close)).
    { intros X. apply (A_open _ _ _ _ _ HA Hn Hc). exact (group_end_unjoin TNewline newline_sep close cfg t1 J1 no_nl N1 X). }
    assert (D : t2 = [] \/ t2 <> []) by (destruct t2; [now left|right; discriminate]). destruct D as [-> |N2].
    + assert (cs1 = []) as ->.
      { inversion Hg as [|? ? ? ? ? ? ? ? ? X Y]; subst; [reflexivity|]. apply newlines_nil in X. subst. exfalso. apply Y. now left. }
      destruct (complete_form_end_join _ _ _ close Hc J1) as (r & Hr & D).
      assert (G : exists ns', newlines ns' r close).
      { destruct D as [-> | ->]; [now exists []|]. exists [Newline None]. econstructor; [apply nf_newline; reflexivity|exact N0]. }
      destruct G as (ns' & G). exists ns'. cbn [commands]. eapply gr_command; [exact Hn'|exact Ho|exact Hr|now constructor].
    + destruct (forms_join TNewline newline_sep close DB DP) as (_ & _ & _ & _ & _ & _ & _ & _ & _ & _ & _ & _ & _ & _ & _ & _ & _ & _ & _ & _ & _ & _ & _ & _ & FC & _).
      destruct (FC _ _ _ _ Hc J1 N2) as [J2 Hc'].
      destruct (IH eq_refl eq_refl J2 (A_next _ _ _ _ _ HA Hj Hn Hc)) as (tr' & G). exists tr'. cbn [commands] in *.
      eapply gr_command; [exact Hn'|exact Ho|exact Hc'|exact G].
Qed.
End Nest.

Lemma joinable_no_heredoc ts : joinable ts -> forall t, In t ts -> ~ heredoc_op t.
Proof. intros (H1 & H2 & _) t Ht [-> | ->]; contradiction. Qed.
(** Delimiters the tokens of the script are clear of. *)
Lemma nest_clear cfg close g ts : group_end cfg close -> no_newline close -> skipw close = close -> ~ In TNewline (reserved_tokens cfg) ->
  ~ In TCurlyOpen (exact_tokens cfg) -> ~ In TCurlyOpen (reserved_tokens cfg) ->
  script DB DP g ts -> joinable ts -> clear_of cfg ts ->
  exists tr, group DB DP cfg (mkCG (commands g) tr) (ts ++ TNewline :: close) close.
Proof.
  intros He Hc1 Hc2 Hn Ho1 Ho2 Hs Hj Hcl.
  refine (group_nest cfg close He (conj Hc1 Hc2) Hn (clear_of cfg) _ _ _ g ts [] Hs eq_refl eq_refl Hj Hcl).
  - intros c us ns mid rest HA Hju Hns Hcf t Ht.
    assert (F : first_command c us rest). { exists ns, mid. split; [exact Hns|]. split; [|exact Hcf]. intros ->. now apply complete_form_nil in Hcf. }
    destruct (first_command_incl c us rest (joinable_no_heredoc us Hju) F t Ht) as [<-|Hu]; [|exact (HA t Hu)].
    split; [exact Ho1|]. split; [exact Ho2|]. intros k _. split; discriminate.
  - intros c us ns mid rest HA Hns Hcf. apply clear_end; [intros ->; now apply complete_form_nil in Hcf|].
    intros t Ht. apply HA, (newlines_incl _ _ _ Hns), Ht.
Qed.
(** A closing parenthesis never starts a command. *)
Lemma nest_paren g ts rest : delimited rest -> script DB DP g ts -> joinable ts ->
  exists tr, group DB DP (mkDelims [] [] [TParenClose]) (mkCG (commands g) tr) (ts ++ TNewline :: TParenClose :: rest) (TParenClose :: rest).
Proof.
  intros Hd Hs Hj.
  refine (group_nest _ (TParenClose :: rest) _ (conj _ eq_refl) _ (fun _ => True) (fun _ _ _ _ _ _ _ _ _ => I) _ _ g ts [] Hs eq_refl eq_refl Hj I).
  - right; left. exists TParenClose, rest. split; [reflexivity|now left].
  - split; discriminate.
  - intros [].
  - intros c us ns mid r _ Hns Hcf [->|[(t & r' & -> & Hi)|[(k & r' & [] & _)|(t & r' & [] & _)]]].
    + now apply complete_form_nil in Hcf.
    + destruct Hi as [<-|[]]. exact (no_close_complete _ _ _ _ Hcf).
Qed.

(** ** Source text *)
Section Source.
Context {U : Uni}.
(** The source is read, without an error, as these commands. *)
Definition accepts (s : str) (cs : list tlcmd) : Prop :=
  forall fuel, (List.length (lex s) + 2 < fuel)%nat -> parses_to DB fuel (lex s) tt cs.
(** Lines of source. *)
Fixpoint lines (l : list str) : str :=
  match l with
  | [] => []
  | [s] => s
  | s :: l' => s ++ 10%N :: lines l'
  end.
(** A compound command on its own. *)
Definition alone (k : compound_kind str tlword tlcmd) : tlcmd :=
  TLCmd (CList (mkAOL (LSingle (PCompound (mkCC k []))) [])).
(** A simple command of one word. *)
Definition word_alone (w : tlword) : tlcmd :=
  TLCmd (CList (mkAOL (LSingle (PSimple (mkSC [] [DCmdWord w]))) [])).
(** A word that is a command substitution. *)
Definition substituted (cs : list tlcmd) : tlword := TLWord (WSingle (WSimple (WSubst (SCommand cs)))).
(** None of these is a token of the source. *)
Definition without (ks : list string) (s : str) : Prop :=
  forall t k, In t (lex s) -> In k ks -> as_str t <> s_of k.

Lemma accepts_script s cs : accepts s cs <-> exists g, script DB DP g (lex s) /\ commands g = cs.
Proof.
  split.
  - intros H. apply (script_exact DB DP (List.length (lex s) + 3) (lex s) tt); [lia|]. apply H. lia.
  - intros H fuel Hf. now apply (script_exact DB DP).
Qed.
Lemma lex_line s1 s2 : lex (s1 ++ 10%N :: s2) = lex s1 ++ TNewline :: lex s2.
Proof. apply lex_maximal_munch. apply Lexes_join; apply lex_Lexes. Qed.
Lemma script_one (p : b_pipeable DB) ts : skipw ts = ts -> hd_error ts <> Some TBang -> no_newline ts -> ts <> [] -> command_form DB DP p ts [] ->
  script DB DP (mkCG [TLCmd (CList (mkAOL (LSingle p) []))] []) ts.
Proof.
  intros Hs Hb Hn Hne Hc.
  assert (Hp : pipe_form DB DP [([], p)] ts []).
  { apply pi_last; [rewrite Hs; exact Hc|exact Hb|discriminate]. }
  assert (Hl : list_form DB DP (mkAOL (LSingle p) []) ts []).
  { apply (lf_list DB DP (LSingle p) [] ts [] []).
    - rewrite <- Hs in Hb, Hp. exact (pp_plain DB DP _ ts [] Hb Hp).
    - apply (ao_end DB DP []); discriminate. }
  eapply (gr_command DB DP no_delims [] (TLCmd (CList (mkAOL (LSingle p) []))) [] [] ts ts []).
  - rewrite <- Hs at 2. constructor. now rewrite Hs.
  - intros [E|[(t & r & _ & [])|[(x & r & [] & _)|(t & r & [] & _)]]]. contradiction.
  - exact (cp_other DB DP [] _ ts [] Hl ltac:(discriminate) ltac:(discriminate) ltac:(split; discriminate) eq_refl).
  - apply gr_end; [|now left]. apply (ns_nil []). split; discriminate.
Qed.
Lemma script_alone k ts : skipw ts = ts -> hd_error ts <> Some TBang -> no_newline ts -> ts <> [] -> compound DB DP (mkCC k []) ts [] ->
  script DB DP (mkCG [alone k] []) ts.
Proof. intros Hs Hb Hn Hne Hc. apply (script_one (PCompound (mkCC k []))); auto. exact (cf_compound DB DP _ _ _ Hc). Qed.
Lemma redirects_end : redirects DB DP [] [] [].
Proof. apply re_end; [|exact I]. apply (nw_delimited []). exact I. Qed.

Lemma accepts_inside s cs : accepts s cs -> joinable_source s ->
  exists g, script DB DP g (TNewline :: lex s) /\ commands g = cs /\ joinable (TNewline :: lex s).
Proof.
  intros H Hj. apply joinable_source_lex in Hj. apply accepts_script in H.
  apply (script_after_newlines cs (lex s) (TNewline :: lex s)) in H.
  - destruct H as (g & H1 & H2). exists g. split; [exact H1|]. split; [exact H2|]. destruct Hj as (J1 & J2 & J3). repeat split.
    + intros [X|X]; [discriminate|contradiction].
    + intros [X|X]; [discriminate|contradiction].
    + intros us E. destruct us as [|u us]; [discriminate|]. injection E as _ E. exact (J3 us E).
  - intros ns r X. exists (Newline None :: ns). eapply ns_cons; [apply nf_newline; reflexivity|exact X].
Qed.
Lemma inside_parens s cs rest : accepts s cs -> joinable_source s -> delimited rest ->
  exists g, commands g = cs /\ group DB DP (mkDelims [] [] [TParenClose]) g (TNewline :: lex s ++ TNewline :: TParenClose :: rest) (TParenClose :: rest).
Proof.
  intros H Hj Hd. destruct (accepts_inside s cs H Hj) as (g & H1 & <- & H2). destruct (nest_paren g _ rest Hd H1 H2) as (tr & G).
  exists (mkCG (commands g) tr). auto.
Qed.
Lemma inside_curly s cs rest : accepts s cs -> joinable_source s -> without ["}"%string] s -> delimited rest ->
  exists g, commands g = cs /\ group DB DP (mkDelims [TCurlyClose] [] []) g (TNewline :: lex s ++ TNewline :: TCurlyClose :: rest) (TCurlyClose :: rest).
Proof.
  intros H Hj Hw Hd. destruct (accepts_inside s cs H Hj) as (g & H1 & <- & H2).
  destruct (nest_clear (mkDelims [TCurlyClose] [] []) (TCurlyClose :: rest) g (TNewline :: lex s)) as (tr & G); auto.
  - right; right; right. exists TCurlyClose, rest. split; [now left|auto].
  - split; discriminate.
  - intros [X|[]]. discriminate.
  - intros [X|[]]. discriminate.
  - intros t Ht. split; [intros []|]. split; [|intros k []]. intros [<-|[]]. destruct Ht as [Ht|Ht]; [discriminate|].
    exact (Hw TCurlyClose "}"%string Ht (or_introl eq_refl) eq_refl).
  - exists (mkCG (commands g) tr). auto.
Qed.
Lemma inside_words ks k s cs rest : accepts s cs -> joinable_source s -> without ks s -> In k ks -> delimited rest ->
  exists g, commands g = cs /\ group DB DP (mkDelims [] (map s_of ks) []) g (TNewline :: lex s ++ TNewline :: TName (s_of k) :: rest) (TName (s_of k) :: rest).
Proof.
  intros H Hj Hw Hk Hd. destruct (accepts_inside s cs H Hj) as (g & H1 & <- & H2).
  destruct (nest_clear (mkDelims [] (map s_of ks) []) (TName (s_of k) :: rest) g (TNewline :: lex s)) as (tr & G); auto.
  - right; right; left. exists (s_of k), rest. split; [now apply in_map|]. apply kw_name; [reflexivity|exact Hd].
  - split; discriminate.
  - intros t Ht. split; [intros []|]. split; [intros []|]. cbn. intros x Hx. apply in_map_iff in Hx as (k' & <- & Hk').
    destruct Ht as [<-|Ht]; [split; discriminate|]. split; intros ->; exact (Hw _ k' Ht Hk' eq_refl).
  - exists (mkCG (commands g) tr). auto.
Qed.
Lemma keyword_line k rest : keyword (s_of k) (TName (s_of k) :: TNewline :: rest) (TNewline :: rest).
Proof. apply kw_name; reflexivity. Qed.
Lemma keyword_last k : keyword (s_of k) [TName (s_of k)] [].
Proof. apply kw_name; [reflexivity|exact I]. Qed.

(** [(] script [)] *)
Theorem nest_subshell s cs : accepts s cs -> cs <> [] -> joinable_source s ->
  accepts (lines [s_of "("; s; s_of ")"]) [alone (CSubshell cs)].
Proof.
  intros H Hne Hj. apply accepts_script. exists (mkCG [alone (CSubshell cs)] []). split; [|reflexivity].
  cbn [lines]. rewrite !lex_line. change (lex (s_of "(")) with [TParenOpen]. change (lex (s_of ")")) with [TParenClose]. cbn [app].
  destruct (inside_parens s cs [] H Hj I) as (g & <- & G).
  apply script_alone; [reflexivity|discriminate|split; discriminate|discriminate|].
  exact (co_subshell DB DP g _ [] [] [] G Hne redirects_end).
Qed.
(** [{] script [}] *)
Theorem nest_brace s cs : accepts s cs -> cs <> [] -> joinable_source s -> without ["}"%string] s ->
  accepts (lines [s_of "{"; s; s_of "}"]) [alone (CBrace cs)].
Proof.
  intros H Hne Hj Hw. apply accepts_script. exists (mkCG [alone (CBrace cs)] []). split; [|reflexivity].
  cbn [lines]. rewrite !lex_line. change (lex (s_of "{")) with [TCurlyOpen]. change (lex (s_of "}")) with [TCurlyClose]. cbn [app].
  destruct (inside_curly s cs [] H Hj Hw I) as (g & <- & G).
  apply script_alone; [reflexivity|discriminate|split; discriminate|discriminate|].
  eapply (co_brace DB DP g (TNewline :: lex s ++ [TNewline; TCurlyClose]) [TCurlyClose] [] [] []); [reflexivity|exact G|exact Hne|reflexivity|exact I|exact redirects_end].
Qed.
(** [do] script [done] *)
Lemma nest_do s cs : accepts s cs -> cs <> [] -> joinable_source s -> without ["done"%string] s ->
  exists b, commands b = cs /\ do_form DB DP b (TName (s_of "do") :: TNewline :: lex s ++ [TNewline; TName (s_of "done")]) [].
Proof.
  intros H Hne Hj Hw. destruct (inside_words ["done"%string] "done" s cs [] H Hj Hw (or_introl eq_refl) I) as (b & <- & G).
  exists b. split; [reflexivity|]. eapply df_do; [exact (keyword_line "do" _)|exact G|exact Hne|exact (keyword_last "done")].
Qed.
(** [while] script [do] script [done] and [until] *)
Theorem nest_loop (until : bool) s1 cs1 s2 cs2 : accepts s1 cs1 -> cs1 <> [] -> joinable_source s1 -> without ["do"%string] s1 ->
  accepts s2 cs2 -> cs2 <> [] -> joinable_source s2 -> without ["done"%string] s2 ->
  accepts (lines [s_of (if until then "until" else "while"); s1; s_of "do"; s2; s_of "done"])
    [alone ((if until then CUntil else CWhile) (mkGB cs1 cs2))].
Proof.
  intros H1 Hn1 Hj1 Hw1 H2 Hn2 Hj2 Hw2. apply accepts_script. eexists (mkCG [alone _] []). split; [|reflexivity].
  cbn [lines]. rewrite !lex_line. change (lex (s_of "do")) with [TName (s_of "do")]. change (lex (s_of "done")) with [TName (s_of "done")].
  replace (lex (s_of (if until then "until" else "while"))) with [TName (s_of (if until then "until" else "while"))] by (destruct until; reflexivity).
  cbn [app].
  destruct (nest_do s2 cs2 H2 Hn2 Hj2 Hw2) as (b & <- & G2).
  destruct (inside_words ["do"%string] "do" s1 cs1 (TNewline :: lex s2 ++ [TNewline; TName (s_of "done")]) H1 Hj1 Hw1 (or_introl eq_refl) eq_refl) as (g & <- & G1).
  apply script_alone; [now destruct until|discriminate|split; discriminate|discriminate|].
  destruct until.
  - exact (co_until DB DP g b _ _ _ _ [] [] (keyword_line "until" _) G1 Hn1 G2 redirects_end).
  - exact (co_while DB DP g b _ _ _ _ [] [] (keyword_line "while" _) G1 Hn1 G2 redirects_end).
Qed.
(** [if] script [then] script [else] script [fi] *)
Theorem nest_if s1 cs1 s2 cs2 s3 cs3 : accepts s1 cs1 -> cs1 <> [] -> joinable_source s1 -> without ["then"%string] s1 ->
  accepts s2 cs2 -> cs2 <> [] -> joinable_source s2 -> without ["elif"%string; "else"%string; "fi"%string] s2 ->
  accepts s3 cs3 -> cs3 <> [] -> joinable_source s3 -> without ["fi"%string] s3 ->
  accepts (lines [s_of "if"; s1; s_of "then"; s2; s_of "fi"]) [alone (CIf [mkGB cs1 cs2] None)] /\
  accepts (lines [s_of "if"; s1; s_of "then"; s2; s_of "else"; s3; s_of "fi"]) [alone (CIf [mkGB cs1 cs2] (Some cs3))].
Proof.
  intros H1 Hn1 Hj1 Hw1 H2 Hn2 Hj2 Hw2 H3 Hn3 Hj3 Hw3.
  split; apply accepts_script; eexists (mkCG [alone _] []); (split; [|reflexivity]); cbn [lines]; rewrite !lex_line;
    change (lex (s_of "if")) with [TName (s_of "if")]; change (lex (s_of "then")) with [TName (s_of "then")];
    change (lex (s_of "else")) with [TName (s_of "else")]; change (lex (s_of "fi")) with [TName (s_of "fi")]; cbn [app].
  - destruct (inside_words ["elif"; "else"; "fi"]%string "fi" s2 cs2 [] H2 Hj2 Hw2 ltac:(cbn; tauto) I) as (b & <- & G2).
    destruct (inside_words ["then"%string] "then" s1 cs1 (TNewline :: lex s2 ++ [TNewline; TName (s_of "fi")]) H1 Hj1 Hw1 (or_introl eq_refl) eq_refl) as (g & <- & G1).
    apply script_alone; [reflexivity|discriminate|split; discriminate|discriminate|].
    exact (co_if DB DP _ _ _ _ _ [] [] (keyword_line "if" _)
      (cd_fi DB DP g b _ _ _ _ _ G1 Hn1 (keyword_line "then" _) G2 Hn2 (keyword_last "fi")) redirects_end).
  - destruct (inside_words ["fi"]%string "fi" s3 cs3 [] H3 Hj3 Hw3 ltac:(cbn; tauto) I) as (e & <- & G3).
    destruct (inside_words ["elif"; "else"; "fi"]%string "else" s2 cs2 (TNewline :: lex s3 ++ [TNewline; TName (s_of "fi")]) H2 Hj2 Hw2 ltac:(cbn; tauto) eq_refl) as (b & <- & G2).
    destruct (inside_words ["then"%string] "then" s1 cs1 (TNewline :: lex s2 ++ TNewline :: TName (s_of "else") :: TNewline :: lex s3 ++ [TNewline; TName (s_of "fi")]) H1 Hj1 Hw1 (or_introl eq_refl) eq_refl) as (g & <- & G1).
    apply script_alone; [reflexivity|discriminate|split; discriminate|discriminate|].
    exact (co_if DB DP _ _ _ _ _ [] [] (keyword_line "if" _)
      (cd_else DB DP g b e _ _ _ _ _ _ _ G1 Hn1 (keyword_line "then" _) G2 Hn2 (keyword_line "else" _) G3 Hn3 (keyword_last "fi")) redirects_end).
Qed.
(** [$(] script [)] *)
Theorem nest_substitution s cs : accepts s cs -> joinable_source s ->
  accepts (lines [s_of "$("; s; s_of ")"]) [word_alone (substituted cs)].
Proof.
  intros H Hj. apply accepts_script. exists (mkCG [word_alone (substituted cs)] []). split; [|reflexivity].
  cbn [lines]. rewrite !lex_line. change (lex (s_of "$(")) with [TDollar; TParenOpen]. change (lex (s_of ")")) with [TParenClose]. cbn [app].
  destruct (inside_parens s cs [] H Hj I) as (g & <- & G).
  apply script_one; [reflexivity|discriminate|split; discriminate|discriminate|].
  assert (N : no_word [] []) by (apply (nw_delimited []); exact I).
  assert (W : word_form DB DP (KSingle (KSimple (KSubst (KSCommand g)))) (TDollar :: TParenOpen :: TNewline :: lex s ++ [TNewline; TParenClose]) []).
  { apply (wf_word DB DP (KSimple (KSubst (KSCommand g))) []); [|discriminate|reflexivity].
    apply (fs_frag DB DP None _ _ []); [|intros X; contradiction|apply fs_end; left; exact I].
    apply fr_expansion, ex_dollar, do_command; [exact G|discriminate]. }
  apply (cf_simple DB DP [] [DCmdWord (substituted (commands g))]).
  - refine (si_command DB DP (KSingle (KSimple (KSubst (KSCommand g)))) _ [] [] [] _ _ _ _); [exact W| | |apply ag_end; [exact N|exact I]].
    + exact I.
    + intros X. exact X.
  - right. discriminate.
  - intros [X|[(t & r & [<-|[]] & X & _)|(k & r & _ & X)]]; [discriminate|discriminate|inversion X; discriminate].
  - intros X. exact X.
  - intros (k & r & _ & X). inversion X; discriminate.
Qed.
End Source.

(** ** Examples *)
Section Examples.
#[local] Instance ex_uni : Uni := fun _ => false.
Lemma accepts_at s cs : (Nat.ltb (List.length (lex s) + 2) 100 = true) -> parses_to DB 100 (lex s) tt cs -> accepts s cs.
Proof.
  intros Hf H. apply accepts_script. apply (script_exact DB DP 100 (lex s) tt); [|exact H].
  now apply PeanoNat.Nat.ltb_lt.
Qed.
Definition inner : str := s_of "for x in a b; do c 'd'; done & # e".
Definition body1 : str := s_of "f g".
(** The hypotheses hold of a loop in the background followed by a comment. *)
Example nest_witness : (exists c, accepts inner [c]) /\ accepts body1 [cmd_of ["f"; "g"]%string] /\
  joinable_source inner /\ joinable_source body1 /\ without ["}"; "then"; "elif"; "else"; "fi"]%string inner /\
  without ["do"; "done"]%string body1.
Proof.
  split. { eexists. apply accepts_at; [vm_compute; reflexivity|]. apply (parses_steps 5); [apply enough; vm_compute; reflexivity|]. vm_compute. reflexivity. }
  split. { apply accepts_at; [vm_compute; reflexivity|]. apply (parses_steps 5); [apply enough; vm_compute; reflexivity|]. vm_compute. reflexivity. }
  assert (N : forall c s, forallb (fun x => negb (N.eqb x c)) s = true -> ~ In c s).
  { intros c s F Hi. rewrite forallb_forall in F. specialize (F c Hi). now rewrite N.eqb_refl in F. }
  split.
  { split; [intros a b E|intros a E]; [apply (N 60%N inner)|apply (N backslash inner)]; try (vm_compute; reflexivity); rewrite E; apply in_or_app; right; now left. }
  split.
  { split; [intros a b E|intros a E]; [apply (N 60%N body1)|apply (N backslash body1)]; try (vm_compute; reflexivity); rewrite E; apply in_or_app; right; now left. }
  assert (W : forall ks s, forallb (fun t => forallb (fun k => negb (str_eqb (as_str t) (s_of k))) ks) (lex s) = true -> without ks s).
  { intros ks s F t k Ht Hk E. rewrite forallb_forall in F. specialize (F t Ht). rewrite forallb_forall in F. specialize (F k Hk).
    rewrite E, str_eqb_refl in F. discriminate. }
  split; apply W; vm_compute; reflexivity.
Qed.
(** Nested twice. *)
Example nest_twice : exists c, accepts inner [c] /\
  accepts (lines [s_of "("; lines [s_of "{"; inner; s_of "}"]; s_of ")"]) [alone (CSubshell [alone (CBrace [c])])].
Proof.
  destruct nest_witness as ((c & H) & _ & J & _ & W & _). exists c. split; [exact H|].
  apply nest_subshell; [apply nest_brace; [exact H|discriminate|exact J|]|discriminate|].
  - intros t k Ht [<-|[]]. apply (W t "}"%string Ht). now left.
  - assert (N : forall c s, forallb (fun x => negb (N.eqb x c)) s = true -> ~ In c s).
    { intros d s F Hi. rewrite forallb_forall in F. specialize (F d Hi). now rewrite N.eqb_refl in F. }
    split; [intros a b E|intros a E]; [apply (N 60%N (lines [s_of "{"; inner; s_of "}"]))|apply (N backslash (lines [s_of "{"; inner; s_of "}"]))];
      try (vm_compute; reflexivity); rewrite E; apply in_or_app; right; now left.
Qed.
(** A closing brace that stands where a command may start is, outside braces, the name of a command; the
    same holds of [done], [fi] and the other words.  So the condition on the script cannot be dropped. *)
Definition stray : str := lines [s_of "a"; s_of "}"; s_of "b"].
Example stray_brace : accepts stray [cmd_of ["a"]; cmd_of ["}"]; cmd_of ["b"]]%string /\
  accepts (lines [s_of "{"; stray; s_of "}"]) [alone (CBrace [cmd_of ["a"]%string]); cmd_of ["b"]%string; cmd_of ["}"]%string] /\
  accepts (s_of "done fi") [cmd_of ["done"; "fi"]%string].
Proof.
  split; [|split]; (apply accepts_at; [vm_compute; reflexivity|]; apply (parses_steps 5); [apply enough; vm_compute; reflexivity|]; vm_compute; reflexivity).
Qed.
End Examples.
