(** * C57: compound commands on one line

    A script can be put on one line with the words of a compound command, a semicolon or an ampersand
    before the next word; between parentheses it needs neither. *)
From Coq Require Import String.
From Verif Require Import Base Token Pos Lexer LexSpec LexTheorems Ast Builder Prog Iter Located IterProofs RunLemmas ParserBase Balanced BalancedSpec
  BalancedProofs BalancedTotal Wp Arith Word WpWord Redirect Command DefaultBuilder Entry EntryWp Total Api Runs Pure Relex ArithSpec HeredocSpec Forms BaseForms CompoundRuns FormsRuns FormsTheorems
  SoundScript Exact ExactMethods Seams Quotes LexJoin Join Display Nest JoinSep.

Notation DB := default_builder.
Notation DP := default_pure.

Lemma list_stop t (Hst : separator t) l ts rest ts2 : list_form DB DP l ts rest -> joinable ts -> joinable rest /\ list_form DB DP l (ts ++ t :: ts2) (rest ++ t :: ts2).
Proof.
  intros H. exact (proj1 (proj2 (proj2 (proj2 (proj2 (proj2 (proj2 (proj2 (proj2 (proj2 (proj2 (proj2 (proj2 (proj2 (proj2
      (proj2 (proj2 (proj2 (proj2 (proj2 (proj2 (proj2 (proj2 (proj2 (forms_join t Hst ts2 DB DP)))))))))))))))))))))))) l ts rest H).
Qed.
Lemma complete_stop t (Hst : separator t) ns c ts rest ts2 : complete_form DB DP ns c ts rest -> joinable ts -> rest <> [] ->
  joinable rest /\ complete_form DB DP ns c (ts ++ t :: ts2) (rest ++ t :: ts2).
Proof.
  destruct (forms_join t Hst ts2 DB DP) as (_ & _ & _ & _ & _ & _ & _ & _ & _ & _ & _ & _ & _ & _ & _ & _ & _ & _ & _ & _ & _ & _ & _ & _ & FC & _). apply FC.
Qed.
(** Blanks before the commands do not matter. *)
Lemma newlines_skipw a b ns r : skipw a = skipw b -> newlines ns a r -> newlines ns b r.
Proof.
  intros E H. apply newlines_blank. rewrite <- E. inversion H as [? Hn|? ? ? ? ? Hf Hns]; subst.
  - rewrite <- (skipw_idem a) at 2. constructor. now rewrite skipw_idem.
  - econstructor; [|exact Hns]. inversion Hf as [? ? X|? ? ? X|? ? X]; subst; econstructor; rewrite ?skipw_idem; eassumption.
Qed.
Lemma group_skipw cfg g a b r : skipw a = skipw b -> group DB DP cfg g a r -> group DB DP cfg g b r.
Proof.
  intros E H. inversion H; subst.
  - constructor; [|assumption]. eapply newlines_skipw; eassumption.
  - eapply gr_command; eauto. eapply newlines_skipw; eassumption.
Qed.

(** ** A separator, blanks and a delimiter *)
Section Close.
Variable t : token.
Hypothesis Hb : bar t.
Variable cfg : delimiters.
Variable r close : list token.
Hypothesis r_close : skipw r = close.
Hypothesis close_end : group_end cfg close.
Hypothesis close_plain : no_newline close.
Hypothesis no_sep : ~ In t (reserved_tokens cfg).
Variable A : list token -> Prop.
Hypothesis A_next : forall c ts ns mid rest, A ts -> joinable ts -> newlines ns ts mid -> complete_form DB DP ns c mid rest -> A rest.
Hypothesis A_open : forall c ts ns mid rest, A ts -> newlines ns ts mid -> complete_form DB DP ns c mid rest -> ~ group_end cfg mid.

Lemma not_both cs ts : open_end t cs ts -> closed_end t ts -> False.
Proof.
  intros [_ O] C. destruct (proj2 (O [] (ended_by t cs ++ []))) as (g & G & _).
  - exists (mkCG [] []). split; [|reflexivity]. constructor; [apply (ns_nil []); split; discriminate|now left].
  - exact (C [] g G).
Qed.
Lemma group_close g ts rest0 : group DB DP no_delims g ts rest0 -> rest0 = [] -> joinable ts -> comments_ended ts -> A ts ->
  open_end t (commands g) ts -> exists tr, group DB DP cfg (mkCG (ended_by t (commands g)) tr) (ts ++ t :: r) close.
Proof.
  intros H. remember no_delims as cfg0 eqn:E0. revert E0.
  induction H as [cfg1 ns ts rest Hn He|cfg1 ns c cs1 tr ts t1 t2 rest Hn He Hc Hg IH]; intros -> -> Hj He1 HA Ho.
  - destruct Ho as [X _]. now elim X.
  - destruct (newlines_stop t (bar_sep t Hb) (bar_not_newline t Hb) r _ _ _ Hn Hj He1) as (J1 & C1 & Hn').
    assert (N1 : t1 <> []). { intros ->. now apply complete_form_nil in Hc. }
    assert (Hx : ~ group_end cfg (t1 ++ t :: r)).
    { intros X. apply (A_open _ _ _ _ _ HA Hn Hc). exact (group_end_unjoin t (bar_sep t Hb) r cfg t1 J1 no_sep N1 X). }
    assert (D : t2 = [] \/ t2 <> []) by (destruct t2; [now left|right; discriminate]). destruct D as [-> |N2].
    + assert (cs1 = []) as ->.
      { inversion Hg as [|? ? ? ? ? ? ? ? ? X Y]; subst; [reflexivity|]. apply newlines_nil in X. subst. exfalso. apply Y. now left. }
      destruct (last_cases t Hb _ _ _ _ Hn N1 Hc Hj He1) as [(l & -> & Hl)|Cl]; [|now apply (not_both _ _ Ho) in Cl].
      destruct (list_bar t Hb _ _ _ r Hl J1) as [_ L]. cbn [app] in L. exists [].
      assert (Hm : maybe_newline None r close). { rewrite <- r_close. constructor. now rewrite r_close. }
      assert (Hg' : group DB DP cfg (mkCG [] []) close close).
      { constructor; [|exact close_end]. replace close with (skipw close) at 2 by (rewrite <- r_close; apply skipw_idem). constructor.
        replace (skipw close) with close by (rewrite <- r_close; symmetry; apply skipw_idem). exact close_plain. }
      cbn [commands].
      match goal with |- group _ _ _ (mkCG ?x _) _ _ => replace x with [TLCmd (match t with TAmp => CJob l | _ => CList l end)] by (destruct Hb as [-> | ->]; reflexivity) end.
      eapply gr_command; [exact Hn'|exact Hx| |exact Hg'].
      destruct Hb as [-> | ->].
      * exact (cp_semi DB DP ns l None _ _ _ L Hm).
      * exact (cp_amp DB DP ns l None _ _ _ L Hm).
    + assert (F : first_command c ts t2) by (now exists ns, t1).
      destruct (first_suffix _ _ _ Hj F) as (us & E). pose proof (ended_suffix _ _ _ E He1) as C2.
      destruct (complete_stop t (bar_sep t Hb) _ _ _ _ r Hc J1 N2) as [J2 Hc'].
      assert (F' : forall ts2, first_command c (ts ++ t :: ts2) (t2 ++ t :: ts2)).
      { intros ts2. exists ns, (t1 ++ t :: ts2). split; [now apply (newlines_stop t (bar_sep t Hb) (bar_not_newline t Hb))|].
        split; [destruct t1; discriminate|]. exact (proj2 (complete_stop t (bar_sep t Hb) _ _ _ _ ts2 Hc J1 N2)). }
      destruct (group_bar t Hb _ _ _ _ Hg eq_refl eq_refl J2 C2) as [O2|Cl].
      2: { exfalso. apply (not_both _ _ Ho). exact (closed_first t c _ _ F' Cl). }
      destruct (IH eq_refl eq_refl J2 C2 (A_next _ _ _ _ _ HA Hj Hn Hc) O2) as (tr' & G). exists tr'. cbn [commands] in *.
      change (@cons (b_cmd DB) c cs1) with (@cons tlcmd c cs1). rewrite (ended_by_cons t Hb c cs1 (proj1 O2)).
      eapply gr_command; [exact Hn'|exact Hx|exact Hc'|exact G].
Qed.
End Close.
(** ** A closing parenthesis *)
Lemma last_close ns c ts r : complete_form DB DP ns c ts [] -> joinable ts -> comments_ended ts ->
  complete_form DB DP ns c (ts ++ TParenClose :: r) (TParenClose :: r).
Proof.
  intros H Hj Hc. assert (S := close_sep). assert (NN : TParenClose <> TNewline) by discriminate.
  inversion H as [? l nl ? mid ? Hl Hm|? l nl ? mid ? Hl Hm|? l nl ? mid ? Hl Hm|? l ? ? Hl]; subst;
  destruct (list_stop _ S _ _ _ r Hl Hj) as [J L]; destruct (list_suffix _ _ _ Hj Hl) as (us & E); pose proof (ended_suffix _ _ _ E Hc) as C.
  - apply joinable_cons in J. apply comments_ended_cons in C.
    exact (cp_semi DB DP ns l nl _ _ _ L (maybe_newline_stop _ S NN r _ _ _ Hm J C)).
  - apply joinable_cons in J. apply comments_ended_cons in C.
    exact (cp_amp DB DP ns l nl _ _ _ L (maybe_newline_stop _ S NN r _ _ _ Hm J C)).
  - exact (cp_newline DB DP ns l nl _ _ _ L (proj2 (proj2 (newline_stop _ S r _ _ _ Hm J C)))).
  - refine (cp_other DB DP ns l _ _ L _ _ _ eq_refl); [discriminate|discriminate|split; discriminate].
Qed.
Lemma paren_close g ts rest0 r : group DB DP no_delims g ts rest0 -> rest0 = [] -> joinable ts -> comments_ended ts ->
  group DB DP (mkDelims [] [] [TParenClose]) g (ts ++ TParenClose :: r) (TParenClose :: r).
Proof.
  intros H. remember no_delims as cfg0 eqn:E0. revert E0.
  assert (S := close_sep). assert (NN : TParenClose <> TNewline) by discriminate.
  assert (GE : group_end (mkDelims [] [] [TParenClose]) (TParenClose :: r)).
  { right; left. exists TParenClose, r. split; [reflexivity|now left]. }
  induction H as [cfg1 ns ts rest Hn He|cfg1 ns c cs1 tr ts t1 t2 rest Hn He Hc Hg IH]; intros -> -> Hj He1;
  destruct (newlines_stop _ S NN r _ _ _ Hn Hj He1) as (J1 & C1 & Hn').
  - constructor; [exact Hn'|exact GE].
  - assert (N1 : t1 <> []). { intros ->. now apply complete_form_nil in Hc. }
    assert (Hx : ~ group_end (mkDelims [] [] [TParenClose]) (t1 ++ TParenClose :: r)).
    { intros X. apply (group_end_unjoin _ S r (mkDelims [] [] [TParenClose]) t1 J1 (fun z => z) N1) in X as [->|[(x & r' & -> & Hi)|[(k & r' & [] & _)|(x & r' & [] & _)]]].
      + now elim N1.
      + destruct Hi as [<-|[]]. exact (no_close_complete _ _ _ _ Hc). }
    assert (D : t2 = [] \/ t2 <> []) by (destruct t2; [now left|right; discriminate]). destruct D as [-> |N2].
    + inversion Hg as [? ns2 ? ? X Y|? ? ? ? ? ? ? ? ? X Y]; subst.
      2: { apply newlines_nil in X. subst. exfalso. apply Y. now left. }
      inversion X as [? Z|? ? ? ? ? Hf]; subst; [|inversion Hf; discriminate].
      eapply gr_command; [exact Hn'|exact Hx|exact (last_close _ _ _ _ Hc J1 C1)|].
      constructor; [|exact GE]. apply (ns_nil (TParenClose :: r)). split; discriminate.
    + assert (F : first_command c ts t2) by (now exists ns, t1).
      destruct (first_suffix _ _ _ Hj F) as (us & E). pose proof (ended_suffix _ _ _ E He1) as C2.
      destruct (complete_stop _ S _ _ _ _ r Hc J1 N2) as [J2 Hc'].
      eapply gr_command; [exact Hn'|exact Hx|exact Hc'|exact (IH eq_refl eq_refl J2 C2)].
Qed.

(** ** Source text *)
Section Source.
Context {U : Uni}.
(** The script [s], whose commands are [cs], may be followed by the separator [t]. *)
Definition may_end (t : token) (s : str) (cs : list tlcmd) : Prop :=
  accepts s cs /\ (exists cs0, accepts (s ++ as_str t) cs0) /\ joinable_source s /\ comments_ended_source s /\ stands_alone s [].

Lemma lex_space s : exists b y, lex (32%N :: s) = TWhitespace b :: y /\ skipw y = skipw (lex s).
Proof.
  assert (B : LexSpec.blank 32%N) by (split; [reflexivity|discriminate]).
  pose proof (lex_Lexes s) as H. destruct s as [|c s]; [exists [32%N], []; split; reflexivity|].
  assert (D : LexSpec.blank c \/ ~ LexSpec.blank c).
  { unfold LexSpec.blank. destruct (is_whitespace c); [|right; intros [X _]; discriminate]. destruct (N.eq_dec c 10%N); [right; tauto|now left]. }
  destruct D as [D|D].
  - apply Lexes_cons in H as [(t & r & ts' & _ & _ & _ & _ & _ & X & _)|[(b & r & ts' & _ & -> & Hb & Hs & E & Hl)|[(w & r & ts' & X & _)|[(w & r & ts' & X & _)|[(X & _)|(x & r & t & ts' & X & _)]]]]].
    + contradiction.
    + exists (32%N :: c :: b), ts'. split; [|now rewrite E].
      apply lex_maximal_munch. apply (Lex_blanks (32%N :: c :: b) r ts'); [discriminate|repeat constructor; auto|exact Hs|exact Hl].
      all: try apply B; try apply D.
    + destruct X as [X _]. now apply blank_not_ordinary in X.
    + now apply blank_not_ordinary in X.
    + subst c. destruct D as [X _]. discriminate X.
    + subst c. destruct D as [X _]. discriminate X.
  - exists [32%N], (lex (c :: s)). split; [|reflexivity].
    apply lex_maximal_munch. apply (Lex_blanks [32%N] (c :: s)); [discriminate|repeat constructor; apply B| |exact H].
    intros c' s' [= <- <-]. exact D.
Qed.
Lemma lex_opener k s : In k ["if"; "while"; "until"; "then"; "else"; "do"]%string -> exists b y, lex (s_of k ++ 32%N :: s) = TName (s_of k) :: TWhitespace b :: y /\ skipw y = skipw (lex s).
Proof.
  intros Hk. destruct (lex_space s) as (b & y & E & Hy). exists b, y. split; [|exact Hy]. rewrite <- E.
  assert (X : lexable (TName (s_of k)) /\ apart (TName (s_of k)) (32%N :: s) = true).
  { assert (L : lex (s_of k) = [TName (s_of k)]) by (destruct Hk as [<-|[<-|[<-|[<-|[<-|[<-|[]]]]]]]; reflexivity). split.
    - pose proof (lex_lexable (s_of k)) as F. rewrite L in F. first [now inversion F|apply F; now left].
    - destruct Hk as [<-|[<-|[<-|[<-|[<-|[<-|[]]]]]]]; reflexivity. }
  assert (Y : TName (s_of k) <> TBackslash) by discriminate.
  exact (lexes_token (TName (s_of k)) (proj1 X) Y (32%N :: s) (proj2 X)).
Qed.
Lemma lex_paren s x : lex (s ++ 41%N :: x) = lex s ++ TParenClose :: lex x.
Proof.
  transitivity (lex (text (lex s ++ TParenClose :: lex x))).
  2: { apply lex_relexable. apply relexable_app_op; [apply lex_is_relexable..|reflexivity| |].
    + split; [exact I|]. now exists 41%N.
    + intros u _ Hu. destruct u; reflexivity. }
  f_equal. rewrite text_app, text_cons, !lex_text. reflexivity.
Qed.
Lemma lex_bar t s x : bar t -> joinable_source s -> stands_alone s [] -> lex (s ++ as_str t ++ 32%N :: x) = lex s ++ t :: lex (32%N :: x).
Proof.
  intros Hb Hj [Ha _]. apply lex_maximal_munch. apply Lexes_join_bar; [exact Hb|exact (proj2 Hj)| |apply lex_Lexes|apply lex_Lexes].
  split; [exact Ha|]. intros y b [= <- <-]. intros [X|[X|[]]]; discriminate.
Qed.
Lemma may_end_open t s cs : bar t -> may_end t s cs -> exists g, script DB DP g (lex s) /\ commands g = cs /\ open_end t cs (lex s).
Proof.
  intros Hb (H & (cs0 & H0) & Hj & Hc & Ha). pose proof (joinable_source_lex _ Hj) as Hj'. pose proof (comments_ended_lex _ Hc) as Hc'.
  apply accepts_script in H as (g & G & <-). exists g. split; [exact G|]. split; [reflexivity|].
  destruct (group_bar t Hb _ _ _ _ G eq_refl eq_refl Hj' Hc') as [O|Cl]; [exact O|]. exfalso.
  apply accepts_script in H0 as (g0 & G0 & _).
  replace (lex (s ++ as_str t)) with (lex s ++ [t]) in G0; [exact (Cl [] g0 G0)|].
  symmetry. rewrite <- (app_nil_r (as_str t)). apply lex_maximal_munch. apply Lexes_join_bar; [exact Hb|exact (proj2 Hj)|exact Ha|apply lex_Lexes|constructor].
Qed.
Lemma ended_by_nil t cs : cs <> [] -> ended_by t cs <> [].
Proof. intros H. destruct t; try exact H. cbn. destruct cs as [|[[l|l]] [|c cs]]; congruence || discriminate. Qed.
Lemma may_end_some t s cs : bar t -> may_end t s cs -> ended_by t cs <> [].
Proof. intros Hb H. destruct (may_end_open t s cs Hb H) as (_ & _ & _ & O & _). now apply ended_by_nil. Qed.

(** In front of a delimiter. *)
Lemma inside_clear t cfg s cs z x close : bar t -> may_end t s cs -> clear_of cfg (lex s) ->
  ~ In t (reserved_tokens cfg) -> ~ In TCurlyOpen (exact_tokens cfg) -> ~ In TCurlyOpen (reserved_tokens cfg) ->
  skipw (lex x) = close -> group_end cfg close -> no_newline close -> skipw z = skipw (lex (s ++ as_str t ++ 32%N :: x)) ->
  exists g, commands g = ended_by t cs /\ group DB DP cfg g z close.
Proof.
  intros Hb Hm Hcl Ht Ho1 Ho2 Hx He Hn Hz. destruct (may_end_open t s cs Hb Hm) as (g & G & <- & O). destruct Hm as (_ & _ & Hj & Hc & Ha).
  pose proof (joinable_source_lex _ Hj) as Hj'. pose proof (comments_ended_lex _ Hc) as Hc'. rewrite (lex_bar t s x Hb Hj Ha) in Hz.
  destruct (lex_space x) as (b & y & Ey & Hy).
  assert (R : skipw (lex (32%N :: x)) = close). { rewrite Ey. cbn [skipw]. congruence. }
  destruct (group_close t Hb cfg (lex (32%N :: x)) close R He Hn Ht (clear_of cfg)) with (g := g) (ts := lex s) (rest0 := @nil token) as (tr & G'); auto.
  - intros c us ns mid rest HA Hju Hns Hcf u Hu.
    assert (F : first_command c us rest). { exists ns, mid. split; [exact Hns|]. split; [|exact Hcf]. intros ->. now apply complete_form_nil in Hcf. }
    destruct (first_command_incl c us rest (joinable_no_heredoc us Hju) F u Hu) as [<-|Hu']; [|exact (HA u Hu')].
    split; [exact Ho1|]. split; [exact Ho2|]. intros k _. split; discriminate.
  - intros c us ns mid rest HA Hns Hcf. apply clear_end; [intros ->; now apply complete_form_nil in Hcf|].
    intros u Hu. apply HA, (newlines_incl _ _ _ Hns), Hu.
  - eexists. split; [|eapply group_skipw; [symmetry; exact Hz|exact G']]. reflexivity.
Qed.
Lemma inside_word t ks k s cs z x rest : bar t -> may_end t s cs -> without ks s -> In k ks -> lex x = TName (s_of k) :: rest -> delimited rest ->
  skipw z = skipw (lex (s ++ as_str t ++ 32%N :: x)) ->
  exists g, commands g = ended_by t cs /\ group DB DP (mkDelims [] (map s_of ks) []) g z (TName (s_of k) :: rest).
Proof.
  intros Hb Hm Hw Hk Hx Hd Hz. apply (inside_clear t _ s cs z x); auto.
  - intros u Hu. split; [intros []|]. split; [intros []|]. cbn. intros y Hy. apply in_map_iff in Hy as (k' & <- & Hk').
    split; intros ->; exact (Hw _ k' Hu Hk' eq_refl).
  - now rewrite Hx.
  - right; right; left. exists (s_of k), rest. split; [now apply in_map|]. apply kw_name; [reflexivity|exact Hd].
  - split; discriminate.
Qed.
Lemma inside_brace t s cs z x rest : bar t -> may_end t s cs -> without ["}"%string] s -> lex x = TCurlyClose :: rest -> delimited rest ->
  skipw z = skipw (lex (s ++ as_str t ++ 32%N :: x)) ->
  exists g, commands g = ended_by t cs /\ group DB DP (mkDelims [TCurlyClose] [] []) g z (TCurlyClose :: rest).
Proof.
  intros Hb Hm Hw Hx Hd Hz. apply (inside_clear t _ s cs z x); auto.
  - intros u Hu. split; [intros []|]. split; [|intros k []]. intros [<-|[]]. exact (Hw TCurlyClose "}"%string Hu (or_introl eq_refl) eq_refl).
  - intros [X|[]]. destruct Hb; congruence.
  - intros [X|[]]. discriminate.
  - now rewrite Hx.
  - right; right; right. exists TCurlyClose, rest. split; [now left|auto].
  - split; discriminate.
Qed.
Lemma inside_close s cs z rest : accepts s cs -> joinable_source s -> comments_ended_source s -> skipw z = skipw (lex s ++ TParenClose :: rest) ->
  exists g, commands g = cs /\ group DB DP (mkDelims [] [] [TParenClose]) g z (TParenClose :: rest).
Proof.
  intros H Hj Hc Hz. pose proof (joinable_source_lex _ Hj) as Hj'. pose proof (comments_ended_lex _ Hc) as Hc'.
  apply accepts_script in H as (g & G & <-). exists g. split; [reflexivity|].
  eapply group_skipw; [symmetry; exact Hz|]. exact (paren_close _ _ _ rest G eq_refl Hj' Hc').
Qed.

(** Words on one line. *)
Fixpoint on_one_line (l : list str) : str :=
  match l with
  | [] => []
  | [s] => s
  | s :: l' => s ++ 32%N :: on_one_line l'
  end.

(** C57: [(]script[)] *)
Theorem oneline_subshell s cs : accepts s cs -> cs <> [] -> joinable_source s -> comments_ended_source s ->
  accepts (s_of "(" ++ s ++ s_of ")") [alone (CSubshell cs)].
Proof.
  intros H Hne Hj Hc. apply accepts_script. exists (mkCG [alone (CSubshell cs)] []). split; [|reflexivity].
  rewrite (lexes_closed TParenOpen eq_refl _ I). change (s_of ")") with [41%N]. rewrite lex_paren. change (lex []) with (@nil token). cbn [app].
  destruct (inside_close s cs _ [] H Hj Hc eq_refl) as (g & <- & G).
  apply script_alone; [reflexivity|discriminate|split; discriminate|discriminate|].
  exact (co_subshell DB DP g _ [] [] [] G Hne redirects_end).
Qed.
(** C57: [$( ]script[)] *)
Theorem oneline_substitution s cs : accepts s cs -> joinable_source s -> comments_ended_source s ->
  accepts (s_of "$( " ++ s ++ s_of ")") [word_alone (substituted cs)].
Proof.
  intros H Hj Hc. apply accepts_script. exists (mkCG [word_alone (substituted cs)] []). split; [|reflexivity].
  destruct (lex_space (s ++ s_of ")")) as (b & y & E & Hy).
  assert (EL : lex (s_of "$( " ++ s ++ s_of ")") = TDollar :: TParenOpen :: TWhitespace b :: y).
  { change (s_of "$( " ++ s ++ s_of ")") with (as_str TDollar ++ as_str TParenOpen ++ 32%N :: s ++ s_of ")").
    rewrite (lexes_token TDollar I ltac:(discriminate) (as_str TParenOpen ++ 32%N :: s ++ s_of ")") eq_refl), (lexes_closed TParenOpen eq_refl _ I), E. reflexivity. }
  rewrite EL. change (s_of ")") with [41%N] in Hy. rewrite lex_paren in Hy. change (lex []) with (@nil token) in Hy.
  destruct (inside_close s cs (TWhitespace b :: y) [] H Hj Hc Hy) as (g & <- & G).
  apply script_one; [reflexivity|discriminate|split; discriminate|discriminate|].
  assert (N : no_word [] []) by (apply (nw_delimited []); exact I).
  assert (W : word_form DB DP (KSingle (KSimple (KSubst (KSCommand g)))) (TDollar :: TParenOpen :: TWhitespace b :: y) []).
  { apply (wf_word DB DP (KSimple (KSubst (KSCommand g))) []); [|discriminate|reflexivity].
    apply (fs_frag DB DP None _ _ []); [|intros X; contradiction|apply fs_end; left; exact I].
    apply fr_expansion, ex_dollar, do_command; [exact G|discriminate]. }
  apply (cf_simple DB DP [] [DCmdWord (substituted (commands g))]).
  - refine (si_command DB DP (KSingle (KSimple (KSubst (KSCommand g)))) _ [] [] [] _ _ _ _); [exact W| | |apply ag_end; [exact N|exact I]].
    + exact I.
    + intros X. exact X.
  - right. discriminate.
  - intros [X|[(t0 & r & [<-|[]] & X & _)|(k0 & r & _ & X)]]; [discriminate|discriminate|inversion X; discriminate].
  - intros X. exact X.
  - intros (k0 & r & _ & X). inversion X; discriminate.
Qed.
(** C57: [{ ]script[; }] *)
Theorem oneline_brace t s cs : bar t -> may_end t s cs -> without ["}"%string] s ->
  accepts (on_one_line [s_of "{"; s ++ as_str t; s_of "}"]) [alone (CBrace (ended_by t cs))].
Proof.
  intros Hb H Hw. apply accepts_script. exists (mkCG [alone (CBrace (ended_by t cs))] []). split; [|reflexivity].
  cbn [on_one_line]. rewrite <- app_assoc. destruct (lex_space (s ++ as_str t ++ 32%N :: s_of "}")) as (b & y & E & Hy).
  rewrite (lexes_closed TCurlyOpen eq_refl _ I), E. cbn [app].
  destruct (inside_brace t s cs (TWhitespace b :: y) (s_of "}") [] Hb H Hw eq_refl I Hy) as (g & Eg & G). rewrite <- Eg.
  assert (N : commands g <> []) by (rewrite Eg; now apply (may_end_some t s cs)).
  apply script_alone; [reflexivity|discriminate|split; discriminate|discriminate|].
  eapply (co_brace DB DP g (TWhitespace b :: y) [TCurlyClose] [] [] []); [reflexivity|exact G|exact N|reflexivity|exact I|exact redirects_end].
Qed.
Lemma keyword_space k b y : keyword (s_of k) (TName (s_of k) :: TWhitespace b :: y) (TWhitespace b :: y).
Proof. apply kw_name; reflexivity. Qed.
(** C57: [while ]script[; do ]script[; done] and [until] *)
Theorem oneline_loop (until : bool) t1 s1 cs1 t2 s2 cs2 : bar t1 -> may_end t1 s1 cs1 -> without ["do"%string] s1 ->
  bar t2 -> may_end t2 s2 cs2 -> without ["done"%string] s2 ->
  accepts (on_one_line [s_of (if until then "until" else "while"); s1 ++ as_str t1; s_of "do"; s2 ++ as_str t2; s_of "done"])
    [alone ((if until then CUntil else CWhile) (mkGB (ended_by t1 cs1) (ended_by t2 cs2)))].
Proof.
  intros Hb1 H1 Hw1 Hb2 H2 Hw2. apply accepts_script. eexists (mkCG [alone _] []). split; [|reflexivity].
  cbn [on_one_line]. rewrite <- !app_assoc.
  destruct (lex_opener "do" (s2 ++ as_str t2 ++ 32%N :: s_of "done") ltac:(cbn; tauto)) as (b2 & y2 & E2 & Hy2).
  destruct (lex_opener (if until then "until" else "while") (s1 ++ as_str t1 ++ 32%N :: s_of "do" ++ 32%N :: s2 ++ as_str t2 ++ 32%N :: s_of "done")
    ltac:(destruct until; cbn; tauto)) as (b1 & y1 & E1 & Hy1).
  rewrite E1.
  destruct (inside_word t2 ["done"%string] "done" s2 cs2 (TWhitespace b2 :: y2) (s_of "done") [] Hb2 H2 Hw2 (or_introl eq_refl) eq_refl I Hy2) as (g2 & Eg2 & G2).
  destruct (inside_word t1 ["do"%string] "do" s1 cs1 (TWhitespace b1 :: y1) _ _ Hb1 H1 Hw1 (or_introl eq_refl) E2 eq_refl Hy1) as (g1 & Eg1 & G1).
  rewrite <- Eg1, <- Eg2.
  assert (N1 : commands g1 <> []) by (rewrite Eg1; now apply (may_end_some t1 s1 cs1)).
  assert (N2 : commands g2 <> []) by (rewrite Eg2; now apply (may_end_some t2 s2 cs2)).
  pose proof (df_do DB DP g2 _ _ _ _ (keyword_space "do" b2 y2) G2 N2 (keyword_last "done")) as D.
  apply script_alone; [now destruct until|discriminate|split; discriminate|discriminate|].
  destruct until.
  - exact (co_until DB DP g1 g2 _ _ _ _ [] [] (keyword_space "until" b1 y1) G1 N1 D redirects_end).
  - exact (co_while DB DP g1 g2 _ _ _ _ [] [] (keyword_space "while" b1 y1) G1 N1 D redirects_end).
Qed.

(** C57: [if ]script[; then ]script[; fi], and with [elif] and [else] *)
Theorem oneline_if t1 s1 cs1 t2 s2 cs2 : bar t1 -> may_end t1 s1 cs1 -> without ["then"%string] s1 ->
  bar t2 -> may_end t2 s2 cs2 -> without ["elif"%string; "else"%string; "fi"%string] s2 ->
  accepts (on_one_line [s_of "if"; s1 ++ as_str t1; s_of "then"; s2 ++ as_str t2; s_of "fi"])
    [alone (CIf [mkGB (ended_by t1 cs1) (ended_by t2 cs2)] None)].
Proof.
  intros Hb1 H1 Hw1 Hb2 H2 Hw2. apply accepts_script. eexists (mkCG [alone _] []). split; [|reflexivity].
  cbn [on_one_line]. rewrite <- !app_assoc.
  destruct (lex_opener "then" (s2 ++ as_str t2 ++ 32%N :: s_of "fi") ltac:(cbn; tauto)) as (b2 & y2 & E2 & Hy2).
  destruct (lex_opener "if" (s1 ++ as_str t1 ++ 32%N :: s_of "then" ++ 32%N :: s2 ++ as_str t2 ++ 32%N :: s_of "fi") ltac:(cbn; tauto)) as (b1 & y1 & E1 & Hy1).
  rewrite E1.
  destruct (inside_word t2 ["elif"; "else"; "fi"]%string "fi" s2 cs2 (TWhitespace b2 :: y2) (s_of "fi") [] Hb2 H2 Hw2 ltac:(cbn; tauto) eq_refl I Hy2) as (g2 & Eg2 & G2).
  destruct (inside_word t1 ["then"%string] "then" s1 cs1 (TWhitespace b1 :: y1) _ _ Hb1 H1 Hw1 (or_introl eq_refl) E2 eq_refl Hy1) as (g1 & Eg1 & G1).
  rewrite <- Eg1, <- Eg2.
  assert (N1 : commands g1 <> []) by (rewrite Eg1; now apply (may_end_some t1 s1 cs1)).
  assert (N2 : commands g2 <> []) by (rewrite Eg2; now apply (may_end_some t2 s2 cs2)).
  apply script_alone; [reflexivity|discriminate|split; discriminate|discriminate|].
  exact (co_if DB DP _ _ _ _ _ [] [] (keyword_space "if" b1 y1)
    (cd_fi DB DP g1 g2 _ _ _ _ _ G1 N1 (keyword_space "then" b2 y2) G2 N2 (keyword_last "fi")) redirects_end).
Qed.
Theorem oneline_if_else t1 s1 cs1 t2 s2 cs2 t3 s3 cs3 : bar t1 -> may_end t1 s1 cs1 -> without ["then"%string] s1 ->
  bar t2 -> may_end t2 s2 cs2 -> without ["elif"%string; "else"%string; "fi"%string] s2 -> bar t3 -> may_end t3 s3 cs3 -> without ["fi"%string] s3 ->
  accepts (on_one_line [s_of "if"; s1 ++ as_str t1; s_of "then"; s2 ++ as_str t2; s_of "else"; s3 ++ as_str t3; s_of "fi"])
    [alone (CIf [mkGB (ended_by t1 cs1) (ended_by t2 cs2)] (Some (ended_by t3 cs3)))].
Proof.
  intros Hb1 H1 Hw1 Hb2 H2 Hw2 Hb3 H3 Hw3. apply accepts_script. eexists (mkCG [alone _] []). split; [|reflexivity].
  cbn [on_one_line]. rewrite <- !app_assoc.
  destruct (lex_opener "else" (s3 ++ as_str t3 ++ 32%N :: s_of "fi") ltac:(cbn; tauto)) as (b3 & y3 & E3 & Hy3).
  destruct (lex_opener "then" (s2 ++ as_str t2 ++ 32%N :: s_of "else" ++ 32%N :: s3 ++ as_str t3 ++ 32%N :: s_of "fi") ltac:(cbn; tauto)) as (b2 & y2 & E2 & Hy2).
  destruct (lex_opener "if" (s1 ++ as_str t1 ++ 32%N :: s_of "then" ++ 32%N :: s2 ++ as_str t2 ++ 32%N :: s_of "else" ++ 32%N :: s3 ++ as_str t3 ++ 32%N :: s_of "fi") ltac:(cbn; tauto)) as (b1 & y1 & E1 & Hy1).
  rewrite E1.
  destruct (inside_word t3 ["fi"]%string "fi" s3 cs3 (TWhitespace b3 :: y3) (s_of "fi") [] Hb3 H3 Hw3 ltac:(cbn; tauto) eq_refl I Hy3) as (g3 & Eg3 & G3).
  destruct (inside_word t2 ["elif"; "else"; "fi"]%string "else" s2 cs2 (TWhitespace b2 :: y2) _ _ Hb2 H2 Hw2 ltac:(cbn; tauto) E3 eq_refl Hy2) as (g2 & Eg2 & G2).
  destruct (inside_word t1 ["then"%string] "then" s1 cs1 (TWhitespace b1 :: y1) _ _ Hb1 H1 Hw1 (or_introl eq_refl) E2 eq_refl Hy1) as (g1 & Eg1 & G1).
  rewrite <- Eg1, <- Eg2, <- Eg3.
  assert (N1 : commands g1 <> []) by (rewrite Eg1; now apply (may_end_some t1 s1 cs1)).
  assert (N2 : commands g2 <> []) by (rewrite Eg2; now apply (may_end_some t2 s2 cs2)).
  assert (N3 : commands g3 <> []) by (rewrite Eg3; now apply (may_end_some t3 s3 cs3)).
  apply script_alone; [reflexivity|discriminate|split; discriminate|discriminate|].
  exact (co_if DB DP _ _ _ _ _ [] [] (keyword_space "if" b1 y1)
    (cd_else DB DP g1 g2 g3 _ _ _ _ _ _ _ G1 N1 (keyword_space "then" b2 y2) G2 N2 (keyword_space "else" b3 y3) G3 N3 (keyword_last "fi")) redirects_end).
Qed.
(** So the one-line forms read as the forms over many lines ([nest_brace], [nest_subshell], [nest_loop]). *)
Corollary oneline_as_lines s cs : may_end TSemi s cs -> cs <> [] -> without ["}"%string] s -> forall cs',
  accepts (on_one_line [s_of "{"; s ++ as_str TSemi; s_of "}"]) cs' <-> accepts (lines [s_of "{"; s; s_of "}"]) cs'.
Proof.
  intros H Hne Hw cs'. pose proof (oneline_brace TSemi s cs (or_introl eq_refl) H Hw) as A1.
  pose proof (nest_brace s cs (proj1 H) Hne (proj1 (proj2 (proj2 H))) Hw) as A2. cbn [ended_by] in A1.
  assert (D : forall s' c1 c2, accepts s' c1 -> accepts s' c2 -> c1 = c2).
  { intros s' c1 c2 X Y. apply accepts_script in X as (g1 & G1 & <-). apply accepts_script in Y as (g2 & G2 & <-).
    exact (script_unambiguous DB DP tt g1 g2 _ G1 G2). }
  split; intros X; [rewrite (D _ _ _ X A1)|rewrite (D _ _ _ X A2)]; assumption.
Qed.
End Source.

(** ** Examples *)
Section Examples.
#[local] Instance ex_uni : Uni := fun _ => false.
Definition loop1 : str := s_of "a b | c # d
for x in a b; do c 'd'; done".
Lemma without_check ks s : forallb (fun t => forallb (fun k => negb (str_eqb (as_str t) (s_of k))) ks) (lex s) = true -> without ks s.
Proof.
  intros F t k Ht Hk E. rewrite forallb_forall in F. specialize (F t Ht). rewrite forallb_forall in F. specialize (F k Hk).
  rewrite E, str_eqb_refl in F. discriminate.
Qed.
Fixpoint ended_check (s : str) : bool :=
  match s with [] => true | c :: s' => (negb (N.eqb c 35%N) || existsb (N.eqb 10%N) s') && ended_check s' end.
Lemma comments_check s : ended_check s = true -> comments_ended_source s.
Proof.
  induction s as [|c s IH]; intros H a b E; [destruct a; discriminate|]. cbn [ended_check] in H. apply andb_prop in H as [H1 H2].
  destruct a as [|x a]; injection E as -> E.
  - subst s. cbn in H1. apply existsb_exists in H1 as (x & Hx & Ex). apply N.eqb_eq in Ex. now subst.
  - exact (IH H2 a b E).
Qed.
Lemma stands_check s : match rev s with x :: _ => forallb (fun c => negb (N.eqb x c)) [59%N; 38%N; 60%N; 62%N] | [] => true end = true -> stands_alone s [].
Proof.
  intros H. split; [|discriminate]. intros a x -> Hx. rewrite rev_app_distr in H. cbn [rev app] in H.
  rewrite forallb_forall in H. specialize (H x Hx). now rewrite N.eqb_refl in H.
Qed.
Lemma joinable_check s : forallb (fun c => negb (N.eqb c 60%N) && negb (N.eqb c backslash)) s = true -> joinable_source s.
Proof.
  intros F. rewrite forallb_forall in F.
  split; [intros a b E|intros a E]; [assert (I : In 60%N s) by (rewrite E; apply in_or_app; right; now left)|assert (I : In backslash s) by (rewrite E; apply in_or_app; right; now left)];
  specialize (F _ I); vm_compute in F; discriminate.
Qed.
(** The hypotheses hold of a script of a comment, a pipeline and a loop, before either separator; and the
    form on one line of a loop whose body is in the background is what it should be. *)
Example oneline_witness : (exists c d, may_end TSemi loop1 [c; d] /\ may_end TAmp loop1 [c; d]) /\
  without ["}"; "do"; "then"; "elif"; "else"; "fi"]%string (s_of "f g") /\ may_end TSemi (s_of "f g") [cmd_of ["f"; "g"]%string] /\
  accepts (s_of "while f g; do f g& done") [alone (CWhile (mkGB [cmd_of ["f"; "g"]%string] (background [cmd_of ["f"; "g"]%string])))].
Proof.
  assert (M : forall t s cs cs0, accepts s cs -> accepts (s ++ as_str t) cs0 -> forallb (fun c => negb (N.eqb c 60%N) && negb (N.eqb c backslash)) s = true ->
    ended_check s = true -> match rev s with x :: _ => forallb (fun c => negb (N.eqb x c)) [59%N; 38%N; 60%N; 62%N] | [] => true end = true -> may_end t s cs).
  { intros t s cs cs0 H H0 H1 H2 H3. split; [exact H|]. split; [now exists cs0|]. split; [now apply joinable_check|]. split; [now apply comments_check|now apply stands_check]. }
  assert (F1 : may_end TSemi (s_of "f g") [cmd_of ["f"; "g"]%string]).
  { eapply M; [| |vm_compute; reflexivity..]; apply accepts_at; [vm_compute; reflexivity| |vm_compute; reflexivity|];
    (apply (parses_steps 5); [apply enough; vm_compute; reflexivity|]; vm_compute; reflexivity). }
  assert (F2 : may_end TAmp (s_of "f g") [cmd_of ["f"; "g"]%string]).
  { eapply M; [| |vm_compute; reflexivity..]; apply accepts_at; [vm_compute; reflexivity| |vm_compute; reflexivity|];
    (apply (parses_steps 5); [apply enough; vm_compute; reflexivity|]; vm_compute; reflexivity). }
  split; [|split; [apply without_check; vm_compute; reflexivity|split; [exact F1|]]].
  - eexists _, _. split; (eapply M; [| |vm_compute; reflexivity..]; apply accepts_at; [vm_compute; reflexivity| |vm_compute; reflexivity|];
    (apply (parses_steps 5); [apply enough; vm_compute; reflexivity|]; vm_compute; reflexivity)).
  - exact (oneline_loop false TSemi (s_of "f g") _ TAmp (s_of "f g") _ (or_introl eq_refl) F1 ltac:(apply without_check; vm_compute; reflexivity)
      (or_intror eq_refl) F2 ltac:(apply without_check; vm_compute; reflexivity)).
Qed.
(** A comment that is not ended swallows the separator and the parenthesis. *)
Example oneline_needs_comment_end : accepts (s_of "a # b") [cmd_of ["a"]%string] /\ forall cs, ~ accepts (s_of "(" ++ s_of "a # b" ++ s_of ")") cs.
Proof.
  split.
  - apply accepts_at; [vm_compute; reflexivity|]. apply (parses_steps 5); [apply enough; vm_compute; reflexivity|]. vm_compute. reflexivity.
  - intros cs H. specialize (H 100%nat ltac:(apply PeanoNat.Nat.ltb_lt; vm_compute; reflexivity)).
    destruct H as (st & Y & E). inversion Y as [x|x c x1 cs' y E1 Y1]; subst; [vm_compute in E|vm_compute in E1]; discriminate.
Qed.
End Examples.
