(** * C56: semicolons and ampersands separate commands as newlines do

    A script whose last command is not yet ended may be followed by a semicolon or an ampersand and
    another script: the commands are those of the two, the last one before an ampersand being put in
    the background.  So a semicolon between two scripts can be replaced by a newline. *)
From Coq Require Import String.
From Verif Require Import Base Token Lexer LexSpec LexTheorems Ast Builder Prog Iter Located ParserBase Balanced BalancedSpec
  Arith Word Redirect Command DefaultBuilder Entry Total Api Runs Pure Relex ArithSpec HeredocSpec Forms BaseForms CompoundRuns FormsRuns FormsTheorems
  SoundScript Exact ExactMethods Seams Quotes LexJoin Join.
From Verif Require Front.

(** A semicolon or an ampersand. *)
Definition bar (t : token) : Prop := t = TSemi \/ t = TAmp.
Lemma bar_sep t : bar t -> separator t.
Proof. intros [-> | ->]; [apply semi_sep|apply amp_sep]. Qed.

(** ** No command starts with one *)
Section NoCommand.
Variable B : builder.
Variable P : pure B.
Notation C := (b_cmd B).
Lemma skipw_bar t r : bar t -> skipw (t :: r) = t :: r.
Proof. intros [-> | ->]; reflexivity. Qed.
Lemma frags_bar t stop w ws r rest : bar t -> ~ frags B P stop (w :: ws) (t :: r) rest.
Proof.
  intros Hb H. inversion H as [| |? ? ? ? ? ? Hf|]; subst.
  destruct Hb as [-> | ->]; inversion Hf as [? ? Hl|? ? ? Hg| | | |? ? ? He]; subst; try discriminate; try (inversion Hg; fail);
  (inversion He as [|? ? ? Hd]; subst; inversion Hd).
Qed.
Lemma word_form_bar t k r rest : bar t -> ~ word_form B P k (t :: r) rest.
Proof. intros Hb H. inversion H as [? ? ? ? ? Hf]; subst. now apply (frags_bar _ _ _ _ _ _ Hb) in Hf. Qed.
Lemma fd_form_bar fd t op r ts' : bar t -> fd_form fd (t :: r) (op :: ts') -> op = t.
Proof.
  intros Hb H. inversion H as [|d n ts1 F|d n ts1 F]; subst; [congruence| |];
  (destruct d as [|x d]; [|inversion F as [|? ? Hl]; subst]); cbn [app] in *;
  match goal with X : _ = t :: r |- _ => injection X as ? ? end; subst.
  - reflexivity.
  - destruct Hb as [-> | ->]; discriminate Hl.
  - destruct Hb; discriminate.
  - destruct Hb as [-> | ->]; discriminate Hl.
Qed.
Lemma redirect_form_bar t x r rest : bar t -> ~ redirect_form B P x (t :: r) rest.
Proof.
  intros Hb H. inversion H as [fd op ? ? ? ? ? Hf Ho|fd op ? ? ? ? ? ? ? Hf Ho|fd op ? ? ? ? Hf Ho|fd op ? ? ? ? ? Hf Ho|fd op ? ? ? ? ? ? Hf Ho]; subst;
  apply (fd_form_bar _ _ _ _ _ Hb) in Hf; subst op; destruct Hb as [-> | ->]; inversion Ho.
Qed.
Lemma keyword_bar t k r rest : bar t -> ~ keyword k (t :: r) rest.
Proof. intros Hb H. inversion H as [? ? Hk Hd|? ? Hk Hd]; subst; rewrite (skipw_bar _ _ Hb) in Hk; destruct Hb; subst; discriminate. Qed.
Lemma simple_bar t vars args r rest : bar t -> simple B P vars args (t :: r) rest -> vars = [] /\ args = [].
Proof.
  intros Hb H. inversion H as [|? ? ? ? ? ? Hr|? ? ? ? ? ? ? ? E|? ? ? ? ? ? ? E|? ? ? ? ? Hw]; subst; auto; exfalso;
  try rewrite (skipw_bar _ _ Hb) in *.
  - now apply (redirect_form_bar _ _ _ _ Hb) in Hr.
  - destruct Hb; congruence.
  - destruct Hb; congruence.
  - now apply (word_form_bar _ _ _ _ Hb) in Hw.
Qed.
Lemma compound_bar t c r rest : bar t -> ~ compound B P c (t :: r) rest.
Proof.
  intros Hb H. inversion H; subst;
  try (match goal with X : keyword _ (t :: r) _ |- _ => now apply (keyword_bar _ _ _ _ Hb) in X end); destruct Hb; discriminate.
Qed.
Lemma command_form_bar t c r rest : bar t -> ~ command_form B P c (t :: r) rest.
Proof.
  intros Hb H. inversion H; subst;
  try (match goal with X : keyword _ (t :: r) _ |- _ => now apply (keyword_bar _ _ _ _ Hb) in X end); try (destruct Hb; discriminate).
  - match goal with X : simple _ _ _ _ _ _ |- _ => apply (simple_bar _ _ _ _ _ Hb) in X as [-> ->] end. tauto.
  - match goal with X : compound _ _ _ _ _ |- _ => now apply (compound_bar _ _ _ _ Hb) in X end.
  - destruct Hb; congruence.
Qed.
Lemma pipe_form_bar t cs r rest : bar t -> ~ pipe_form B P cs (t :: r) rest.
Proof. intros Hb H. inversion H as [? ? ? Hc|? ? ? ? ? ? ? Hc]; subst; rewrite (skipw_bar _ _ Hb) in Hc; now apply (command_form_bar _ _ _ _ Hb) in Hc. Qed.
Lemma pipeline_form_bar t p r rest : bar t -> ~ pipeline_form B P p (t :: r) rest.
Proof.
  intros Hb H. inversion H as [? ? ? E Hc|? ? ? ? E Hc]; subst; rewrite (skipw_bar _ _ Hb) in *.
  - now apply (pipe_form_bar _ _ _ _ Hb) in Hc.
  - destruct Hb; subst; discriminate.
Qed.
Lemma complete_form_bar t ns c r rest : bar t -> ~ complete_form B P ns c (t :: r) rest.
Proof.
  intros Hb H. inversion H; subst;
  match goal with X : list_form _ _ _ _ _ |- _ => inversion X as [? ? ? ? ? Hp]; subst; now apply (pipeline_form_bar _ _ _ _ Hb) in Hp end.
Qed.
End NoCommand.

(** ** Scripts *)
(** Every comment is ended by a newline. *)
Definition comments_ended (ts : list token) : Prop := forall us vs, ts = us ++ TPound :: vs -> In TNewline vs.
(** What the separator does to the commands before it. *)
Fixpoint background (cs : list tlcmd) : list tlcmd :=
  match cs with
  | [] => []
  | [TLCmd (CList l)] => [TLCmd (CJob l)]
  | c :: cs' => c :: background cs'
  end.
Definition ended_by (t : token) (cs : list tlcmd) : list tlcmd := match t with TAmp => background cs | _ => cs end.
Lemma comments_ended_app us ts : comments_ended (us ++ ts) -> comments_ended ts.
Proof. intros H vs ws ->. apply (H (us ++ vs)). now rewrite <- app_assoc. Qed.
Lemma comments_ended_cons t ts : comments_ended (t :: ts) -> comments_ended ts.
Proof. apply (comments_ended_app [t]). Qed.
Lemma comments_ended_skipw ts : comments_ended ts -> comments_ended (skipw ts).
Proof. intros H. destruct (skipw_decomp ts) as (w & _ & E). rewrite E in H. now apply comments_ended_app in H. Qed.
Notation DB := default_builder.
Notation DP := default_pure.

(** What a token after a script changes in it: nothing. *)
Lemma bar_not_newline t : bar t -> t <> TNewline.
Proof. intros [-> | ->]; discriminate. Qed.
Section More.
Variable t : token.
Hypothesis Hst : separator t.
Hypothesis Hnn : t <> TNewline.
Variable ts2 : list token.
Notation ext := (t :: ts2).
Let sj := skipw_join t Hst ts2.
Let sjc := skipw_join_cons t Hst ts2.
Lemma newline_stop n ts rest : newline_form n ts rest -> joinable ts -> comments_ended ts ->
  joinable rest /\ comments_ended rest /\ newline_form n (ts ++ ext) (rest ++ ext).
Proof.
  intros H Hj Hc. apply comments_ended_skipw in Hc. inversion H as [? ? E|? c ? E Hn|? c E Hn]; subst; rewrite E in Hc.
  - split; [exact (joinable_skipw_cons _ _ _ Hj E)|]. split; [now apply comments_ended_cons in Hc|]. apply nf_newline. now apply sjc.
  - pose proof (joinable_skipw_cons _ _ _ Hj E) as J. apply joinable_app, joinable_cons in J. split; [exact J|].
    split; [now apply comments_ended_cons, comments_ended_app, comments_ended_cons in Hc|].
    apply nf_comment; [|exact Hn]. rewrite (sjc _ _ _ Hj E). now rewrite <- app_assoc.
  - exfalso. apply Hn. now apply (Hc [] c).
Qed.
Lemma no_newline_stop ts : no_newline ts -> no_newline (ts ++ ext).
Proof. destruct ts; [destruct Hst as [X|[-> |[-> | ->]]]; [now elim Hnn|split; discriminate..]|exact (fun H => H)]. Qed.
Lemma newlines_stop ns ts rest : newlines ns ts rest -> joinable ts -> comments_ended ts ->
  joinable rest /\ comments_ended rest /\ newlines ns (ts ++ ext) (rest ++ ext).
Proof.
  induction 1 as [ts Hn|n ts mid ns rest Hn Hns IH]; intros Hj Hc.
  - split; [now apply joinable_skipw|]. split; [now apply comments_ended_skipw|]. rewrite <- sj by exact Hj. constructor. rewrite sj by exact Hj.
    now apply no_newline_stop.
  - destruct (newline_stop _ _ _ Hn Hj Hc) as (J & Hc' & F). destruct (IH J Hc') as (J' & Hc2 & F'). split; [exact J'|]. split; [exact Hc2|]. econstructor; eassumption.
Qed.
Lemma maybe_newline_stop n ts rest : maybe_newline n ts rest -> joinable ts -> comments_ended ts ->
  maybe_newline n (ts ++ ext) (rest ++ ext).
Proof.
  intros H Hj Hc. inversion H as [? ? ? Hn|? Hn]; subst.
  - constructor. now apply newline_stop.
  - rewrite <- sj by exact Hj. constructor. rewrite sj by exact Hj. now apply no_newline_stop.
Qed.
End More.
Lemma newlines_blank ns ts r : newlines ns (skipw ts) r -> newlines ns ts r.
Proof.
  intros H'. inversion H' as [? Hn'|? ? ? ? ? Hf Hns]; subst.
  - rewrite skipw_idem in *. now constructor.
  - econstructor; [|exact Hns]. inversion Hf as [? ? E|? ? ? E|? ? E]; subst; rewrite skipw_idem in E; econstructor; eassumption.
Qed.
Lemma newlines_app ns ns' a b r : newlines ns a b -> newlines ns' b r -> newlines (ns ++ ns') a r.
Proof.
  induction 1 as [ts Hn|n ts mid ns rest Hn Hns IH]; intros H'; [now apply newlines_blank|]. cbn [app]. econstructor; [exact Hn|now apply IH].
Qed.
(** After the separator, a newline at most. *)
Lemma maybe_newline_total ts : exists nl r, maybe_newline nl ts r /\ forall ns r', newlines ns r r' -> exists ns', newlines ns' ts r'.
Proof.
  destruct (newlines_total ts) as (ns & r & H). inversion H as [? Hn|? ? mid ? ? Hf Hns]; subst.
  - exists None, (skipw ts). split; [now constructor|]. intros ns' r' H'. exists ns'. now apply newlines_blank.
  - exists (Some n), mid. split; [now constructor|]. intros ns' r' H'. eexists. econstructor; [exact Hf|exact H'].
Qed.

Section Bar.
Variable t : token.
Hypothesis Hb : bar t.
(** Nothing can be parsed from the separator. *)
Lemma script_bar g r : ~ script DB DP g (t :: r).
Proof.
  assert (N : forall ns mid, newlines ns (t :: r) mid -> mid = t :: r).
  { intros ns mid H. inversion H as [? ?|? ? ? ? ? Hf]; subst; [now apply skipw_bar|].
    inversion Hf as [? ? E|? ? ? E|? ? E]; subst; rewrite (skipw_bar _ _ Hb) in E; destruct Hb; congruence. }
  intros H. inversion H as [? ns ? ? Hn He|? ns c cs' tr ? ts1 ts2 ? Hn He Hc Hr]; subst; apply N in Hn.
  - discriminate.
  - subst. now apply (complete_form_bar _ _ _ _ _ _ _ Hb) in Hc.
Qed.

(** What is left by a command is the end of what was there. *)
Lemma reads_suffix m a ts rest : joinable ts -> reads DB (List.length ts + 3) (ti_new ts) tt m a rest -> exists us, ts = us ++ rest.
Proof.
  intros (J1 & J2 & _) (s' & E & <-).
  apply (Front.calls_take_from_the_front DB m (List.length ts + 3)%nat (ti_new ts) tt (OOk a) s' tt); [apply pr_new|rewrite left_new; lia|exact E|exact I|].
  rewrite left_new. now split.
Qed.
Lemma list_suffix l ts rest : joinable ts -> list_form DB DP l ts rest -> exists us, ts = us ++ rest.
Proof.
  intros Hj H. apply (reads_suffix AAndOrList l); [exact Hj|].
  apply (and_or_list_exact DB DP); [apply pr_new|rewrite left_new; lia|]. rewrite left_new. exact H.
Qed.
Lemma first_suffix c ts rest : joinable ts -> first_command c ts rest -> exists us, ts = us ++ rest.
Proof.
  intros Hj H. apply (reads_suffix ACompleteCommand (Some c)); [exact Hj|].
  apply (complete_command_exact DB DP); [apply pr_new|rewrite left_new; lia|]. rewrite left_new. exact H.
Qed.
Lemma ended_suffix us ts rest : ts = us ++ rest -> comments_ended ts -> comments_ended rest.
Proof. intros ->. apply comments_ended_app. Qed.

Notation newline_bar := (newline_stop t (bar_sep t Hb)).
Notation newlines_bar := (newlines_stop t (bar_sep t Hb) (bar_not_newline t Hb)).
Notation maybe_newline_bar := (maybe_newline_stop t (bar_sep t Hb) (bar_not_newline t Hb)).
(** What a script followed by the separator and another script gives: the commands of both, if the last
    one was not ended yet; otherwise it is rejected. *)
Definition open_end (cs1 : list tlcmd) (ts1 : list token) : Prop := cs1 <> [] /\ forall ts2 cs,
  (exists g, script DB DP g (ts1 ++ t :: ts2) /\ commands g = cs) <->
  (exists g2, script DB DP g2 ts2 /\ cs = ended_by t cs1 ++ commands g2).
Definition closed_end (ts1 : list token) : Prop := forall ts2 g, ~ script DB DP g (ts1 ++ t :: ts2).

Lemma script_first c ts rest cs : first_command c ts rest ->
  (exists g, script DB DP g ts /\ commands g = cs) <-> exists cs', cs = c :: cs' /\ exists g, script DB DP g rest /\ commands g = cs'.
Proof.
  intros F. rewrite script_cases. split.
  - intros [[-> (ns' & X)]|(c' & cs' & r' & g & -> & F' & G & E)].
    + exfalso. destruct F as (ns & mid & N & Hm & _). destruct (newlines_det _ _ _ _ _ X N) as [_ E]. congruence.
    + destruct (first_command_det _ _ _ _ _ F F') as [<- <-]. exists cs'. split; [reflexivity|]. now exists g.
  - intros (cs' & -> & g & G & E). right. now exists c, cs', rest, g.
Qed.
Lemma closed_first c ts1 rest : (forall ts2, first_command c (ts1 ++ t :: ts2) (rest ++ t :: ts2)) -> closed_end rest -> closed_end ts1.
Proof.
  intros F Hc ts2 g H. destruct (proj1 (script_first _ _ _ (commands g) (F ts2)) (ex_intro _ g (conj H eq_refl))) as (cs' & _ & g' & G & _).
  exact (Hc ts2 g' G).
Qed.
Lemma ended_by_cons c cs : cs <> [] -> ended_by t (c :: cs) = c :: ended_by t cs.
Proof.
  intros H. destruct Hb as [-> | ->]; [reflexivity|]. cbn [ended_by]. destruct cs; [congruence|]. destruct c as [[l|l]]; reflexivity.
Qed.
Lemma closed_nil : closed_end [].
Proof. intros ts2 g. apply script_bar. Qed.

Lemma list_bar l ts rest ts2 : list_form DB DP l ts rest -> joinable ts -> joinable rest /\ list_form DB DP l (ts ++ t :: ts2) (rest ++ t :: ts2).
Proof.
  intros H. exact (proj1 (proj2 (proj2 (proj2 (proj2 (proj2 (proj2 (proj2 (proj2 (proj2 (proj2 (proj2 (proj2 (proj2 (proj2
      (proj2 (proj2 (proj2 (proj2 (proj2 (proj2 (proj2 (proj2 (proj2 (forms_join t (bar_sep _ Hb) ts2 DB DP)))))))))))))))))))))))) l ts rest H).
Qed.
(** The last command. *)
Lemma last_cases ns c ts0 ts : newlines ns ts0 ts -> ts <> [] -> complete_form DB DP ns c ts [] -> joinable ts0 -> comments_ended ts0 ->
  (exists l, c = d_complete_command ns l SepOther None /\ list_form DB DP l ts []) \/ closed_end ts0.
Proof.
  intros Hn Hne H Hj0 Hc0. destruct (newlines_bar [] _ _ _ Hn Hj0 Hc0) as (Hj & Hc & _).
  assert (F : forall ts2, newlines ns (ts0 ++ t :: ts2) (ts ++ t :: ts2)). { intros ts2. now apply newlines_bar. }
  assert (N : forall ts2, ts ++ t :: ts2 <> []) by (intros ts2; destruct ts; discriminate).
  inversion H as [? l nl ? mid ? Hl Hm|? l nl ? mid ? Hl Hm|? l nl ? mid ? Hl Hm|? l ? ? Hl]; subst.
  - right. apply (closed_first (d_complete_command ns l SepSemi nl) _ []); [|exact closed_nil].
    intros ts2. destruct (list_bar _ _ _ ts2 Hl Hj) as [J L]. destruct (list_suffix _ _ _ Hj Hl) as (us & E).
    pose proof (ended_suffix _ _ _ E Hc) as C. apply joinable_cons in J. apply comments_ended_cons in C.
    exists ns, (ts ++ t :: ts2). split; [apply F|]. split; [apply N|].
    exact (cp_semi DB DP ns l nl _ _ _ L (maybe_newline_bar ts2 _ _ _ Hm J C)).
  - right. apply (closed_first (d_complete_command ns l SepAmp nl) _ []); [|exact closed_nil].
    intros ts2. destruct (list_bar _ _ _ ts2 Hl Hj) as [J L]. destruct (list_suffix _ _ _ Hj Hl) as (us & E).
    pose proof (ended_suffix _ _ _ E Hc) as C. apply joinable_cons in J. apply comments_ended_cons in C.
    exists ns, (ts ++ t :: ts2). split; [apply F|]. split; [apply N|].
    exact (cp_amp DB DP ns l nl _ _ _ L (maybe_newline_bar ts2 _ _ _ Hm J C)).
  - right. apply (closed_first (d_complete_command ns l SepNewline (Some nl)) _ []); [|exact closed_nil].
    intros ts2. destruct (list_bar _ _ _ ts2 Hl Hj) as [J L]. destruct (list_suffix _ _ _ Hj Hl) as (us & E).
    pose proof (ended_suffix _ _ _ E Hc) as C.
    exists ns, (ts ++ t :: ts2). split; [apply F|]. split; [apply N|].
    exact (cp_newline DB DP ns l nl _ _ _ L (proj2 (proj2 (newline_bar ts2 _ _ _ Hm J C)))).
  - left. exists l. split; [reflexivity|exact Hl].
Qed.
Lemma last_bar ns c ts0 ts : newlines ns ts0 ts -> ts <> [] -> complete_form DB DP ns c ts [] -> joinable ts0 -> comments_ended ts0 ->
  open_end [c] ts0 \/ closed_end ts0.
Proof.
  intros Hn Hne H Hj0 Hc0. destruct (newlines_bar [] _ _ _ Hn Hj0 Hc0) as (Hj & Hc & _).
  assert (F : forall ts2, newlines ns (ts0 ++ t :: ts2) (ts ++ t :: ts2)). { intros ts2. now apply newlines_bar. }
  assert (N : forall ts2, ts ++ t :: ts2 <> []) by (intros ts2; destruct ts; discriminate).
  destruct (last_cases _ _ _ _ Hn Hne H Hj0 Hc0) as [(l & -> & Hl)|Cl]; [|now right].
  - left. split; [discriminate|]. intros ts2 cs. destruct (list_bar _ _ _ ts2 Hl Hj) as [J L]. cbn [app] in L.
    destruct (maybe_newline_total ts2) as (nl & r & Hm & Ht).
    assert (FC : first_command (TLCmd (match t with TAmp => CJob l | _ => CList l end)) (ts0 ++ t :: ts2) r).
    { exists ns, (ts ++ t :: ts2). split; [apply F|]. split; [apply N|]. destruct Hb as [-> | ->].
      - exact (cp_semi DB DP ns l nl _ _ _ L Hm).
      - exact (cp_amp DB DP ns l nl _ _ _ L Hm). }
    rewrite (script_first _ _ _ cs FC).
    assert (E : ended_by t [pu_complete_command DP ns l SepOther None] = [TLCmd (match t with TAmp => CJob l | _ => CList l end)]).
    { destruct Hb as [-> | ->]; reflexivity. }
    change (d_complete_command ns l SepOther None) with (pu_complete_command DP ns l SepOther None). rewrite E. split.
    + intros (cs' & -> & X). apply (script_after_newlines cs' r ts2 Ht) in X. destruct X as (g & G & <-). exists g. auto.
    + intros (g & G & ->). exists (commands g). split; [reflexivity|]. apply (script_after_newlines (commands g) r ts2 Ht). eauto.
Qed.
Lemma group_bar cfg g1 ts1 rest : group DB DP cfg g1 ts1 rest -> cfg = no_delims -> rest = [] -> joinable ts1 -> comments_ended ts1 ->
  open_end (commands g1) ts1 \/ closed_end ts1.
Proof.
  induction 1 as [cfg ns ts rest Hn He|cfg ns c cs1 tr ts t1 t2 rest Hn He Hc Hg IH]; intros -> -> Hj He1.
  - right. intros ts2 g Hs. destruct (newlines_bar ts2 _ _ _ Hn Hj He1) as (_ & _ & N). cbn [app] in N.
    destruct (proj1 (script_after_newlines (commands g) (t :: ts2) (ts ++ t :: ts2)
      (fun ns' r H => ex_intro _ (ns ++ ns') (newlines_app _ _ _ _ _ N H))) (ex_intro _ g (conj Hs eq_refl))) as (g' & G & _).
    exact (script_bar _ _ G).
  - destruct (newlines_bar [] _ _ _ Hn Hj He1) as (J1 & C1 & _).
    assert (N1 : t1 <> []). { intros ->. now apply complete_form_nil in Hc. }
    assert (D : t2 = [] \/ t2 <> []) by (destruct t2; [now left|right; discriminate]). destruct D as [-> |N2].
    + assert (cs1 = []) as ->.
      { inversion Hg as [|? ? ? ? ? ? ? ? ? X Y]; subst; [reflexivity|]. apply newlines_nil in X. subst. exfalso. apply Y. now left. }
      exact (last_bar _ _ _ _ Hn N1 Hc Hj He1).
    + assert (F : first_command c ts t2) by (now exists ns, t1).
      destruct (first_suffix _ _ _ Hj F) as (us & E). pose proof (ended_suffix _ _ _ E He1) as C2.
      assert (J2 : joinable t2). { rewrite E in Hj. now apply joinable_app in Hj. }
      assert (F' : forall ts2, first_command c (ts ++ t :: ts2) (t2 ++ t :: ts2)).
      { intros ts2. exists ns, (t1 ++ t :: ts2). split; [now apply newlines_bar|]. split; [destruct t1; discriminate|].
        destruct (forms_join t (bar_sep _ Hb) ts2 DB DP) as (_ & _ & _ & _ & _ & _ & _ & _ & _ & _ & _ & _ & _ & _ & _ & _ & _ & _ & _ & _ & _ & _ & _ & _ & FC & _).
        exact (proj2 (FC _ _ _ _ Hc J1 N2)). }
      destruct (IH eq_refl eq_refl J2 C2) as [[O1 O2]|Cl].
      * left. split; [discriminate|]. intros ts2 cs. rewrite (script_first _ _ _ cs (F' ts2)). cbn [commands] in *.
        change (@cons (b_cmd DB) c cs1) with (@cons tlcmd c cs1). rewrite (ended_by_cons c cs1 O1). split.
        -- intros (cs' & -> & X). apply O2 in X as (g2 & G & ->). exists g2. auto.
        -- intros (g2 & G & ->). exists (ended_by t cs1 ++ commands g2). split; [reflexivity|]. apply O2. eauto.
      * right. exact (closed_first c _ _ F' Cl).
Qed.
End Bar.

(** C56: if [ts1] is a script whose last command is not ended (so that a separator may follow), then
    [ts1], the separator and [ts2] parse exactly if [ts2] does, and give the commands of [ts1], the last one
    in the background if the separator is an ampersand, and those of [ts2]. *)
Theorem separator_join fuel t ts1 ts2 cs1 cs0 cs : bar t -> (List.length (ts1 ++ t :: ts2) + 2 < fuel)%nat ->
  joinable ts1 -> comments_ended ts1 -> parses_to DB fuel ts1 tt cs1 -> parses_to DB fuel (ts1 ++ [t]) tt cs0 ->
  parses_to DB fuel (ts1 ++ t :: ts2) tt cs <-> exists cs2, parses_to DB fuel ts2 tt cs2 /\ cs = ended_by t cs1 ++ cs2.
Proof.
  intros Hb Hf Hj Hc H1 H0. pose proof Hf as Hf'. rewrite app_length in Hf'. cbn [List.length] in Hf'.
  apply (script_exact DB DP) in H1 as (g1 & G1 & <-); [|lia].
  apply (script_exact DB DP) in H0 as (g0 & G0 & _); [|rewrite app_length; cbn [List.length]; lia].
  rewrite (script_exact DB DP) by exact Hf.
  destruct (group_bar t Hb _ _ _ _ G1 eq_refl eq_refl Hj Hc) as [[_ O]|Cl]; [|now apply Cl in G0].
  rewrite O. split.
  - intros (g2 & G2 & ->). exists (commands g2). split; [|reflexivity]. apply (script_exact DB DP); [lia|]. eauto.
  - intros (cs2 & H2 & ->). apply (script_exact DB DP) in H2 as (g2 & G2 & <-); [|lia]. eauto.
Qed.
(** Either the last command is not ended, or no script has the separator there. *)
Theorem separator_splits fuel t ts1 ts2 cs1 cs : bar t -> (List.length (ts1 ++ t :: ts2) + 2 < fuel)%nat ->
  joinable ts1 -> comments_ended ts1 -> parses_to DB fuel ts1 tt cs1 -> parses_to DB fuel (ts1 ++ t :: ts2) tt cs ->
  exists cs2, parses_to DB fuel ts2 tt cs2 /\ cs = ended_by t cs1 ++ cs2.
Proof.
  intros Hb Hf Hj Hc H1 H. pose proof Hf as Hf'. rewrite app_length in Hf'. cbn [List.length] in Hf'.
  apply (script_exact DB DP) in H1 as (g1 & G1 & <-); [|lia].
  apply (script_exact DB DP) in H as (g & G & <-); [|exact Hf].
  destruct (group_bar t Hb _ _ _ _ G1 eq_refl eq_refl Hj Hc) as [[_ O]|Cl]; [|now apply Cl in G].
  destruct (proj1 (O ts2 (commands g)) (ex_intro _ g (conj G eq_refl))) as (g2 & G2 & E).
  exists (commands g2). split; [|exact E]. apply (script_exact DB DP); [lia|]. eauto.
Qed.
(** So a semicolon between two scripts can be replaced by a newline. *)
Corollary semicolon_is_newline fuel ts1 ts2 cs1 cs : (List.length (ts1 ++ TSemi :: ts2) + 2 < fuel)%nat ->
  joinable ts1 -> comments_ended ts1 -> parses_to DB fuel ts1 tt cs1 ->
  parses_to DB fuel (ts1 ++ TSemi :: ts2) tt cs -> parses_to DB fuel (ts1 ++ TNewline :: ts2) tt cs.
Proof.
  intros Hf Hj Hc H1 H. destruct (separator_splits fuel TSemi ts1 ts2 cs1 cs (or_introl eq_refl) Hf Hj Hc H1 H) as (cs2 & H2 & ->).
  apply (script_join fuel ts1 ts2 cs1); [|exact Hj|exact H1|now exists cs2]. rewrite app_length in *. cbn [List.length] in *. lia.
Qed.
(** And so can an ampersand, but for the last command before it being put in the background. *)
Corollary ampersand_is_newline fuel ts1 ts2 cs1 cs : (List.length (ts1 ++ TAmp :: ts2) + 2 < fuel)%nat ->
  joinable ts1 -> comments_ended ts1 -> parses_to DB fuel ts1 tt cs1 ->
  parses_to DB fuel (ts1 ++ TAmp :: ts2) tt cs -> exists cs2, parses_to DB fuel (ts1 ++ TNewline :: ts2) tt (cs1 ++ cs2) /\ cs = background cs1 ++ cs2.
Proof.
  intros Hf Hj Hc H1 H. destruct (separator_splits fuel TAmp ts1 ts2 cs1 cs (or_intror eq_refl) Hf Hj Hc H1 H) as (cs2 & H2 & ->).
  exists cs2. split; [|reflexivity].
  apply (script_join fuel ts1 ts2 cs1); [|exact Hj|exact H1|now exists cs2]. rewrite app_length in *. cbn [List.length] in *. lia.
Qed.

(** ** Sources *)
Section Source.
Context {U : Uni}.
(** The characters around the separator do not join it to form another operator. *)
Definition stands_alone (s1 s2 : str) : Prop :=
  (forall a x, s1 = a ++ [x] -> ~ In x [59%N; 38%N; 60%N; 62%N]) /\ (forall y b, s2 = y :: b -> ~ In y [59%N; 38%N]).
Lemma stands_alone_app s s1 s2 : stands_alone (s ++ s1) s2 -> stands_alone s1 s2.
Proof. intros [H1 H2]. split; [|exact H2]. intros a x ->. apply (H1 (s ++ a)). now rewrite app_assoc. Qed.
Lemma bar_operator t t' a b : bar t -> operator t' -> as_str t' = a ++ as_str t ++ b ->
  (a = [] /\ (b = [] \/ b = as_str t)) \/ (exists x, a = [x] /\ In x [59%N; 38%N; 60%N; 62%N] /\ b = []).
Proof.
  intros Hb Ho E. destruct a as [|x [|y a]].
  - left. split; [reflexivity|]. destruct Hb as [-> | ->]; destruct t'; try destruct Ho; cbn in E; try discriminate E; try (destruct p; discriminate E); injection E as <-; auto.
  - right. exists x. split; [reflexivity|]. destruct Hb as [-> | ->]; destruct t'; try destruct Ho; cbn in E; try discriminate E; try (destruct p; discriminate E); injection E as <- <-; cbn; auto 10.
  - exfalso. apply (f_equal (fun l => skipn 2 l)) in E. cbn [app skipn] in E.
    destruct Hb as [-> | ->]; destruct t'; try destruct Ho; try (destruct p); cbn in E; destruct a as [|? [|]]; discriminate E.
Qed.
Lemma bar_text t : bar t -> exists c, as_str t = [c] /\ ~ LexSpec.blank c /\ ~ ordinary c /\ operator t.
Proof.
  intros Hb. destruct Hb as [-> | ->]; cbn; eexists; (split; [reflexivity|]); (split; [intros [H _]; discriminate H|]); (split; [|exact I]).
  - intros (_ & _ & H). exact (H TSemi [] I eq_refl).
  - intros (_ & _ & H). exact (H TAmp [] I eq_refl).
Qed.
Lemma stops_bar (Q : char -> Prop) c s s2 : ~ Q c -> stops Q s -> stops Q (s ++ c :: s2).
Proof. intros Hq Hs d s' E. destruct s as [|x s]; cbn in E; injection E as <- _; [exact Hq|now apply (Hs x s)]. Qed.
Lemma Lexes_bar t s2 ts2 : bar t -> stands_alone [] s2 -> Lexes s2 ts2 -> Lexes (as_str t ++ s2) (t :: ts2).
Proof.
  intros Hb Hs H. destruct (bar_text t Hb) as (c & Ec & _ & _ & Ho). apply (Lex_operator t s2 ts2 Ho); [|exact H]. intros t' s' Ho' E.
  destruct (Compare_dec.le_lt_dec (List.length (as_str t')) (List.length (as_str t))) as [L|L]; [exact L|exfalso].
  destruct (app_eq_app _ _ _ _ E) as (x & [[E1 E2]|[E1 E2]]).
  - rewrite E1, app_length in L. lia.
  - rewrite E1, app_length in L. destruct (bar_operator t t' [] x Hb Ho' E1) as [(_ & [-> | ->])|(y & D & _)]; [cbn in L; lia| |discriminate].
    apply (proj2 Hs c s'); [now rewrite E2, Ec|]. destruct Hb as [-> | ->]; injection Ec as <-; cbn; auto.
Qed.
Lemma Lexes_join_bar t s1 ts1 s2 ts2 : bar t -> (forall a, s1 <> a ++ [backslash]) -> stands_alone s1 s2 -> Lexes s1 ts1 -> Lexes s2 ts2 ->
  Lexes (s1 ++ as_str t ++ s2) (ts1 ++ t :: ts2).
Proof.
  intros Hb Hbs Hsa H H2. destruct (bar_text t Hb) as (k & Ek & Kb & Ko & Kop).
  induction H as [|u s ts Ho Hm H IH|b s ts Hbl Hf Hs H IH|c w s ts Hc Hf Hs H IH|c w s ts Hc Hn Hf Hs H IH| |c u s ts Hc _ H IH];
  cbn [app]; rewrite <- ?app_assoc.
  - now apply Lexes_bar.
  - pose proof (stands_alone_app _ _ _ Hsa) as Hsa'. assert (Hbs' : forall a, s <> a ++ [backslash]) by (intros a ->; apply (Hbs (as_str u ++ a)); now rewrite app_assoc).
    specialize (IH Hbs' Hsa'). apply Lex_operator; [exact Ho| |exact IH]. intros t' s' Ho' E.
    destruct (Compare_dec.le_lt_dec (List.length (as_str t')) (List.length (as_str u))) as [L|L]; [exact L|exfalso].
    destruct (app_eq_app _ _ _ _ E) as (x & [[E1 E2]|[E1 E2]]).
    + rewrite E1, app_length in L. lia.
    + destruct (app_eq_app _ _ _ _ E2) as (y & [[E3 E4]|[E3 E4]]).
      * specialize (Hm t' y Ho'). rewrite E3, E1, <- app_assoc in Hm. specialize (Hm eq_refl). rewrite E1 in L. lia.
      * destruct y as [|z y]; [rewrite app_nil_r in E3; subst x; specialize (Hm t' [] Ho'); rewrite E1, app_nil_r in Hm; specialize (Hm eq_refl); rewrite E1 in L; lia|].
        assert (E5 : exists y', as_str t' = (as_str u ++ s) ++ as_str t ++ y').
        { exists y. rewrite Ek in E4 |- *. cbn in E4. injection E4 as <- _. rewrite E1, E3. now rewrite <- app_assoc. }
        destruct E5 as (y' & E5). destruct (bar_operator t t' _ y' Hb Ho' E5) as [[D _]|(z' & D & Hi & _)].
        -- apply app_eq_nil in D as [D _]. destruct (operator_nonempty u Ho) as (? & ? & E6). congruence.
        -- apply (proj1 Hsa [] z'); [exact D|exact Hi].
  - pose proof (stands_alone_app _ _ _ Hsa) as Hsa'. assert (Hbs' : forall a, s <> a ++ [backslash]) by (intros a ->; apply (Hbs (b ++ a)); now rewrite app_assoc).
    apply Lex_blanks; auto. rewrite Ek. apply stops_bar; [exact Kb|exact Hs].
  - change (c :: w ++ s) with ((c :: w) ++ s) in *. pose proof (stands_alone_app _ _ _ Hsa) as Hsa'. assert (Hbs' : forall a, s <> a ++ [backslash]) by (intros a ->; apply (Hbs ((c :: w) ++ a)); now rewrite app_assoc).
    apply Lex_name; auto. rewrite Ek. apply stops_bar; [|exact Hs]. intros [X _]. now apply Ko.
  - change (c :: w ++ s) with ((c :: w) ++ s) in *. pose proof (stands_alone_app _ _ _ Hsa) as Hsa'. assert (Hbs' : forall a, s <> a ++ [backslash]) by (intros a ->; apply (Hbs ((c :: w) ++ a)); now rewrite app_assoc).
    apply Lex_literal; auto. rewrite Ek. apply stops_bar; [exact Ko|exact Hs].
  - exfalso. now apply (Hbs []).
  - change (backslash :: c :: s) with ([backslash; c] ++ s) in *.
    assert (Hsa' := stands_alone_app _ _ _ Hsa). assert (Hbs' : forall a, s <> a ++ [backslash]) by (intros a ->; apply (Hbs ([backslash; c] ++ a)); now rewrite app_assoc).
    apply Lex_backslash; auto.
Qed.
(** Every [#] of the source is followed, somewhere, by a newline. *)
Definition comments_ended_source (s : str) : Prop := forall a b, s = a ++ 35%N :: b -> In 10%N b.
Lemma newline_lexable v : lexable v -> In 10%N (as_str v) -> v = TNewline.
Proof.
  assert (NB : ~ LexSpec.blank 10%N) by (intros [_ H]; now apply H).
  assert (NO : ~ ordinary 10%N) by (intros (H & _); discriminate H).
  intros Hl Hi. destruct v; try reflexivity; try (exfalso; cbn in Hi; repeat (destruct Hi as [Hi|Hi]; [discriminate Hi|]); exact Hi); exfalso; cbn [as_str] in Hi.
  - destruct p; cbn in Hi; repeat (destruct Hi as [Hi|Hi]; [discriminate Hi|]); exact Hi.
  - destruct Hl as [_ Hl]. rewrite Forall_forall in Hl. exact (NB (Hl _ Hi)).
  - destruct s as [|c w]; [exact Hl|]. destruct Hl as (H1 & _ & H2). destruct Hi as [-> |Hi]; [exact (NO H1)|].
    rewrite Forall_forall in H2. exact (NO (H2 _ Hi)).
  - destruct s as [|c w]; [exact Hl|]. destruct Hl as ([H1 _] & H2). destruct Hi as [-> |Hi]; [exact (NO H1)|].
    rewrite Forall_forall in H2. exact (NO (proj1 (H2 _ Hi))).
Qed.
Lemma comments_ended_lex s : comments_ended_source s -> comments_ended (lex s).
Proof.
  intros H us vs E. pose proof (lex_lossless s) as L. rewrite E, concat_tokens_app in L.
  specialize (H (concat_tokens us) (concat_tokens vs) (eq_sym L)).
  assert (HL : Forall lexable vs).
  { apply Forall_forall. intros x Hx. apply (lex_lexable s). rewrite E. apply in_or_app. right. now right. }
  clear - H HL. induction vs as [|v vs IH]; [destruct H|]. inversion HL as [|? ? Hl HL']; subst.
  change (concat_tokens (v :: vs)) with (as_str v ++ concat_tokens vs) in H. apply in_app_or in H as [H|H]; [left|right; now apply IH].
  now apply newline_lexable.
Qed.
(** C56 for source text. *)
Theorem separator_join_source fuel t (s1 s2 : str) cs1 cs0 cs : bar t -> (List.length (s1 ++ as_str t ++ s2) + 2 < fuel)%nat ->
  joinable_source s1 -> comments_ended_source s1 -> stands_alone s1 s2 ->
  parses_to DB fuel (lex s1) tt cs1 -> parses_to DB fuel (lex (s1 ++ as_str t)) tt cs0 ->
  parses_to DB fuel (lex (s1 ++ as_str t ++ s2)) tt cs <-> exists cs2, parses_to DB fuel (lex s2) tt cs2 /\ cs = ended_by t cs1 ++ cs2.
Proof.
  intros Hb Hf Hj Hc Ha H1 H0.
  assert (E : forall s, stands_alone s1 s -> lex (s1 ++ as_str t ++ s) = lex s1 ++ t :: lex s).
  { intros s Hs. apply lex_maximal_munch. apply Lexes_join_bar; [exact Hb|exact (proj2 Hj)|exact Hs|apply lex_Lexes|apply lex_Lexes]. }
  assert (Ha0 : stands_alone s1 []) by (split; [exact (proj1 Ha)|discriminate]).
  pose proof (E [] Ha0) as E0. rewrite app_nil_r in E0. rewrite E0 in H0. rewrite (E s2 Ha).
  eapply separator_join; [exact Hb| |now apply joinable_source_lex|now apply comments_ended_lex|exact H1|exact H0].
  rewrite app_length in *. cbn [List.length]. pose proof (lex_length s1). pose proof (lex_length s2).
  destruct (bar_text t Hb) as (c & Ec & _). rewrite Ec in Hf. cbn [app List.length] in Hf. lia.
Qed.
Theorem semicolon_is_newline_source fuel (s1 s2 : str) cs1 cs : (List.length (s1 ++ 59%N :: s2) + 2 < fuel)%nat ->
  joinable_source s1 -> comments_ended_source s1 -> stands_alone s1 s2 -> parses_to DB fuel (lex s1) tt cs1 ->
  parses_to DB fuel (lex (s1 ++ 59%N :: s2)) tt cs -> parses_to DB fuel (lex (s1 ++ 10%N :: s2)) tt cs.
Proof.
  intros Hf Hj Hc Ha H1 H. pose proof (joinable_source_lex _ Hj) as Hj'. pose proof (comments_ended_lex _ Hc) as Hc'.
  change (s1 ++ 59%N :: s2) with (s1 ++ as_str TSemi ++ s2) in H.
  rewrite (proj2 (lex_maximal_munch _ _) (Lexes_join_bar TSemi s1 _ s2 _ (or_introl eq_refl) (proj2 Hj) Ha (lex_Lexes s1) (lex_Lexes s2))) in H.
  rewrite (proj2 (lex_maximal_munch _ _) (Lexes_join _ _ _ _ (lex_Lexes s1) (lex_Lexes s2))).
  apply (semicolon_is_newline fuel (lex s1) (lex s2) cs1 cs); auto.
  rewrite app_length in *. cbn [List.length] in *. pose proof (lex_length s1). pose proof (lex_length s2). lia.
Qed.
End Source.

(** ** Cases that meet the hypotheses *)
Section Witness.
#[local] Instance some_uni : Uni := fun _ => false.
Definition one : str := s_of "for x in a b; do c 'd'; done".
Definition two : str := s_of "f g & h".
Lemma enough (ts : list token) : (Nat.ltb (List.length ts + 2) 100 = true) -> (List.length ts + 2 < 100)%nat.
Proof. apply PeanoNat.Nat.ltb_lt. Qed.
Ltac parses := apply (parses_steps 5); [apply enough; vm_compute; reflexivity|vm_compute; reflexivity].
Lemma one_fine : joinable_source one /\ comments_ended_source one /\ stands_alone one two.
Proof.
  assert (A : forall c, In c [60%N; 35%N; backslash] -> ~ In c one).
  { intros c [<-|[<-|[<-|[]]]] H; vm_compute in H; repeat (destruct H as [H|H]; [discriminate|]); exact H. }
  split; [split|split; [|split]].
  - intros a b E. apply (A 60%N); [now left|]. rewrite E. apply in_or_app; right; now left.
  - intros a E. apply (A backslash); [right; right; now left|]. rewrite E. apply in_or_app; right; now left.
  - intros a b E. exfalso. apply (A 35%N); [right; now left|]. rewrite E. apply in_or_app; right; now left.
  - intros a x E H. apply (f_equal (@rev N)) in E. rewrite rev_app_distr in E. vm_compute in E. injection E as <- _.
    cbn in H. intuition discriminate.
  - intros y b E H. vm_compute in E. injection E as <- _. cbn in H. intuition discriminate.
Qed.
(** A loop, a separator, and two more commands: three commands, the loop in the background after [&]. *)
Example separator_witness :
  (exists c, parses_to DB 100 (lex one) tt [TLCmd (CList c)] /\
    (exists cs, parses_to DB 100 (lex (one ++ s_of ";" ++ two)) tt (TLCmd (CList c) :: cs) /\ List.length cs = 2%nat) /\
    (exists cs, parses_to DB 100 (lex (one ++ s_of "&" ++ two)) tt (TLCmd (CJob c) :: cs) /\ List.length cs = 2%nat)) /\
  (exists c0, parses_to DB 100 (lex (one ++ as_str TSemi)) tt c0) /\ (exists c0, parses_to DB 100 (lex (one ++ as_str TAmp)) tt c0).
Proof.
  split; [|split].
  - eexists. split; [parses|]. split.
    + eexists. split; [parses|reflexivity].
    + eexists. split; [parses|reflexivity].
  - eexists. parses.
  - eexists. parses.
Qed.
(** A comment that is not ended takes the separator and the second script. *)
Example separator_needs_comment_end : exists c,
  parses_to DB 100 (lex (s_of "a # b")) tt [c] /\ parses_to DB 100 (lex (s_of "a # b" ++ s_of ";" ++ two)) tt [c].
Proof. eexists. split; parses. Qed.
End Witness.
