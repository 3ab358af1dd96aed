(** * C59: scripts nest in [for] and [case]

    A script can be the body of a [for] command, and of an arm of a [case] command, and is read there as
    it is on its own. *)
From Coq Require Import String.
From Verif Require Import Base Token Pos Lexer LexSpec LexTheorems Ast Builder Prog Iter Located IterProofs RunLemmas ParserBase Balanced BalancedSpec
  BalancedProofs BalancedTotal Wp Arith Word WpWord Redirect Command DefaultBuilder Entry EntryWp Total Api Runs Pure Relex ArithSpec HeredocSpec Forms BaseForms CompoundRuns FormsRuns FormsTheorems
  SoundScript Exact ExactMethods Seams Quotes LexJoin Join Display Nest.
From Verif Require Printer.

Section Source.
Context {U : Uni}.
(** A word of one name. *)
Definition name_word (w : str) : tlword := TLWord (WSingle (WSimple (WLiteral w))).
(** Names, each after a space. *)
Definition spaced (ws : list str) : str := concat (map (cons 32%N) ws).
(** An arm: the pattern, the script and its commands. *)
Definition arm : Type := (str * str * list tlcmd)%type.
Definition arm_lines (a : arm) : list str := let '(p, s, _) := a in [p ++ s_of ")"; s; s_of ";;"].
Definition arm_body_of (a : arm) : pattern_body tlword tlcmd := let '(p, _, cs) := a in mkPB [name_word p] cs.
Definition good_arm (a : arm) : Prop := let '(p, s, cs) := a in
  Printer.identifier p /\ p <> s_of "esac" /\ accepts s cs /\ joinable_source s /\ without ["esac"; ";;"]%string s.

(** ** Tokens of the source *)
Definition spaced_tokens (ws : list str) : list token := concat (map (fun w => [TWhitespace [32%N]; TName w]) ws).
(** What follows a name ends it. *)
Definition ends_name (r : str) : Prop := r = [] \/ exists c r', r = c :: r' /\ (c = 32%N \/ c = 10%N).
Lemma lex_identifier w r : Printer.identifier w -> ends_name r -> lex (w ++ r) = TName w :: lex r.
Proof.
  intros Hw Hr. assert (Z : apart (TName w) r = true) by (destruct Hr as [-> |(c & r' & -> & [-> | ->])]; reflexivity).
  exact (lexes_token (TName w) Hw ltac:(discriminate) r Z).
Qed.
Lemma lex_spaced w r : Printer.identifier w -> ends_name r -> lex (32%N :: w ++ r) = TWhitespace [32%N] :: TName w :: lex r.
Proof.
  intros Hw Hr. rewrite <- (lex_identifier w r Hw Hr). apply lex_maximal_munch.
  apply (Lex_blanks [32%N] (w ++ r)); [discriminate| |intros c s' E|apply lex_Lexes].
  - constructor; [split; [reflexivity|discriminate]|constructor].
  - destruct w as [|a w]; [destruct Hw|]. injection E as -> _. destruct Hw as [[[Hs _] _] _]. intros [Hb _]. congruence.
Qed.
Lemma spaced_ends ws r : ends_name r -> ends_name (spaced ws ++ r).
Proof. destruct ws as [|w ws]; [auto|]. intros _. right. cbn. eauto. Qed.
Lemma lex_spaced_all ws r : Forall Printer.identifier ws -> ends_name r -> lex (spaced ws ++ r) = spaced_tokens ws ++ lex r.
Proof.
  intros H Hr. induction H as [|w ws Hw H IH]; [reflexivity|].
  change (spaced (w :: ws) ++ r) with (32%N :: (w ++ spaced ws) ++ r). rewrite <- app_assoc.
  rewrite lex_spaced by (exact Hw || now apply spaced_ends). rewrite IH. reflexivity.
Qed.
Lemma known k : lex (s_of k) = [TName (s_of k)] -> Printer.identifier (s_of k).
Proof. intros L. pose proof (lex_lexable (s_of k)) as F. rewrite L in F. first [now inversion F|apply F; now left]. Qed.
Lemma lines_cons a l : l <> [] -> lines (a :: l) = a ++ 10%N :: lines l.
Proof. destruct l; [congruence|reflexivity]. Qed.
Lemma name_form w rest : delimited rest -> word_form DB DP (KSingle (KSimple (KLiteral w))) (TName w :: rest) rest.
Proof.
  intros Hd. apply (wf_word DB DP (KSimple (KLiteral w)) []); [|discriminate|reflexivity].
  eapply fs_frag; [apply (fr_literal DB DP (TName w)); reflexivity|intros X; contradiction|apply fs_end; now left].
Qed.
Lemma names_form ws r : for_words_form DB DP (map name_word ws) (spaced_tokens ws ++ TNewline :: r) (TNewline :: r).
Proof.
  induction ws as [|w ws IH]; cbn [map spaced_tokens concat app].
  - apply fw_end. apply (nw_delimited (TNewline :: r)). reflexivity.
  - eapply (fw_word DB DP (KSingle (KSimple (KLiteral w)))); [cbn [skipw]; apply name_form|exact IH]. destruct ws; reflexivity.
Qed.

(** ** The theorems *)
(** C59: [for] v, [do] script [done], and the same over a list of words. *)
Theorem nest_for v s cs : Printer.identifier v -> accepts s cs -> cs <> [] -> joinable_source s -> without ["done"%string] s ->
  accepts (lines [s_of "for " ++ v; s_of "do"; s; s_of "done"]) [alone (CFor v None cs)] /\
  forall ws, Forall Printer.identifier ws ->
    accepts (lines [s_of "for " ++ v ++ s_of " in" ++ spaced ws; s_of "do"; s; s_of "done"]) [alone (CFor v (Some (map name_word ws)) cs)].
Proof.
  intros Hv H Hne Hj Hw. assert (E0 : ends_name []) by now left.
  assert (Kf : Printer.identifier (s_of "for")) by (apply known; reflexivity).
  assert (Ki : Printer.identifier (s_of "in")) by (apply known; reflexivity).
  assert (Sp : forall x, ends_name (32%N :: x)) by (intros x; right; eauto).
  split; [|intros ws Hws]; apply accepts_script; eexists (mkCG [alone _] []); (split; [|reflexivity]); cbn [lines]; rewrite !lex_line;
    change (lex (s_of "do")) with [TName (s_of "do")]; change (lex (s_of "done")) with [TName (s_of "done")];
    destruct (nest_do s cs H Hne Hj Hw) as (b & <- & G).
  - assert (L : lex (s_of "for " ++ v) = [TName (s_of "for"); TWhitespace [32%N]; TName v]).
    { change (s_of "for " ++ v) with (s_of "for" ++ 32%N :: v). rewrite lex_identifier by auto.
      replace v with (v ++ []) at 1 by apply app_nil_r. rewrite lex_spaced by auto. reflexivity. }
    rewrite L. cbn [app].
    apply script_alone; [reflexivity|discriminate|split; discriminate|discriminate|].
    refine (co_for DB DP v (Some (Newline None)) None [] b _ _ _ _ _ _ [] [] _ _ _ _ G redirects_end).
    + apply kw_name; reflexivity.
    + reflexivity.
    + apply mn_some, nf_newline. reflexivity.
    + apply (fl_none DB DP [] (TName (s_of "do") :: TNewline :: lex s ++ [TNewline; TName (s_of "done")])); [|intros (k & r & [<-|[]] & X)|discriminate].
      * apply (ns_nil (TName (s_of "do") :: _)). split; discriminate.
      * inversion X; discriminate.
  - assert (L : lex (s_of "for " ++ v ++ s_of " in" ++ spaced ws) =
      TName (s_of "for") :: TWhitespace [32%N] :: TName v :: TWhitespace [32%N] :: TName (s_of "in") :: spaced_tokens ws).
    { change (s_of "for " ++ v ++ s_of " in" ++ spaced ws) with (s_of "for" ++ 32%N :: v ++ 32%N :: s_of "in" ++ spaced ws).
      rewrite <- (app_nil_r (spaced ws)), <- (app_nil_r (spaced_tokens ws)).
      rewrite lex_identifier by auto. rewrite lex_spaced by auto. rewrite lex_spaced by (auto using spaced_ends).
      rewrite lex_spaced_all by auto. reflexivity. }
    rewrite L. cbn [app].
    apply script_alone; [reflexivity|discriminate|split; discriminate|discriminate|].
    set (body := TName (s_of "do") :: TNewline :: lex s ++ [TNewline; TName (s_of "done")]) in *.
    assert (Ds : delimited (spaced_tokens ws ++ TNewline :: body)) by (destruct ws; reflexivity).
    refine (co_for DB DP v None (Some ([], map name_word ws, Some (Newline None))) [] b _
      (TWhitespace [32%N] :: TName v :: TWhitespace [32%N] :: TName (s_of "in") :: spaced_tokens ws ++ TNewline :: body)
      (TWhitespace [32%N] :: TName (s_of "in") :: spaced_tokens ws ++ TNewline :: body)
      (TName (s_of "in") :: spaced_tokens ws ++ TNewline :: body) body [] [] [] _ _ _ _ G redirects_end).
    + apply kw_name; reflexivity.
    + reflexivity.
    + apply (mn_none (TWhitespace [32%N] :: TName (s_of "in") :: _)). split; discriminate.
    + apply (fl_words DB DP [] (map name_word ws) (Some (Newline None)) [] _ (TName (s_of "in") :: spaced_tokens ws ++ TNewline :: body)
        (spaced_tokens ws ++ TNewline :: body) (TNewline :: body) (TNewline :: body) body body).
      * apply (ns_nil (TName (s_of "in") :: _)). split; discriminate.
      * apply kw_name; [reflexivity|exact Ds].
      * apply names_form.
      * right. split; [reflexivity|split; discriminate].
      * apply mn_some, nf_newline. reflexivity.
      * apply (ns_nil body). split; discriminate.
Qed.

(** The arms of a [case] command, up to [esac]. *)
Lemma arms_nest arms : Forall good_arm arms ->
  exists fs : list (case_arm tlword tlcmd),
    map (fun a => mkPB (pattern_alternatives (arm_patterns a)) (commands (arm_body a))) fs = map arm_body_of arms /\
    case_arms DB DP fs [] (lex (lines (concat (map arm_lines arms) ++ [s_of "esac"]))) [TName (s_of "esac")].
Proof.
  induction 1 as [|[[p s] cs] arms (Hp & Hne & H & Hj & Hw) Hall (fs & Efs & Hfs)].
  - exists []. split; [reflexivity|]. cbn [map concat app lines]. change (lex (s_of "esac")) with [TName (s_of "esac")].
    apply ca_end; [apply (ns_nil [TName (s_of "esac")]); split; discriminate|].
    exists (s_of "esac"), []. split; [now left|]. apply kw_name; [reflexivity|exact I].
  - set (next := lines (concat (map arm_lines arms) ++ [s_of "esac"])) in *.
    assert (N : concat (map arm_lines arms) ++ [s_of "esac"] <> []) by (intros X; apply app_eq_nil in X as [_ X]; discriminate).
    assert (L : lex (lines (concat (map arm_lines (@cons arm (p, s, cs) arms)) ++ [s_of "esac"])) =
      TName p :: TParenClose :: TNewline :: lex s ++ TNewline :: TDSemi :: TNewline :: lex next).
    { cbn [map concat arm_lines app]. rewrite (lines_cons (p ++ s_of ")")), (lines_cons s), (lines_cons (s_of ";;")) by (exact N || discriminate). fold next. rewrite !lex_line.
      change (lex (s_of ";;")) with [TDSemi].
      rewrite (lexes_token (TName p) Hp ltac:(discriminate) (as_str TParenClose) eq_refl : lex (p ++ s_of ")") = _). reflexivity. }
    rewrite L. clear L.
    pose proof Hj as J. apply joinable_source_lex in J. apply accepts_script in H as (g & G & <-).
    destruct (nest_clear (mkDelims [] [s_of "esac"] [TDSemi]) (TDSemi :: TNewline :: lex next) g (lex s)) as (tr & G'); auto.
    + right; left. exists TDSemi, (TNewline :: lex next). split; [reflexivity|now left].
    + split; discriminate.
    + intros [X|[]]. discriminate.
    + intros t Ht. split; [|split; [intros []|]].
      * intros [<-|[]]. exact (Hw TDSemi ";;"%string Ht (or_intror (or_introl eq_refl)) eq_refl).
      * cbn. intros x [<-|[]]. split; intros ->; exact (Hw _ "esac"%string Ht (or_introl eq_refl) eq_refl).
    + exists (mkCA (mkCP [] [name_word p] (Some (Newline None))) (mkCG (commands g) tr) (Some (Newline None)) :: fs). split; [cbn; now rewrite Efs|].
      eapply (ca_arm DB DP [] [name_word p] (Some (Newline None)) _ (Some (Newline None)) fs [] _ (TName p :: _)).
      * apply (ns_nil (TName p :: _)). split; discriminate.
      * intros (k & r & [<-|[]] & X). inversion X as [? ? Y|? ? Y]; subst; [injection Y as X1 _; now apply Hne|discriminate].
      * right. split; [discriminate|reflexivity].
      * eapply (pf_last DB DP (KSingle (KSimple (KLiteral p)))); [cbn [skipw]; apply name_form; reflexivity|reflexivity].
      * apply mn_some, nf_newline. reflexivity.
      * exact G'.
      * apply mn_some, nf_newline. reflexivity.
      * exact Hfs.
Qed.
(** C59: [case] w [in], arms of a pattern and a script each, [esac]. *)
Theorem nest_case w arms : Printer.identifier w -> Forall good_arm arms ->
  accepts (lines ((s_of "case " ++ w ++ s_of " in") :: concat (map arm_lines arms) ++ [s_of "esac"]))
    [alone (CCase (name_word w) (map arm_body_of arms))].
Proof.
  intros Hw Ha. destruct (arms_nest arms Ha) as (fs & <- & Hfs). apply accepts_script. eexists (mkCG [alone _] []). split; [|reflexivity].
  assert (N : concat (map arm_lines arms) ++ [s_of "esac"] <> []) by (intros X; apply app_eq_nil in X as [_ X]; discriminate).
  rewrite lines_cons by exact N. rewrite lex_line.
  assert (Kf : Printer.identifier (s_of "case")) by (apply known; reflexivity).
  assert (Ki : Printer.identifier (s_of "in")) by (apply known; reflexivity).
  assert (Sp : forall x, ends_name (32%N :: x)) by (intros x; right; eauto).
  assert (E0 : ends_name []) by now left.
  change (s_of "case " ++ w ++ s_of " in") with (s_of "case" ++ 32%N :: w ++ 32%N :: s_of "in" ++ []).
  rewrite lex_identifier, !lex_spaced by auto. change (lex []) with (@nil token). cbn [app].
  apply script_alone; [reflexivity|discriminate|split; discriminate|discriminate|].
  refine (co_case DB DP (KSingle (KSimple (KLiteral w))) [] (Some (Newline None)) fs [] _ _ _ _ _ _ [TName (s_of "esac")] [] [] [] _ _ _ _ _ Hfs (keyword_last "esac") redirects_end).
  - apply kw_name; reflexivity.
  - cbn [skipw]. apply name_form. reflexivity.
  - apply (ns_nil (TWhitespace [32%N] :: TName (s_of "in") :: _)). split; discriminate.
  - cbn [skipw]. apply kw_name; reflexivity.
  - apply mn_some, nf_newline. reflexivity.
Qed.
End Source.

(** ** Examples *)
Section Examples.
#[local] Instance ex_uni : Uni := fun _ => false.
Local Ltac member := repeat first [left; reflexivity | right].
(** The hypotheses hold of a [case] command of two arms, one with the script of C48 and one empty, and of a loop
    over two words. *)
Example nest_for_witness : exists c, good_arm (s_of "a", inner, [c]) /\ good_arm (s_of "b", [], []) /\
  let cased := lines ((s_of "case " ++ s_of "w" ++ s_of " in") :: concat (map arm_lines [(s_of "a", inner, [c]); (s_of "b", [], [])]) ++ [s_of "esac"]) in
  let k := alone (CCase (name_word (s_of "w")) [mkPB [name_word (s_of "a")] [c]; mkPB [name_word (s_of "b")] []]) in
  accepts cased [k] /\
    accepts (lines [s_of "for " ++ s_of "i" ++ s_of " in" ++ spaced [s_of "p"; s_of "q"]; s_of "do"; body1; s_of "done"])
      [alone (CFor (s_of "i") (Some [name_word (s_of "p"); name_word (s_of "q")]) [cmd_of ["f"; "g"]%string])].
Proof.
  destruct nest_witness as ((c & H) & H1 & J & J1 & _ & W1). exists c.
  assert (Ids : forall k, In k ["a"; "b"; "w"; "i"; "p"; "q"]%string -> Printer.identifier (s_of k)).
  { intros k [<-|[<-|[<-|[<-|[<-|[<-|[]]]]]]]; apply known; reflexivity. }
  assert (W : forall ks s, forallb (fun t => forallb (fun k => negb (str_eqb (as_str t) (s_of k))) ks) (lex s) = true -> without ks s).
  { intros ks s F t k Ht Hk E. rewrite forallb_forall in F. specialize (F t Ht). rewrite forallb_forall in F. specialize (F k Hk).
    rewrite E, str_eqb_refl in F. discriminate. }
  assert (A : good_arm (s_of "a", inner, [c])).
  { split; [apply Ids; member|]. split; [discriminate|]. split; [exact H|]. split; [exact J|]. apply W. vm_compute. reflexivity. }
  assert (B : good_arm (s_of "b", [], [])).
  { split; [apply Ids; member|]. split; [discriminate|]. split; [|split; [split; [intros a b E|intros a E]; destruct a; discriminate|intros t k []]].
    apply accepts_at; [reflexivity|]. apply (parses_steps 5); [apply enough; vm_compute; reflexivity|]. vm_compute. reflexivity. }
  split; [exact A|]. split; [exact B|]. split.
  - apply (nest_case (s_of "w") [(s_of "a", inner, [c]); (s_of "b", [], [])]); [apply Ids; member|].
    apply Forall_cons; [exact A|]. apply Forall_cons; [exact B|apply Forall_nil].
  - apply (nest_for (s_of "i") body1 [cmd_of ["f"; "g"]%string]); [apply Ids; member|exact H1|discriminate|exact J1| |].
    + intros t k Ht Hk. apply (W1 t k Ht). now right.
    + apply Forall_cons; [apply Ids; member|]. apply Forall_cons; [apply Ids; member|apply Forall_nil].
Qed.
End Examples.
