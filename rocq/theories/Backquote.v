(** * C50: a script between backquotes

    What [$(] and [)] do with a script, backquotes do too, once every backquote of the script is
    escaped. *)
From Coq Require Import String.
From Verif Require Import Base Token Pos Lexer LexSpec LexTheorems Ast Builder Prog Iter Located IterProofs RunLemmas ParserBase Balanced BalancedSpec
  BalancedProofs BalancedTotal Wp Arith Word WpWord Redirect Command DefaultBuilder Entry EntryWp Total Api Runs Pure Relex ArithSpec HeredocSpec Forms BaseForms CompoundRuns FormsRuns FormsTheorems
  SoundScript Exact ExactMethods Seams Quotes LexJoin Join Display Nest.

Section Backquote.
Context {U : Uni}.

(** Every backquote escaped. *)
Fixpoint escaped (s : str) : str :=
  match s with
  | [] => []
  | c :: s => if N.eqb c 96 then backslash :: 96%N :: escaped s else c :: escaped s
  end.
Fixpoint escaped_tokens (ts : list token) : list token :=
  match ts with
  | [] => []
  | TBacktick :: ts => TBackslash :: TBacktick :: escaped_tokens ts
  | t :: ts => t :: escaped_tokens ts
  end.
Lemma escaped_app a b : escaped (a ++ b) = escaped a ++ escaped b.
Proof. induction a as [|c a IH]; [reflexivity|]. cbn. rewrite IH. now destruct (N.eqb c 96). Qed.
Lemma escaped_same s : ~ In 96%N s -> escaped s = s.
Proof.
  induction s as [|c s IH]; intros H; [reflexivity|]. cbn. destruct (N.eqb_spec c 96); [subst; exfalso; apply H; now left|].
  f_equal. apply IH. intros X. apply H. now right.
Qed.
Lemma lexable_no_backtick t : lexable t -> t <> TBacktick -> ~ In 96%N (as_str t).
Proof.
  intros H Hn Hi. assert (B : ordinary_b 96%N = false) by reflexivity.
  destruct t; cbn in Hi; try (repeat destruct Hi as [Hi|Hi]; discriminate || contradiction); try congruence.
  - destruct p; cbn in Hi; repeat destruct Hi as [Hi|Hi]; discriminate || contradiction.
  - destruct H as [_ H]. rewrite Forall_forall in H. destruct (H _ Hi) as [X _]. discriminate.
  - unfold lexable in H. destruct s as [|c s]; [contradiction|]. destruct H as (Hc & _ & H). destruct Hi as [->|Hi].
    + apply ordinary_b_spec in Hc. congruence.
    + rewrite Forall_forall in H. specialize (H _ Hi). apply ordinary_b_spec in H. congruence.
  - unfold lexable in H. destruct s as [|c s]; [contradiction|]. destruct H as [Hc H]. destruct Hi as [->|Hi].
    + destruct Hc as [Hc _]. apply ordinary_b_spec in Hc. congruence.
    + rewrite Forall_forall in H. destruct (H _ Hi) as [Ho _]. apply ordinary_b_spec in Ho. congruence.
Qed.
Lemma escaped_text ts : Forall lexable ts -> text (escaped_tokens ts) = escaped (text ts).
Proof.
  induction 1 as [|t ts Ht _ IH]; [reflexivity|].
  assert (E : text (t :: ts) = as_str t ++ text ts) by reflexivity. rewrite E, escaped_app, <- IH.
  destruct (token_eqb_spec t TBacktick) as [->|Hn]; [reflexivity|].
  rewrite (escaped_same (as_str t)) by now apply lexable_no_backtick. destruct t; try reflexivity. congruence.
Qed.
Lemma apart_backslash t r : lexable t -> t <> TBackslash -> apart t (backslash :: r) = true.
Proof. intros H Hn. destruct t; try reflexivity; congruence. Qed.
Lemma escaped_relexable ts : relexable ts -> ~ In TBackslash ts -> relexable (escaped_tokens ts) /\ (forall t, lexable t -> t <> TBackslash -> apart t (text ts) = true -> apart t (text (escaped_tokens ts)) = true).
Proof.
  induction 1 as [| |t ts Hs Hr IH|t ts Hl Hb Ha Hr IH]; intros Hn.
  - split; [constructor|auto].
  - exfalso. apply Hn. now left.
  - exfalso. apply Hn. now left.
  - destruct (IH (fun X => Hn (or_intror X))) as [IH1 IH2].
    destruct (token_eqb_spec t TBacktick) as [->|Ht].
    + split; [|intros u Hu Hub _; now apply apart_backslash]. cbn [escaped_tokens]. apply rl_backslash; [|exact IH1]. split; [exact I|]. now exists 96%N.
    + assert (E : escaped_tokens (t :: ts) = t :: escaped_tokens ts) by (destruct t; try reflexivity; congruence).
      rewrite E. split; [apply rl_cons; auto|]. intros u Hu Hub Hx. rewrite <- Hx. apply apart_hd.
      rewrite !text_cons. destruct (as_str t) eqn:Et; [|reflexivity]. exfalso. destruct t; cbn in Et, Hl; try discriminate; subst; try tauto.
      destruct p; discriminate.
Qed.
Lemma lex_escaped s : ~ In backslash s -> lex (escaped s) = escaped_tokens (lex s).
Proof.
  intros H. assert (F : Forall lexable (lex s)) by (apply Forall_forall; intros t Ht; now apply (lex_lexable s)).
  assert (Ht : text (lex s) = s) by (rewrite <- concat_tokens_text; apply lex_lossless).
  rewrite <- Ht at 1. rewrite <- escaped_text by exact F. apply lex_relexable. apply escaped_relexable; [apply lex_is_relexable|].
  intros Hi. apply H. rewrite <- Ht. apply (in_text TBackslash); [exact Hi|now left].
Qed.
Lemma unescape_escaped ts : ~ In TBackslash ts -> unescape (escaped_tokens ts) = ts.
Proof.
  induction ts as [|t ts IH]; intros H; [reflexivity|]. specialize (IH (fun X => H (or_intror X))).
  destruct t; cbn [escaped_tokens]; try (cbn [unescape]; now rewrite IH). exfalso. apply H. now left.
Qed.
Lemma escaped_tokens_app a b : escaped_tokens (a ++ b) = escaped_tokens a ++ escaped_tokens b.
Proof. induction a as [|t a IH]; [reflexivity|]. destruct t; cbn; rewrite IH; reflexivity. Qed.

Lemma content_app X a b : content X a -> hd_error b <> Some TCurlyOpen -> content X b -> content X (a ++ b).
Proof.
  intros H Hh Hb. induction H as [X|t ts H1 H IH|X t ts H1 H IH|X t ts H1 H2 H3 H4 H5 H IH|X o c inner ts H1 H2 H3 Hi _ H IH|X inner ts H1 Hi _ H IH].
  - exact Hb.
  - cbn. apply c_quoted; auto.
  - cbn. apply c_escape; auto.
  - cbn. apply c_plain; auto. intros E. destruct ts; [exact Hh|]. exact (H5 E).
  - cbn. rewrite <- app_assoc. cbn. apply c_nested; auto.
  - cbn. rewrite <- app_assoc. cbn. apply c_braces; auto.
Qed.

(** Between backquotes: [s] with its backquotes escaped, on lines of its own. *)
Theorem nest_backquotes s cs : accepts s cs -> joinable_source s -> ~ In backslash s -> content TBacktick (lex (escaped s)) ->
  accepts (lines [s_of "`"; escaped s; s_of "`"]) [word_alone (substituted cs)].
Proof.
  intros H Hj Hb Hc. apply accepts_script.
  destruct (accepts_inside s cs H Hj) as (g0 & H1 & E0 & H2).
  assert (G : exists g, group DB DP no_delims g (unescape (TNewline :: lex (escaped s) ++ [TNewline])) [] /\ commands g = cs).
  { rewrite (lex_escaped s Hb). assert (Hn : ~ In TBackslash (lex s)).
    { intros Hi. apply Hb. assert (Ht : text (lex s) = s) by (rewrite <- concat_tokens_text; apply lex_lossless). rewrite <- Ht. apply (in_text TBackslash); [exact Hi|now left]. }
    replace (TNewline :: escaped_tokens (lex s) ++ [TNewline]) with (escaped_tokens (TNewline :: lex s ++ [TNewline])) by (cbn [escaped_tokens]; now rewrite escaped_tokens_app).
    rewrite unescape_escaped.
    - assert (P : parses_to DB (List.length ((TNewline :: lex s) ++ [TNewline]) + 3) ((TNewline :: lex s) ++ TNewline :: []) tt cs).
      { apply (script_join _ (TNewline :: lex s) [] cs cs); [rewrite !app_length; cbn; lia|exact H2| |].
        - apply (script_exact DB DP); [rewrite !app_length; cbn; lia|]. exists g0. auto.
        - exists []. split; [|now rewrite app_nil_r]. apply (script_exact DB DP); [cbn; lia|]. exists (mkCG [] []). split; [|reflexivity].
          apply gr_end; [|now left]. apply (ns_nil []). split; discriminate. }
      apply (script_exact DB DP) in P; [exact P|rewrite !app_length; cbn; lia].
    - intros [X|X]; [discriminate|]. apply in_app_or in X as [X|[X|[]]]; [now apply Hn|discriminate]. }
  destruct G as (g & G & <-).
  exists (mkCG [word_alone (substituted (commands g))] []). split; [|reflexivity].
  cbn [lines]. rewrite !lex_line. change (lex (s_of "`")) with [TBacktick]. cbn [app].
  apply script_one; [reflexivity|discriminate|split; discriminate|discriminate|].
  assert (N : no_word [] []) by (apply (nw_delimited []); exact I).
  assert (C : content TBacktick (TNewline :: lex (escaped s) ++ [TNewline])).
  { apply c_plain; try discriminate; [reflexivity|]. apply content_app; [exact Hc|discriminate|]. apply c_plain; try discriminate; [reflexivity|constructor]. }
  assert (W : word_form DB DP (KSingle (KSimple (KCommandSubst g))) (TBacktick :: TNewline :: lex (escaped s) ++ [TNewline; TBacktick]) []).
  { apply (wf_word DB DP (KSimple (KCommandSubst g)) []); [|discriminate|reflexivity].
    apply (fs_frag DB DP None _ _ []); [|intros X; contradiction|apply fs_end; left; exact I].
    pose proof (ex_backticks DB DP g _ [] C G) as E. cbn [app] in E. rewrite <- app_assoc in E. exact (fr_expansion DB DP _ _ _ E). }
  apply (cf_simple DB DP [] [DCmdWord (substituted (commands g))]).
  - refine (si_command DB DP (KSingle (KSimple (KCommandSubst g))) _ [] [] [] _ _ _ _); [exact W| | |apply ag_end; [exact N|exact I]].
    + exact I.
    + intros X. exact X.
  - right. discriminate.
  - intros [X|[(t & r & [<-|[]] & X & _)|(k & r & _ & X)]]; [discriminate|discriminate|inversion X; discriminate].
  - intros X. exact X.
  - intros (k & r & _ & X). inversion X; discriminate.
Qed.
End Backquote.

(** ** Examples *)
Section Examples.
#[local] Instance bq_uni : Uni := fun _ => false.
Definition quoted_script : str := s_of "f ""x y"" `g`; ! h".
Example backquote_witness : (exists c1 c2, accepts quoted_script [c1; c2]) /\ joinable_source quoted_script /\ ~ In backslash quoted_script /\
  escaped quoted_script = s_of "f ""x y"" \`g\`; ! h" /\ content TBacktick (lex (escaped quoted_script)).
Proof.
  assert (N : forall c s, forallb (fun x => negb (N.eqb x c)) s = true -> ~ In c s).
  { intros c s F Hi. rewrite forallb_forall in F. specialize (F c Hi). now rewrite N.eqb_refl in F. }
  split. { eexists _, _. apply accepts_at; [vm_compute; reflexivity|]. apply (parses_steps 5); [apply enough; vm_compute; reflexivity|]. vm_compute. reflexivity. }
  split. { split; [intros a b E|intros a E]; [apply (N 60%N quoted_script)|apply (N backslash quoted_script)]; try (vm_compute; reflexivity); rewrite E; apply in_or_app; right; now left. }
  split; [apply N; reflexivity|]. split; [reflexivity|].
  change (lex (escaped quoted_script)) with ([TName (s_of "f"); TWhitespace (s_of " ")] ++ TDoubleQuote :: [TName (s_of "x"); TWhitespace (s_of " "); TName (s_of "y")] ++ TDoubleQuote ::
    [TWhitespace (s_of " "); TBackslash; TBacktick; TName (s_of "g"); TBackslash; TBacktick; TSemi; TWhitespace (s_of " "); TBang; TWhitespace (s_of " "); TName (s_of "h")]).
  cbn [app]. do 2 (apply c_plain; try discriminate; [reflexivity|]).
  apply (c_nested TBacktick TDoubleQuote TDoubleQuote [TName (s_of "x"); TWhitespace (s_of " "); TName (s_of "y")]); try discriminate; [reflexivity|repeat (apply c_plain; try discriminate; [reflexivity|]); constructor|].
  repeat first [apply c_escape; [discriminate|] | apply c_plain; try discriminate; [reflexivity|]]; constructor.
Qed.

(** The region between backquotes must be balanced: a quoted parenthesis is read well by itself, but not
    between backquotes. *)
Definition paren_script : str := s_of "f ""(""".
Example backquote_unbalanced : (exists c, accepts paren_script [c]) /\
  (forall cs, ~ accepts (lines [s_of "`"; paren_script; s_of "`"]) cs) /\
  (exists c, accepts (lines [s_of "$("; paren_script; s_of ")"]) [c]).
Proof.
  split. { eexists. apply accepts_at; [vm_compute; reflexivity|]. apply (parses_steps 5); [apply enough; vm_compute; reflexivity|]. vm_compute. reflexivity. }
  split; [|eexists; apply accepts_at; [vm_compute; reflexivity|]; apply (parses_steps 5); [apply enough; vm_compute; reflexivity|]; vm_compute; reflexivity].
  intros cs H. specialize (H 100%nat ltac:(apply PeanoNat.Nat.ltb_lt; vm_compute; reflexivity)).
  destruct H as (st & Y & E). inversion Y as [x|x c x1 cs' y E1 Y1]; subst; [vm_compute in E|vm_compute in E1]; discriminate.
Qed.

(** A backslash escapes one character, but between backquotes, where it is written twice, it escapes the
    whole token that follows: [a \&& b] is a job and a command, while [`a \\&& b`] is one command with
    the word [&&]. *)
Definition simple_cmd (ws : list tlword) : d_list := mkAOL (LSingle (PSimple (mkSC [] (map (fun w => DCmdWord w) ws)))) [].
Definition lit (s : string) : tlword := TLWord (WSingle (WSimple (WLiteral (s_of s)))).
Definition esc (s : string) : tlword := TLWord (WSingle (WSimple (WEscaped (s_of s)))).
Example backquote_backslash :
  accepts (s_of "a \&& b") [TLCmd (CJob (simple_cmd [lit "a"; esc "&"])); TLCmd (CList (simple_cmd [lit "b"]))] /\
  accepts (s_of "`a \\&& b`") [word_alone (substituted [TLCmd (CList (simple_cmd [lit "a"; esc "&&"; lit "b"]))])].
Proof.
  split; (apply accepts_at; [vm_compute; reflexivity|]; apply (parses_steps 5); [apply enough; vm_compute; reflexivity|]; vm_compute; reflexivity).
Qed.
End Examples.
