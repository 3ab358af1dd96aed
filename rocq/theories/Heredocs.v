(** * Here-documents, from source text to redirections (C24, C25) *)
From Coq Require Import String.
From Verif Require Import Base Token Pos Lexer LexSpec LexProofs LexTheorems Relex Seams Ast Builder Prog Iter Located IterProofs ParserBase Balanced
  BalancedSpec Arith Word Redirect Command DefaultBuilder RunLemmas Entry Api Total Runs Raises Pure HeredocSpec ArithSpec ArithRuns
  Forms BaseForms WordRuns HeredocRuns CommandRuns FormsRuns FormsTheorems Quotes Comments.
Local Open Scope N_scope.

(** ** Text and lines *)
(** Lines, each ended by a newline. *)
Definition unlines (ls : list str) : str := flat_map (fun l => l ++ [10]) ls.

Section Heredocs.
Context {U : Uni}.

(** A newline always ends the token before it. *)
Lemma Lexes_newline a ts : Lexes a ts -> forall b us, Lexes b us -> Lexes (a ++ 10 :: b) (ts ++ TNewline :: us).
Proof.
  assert (Nl : forall b us, Lexes b us -> Lexes (10 :: b) (TNewline :: us)).
  { intros b us Hb. apply (Lex_operator TNewline b us I); [|exact Hb]. intros t' s' Ho E.
    destruct t'; try (now elim Ho); try discriminate; repeat match goal with p : positional |- _ => destruct p end; try discriminate; cbn; lia. }
  assert (Sx : forall s (P : char -> Prop) b, stops P s -> ~ P 10 -> stops P (s ++ 10 :: b)).
  { intros [|c s] Q b Hs Hq x r E; injection E as <- <-; [exact Hq|now apply (Hs c s)]. }
  induction 1 as [|t s ts Ho Hm H IH|w s ts H1 H2 H3 H IH|c w s ts H1 H2 H3 H IH|c w s ts H1 H2 H3 H4 H IH| |c t' s ts H1 IH1 H IH];
    intros b us Hb; cbn [app].
  - now apply Nl.
  - rewrite <- app_assoc. apply Lex_operator; [exact Ho| |now apply IH]. intros t' s' Ho' E.
    destruct (Nat.le_gt_cases (List.length (as_str t')) (List.length (as_str t))) as [L|L]; [exact L|]. exfalso.
    destruct (Nat.le_gt_cases (List.length (as_str t')) (List.length (as_str t ++ s))) as [L'|L'].
    + rewrite app_assoc in E. apply app_eq_app in E as (m & [[E1 E2]|[E1 E2]]).
      * specialize (Hm t' m Ho' E1). lia.
      * assert (m = []) as ->. { rewrite E1, app_length in L'. destruct m; [reflexivity|cbn in L'; lia]. }
        rewrite app_nil_r in E1. specialize (Hm t' [] Ho' ltac:(now rewrite app_nil_r)). lia.
    + rewrite app_assoc in E. apply app_eq_app in E as (m & [[E1 E2]|[E1 E2]]).
      * rewrite E1, app_length in L'. lia.
      * destruct m as [|x m]; [rewrite E1, app_nil_r in L'; lia|]. injection E2 as <- E2.
        assert (Hin : In 10 (as_str t')) by (rewrite E1; apply in_app_iff; right; now left).
        destruct only_newline as [_ Hn]. assert (lexable t') as Hl by (destruct t'; try exact I; now elim Ho').
        rewrite (Hn t' Hl Hin) in L. cbn in L. destruct (operator_nonempty t Ho) as (? & ? & E'). rewrite E' in L. cbn in L. lia.
  - rewrite <- app_assoc. apply Lex_blanks; auto. apply Sx; auto. intros [_ X]. now apply X.
  - rewrite <- app_assoc. apply Lex_name; auto. apply Sx; auto. intros [[X _] _]. discriminate.
  - rewrite <- app_assoc. apply Lex_literal; auto. apply Sx; auto. intros [X _]. discriminate.
  - apply Lex_backslash; [|exact Hb]. apply (Nl [] [] Lex_end).
  - apply Lex_backslash; auto.
Qed.
Lemma lex_newline a b : lex (a ++ 10 :: b) = lex a ++ TNewline :: lex b.
Proof. apply lex_maximal_munch. apply Lexes_newline; now apply lex_maximal_munch. Qed.
Lemma lex_quote r : lex (39 :: r) = TSingleQuote :: lex r.
Proof.
  destruct (lex_split 39 TSingleQuote [] r only_single_quote) as (ts & E & Et & _ & HF); [discriminate|intros []|].
  apply text_nil in Et; [|exact HF]. subst ts. exact E.
Qed.
Lemma lex_dless_quote r : lex (60 :: 60 :: 39 :: r) = TDLess :: TSingleQuote :: lex r.
Proof.
  apply lex_maximal_munch. apply (Lex_operator TDLess (39 :: r)); [exact I| |rewrite <- lex_quote; now apply lex_maximal_munch].
  intros t' s' Ho E. destruct t'; try (now elim Ho); try discriminate; repeat match goal with p : positional |- _ => destruct p end; try discriminate; cbn; lia.
Qed.
Lemma lex_dlessdash_quote r : lex (60 :: 60 :: 45 :: 39 :: r) = TDLessDash :: TSingleQuote :: lex r.
Proof.
  apply lex_maximal_munch. apply (Lex_operator TDLessDash (39 :: r)); [exact I| |rewrite <- lex_quote; now apply lex_maximal_munch].
  intros t' s' Ho E. destruct t'; try (now elim Ho); try discriminate; repeat match goal with p : positional |- _ => destruct p end; try discriminate; cbn; lia.
Qed.
Lemma no_newline_lex s : ~ In 10 s -> ~ In TNewline (lex s).
Proof. intros H. apply (not_in_text 10); [reflexivity|]. now rewrite lex_text. Qed.

(** ** The rest of the command line *)
(** The rest of the line has no unclosed quotes or parentheses. *)
Inductive closed_line : list token -> Prop :=
  | cl_nil : closed_line []
  | cl_piece t p l : t <> TNewline -> piece (t :: p) (l ++ [TNewline]) -> closed_line l -> closed_line (t :: p ++ l).
Lemma piece_more p l rest : piece p (l ++ [TNewline]) -> piece p (l ++ TNewline :: rest).
Proof.
  intros H. remember (l ++ [TNewline]) as m eqn:Em. destruct H; try (constructor; auto; fail).
  - now destruct l.
  - subst rest0. destruct l; cbn in *; now apply p_dollar.
Qed.
Lemma closed_line_rest l rest : closed_line l -> line_rest (l ++ [TNewline]) rest.
Proof.
  induction 1 as [|t p l Ht Hp Hl IH]; [apply lr_newline|].
  cbn [app]. rewrite <- app_assoc. apply lr_piece; [exact Ht| |exact IH]. rewrite <- app_assoc. now apply piece_more.
Qed.
(** Characters without special meaning for the extent of a line. *)
Definition plain_in_line (c : char) : Prop :=
  c <> 10 /\ c <> 34 /\ c <> 35 /\ c <> 36 /\ c <> 39 /\ c <> 40 /\ c <> 92 /\ c <> 96 /\ c <> 123.
Lemma plain_closed_line s : Forall plain_in_line s -> closed_line (lex s).
Proof.
  intros H. rewrite <- lex_text in H. revert H. induction (lex s) as [|t ts IH]; intros H; [constructor|].
  rewrite text_cons in H. apply Forall_app in H as [H1 H2]. apply (cl_piece t [] ts); [| |now apply IH].
  - intros ->. inversion H1 as [|? ? (X & _)]. now apply X.
  - constructor; try (intros ->; inversion H1 as [|? ? (X1 & X2 & X3 & X4 & X5 & X6 & X7 & X8 & X9)]; congruence).
    destruct t; try reflexivity; exfalso; inversion H1 as [|? ? (X1 & X2 & X3 & X4 & X5 & X6 & X7 & X8 & X9)]; congruence.
Qed.

(** ** Delimiter, lines *)
Lemma text_lex_lines l : text (lex l) = l. Proof. apply lex_text. Qed.
(** The delimiter, or the delimiter and a carriage return. *)
Definition closing (d l : str) : Prop := l = d \/ l = d ++ [13].

Lemma lines_plain d ls cl rest : Forall (fun l => ~ In 10 l /\ ~ closing d l) ls -> ~ In 10 cl -> closing d cl ->
  exists body, here_lines false d body (lex (unlines ls ++ cl ++ 10 :: rest)) (lex rest) /\ text body = unlines ls /\ Forall lexable body.
Proof.
  intros H Hc Hcl. induction H as [|l ls [Hl Hd] _ (body & IH & Eb & HF)].
  - exists []. split; [|split; [reflexivity|constructor]]. cbn [unlines flat_map app]. rewrite lex_newline.
    apply hl_close; [now apply no_newline_lex|]. unfold closes, body_line. now rewrite lex_text.
  - exists (lex l ++ TNewline :: body). split; [|split].
    + cbn [unlines flat_map]. change (flat_map _ ls) with (unlines ls). rewrite <- !app_assoc. cbn [app]. rewrite lex_newline.
      apply (hl_line false d (lex l)); [now apply no_newline_lex| |exact IH]. unfold closes, body_line. now rewrite lex_text.
    + rewrite text_app, text_cons, lex_text, Eb. cbn [unlines flat_map]. change (as_str TNewline) with [10].
      now rewrite <- app_assoc.
    + apply Forall_app. split; [apply lex_all_lexable|]. constructor; [exact I|exact HF].
Qed.
Lemma lines_plain_end d ls cl : Forall (fun l => ~ In 10 l /\ ~ closing d l) ls -> ~ In 10 cl -> cl = [] \/ closing d cl ->
  exists body, here_lines false d body (lex (unlines ls ++ cl)) [] /\ text body = unlines ls.
Proof.
  intros H Hc Hcl. induction H as [|l ls [Hl Hd] _ (body & IH & Eb)].
  - exists []. split; [|reflexivity]. cbn [unlines flat_map app].
    apply hl_close_end; [now apply no_newline_lex|]. unfold closes, body_line. rewrite lex_text.
    destruct Hcl as [-> |Hcl]; [right; reflexivity|left; exact Hcl].
  - exists (lex l ++ TNewline :: body). split.
    + cbn [unlines flat_map]. change (flat_map _ ls) with (unlines ls). rewrite <- !app_assoc. cbn [app]. rewrite lex_newline.
      apply (hl_line false d (lex l)); [now apply no_newline_lex| |exact IH]. unfold closes, body_line. now rewrite lex_text.
    + rewrite text_app, text_cons, lex_text, Eb. cbn [unlines flat_map]. change (as_str TNewline) with [10].
      now rewrite <- app_assoc.
Qed.

(** The word before which the delimiter ends. *)
Definition after_delimiter (c : str) : Prop :=
  match lex c with [] => True | t :: _ => ends_delimiter t = true end.
Lemma quoted_document strip (d c lines : str) body (rest : str) : d <> [] -> ~ In 39 d -> after_delimiter c -> closed_line (lex c) ->
  here_lines strip d body (lex lines) (lex rest) ->
  here_document strip true body (TSingleQuote :: lex (d ++ 39 :: c ++ 10 :: lines)) (lex (c ++ 10 :: rest)).
Proof.
  intros Hd Hq Ha Hc Hl.
  destruct (lex_split 39 TSingleQuote d (c ++ 10 :: lines) only_single_quote) as (td & E & Et & Hn & _); [discriminate|exact Hq|].
  change (@cons N) with (@cons char) in *. rewrite E, lex_newline, lex_newline.
  replace (TSingleQuote :: td ++ TSingleQuote :: lex c ++ TNewline :: lex lines)
    with ((TSingleQuote :: td ++ [TSingleQuote]) ++ (lex c ++ [TNewline]) ++ lex lines)
    by (cbn [app]; now rewrite <- !app_assoc).
  replace (lex c ++ TNewline :: lex rest) with ((lex c ++ [TNewline]) ++ lex rest) by (now rewrite <- app_assoc).
  apply (here_doc strip true body _ d); [|exact Hd| |now apply closed_line_rest|exact Hl].
  - rewrite <- Et, <- (app_nil_r (text td)). eapply dl_single; [exact Hn|apply dl_nil].
  - change (TSingleQuote :: td ++ [TSingleQuote]) with (TSingleQuote :: (td ++ [TSingleQuote])).
    rewrite <- (app_nil_r (td ++ [TSingleQuote])) at 1.
    apply de_piece; [reflexivity| |].
    + apply (p_region TSingleQuote TSingleQuote td); [reflexivity|].
      clear -Hn. induction td as [|t td IH]; [constructor|]. apply c_quoted; [intros ->; apply Hn; now left|].
      apply IH. intros H. apply Hn. now right.
    + apply de_end. unfold after_delimiter in Ha. destruct (lex c) as [|t ts]; [reflexivity|exact Ha].
Qed.

(** [Parser::redirect] on the source [src] returns [r] and leaves the tokens of [rest]. *)
Definition source_redirect (fuel : nat) (src : str) (r : redirect_ tlword) (rest : str) : Prop :=
  (List.length (lex src) + 2 < fuel)%nat ->
  exists s', run concrete (call default_builder ARedirect fuel) (ti_new (lex src)) tt
    = (OOk (Some (inl r)), s', tt) /\ tokens_left s' = lex rest.
Lemma source_redirect_read fuel src r rest : redirect_form default_builder default_pure r (lex src) (lex rest) ->
  source_redirect fuel src r rest.
Proof.
  intros H Hf.
  apply (redirect_read default_builder default_pure fuel (ti_new (lex src)) tt (pr_new _ _ _) Hf r (lex src) (lex rest) H eq_refl).
Qed.
Definition literal_heredoc (s : str) : redirect_ tlword := RHeredoc None (TLWord (WSingle (WSimple (WLiteral s)))).
Definition here : str := s_of "<<".
Definition here_dash : str := s_of "<<-".

(** C24: a here-document with a delimiter in single quotes.  [c] is the rest of the command line,
    [ls] are the lines of the body and [cl] is the closing line. *)
Theorem quoted_heredoc_literal fuel (d c : str) ls (cl rest : str) :
  d <> [] -> ~ In 39 d -> ~ In 10 d -> after_delimiter c -> closed_line (lex c) ->
  Forall (fun l => ~ In 10 l /\ ~ closing d l) ls -> closing d cl ->
  source_redirect fuel (here ++ between 39 d ++ c ++ 10 :: unlines ls ++ cl ++ 10 :: rest)
    (literal_heredoc (unlines ls)) (c ++ 10 :: rest).
Proof.
  intros Hd Hq Hn Ha Hc Hls Hcl. apply source_redirect_read.
  assert (Hn' : ~ In 10 cl).
  { destruct Hcl as [-> | ->]; [exact Hn|]. intros Hin. apply in_app_iff in Hin as [Hin|[Hin|[]]]; [now apply Hn|discriminate]. }
  destruct (lines_plain d ls cl rest Hls Hn' Hcl) as (body & Hb & Eb & _).
  unfold here, between. cbn [app]. rewrite <- app_assoc. cbn [app].
  change (s_of "<<") with [60; 60]. cbn [app]. change (@cons N) with (@cons char) in *. rewrite lex_dless_quote.
  replace (literal_heredoc _) with (literal_heredoc (text body)) by (now rewrite Eb). unfold literal_heredoc.
  apply (rf_here_quoted default_builder default_pure None TDLess false body _ (TSingleQuote :: lex (d ++ 39 :: c ++ 10 :: unlines ls ++ cl ++ 10 :: rest)));
    [constructor|constructor|]. cbn [skipw]. change (@cons N) with (@cons char) in *.
  now apply quoted_document.
Qed.
(** At the end of the input the closing line may have no newline, or be missing. *)
Theorem quoted_heredoc_literal_end fuel (d c : str) ls (cl : str) :
  d <> [] -> ~ In 39 d -> ~ In 10 d -> after_delimiter c -> closed_line (lex c) ->
  Forall (fun l => ~ In 10 l /\ ~ closing d l) ls -> cl = [] \/ closing d cl ->
  source_redirect fuel (here ++ between 39 d ++ c ++ 10 :: unlines ls ++ cl)
    (literal_heredoc (unlines ls)) (c ++ [10]).
Proof.
  intros Hd Hq Hn Ha Hc Hls Hcl. apply source_redirect_read.
  assert (Hn' : ~ In 10 cl).
  { destruct Hcl as [-> |[-> | ->]]; [auto|exact Hn|]. intros Hin. apply in_app_iff in Hin as [Hin|[Hin|[]]]; [now apply Hn|discriminate]. }
  destruct (lines_plain_end d ls cl Hls Hn' Hcl) as (body & Hb & Eb).
  unfold here, between. cbn [app]. rewrite <- app_assoc. cbn [app].
  change (s_of "<<") with [60; 60]. cbn [app]. change (@cons N) with (@cons char) in *. rewrite lex_dless_quote.
  replace (literal_heredoc _) with (literal_heredoc (text body)) by (now rewrite Eb). unfold literal_heredoc.
  apply (rf_here_quoted default_builder default_pure None TDLess false body _ (TSingleQuote :: lex (d ++ 39 :: c ++ 10 :: unlines ls ++ cl)));
    [constructor|constructor|]. cbn [skipw]. change (@cons N) with (@cons char) in *.
  now apply (quoted_document false d c (unlines ls ++ cl) body []).
Qed.

(** A here-document with a plain name as delimiter, whose body has no characters that are special
    in it, is read the same. *)
Definition plain_in_heredoc (c : char) : Prop := c <> 36 /\ c <> 96 /\ c <> 92.
Lemma after_delimiter_stops c x : after_delimiter c -> stops id_char (c ++ 10 :: x).
Proof.
  unfold after_delimiter. pose proof (lex_text c) as E. pose proof (lex_all_lexable c) as HF.
  destruct (lex c) as [|t ts]; cbn in E.
  - subst c. intros _ a r Er. injection Er as <- <-. intros [[X _] _]. discriminate.
  - intros Ht a r Er Ha. inversion HF as [|? ? Hl _]. subst.
    assert (X : exists w, as_str t = a :: w).
    { pose proof (lexable_text t Hl). destruct (as_str t) as [|b w] eqn:Ea; [congruence|]. cbn in Er.
      injection Er as -> _. now exists w. }
    destruct X as [w X]. destruct Ha as [(Hw & Hb & Ho) _].
    destruct (operator_dec t) as [Hop|Hop]; [exact (Ho t w Hop X)|].
    destruct t; try discriminate; try (now elim Hop).
    cbn in X. subst. destruct Hl as [_ Hl]. inversion Hl as [|? ? [Y _]]. congruence.
Qed.
Lemma lex_name_delimiter d (c lines : str) : lexable (TName d) -> after_delimiter c ->
  lex (d ++ c ++ 10 :: lines) = TName d :: lex (c ++ 10 :: lines).
Proof.
  intros Hd Ha. apply lex_maximal_munch. destruct d as [|a d]; [contradiction|]. destruct Hd as (H1 & H2).
  apply (Lex_name a d); auto; [now apply after_delimiter_stops|apply lex_Lexes].
Qed.
Lemma name_document d (c lines : str) body (rest : str) : lexable (TName d) -> after_delimiter c -> closed_line (lex c) ->
  here_lines false d body (lex lines) (lex rest) ->
  here_document false false body (lex (d ++ c ++ 10 :: lines)) (lex (c ++ 10 :: rest)).
Proof.
  intros Hd Ha Hc Hl.
  change (@cons N) with (@cons char) in *. rewrite lex_name_delimiter, !lex_newline by assumption.
  replace (TName d :: lex c ++ TNewline :: lex lines)
    with ([TName d] ++ (lex c ++ [TNewline]) ++ lex lines)
    by (cbn [app]; now rewrite <- !app_assoc).
  replace (lex c ++ TNewline :: lex rest) with ((lex c ++ [TNewline]) ++ lex rest) by (now rewrite <- app_assoc).
  apply (here_doc false false body _ d); [|destruct d; [contradiction|discriminate]| |now apply closed_line_rest|exact Hl].
  - rewrite <- (app_nil_r d) at 2. apply (dl_plain (TName d) [] [] false); try discriminate. apply dl_nil.
  - apply (de_piece (TName d) [] []); [reflexivity|now apply p_plain|].
    apply de_end. unfold after_delimiter in Ha. destruct (lex c) as [|t ts]; [reflexivity|exact Ha].
Qed.
Theorem plain_heredoc_literal fuel (d c : str) ls (cl rest : str) :
  lexable (TName d) -> after_delimiter c -> closed_line (lex c) ->
  Forall (fun l => ~ In 10 l /\ ~ closing d l /\ Forall plain_in_heredoc l) ls -> closing d cl ->
  source_redirect fuel (here ++ d ++ c ++ 10 :: unlines ls ++ cl ++ 10 :: rest)
    (literal_heredoc (unlines ls)) (c ++ 10 :: rest).
Proof.
  intros Hd Ha Hc Hls Hcl. apply source_redirect_read.
  assert (Hn : ~ In 10 d).
  { intros Hin. destruct only_newline as [_ X]. specialize (X (TName d) Hd Hin). discriminate. }
  assert (Hn' : ~ In 10 cl).
  { destruct Hcl as [-> | ->]; [exact Hn|]. intros Hin. apply in_app_iff in Hin as [Hin|[Hin|[]]]; [now apply Hn|discriminate]. }
  destruct (lines_plain d ls cl rest) as (body & Hb & Eb & HF); [|exact Hn'|exact Hcl|].
  { revert Hls. apply Forall_impl. tauto. }
  assert (El : lex (here ++ d ++ c ++ 10 :: unlines ls ++ cl ++ 10 :: rest) = TDLess :: lex (d ++ c ++ 10 :: unlines ls ++ cl ++ 10 :: rest)).
  { change here with [60; 60]. cbn [app]. apply lex_maximal_munch. 
    destruct d as [|a d]; [contradiction|]. destruct Hd as (((H0 & H1 & H2) & H3) & H4).
    apply (Lex_operator TDLess ((a :: d) ++ c ++ 10 :: unlines ls ++ cl ++ 10 :: rest)); [exact I| |apply lex_Lexes].
    intros t' s' Ho E. destruct t'; try (now elim Ho); try discriminate; repeat match goal with p : positional |- _ => destruct p end; try discriminate; cbn; try lia.
    exfalso. injection E as E _. subst a. now apply (H2 TDash []). }
  rewrite El.
  assert (Pb : Forall plain_in_heredoc (text body)).
  { rewrite Eb. clear -Hls. induction Hls as [|l ls (_ & _ & Hl) _ IH]; [constructor|]. cbn [unlines flat_map].
    apply Forall_app. split; [|exact IH]. apply Forall_app. split; [exact Hl|]. repeat constructor; discriminate. }
  assert (Eq : exists ws, literal_heredoc (unlines ls) = RHeredoc None (pu_word default_pure (here_word ws)) /\
     quoted default_builder default_pure None ws body []).
  { destruct (text body) as [|a s] eqn:Et.
    - apply text_nil in Et; [|exact HF]. subst body. exists []. rewrite <- Eb. split; [reflexivity|now apply qu_nil].
    - exists [KLiteral (text body)]. rewrite <- Eb. split; [now rewrite Et|]. rewrite <- (app_nil_r body) at 2.
      apply qu_text; [|congruence|exact I|now apply qu_nil].
      rewrite <- Et in Pb. clear -Pb. revert Pb. induction body as [|t ts IH]; intros H; [constructor|]. rewrite text_cons in H. apply Forall_app in H as [H1 H2].
      apply qr_plain; [|now apply IH].
      unfold plain_in_heredoc in H1. destruct t as [| | | | | | | | | | | | | | | | | | | | | | | | | | | | | | | | | | | | | | | | |[]|w|w|w]; try reflexivity; exfalso; inversion H1 as [|? ? (X1 & X2 & X3) _]; subst; congruence. }
  destruct Eq as (ws & -> & Hq).
  apply (rf_here default_builder default_pure None TDLess false body ws _ (lex (d ++ c ++ 10 :: unlines ls ++ cl ++ 10 :: rest)));
    [constructor|constructor| |exact Hq].
  replace (skipw _) with (lex (d ++ c ++ 10 :: unlines ls ++ cl ++ 10 :: rest)); [now apply name_document|].
  now rewrite lex_name_delimiter.
Qed.

(** ** C25: tabs *)
(** A line without its leading tabs. *)
Fixpoint no_leading_tabs (l : str) : str :=
  match l with 9 :: l' => no_leading_tabs l' | _ => l end.
(** After its leading tabs the line has no tabs. *)
Definition tabs_only_leading (l : str) : Prop := ~ In 9 (no_leading_tabs l).

Lemma trim_no_tab w : ~ In 9 w -> trim_start_matches c_tab w = w.
Proof. destruct w as [|c w]; [reflexivity|]. intros H. cbn. destruct (N.eqb_spec c c_tab) as [->|_]; [elim H; now left|reflexivity]. Qed.
Lemma trim_tabs w : trim_start_matches c_tab w = no_leading_tabs w.
Proof.
  induction w as [|c w IH]; [reflexivity|]. cbn [trim_start_matches]. destruct (N.eqb_spec c c_tab) as [->|Hc]; [exact IH|].
  cbn [no_leading_tabs]. destruct c as [|[[|[]|]|[]|]]; try reflexivity. destruct p; try reflexivity. now elim Hc.
Qed.
Lemma no_leading_other c w : c <> 9 -> no_leading_tabs (c :: w) = c :: w.
Proof. intros H. rewrite <- trim_tabs. cbn [trim_start_matches]. now destruct (N.eqb_spec c c_tab). Qed.
Lemma no_leading_app w s : (forall r, s <> 9 :: r) -> no_leading_tabs (w ++ s) = no_leading_tabs w ++ s.
Proof.
  intros Hs. induction w as [|c w IH]; cbn [app].
  - destruct s as [|c s]; [reflexivity|]. apply no_leading_other. intros ->. now apply (Hs s).
  - destruct (N.eq_dec c 9) as [->|Hc]; [exact IH|]. now rewrite !no_leading_other.
Qed.
Lemma text_untab w : text (untab w) = no_leading_tabs w.
Proof. unfold untab. rewrite trim_tabs. destruct (no_leading_tabs w) as [|c s]; [reflexivity|]. cbn. now rewrite app_nil_r. Qed.
Lemma strip_line_text n : forall ts, (List.length ts <= n)%nat -> ~ In 9 (text ts) -> text (strip_line ts) = text ts.
Proof.
  induction n as [|n IH]; intros [|t ts] Hn H; cbn [List.length] in Hn; try reflexivity; [lia|].
  rewrite text_cons in H. assert (H1 : ~ In 9 (as_str t)) by (intros X; apply H, in_app_iff; now left).
  assert (H2 : ~ In 9 (text ts)) by (intros X; apply H, in_app_iff; now right).
  destruct (is_whitespace_tok t) eqn:Ew.
  - destruct t; try discriminate. cbn [strip_line]. rewrite text_app, text_untab, <- trim_tabs, trim_no_tab by exact H1.
    rewrite text_cons. cbn [as_str]. f_equal. destruct ts as [|t ts]; [reflexivity|]. rewrite !text_cons. f_equal.
    apply IH; [cbn in Hn; lia|]. rewrite text_cons in H2. intros X. apply H2, in_app_iff. now right.
  - rewrite strip_line_cons by exact Ew. rewrite !text_cons. f_equal. apply IH; [lia|exact H2].
Qed.
Lemma tab_in_whitespace t : lexable t -> In 9 (as_str t) -> is_whitespace_tok t = true.
Proof.
  intros Hl Hin. destruct (operator_dec t) as [Ht|Ht].
  - destruct t; try (now elim Ht); try reflexivity; exfalso; cbn in Hin;
    repeat match goal with p : positional |- _ => destruct p; cbn in Hin end;
    repeat (destruct Hin as [Hin|Hin]; [discriminate Hin|]); exact Hin.
  - destruct t; try (now elim Ht); try reflexivity; exfalso.
    + cbn in Hin. destruct Hin as [Hin|[]]. discriminate.
    + destruct s as [|d s]; [contradiction|]. destruct Hl as (H1 & _ & H2). rewrite Forall_forall in H2.
      destruct Hin as [->|Hin]; [destruct H1 as [X _]; discriminate|]. destruct (H2 9 Hin) as [X _]. discriminate.
    + destruct s as [|d s]; [contradiction|]. destruct Hl as ([H1 _] & H2). rewrite Forall_forall in H2.
      destruct Hin as [->|Hin]; [destruct H1 as [X _]; discriminate|]. destruct (H2 9 Hin) as [[X _] _]. discriminate.
Qed.
Lemma strip_line_lex l : tabs_only_leading l -> text (strip_line (lex l)) = no_leading_tabs l.
Proof.
  unfold tabs_only_leading. pose proof (lex_all_lexable l) as HF. pose proof (lex_Lexes l) as HL. pose proof (lex_text l) as El.
  destruct (lex l) as [|t ts]; intros H; [cbn in El; now subst|].
  destruct (is_whitespace_tok t) eqn:Ew.
  - destruct t; try discriminate. rewrite text_cons in El. cbn [as_str] in El. rewrite <- El in *.
    assert (Hs : stops LexSpec.blank (text ts)).
    { inversion HL as [|? ? ? Ho|w s' ts' H1 H2 H3 H4| | | |]; subst; [now elim Ho|]. apply lex_maximal_munch in H4.
      rewrite <- H4, lex_text. exact H3. }
    assert (Ht : forall r, text ts <> 9 :: r) by (intros r E; apply (Hs 9 r E); split; [reflexivity|discriminate]).
    rewrite no_leading_app in * by exact Ht. cbn [strip_line]. rewrite text_app, text_untab. f_equal.
    assert (H2 : ~ In 9 (text ts)) by (intros X; apply H, in_app_iff; now right).
    destruct ts as [|t ts]; [reflexivity|]. rewrite !text_cons. f_equal. apply (strip_line_text (List.length ts)); [lia|].
    rewrite text_cons in H2. intros X. apply H2, in_app_iff. now right.
  - inversion HF as [|? ? Hl HF']. pose proof (lexable_text t Hl) as Hne.
    assert (Hh : no_leading_tabs l = l).
    { rewrite text_cons in El. destruct (as_str t) as [|c w] eqn:Ea; [congruence|]. rewrite <- El. apply no_leading_other.
      intros ->. assert (In 9 (as_str t)) as X by (rewrite Ea; now left). apply (tab_in_whitespace t Hl) in X. congruence. }
    rewrite Hh in *. rewrite (strip_line_text (List.length (t :: ts))); [exact El|lia|now rewrite El].
Qed.
Lemma no_leading_in c l : In c (no_leading_tabs l) -> In c l.
Proof.
  induction l as [|d l IH]; [auto|]. destruct (N.eq_dec d 9) as [->|Hd]; [intros H; right; now apply IH|].
  now rewrite no_leading_other.
Qed.
Lemma lines_stripped d ls cl rest :
  Forall (fun l => ~ In 10 l /\ tabs_only_leading l /\ ~ closing d (no_leading_tabs l)) ls ->
  ~ In 10 cl -> tabs_only_leading cl -> closing d (no_leading_tabs cl) ->
  exists body, here_lines true d body (lex (unlines ls ++ cl ++ 10 :: rest)) (lex rest) /\
    text body = unlines (map no_leading_tabs ls).
Proof.
  intros H Hc Ht Hcl. induction H as [|l ls (Hl & Hl' & Hd) _ (body & IH & Eb)].
  - exists []. split; [|reflexivity]. cbn [unlines flat_map app]. rewrite lex_newline.
    apply hl_close; [now apply no_newline_lex|]. unfold closes, body_line. now rewrite strip_line_lex.
  - exists (strip_line (lex l) ++ TNewline :: body). split.
    + cbn [unlines flat_map]. change (flat_map _ ls) with (unlines ls). rewrite <- !app_assoc. cbn [app]. rewrite lex_newline.
      apply (hl_line true d (lex l)); [now apply no_newline_lex| |exact IH]. unfold closes, body_line. now rewrite strip_line_lex.
    + rewrite text_app, text_cons, strip_line_lex, Eb by exact Hl'. cbn [unlines flat_map map]. change (as_str TNewline) with [10].
      now rewrite <- app_assoc.
Qed.
(** C25, for lines whose tabs are all leading. *)
Theorem dash_heredoc_strips_partial fuel (d c : str) ls (cl rest : str) :
  d <> [] -> ~ In 39 d -> ~ In 10 d -> ~ In 9 d -> after_delimiter c -> closed_line (lex c) ->
  Forall (fun l => ~ In 10 l /\ tabs_only_leading l /\ ~ closing d (no_leading_tabs l)) ls ->
  ~ In 10 cl -> closing d (no_leading_tabs cl) ->
  source_redirect fuel (here_dash ++ between 39 d ++ c ++ 10 :: unlines ls ++ cl ++ 10 :: rest)
    (literal_heredoc (unlines (map no_leading_tabs ls))) (c ++ 10 :: rest).
Proof.
  intros Hd Hq Hn H9 Ha Hc Hls Hn' Hcl. apply source_redirect_read.
  assert (Ht : tabs_only_leading cl).
  { unfold tabs_only_leading. destruct Hcl as [-> | ->]; [exact H9|]. intros Hin.
    apply in_app_iff in Hin as [Hin|[Hin|[]]]; [now apply H9|discriminate]. }
  destruct (lines_stripped d ls cl rest Hls Hn' Ht Hcl) as (body & Hb & Eb).
  unfold here_dash, between. cbn [app]. rewrite <- app_assoc. cbn [app].
  change (s_of "<<-") with [60; 60; 45]. cbn [app]. change (@cons N) with (@cons char) in *. rewrite lex_dlessdash_quote.
  replace (literal_heredoc _) with (literal_heredoc (text body)) by (now rewrite Eb). unfold literal_heredoc.
  apply (rf_here_quoted default_builder default_pure None TDLessDash true body _ (TSingleQuote :: lex (d ++ 39 :: c ++ 10 :: unlines ls ++ cl ++ 10 :: rest)));
    [constructor|constructor|]. cbn [skipw]. change (@cons N) with (@cons char) in *.
  now apply quoted_document.
Qed.

(** C25 as stated, for a quoted delimiter. *)
Definition dash_strips_only_leading_tabs (fuel : nat) : Prop := forall (d c : str) ls (cl rest : str),
  d <> [] -> ~ In 39 d -> ~ In 10 d -> ~ In 9 d -> after_delimiter c -> closed_line (lex c) ->
  Forall (fun l => ~ In 10 l /\ ~ closing d (no_leading_tabs l)) ls ->
  ~ In 10 cl -> closing d (no_leading_tabs cl) ->
  source_redirect fuel (here_dash ++ between 39 d ++ c ++ 10 :: unlines ls ++ cl ++ 10 :: rest)
    (literal_heredoc (unlines (map no_leading_tabs ls))) (c ++ 10 :: rest).
(** It is false: a tab inside a line is removed too (the line [a<tab>b] becomes [ab]). *)
Theorem dash_strips_only_leading_tabs_refuted : ~ dash_strips_only_leading_tabs 100.
Proof.
  intros H.
  specialize (H (s_of "E") [] [[97; 9; 98]] (s_of "E") []).
  destruct H as (s' & E & _).
  - discriminate.
  - intros [X|[]]. discriminate.
  - intros [X|[]]. discriminate.
  - intros [X|[]]. discriminate.
  - exact I.
  - constructor.
  - constructor; [|constructor]. split; [intros [X|[X|[X|[]]]]; discriminate|intros [X|X]; discriminate].
  - intros [X|[]]. discriminate.
  - left. reflexivity.
  - vm_compute. repeat constructor.
  - vm_compute in E. discriminate.
Qed.
End Heredocs.

(** ** Non-vacuity *)
Section Examples.
Context {U : Uni}.
(** A body with quotes, substitutions, an unfinished word and a line that only starts like the
    delimiter; a pipe after the delimiter; a further command after the here-document. *)
Example quoted_heredoc_example : source_redirect 400
  (here ++ between 39 (s_of "E O") ++ s_of " | wc -l" ++ 10 ::
     unlines [s_of "$x `a"; []; s_of "E O "; s_of """'\"] ++ s_of "E O" ++ 10 :: s_of "ls")
  (literal_heredoc (unlines [s_of "$x `a"; []; s_of "E O "; s_of """'\"])) (s_of " | wc -l" ++ 10 :: s_of "ls").
Proof.
  apply quoted_heredoc_literal.
  - discriminate.
  - intros H. repeat (destruct H as [H|H]; [discriminate|]). exact H.
  - intros H. repeat (destruct H as [H|H]; [discriminate|]). exact H.
  - reflexivity.
  - apply plain_closed_line. repeat constructor; discriminate.
  - repeat constructor; intros H; unfold closing in H; cbn in H;
      repeat (destruct H as [H|H]; [discriminate|]); try exact H; discriminate.
  - now left.
Qed.
Example plain_heredoc_example : source_redirect 400
  (here ++ s_of "EOF" ++ s_of " | wc -l" ++ 10 ::
     unlines [s_of "it's (a) ""test"; s_of "EOF;"] ++ s_of "EOF" ++ 10 :: s_of "ls")
  (literal_heredoc (unlines [s_of "it's (a) ""test"; s_of "EOF;"])) (s_of " | wc -l" ++ 10 :: s_of "ls").
Proof.
  apply plain_heredoc_literal.
  - pose proof (lex_lexable (s_of "EOF")) as H. apply H. vm_compute. now left.
  - reflexivity.
  - apply plain_closed_line. repeat constructor; discriminate.
  - repeat constructor; try discriminate; intros H; unfold closing in H; cbn in H;
      repeat (destruct H as [H|H]; [discriminate|]); try exact H; discriminate.
  - now left.
Qed.
Example dash_heredoc_example : source_redirect 400
  (here_dash ++ between 39 (s_of "E") ++ [] ++ 10 ::
     unlines [9 :: 9 :: s_of "a b"; s_of "$x"; [9]] ++ (9 :: s_of "E") ++ 10 :: s_of "ls")
  (literal_heredoc (unlines [s_of "a b"; s_of "$x"; []])) ([] ++ 10 :: s_of "ls").
Proof.
  apply (dash_heredoc_strips_partial 400 (s_of "E") [] [9 :: 9 :: s_of "a b"; s_of "$x"; [9]] (9 :: s_of "E") (s_of "ls")).
  - discriminate.
  - intros [X|[]]. discriminate.
  - intros [X|[]]. discriminate.
  - intros [X|[]]. discriminate.
  - exact I.
  - constructor.
  - repeat constructor; intros H; cbn in H; unfold closing in H; cbn in H; repeat (destruct H as [H|H]; [discriminate|]); try exact H; discriminate.
  - intros H. repeat (destruct H as [H|H]; [discriminate|]). exact H.
  - now left.
Qed.
End Examples.
