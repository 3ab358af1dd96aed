(** * The parser reads the forms of redirections and commands *)
From Coq Require Import String.
From Verif Require Import Base Token Pos Ast Builder Prog Located RunLemmas ParserBase Balanced Arith Word
  Redirect Command Sim BalancedSpec Runs Pure Relex HeredocSpec ArithSpec ArithRuns Forms BaseForms WordRuns.

(** ** Words that are no descriptors *)
Section NotFd.
Variable B : builder.
Variable P : pure B.
Context {AL : ArithLang}.
Notation C := (b_cmd B).

Lemma literal_frag (s : str) ts rest : frag B P (KSimple (KLiteral s)) ts rest -> text ts = s ++ text rest.
Proof.
  intros H. inversion H; subst.
  - now rewrite text_cons.
  - match goal with Hg : glob_token _ _ |- _ => inversion Hg end.
  - match goal with He : expansion _ _ _ _ _ |- _ => inversion He as [|s1 ts1 r1 Hd]; subst end.
    inversion Hd; subst. now rewrite text_cons.
Qed.
Lemma literal_frag_token (s : str) ts rest : frag B P (KSimple (KLiteral s)) ts rest -> ~ In 36%N s ->
  exists t, literal_token t = true /\ as_str t = s /\ ts = t :: rest.
Proof.
  intros H Hd. inversion H; subst.
  - eauto.
  - match goal with Hg : glob_token _ _ |- _ => inversion Hg end.
  - match goal with He : expansion _ _ _ _ _ |- _ => inversion He as [|s1 ts1 r1 Hd1]; subst end.
    inversion Hd1; subst. exfalso. apply Hd. now left.
Qed.
(** Literal fragments stand for themselves, up to the dollar sign. *)
Lemma frags_literal stop ws ts rest : frags B P stop ws ts rest -> forall s, literal_fragments ws = Some s ->
  ~ In 36%N s -> rest <> [] ->
  exists d, Forall (fun t => literal_token t = true) d /\ text d = s /\
    (ts = d ++ rest \/ ts = d ++ TBackslash :: TNewline :: rest).
Proof.
  induction 1 as [stop rest _|stop rest|stop w ts mid ws rest Hf _ _ IH|stop]; intros s Hs Hd Hr; cbn in Hs.
  - injection Hs as <-. exists []. repeat split; auto.
  - injection Hs as <-. exists []. repeat split; auto.
  - destruct w as [[l| | | | | | | | | |]| |]; try discriminate.
    destruct (literal_fragments ws) as [s'|] eqn:E; [|discriminate]. injection Hs as <-.
    destruct (IH _ eq_refl) as (d & H1 & H2 & H3).
    + intros Hi. apply Hd, in_or_app. now right.
    + exact Hr.
    + destruct (literal_frag_token _ _ _ Hf) as (t & T1 & T2 & T3).
      { intros Hi. apply Hd, in_or_app. now left. }
      exists (t :: d). split; [now constructor|]. split; [rewrite text_cons; congruence|].
      subst ts. destruct H3 as [-> | ->]; auto.
  - congruence.
Qed.
Lemma number_no_dollar s n : number s n -> ~ In 36%N s.
Proof.
  intros H Hi. apply number_chars in H as [_ H]. rewrite Forall_forall in H. specialize (H _ Hi). lia.
Qed.
Lemma word_num_fragments (ws : list (wk C)) k n : word_of ws = Some k -> word_as_num k = Some n ->
  exists s, literal_fragments ws = Some s /\ number s n /\ (n < 2 ^ 16)%N.
Proof.
  intros E En.
  assert (X : exists s, literal_fragments ws = Some s /\ from_str_radix_u u16_max 10 s = Some n).
  { destruct ws as [|w [|w2 ws]]; cbn [word_of] in E; [discriminate| |]; injection E as <-; cbn [word_as_num] in En.
    - destruct w as [[l| | | | | | | | | |]| |]; try discriminate. exists l. cbn. rewrite app_nil_r. auto.
    - destruct (literal_fragments (w :: w2 :: ws)) as [s|]; [|discriminate]. eauto. }
  destruct X as (s & E1 & E2). apply number_inv in E2 as [E2 E3]. exists s. repeat split; auto. unfold u16_max in E3. lia.
Qed.
Lemma word_num_fd w ws k n ts rest : frags B P None (w :: ws) ts rest -> word_of (w :: ws) = Some k ->
  word_as_num k = Some n -> rest <> [] -> fd_form (Some n) ts rest.
Proof.
  intros H E En Hr. destruct (word_num_fragments _ _ _ E En) as (s & E1 & E2 & E3).
  destruct (frags_literal _ _ _ _ H _ E1 (number_no_dollar _ _ E2) Hr) as (d & D1 & D2 & [-> | ->]); subst s;
    now constructor.
Qed.
Lemma not_fd_word k ts rest : word_form B P k ts rest -> not_fd ts rest ->
  word_as_num k = None \/ (match rest with t :: _ => redirect_token t | [] => false end) = false.
Proof.
  intros H Hn. destruct H as [w ws k ts rest H _ E].
  destruct (match rest with t :: _ => redirect_token t | [] => false end) eqn:Er; [|now right]. left.
  destruct rest as [|t rest]; [discriminate|]. specialize (Hn Er).
  destruct (word_as_num k) as [n|] eqn:En; [|reflexivity]. exfalso. apply (Hn n).
  eapply word_num_fd; eauto. discriminate.
Qed.

Lemma frag_word_start w ts rest : frag B P w ts rest -> word_start ts.
Proof.
  intros H. destruct H as [t rest H|t s rest H|t rest H|ts rest H|ws ts rest H|s ts rest H].
  - destruct t; try discriminate; reflexivity.
  - destruct H; reflexivity.
  - destruct t; try reflexivity. congruence.
  - reflexivity.
  - reflexivity.
  - destruct H as [g ts rest _ _|s ts rest H]; [reflexivity|]. destruct H; reflexivity.
Qed.
Lemma word_form_start k ts rest : word_form B P k ts rest -> word_start ts /\ hd_error ts <> Some TPound.
Proof.
  intros H. destruct H as [w ws k ts rest H Hp _]. split; [|exact Hp]. inversion H; subst.
  eapply frag_word_start; eauto.
Qed.
Lemma word_form_skipw k ts rest : word_form B P k ts rest -> skipw ts = ts.
Proof. intros H. apply word_start_skipw. now apply word_form_start in H. Qed.
Lemma fd_form_skipw fd ts op ts' : fd_form fd ts (op :: ts') -> solid op = true -> skipw ts = ts.
Proof.
  intros H Hs. assert (X : forall d n r, Forall (fun t => literal_token t = true) d -> number (text d) n -> skipw (d ++ r) = d ++ r).
  { intros d n r Hd Hn. destruct d as [|t d]; [apply number_chars in Hn as [Hn _]; exfalso; apply Hn; reflexivity|].
    inversion Hd as [|? ? Ht]; subst. apply skipw_solid. destruct t; try discriminate; reflexivity. }
  inversion H; subst; [now apply skipw_solid|eapply X; eauto|eapply X; eauto].
Qed.
Lemma redirect_form_skipw r ts rest : redirect_form B P r ts rest -> skipw ts = ts.
Proof.
  intros H. destruct H as [fd op mk k ts ts' rest Hf Ho _|fd op mk w ws k ts ts' rest Hf Ho _ _|fd op mk ts ts' rest Hf Ho _ _
    |fd op strip body ts ts' rest Hf Ho _|fd op strip body ws ts ts' rest Hf Ho _ _];
  (eapply fd_form_skipw; [exact Hf|destruct Ho; reflexivity]).
Qed.
End NotFd.

Lemma skipw_app_solid ts : skipw ts = ts -> skipw (skipw ts) = ts.
Proof. intros H. now rewrite !H. Qed.

(** ** Runs *)
Section CommandRuns.
Variable B : builder.
Variable P : pure B.
Variable fuel : nat.
Variable K : knots (bst B) (b_err B) (b_cmd B).
Notation C := (b_cmd B).
Notation prog := (prog (bst B) (b_err B)).

Definition word_run (k : cwk C) (ts rest : list token) : Prop :=
  word_start ts /\ forall ts0, skipw ts0 = ts -> runs (word_raw fuel K) ts0 (Some k) rest.
Lemma word_run_frags w ws k ts rest : word_start ts -> hd_error ts <> Some TPound ->
  (forall m words, runs (word_loop fuel K None m words) ts (words ++ w :: ws) rest) ->
  word_of (w :: ws) = Some k -> word_run k ts rest.
Proof.
  intros Hs Hp H E. split; [exact Hs|]. intros ts0 E0. unfold word_raw, word_raw_with_delim.
  rstep. rewrite E0. rstep. 
  replace (otoken_eqb (hd_error ts) (Some TPound)) with false
    by (destruct (otoken_eqb_spec (hd_error ts) (Some TPound)); congruence).
  eapply runs_call; [apply (H fuel [])|]. rewrite app_nil_l, pack_words_of, E. apply runs_ret.
Qed.
Lemma runs_no_word ts ts0 rest : no_word ts rest -> skipw ts0 = skipw ts -> runs (word_raw fuel K) ts0 None rest.
Proof.
  intros H E0. unfold word_raw, word_raw_with_delim. rstep. rewrite E0. rstep.
  destruct (otoken_eqb_spec (hd_error (skipw ts)) (Some TPound)) as [E|E].
  - destruct H as [ts H|ts H|ts H]; try apply runs_ret. rewrite H in E. discriminate.
  - destruct H as [ts H|ts H|ts H].
    + eapply runs_call; [apply (loop_end fuel K None fuel []); now left|]. apply runs_ret.
    + congruence.
    + rewrite H. eapply runs_call; [apply (loop_backslash fuel K None fuel []); discriminate|]. apply runs_ret.
Qed.
Lemma no_word_skipw ts rest : no_word ts rest -> skipw rest = rest.
Proof. intros [x H|x H|x H]; try apply skipw_idem. reflexivity. Qed.
Lemma no_word_of_skipw ts rest : no_word (skipw ts) rest -> no_word ts rest.
Proof.
  intros H. inversion H as [x E H1|x E H1|x E H1]; subst; rewrite ?skipw_idem in *.
  - now constructor.
  - now constructor.
  - now apply nw_backslash.
Qed.
Lemma runs_word k ts rest ts0 : word_run k ts rest -> skipw ts0 = ts ->
  runs (word B fuel K) ts0 (Some (pu_word P k)) (skipw rest).
Proof.
  intros [_ H] E. unfold word, word_preserve_trailing_whitespace. rstep. eapply runs_call; [apply H; exact E|].
  cbv beta match. rstep. eapply runs_build; [apply pu_word_ok|]. rstep. rstep. apply runs_ret.
Qed.
Lemma runs_word_none ts ts0 rest : no_word ts rest -> skipw ts0 = skipw ts -> runs (word B fuel K) ts0 None rest.
Proof.
  intros H E. unfold word, word_preserve_trailing_whitespace. rstep.
  eapply runs_call; [eapply runs_no_word; [exact H|exact E]|].
  cbv beta match. rstep. rstep. rewrite (no_word_skipw _ _ H). apply runs_ret.
Qed.

(** *** Redirections *)
Lemma redirect_word k ts0 ts rest : word_run k ts rest -> skipw ts0 = ts ->
  word_as_num k = None \/ (match rest with t :: _ => redirect_token t | [] => false end) = false ->
  runs (redirect B fuel K) ts0 (Some (inr (pu_word P k))) rest.
Proof.
  intros [_ Hw] E H. unfold redirect. eapply runs_call; [apply Hw; exact E|]. cbv beta match.
  assert (X : runs (w <- build (o_word B k) ;; ret (Some (inr w))) rest
    (Some (inr (pu_word P k)) : option (b_redirect B + b_word B)) rest).
  { eapply runs_build; [apply pu_word_ok|apply runs_ret]. }
  destruct (word_as_num k) as [n|]; [|exact X]. destruct H as [H|H]; [discriminate|].
  unfold redirect_after. rstep. destruct rest as [|t rest]; [exact X|]. cbn [hd_error].
  destruct t; try discriminate; exact X.
Qed.
Lemma redirect_none ts ts0 rest : no_word ts rest -> no_redirect rest -> skipw ts0 = skipw ts ->
  runs (redirect B fuel K) ts0 None rest.
Proof.
  intros H Hn E. unfold redirect. eapply runs_call; [eapply runs_no_word; [exact H|exact E]|].
  cbv beta match. unfold redirect_after. rstep. destruct rest as [|t r]; [apply runs_ret|].
  destruct t; cbn in Hn; try apply runs_ret; discriminate.
Qed.
Lemma loop_literals d : Forall (fun t => literal_token t = true) d -> forall m words rest ws r,
  (forall m, runs (word_loop fuel K None m (words ++ map (fun t => KSimple (KLiteral (as_str t))) d)) rest ws r) ->
  runs (word_loop fuel K None m words) (d ++ rest) ws r.
Proof.
  induction 1 as [|t d Ht _ IH]; intros m words rest ws r H.
  - cbn [map] in H. rewrite app_nil_r in H. apply H.
  - destruct m; [apply runs_fuel|]. cbn [app]. apply loop_literal; [exact Ht|intros []; reflexivity|].
    apply IH. intros m'. rewrite <- app_assoc. apply H.
Qed.
Lemma literals_text d : literal_fragments (map (fun t => KSimple (KLiteral (as_str t)) : wk C) d) = Some (text d).
Proof. induction d as [|t d IH]; [reflexivity|]. cbn [map literal_fragments]. rewrite IH, text_cons. reflexivity. Qed.
Lemma number_word d n : number (text d) n -> (n < 2 ^ 16)%N ->
  exists k, pack_words (map (fun t => KSimple (KLiteral (as_str t)) : wk C) d) = Some k /\ word_as_num k = Some n.
Proof.
  intros Hn Hm. pose proof (literals_text d) as E.
  assert (X : from_str_radix_u u16_max 10 (text d) = Some n) by (apply number_u_max; [exact Hn|unfold u16_max; lia]).
  destruct d as [|t [|t2 d]].
  - apply number_chars in Hn as [Hn _]. exfalso. now apply Hn.
  - eexists. split; [reflexivity|]. cbn [word_as_num]. rewrite text_cons in X. cbn in X. rewrite app_nil_r in X. exact X.
  - eexists. split; [reflexivity|]. cbn [word_as_num map] in *. rewrite E. exact X.
Qed.
(** A redirection operator after the optional descriptor. *)
Lemma redirect_start_any fd ts op ts' r rest ts0 : fd_form fd ts (op :: ts') -> redirect_token op = true ->
  (match op with TDLess | TDLessDash => runs (redirect_heredoc B fuel K fd) (op :: ts') r rest
   | _ => runs (redirect_op B fuel K op fd) ts' r rest end) -> skipw ts0 = ts ->
  runs (redirect B fuel K) ts0 (Some (inl r)) rest.
Proof.
  intros Hf Ho H E.
  assert (X : forall w, runs (redirect_after B fuel K fd w) (op :: ts') (Some (inl r)) rest).
  { intros w. unfold redirect_after. rstep.
    destruct op; try discriminate; repeat (progress (try rstep)); (eapply runs_call; [exact H|apply runs_ret]). }
  assert (Hd : delimited (op :: ts')) by (destruct op; try discriminate; reflexivity).
  assert (D : (fd = None /\ ts = op :: ts') \/ exists d n, fd = Some n /\ Forall (fun t => literal_token t = true) d /\
      number (text d) n /\ (n < 2 ^ 16)%N /\
      (ts = d ++ op :: ts' \/ ts = d ++ TBackslash :: TNewline :: op :: ts')) by (inversion Hf; subst; eauto 10).
  unfold redirect. destruct D as [[D1 D2]|(d & n & D1 & D3 & D4 & D5 & D2)]; subst fd.
  - rewrite D2 in E.
    assert (Es : skipw (op :: ts') = op :: ts') by (apply skipw_solid; destruct op; (discriminate || reflexivity)).
    assert (Hw : no_word (op :: ts') (op :: ts')).
    { rewrite <- Es at 2. apply nw_delimited. rewrite Es. exact Hd. }
    eapply runs_call; [eapply runs_no_word; [exact Hw|rewrite Es; exact E]|]. apply X.
  - destruct (number_word d n D4 D5) as (k & Ek & En).
    eapply runs_call.
    { unfold word_raw, word_raw_with_delim. rstep. rewrite E. rstep.
      replace (otoken_eqb (hd_error ts) (Some TPound)) with false.
      - eapply (runs_call _ _ _ (map (fun t => KSimple (KLiteral (as_str t))) d) (op :: ts')).
        + destruct D2 as [-> | ->]; (apply loop_literals; [exact D3|]; intros m); cbn [app].
          * apply loop_end. now left.
          * apply loop_escaped_newline. discriminate.
        + rewrite Ek. apply runs_ret.
      - symmetry. pose proof (number_chars _ _ D4) as [N1 N2]. destruct d as [|t d]; [exfalso; now apply N1|].
        destruct (otoken_eqb_spec (hd_error ts) (Some TPound)) as [Ep|Ep]; [|reflexivity]. exfalso.
        assert (t = TPound) by (destruct D2 as [-> | ->]; cbn in Ep; congruence). subst t.
        rewrite text_cons in N2. inversion N2 as [|? ? Hc]; subst. lia. }
    cbv beta match. rewrite En. apply X.
Qed.
Lemma redirect_start fd ts op ts' r rest ts0 : fd_form fd ts (op :: ts') ->
  (match op with TLess | TGreat | TDGreat | TClobber | TLessAnd | TGreatAnd | TLessGreat => true | _ => false end) = true ->
  runs (redirect_op B fuel K op fd) ts' r rest -> skipw ts0 = ts ->
  runs (redirect B fuel K) ts0 (Some (inl r)) rest.
Proof.
  intros H1 H2 H3 H4. eapply redirect_start_any; [exact H1|destruct op; (discriminate || reflexivity)| |exact H4].
  destruct op; first [discriminate | exact H3].
Qed.
Lemma redirect_start_here fd ts op strip ts' r rest ts0 : fd_form fd ts (op :: ts') -> here_op op strip ->
  runs (redirect_heredoc B fuel K fd) (op :: ts') r rest -> skipw ts0 = ts ->
  runs (redirect B fuel K) ts0 (Some (inl r)) rest.
Proof.
  intros H1 H2 H3 H4. eapply redirect_start_any; [exact H1|destruct H2; reflexivity| |exact H4].
  destruct H2; exact H3.
Qed.
Lemma redirect_op_file op mk fd k ts' rest : redirect_op_form op mk ->
  word_run k (skipw ts') rest ->
  runs (redirect_op B fuel K op fd) ts' (pu_redirect P (mk fd (pu_word P k))) rest.
Proof.
  intros Ho [_ Hw]. unfold redirect_op. rstep.
  assert (X : forall {D} (f : b_word B -> prog D) x r, runs (f (pu_word P k)) rest x r ->
     runs (w <- get_path B fuel K ;; f w) (skipw ts') x r).
  { intros D f x r H. unfold get_path. rstep. eapply runs_call; [apply Hw; apply skipw_idem|].
    cbv beta match. eapply runs_build; [apply pu_word_ok|exact H]. }
  destruct Ho; cbv match; rstep; apply X; rstep; 
  (eapply runs_build_end; [apply pu_redirect_ok]).
Qed.
Lemma digits_ok s : digits s -> forallb is_digit10 s = true.
Proof.
  unfold digits. induction 1 as [|c s H _ IH]; [reflexivity|]. cbn. rewrite IH, andb_true_r.
  unfold is_digit10. destruct (N.leb_spec 48 c), (N.leb_spec c 57); auto; lia.
Qed.
Lemma maybe_digits_ok (s : swk C) : maybe_digits s -> simple_could_be_numeric s = true.
Proof. destruct s; cbn; auto; try contradiction; apply digits_ok. Qed.
Lemma maybe_number_ok (w : wk C) : maybe_number w -> could_be_numeric w = true.
Proof.
  destruct w as [s|l|s]; cbn [could_be_numeric maybe_number].
  - apply maybe_digits_ok.
  - intros H. apply forallb_forall. intros y Hy. apply maybe_digits_ok. exact (proj1 (Forall_forall _ _) H y Hy).
  - apply digits_ok.
Qed.
Lemma redirect_op_dup op mk fd w ws k ts' rest : dup_op_form op mk ->
  word_run k (skipw ts') rest -> Forall maybe_number (w :: ws) -> word_of (w :: ws) = Some k ->
  hd_error (skipw ts') <> Some TDash ->
  runs (redirect_op B fuel K op fd) ts' (pu_redirect P (mk fd (pu_word P k))) rest.
Proof.
  intros Ho [_ Hw] Hn E Hd. unfold redirect_op. rstep.
  assert (X : forall {D} (f : b_word B -> prog D) x r, runs (f (pu_word P k)) rest x r ->
     runs (w <- get_dup_path B fuel K ;; f w) (skipw ts') x r).
  { intros D f x r H. unfold get_dup_path. rstep. eapply runs_call.
    - apply runs_peek_token_no; [discriminate|repeat constructor|].
      intros (t & rs & [<-|[]] & E1 & _). rewrite skipw_idem in E1. rewrite E1 in Hd. now apply Hd.
    - cbv beta match. rstep. rstep. rstep. rstep. eapply runs_call; [apply Hw; rewrite !skipw_idem; reflexivity|].
      cbv beta match zeta.
      replace (match k with KSingle p => could_be_numeric p | KConcat v => forallb could_be_numeric v end) with true.
      + rstep. eapply runs_build; [apply pu_word_ok|exact H].
      + inversion Hn as [|? ? H1 H2]; subst. destruct ws as [|w2 ws]; cbn in E; injection E as <-.
        * symmetry. now apply maybe_number_ok.
        * symmetry. apply forallb_forall. intros y Hy. apply maybe_number_ok.
          exact (proj1 (Forall_forall _ _) Hn y Hy). }
  destruct Ho; cbv match; rstep; apply X; rstep; 
  (eapply runs_build_end; [apply pu_redirect_ok]).
Qed.
Lemma redirect_op_close op mk fd ts' rest : dup_op_form op mk ->
  skipw ts' = TDash :: rest -> delimited rest ->
  runs (redirect_op B fuel K op fd) ts'
    (pu_redirect P (mk fd (pu_word P (KSingle (KSimple (KLiteral (s_of "-"))))))) rest.
Proof.
  intros Ho E Hd. unfold redirect_op. rstep. rewrite E.
  assert (X : forall {D} (f : b_word B -> prog D) x r, 
     runs (f (pu_word P (KSingle (KSimple (KLiteral (s_of "-")))))) rest x r ->
     runs (w <- get_dup_path B fuel K ;; f w) (TDash :: rest) x r).
  { intros D f x r H. unfold get_dup_path. rstep. eapply runs_call.
    - eapply runs_peek_token_yes; [now left|repeat constructor|reflexivity|exact Hd].
    - cbv beta match. rstep. rstep. unfold reserved_token. rstep. eapply runs_call.
      + eapply runs_reserved_token; [now left|repeat constructor|reflexivity|exact Hd].
      + cbv beta match. rstep. rstep. eapply runs_build; [apply pu_word_ok|exact H]. }
  destruct Ho; cbv match; rstep; apply X; rstep; 
  (eapply runs_build_end; [apply pu_redirect_ok]).
Qed.

Definition redirect_run (r : b_redirect B) (ts rest : list token) : Prop :=
  forall ts0, skipw ts0 = ts -> runs (redirect B fuel K) ts0 (Some (inl r)) rest.
Definition redirects_run (rs : list (b_redirect B)) (ts rest : list token) : Prop :=
  forall n acc ts0, skipw ts0 = skipw ts -> runs (redirect_list_loop B fuel K n acc) ts0 (acc ++ rs) rest.
Lemma redirects_end ts rest : no_word ts rest -> no_redirect rest -> redirects_run [] ts rest.
Proof.
  intros H Hn n acc ts0 E. destruct n; [apply runs_fuel|]. cbn [redirect_list_loop]. rstep. rstep. rewrite E.
  eapply runs_call; [eapply redirect_none; [exact H|exact Hn|apply skipw_idem]|]. rewrite app_nil_r. apply runs_ret.
Qed.
Lemma redirects_more r ts mid rs rest : redirect_run r (skipw ts) mid -> redirects_run rs mid rest ->
  redirects_run (r :: rs) ts rest.
Proof.
  intros H1 H2 n acc ts0 E. destruct n; [apply runs_fuel|]. cbn [redirect_list_loop]. rstep. rstep. rewrite E.
  eapply runs_call; [apply H1; apply skipw_idem|]. cbv beta match.
  replace (acc ++ r :: rs) with ((acc ++ [r]) ++ rs) by (now rewrite <- app_assoc). apply H2. reflexivity.
Qed.

(** *** Simple commands *)
Definition arguments_run (args : list (redirect_or_cmd_word (b_redirect B) (b_word B))) (ts rest : list token) : Prop :=
  forall n acc ts0, skipw ts0 = skipw ts -> runs (simple_args_loop B fuel K n acc) ts0 (acc ++ args) rest.
Lemma arguments_end ts rest : no_word ts rest -> no_redirect rest -> arguments_run [] ts rest.
Proof.
  intros H Hn n acc ts0 E. destruct n; [apply runs_fuel|]. cbn [simple_args_loop].
  eapply runs_call; [eapply redirect_none; [exact H|exact Hn|exact E]|]. rewrite app_nil_r. apply runs_ret.
Qed.
Lemma arguments_redirect r ts mid args rest : redirect_run r (skipw ts) mid -> arguments_run args mid rest ->
  arguments_run (DRedirect r :: args) ts rest.
Proof.
  intros H1 H2 n acc ts0 E. destruct n; [apply runs_fuel|]. cbn [simple_args_loop]. 
  eapply runs_call; [apply H1; exact E|]. cbv beta match.
  replace (acc ++ DRedirect r :: args) with ((acc ++ [DRedirect r]) ++ args) by (now rewrite <- app_assoc). apply H2. reflexivity.
Qed.
Lemma arguments_word k ts mid args rest : word_run k (skipw ts) mid ->
  word_as_num k = None \/ (match mid with t :: _ => redirect_token t | [] => false end) = false ->
  arguments_run args mid rest -> arguments_run (DCmdWord (pu_word P k) :: args) ts rest.
Proof.
  intros H1 Hn H2 n acc ts0 E. destruct n; [apply runs_fuel|]. cbn [simple_args_loop]. 
  eapply runs_call; [eapply redirect_word; [exact H1|exact E|exact Hn]|]. cbv beta match.
  match goal with |- runs _ _ (acc ++ ?x :: args) _ =>
    replace (acc ++ x :: args) with ((acc ++ [x]) ++ args) by (now rewrite <- app_assoc) end. apply H2. reflexivity.
Qed.

Definition simple_run (vars : list (redirect_or_env_var (b_redirect B) str (b_word B)))
    (args : list (redirect_or_cmd_word (b_redirect B) (b_word B))) (ts rest : list token) : Prop :=
  exists exec mid, 
    (forall n vars0 ts0, skipw ts0 = skipw ts -> 
       runs (simple_vars_loop B fuel K n vars0) ts0 (vars0 ++ vars, exec) mid) /\
    (forall n, runs (simple_args_loop B fuel K n (match exec with Some w => [DCmdWord w] | None => [] end)) mid args rest).
Lemma not_assignment ts : ~ at_assignment ts -> look assignment_try ts = false.
Proof.
  intros H. unfold assignment_try. destruct ts as [|t ts]; [reflexivity|]. destruct t; try reflexivity.
  cbn [look hd_error tl]. destruct ts as [|t ts]; [reflexivity|]. cbn in *. destruct t; try reflexivity. exfalso. now apply H.
Qed.
Lemma no_word_no_assignment ts rest : no_word ts rest -> ~ at_assignment (skipw ts).
Proof.
  intros [x H|x H|x H].
  - destruct (skipw x) as [|t r]; [auto|]. destruct t; auto. discriminate.
  - destruct (skipw x) as [|t r]; [auto|]. destruct t; auto. discriminate.
  - rewrite H. auto.
Qed.
Lemma no_word_again ts rest : no_word ts rest -> no_word rest rest.
Proof.
  intros [x H|x H|x H].
  - rewrite <- (skipw_idem x) at 2. constructor. now rewrite skipw_idem.
  - rewrite <- (skipw_idem x) at 2. apply nw_comment. now rewrite skipw_idem.
  - apply (nw_delimited []). exact I.
Qed.
Lemma simple_end ts rest : no_word ts rest -> no_redirect rest -> simple_run [] [] ts rest.
Proof.
  intros H Hn. exists None, rest. split.
  - intros n vars0 ts0 E. destruct n; [apply runs_fuel|]. cbn [simple_vars_loop]. rstep. rewrite E. rstep.
    rewrite not_assignment by (eapply no_word_no_assignment; exact H).
    eapply runs_call; [eapply redirect_none; [exact H|exact Hn|apply skipw_idem]|]. rewrite app_nil_r. apply runs_ret.
  - intros n. apply (arguments_end rest rest (no_word_again _ _ H) Hn n []). reflexivity.
Qed.
Lemma simple_redirect r ts mid vars args rest : redirect_run r (skipw ts) mid -> ~ at_assignment (skipw ts) ->
  simple_run vars args mid rest -> simple_run (ERedirect r :: vars) args ts rest.
Proof.
  intros H1 Ha (exec & mid' & H2 & H3). exists exec, mid'. split; [|exact H3].
  intros n vars0 ts0 E. destruct n; [apply runs_fuel|]. cbn [simple_vars_loop]. rstep. rewrite E. rstep.
  rewrite not_assignment by exact Ha. eapply runs_call; [apply H1; apply skipw_idem|]. cbv beta match.
  match goal with |- runs _ _ (vars0 ++ ?x :: vars, _) _ =>
    replace (vars0 ++ x :: vars) with ((vars0 ++ [x]) ++ vars) by (now rewrite <- app_assoc) end. apply H2. reflexivity.
Qed.
Lemma simple_assign v k ts mid mid' vars args rest : skipw ts = TName v :: TEquals :: mid ->
  (forall w, hd_error mid <> Some (TWhitespace w)) ->
  word_run k (skipw mid) mid' -> simple_run vars args mid' rest ->
  simple_run (EEnvVar v (Some (pu_word P k)) :: vars) args ts rest.
Proof.
  intros Es Hb Hw (exec & mid2 & H2 & H3). exists exec, mid2. split; [|exact H3].
  intros n vars0 ts0 E. destruct n; [apply runs_fuel|]. cbn [simple_vars_loop]. rstep. rewrite E, Es. rstep.
  change (look assignment_try _) with true. cbv match. rstep. rstep. rstep.
  eapply (runs_call _ _ _ (Some (pu_word P k)) (skipw mid')).
  - pose proof (runs_word k (skipw mid) mid' mid Hw eq_refl) as X.
    destruct mid as [|t mid]; [exact X|]. cbn [hd_error]. destruct t; try exact X. now destruct (Hb s).
  - cbv beta.
    match goal with |- runs _ _ (vars0 ++ ?x :: vars, _) _ =>
      replace (vars0 ++ x :: vars) with ((vars0 ++ [x]) ++ vars) by (now rewrite <- app_assoc) end.
    apply H2. apply skipw_idem.
Qed.
Lemma simple_assign_empty v ts mid mid' vars args rest : skipw ts = TName v :: TEquals :: mid -> no_value mid mid' ->
  simple_run vars args mid' rest -> simple_run (EEnvVar v None :: vars) args ts rest.
Proof.
  intros Es Hd (exec & mid2 & H2 & H3). exists exec, mid2. split; [|exact H3].
  intros n vars0 ts0 E. destruct n; [apply runs_fuel|]. cbn [simple_vars_loop]. rstep. rewrite E, Es. rstep.
  change (look assignment_try _) with true. cbv match. rstep. rstep. rstep.
  assert (X : runs (match hd_error mid with
                      | Some (TWhitespace _) => ret None
                      | _ => word B fuel K
                      end) mid None mid').
  { destruct Hd as [w ts1|ts1 rest1 Hb Hn]; [apply runs_ret|].
    pose proof (runs_word_none ts1 ts1 rest1 Hn eq_refl) as X.
    destruct ts1 as [|t ts1]; [exact X|]. cbn [hd_error]. destruct t; try exact X. now destruct (Hb s). }
  eapply runs_call; [exact X|]. cbv beta.
  match goal with |- runs _ _ (vars0 ++ ?x :: vars, _) _ =>
      replace (vars0 ++ x :: vars) with ((vars0 ++ [x]) ++ vars) by (now rewrite <- app_assoc) end.
  apply H2. reflexivity.
Qed.
Lemma simple_exec k ts mid args rest : word_run k (skipw ts) mid ->
  word_as_num k = None \/ (match mid with t :: _ => redirect_token t | [] => false end) = false ->
  ~ at_assignment (skipw ts) -> arguments_run args mid rest ->
  simple_run [] (DCmdWord (pu_word P k) :: args) ts rest.
Proof.
  intros H1 Hn Ha H2. exists (Some (pu_word P k)), mid. split.
  - intros n vars0 ts0 E. destruct n; [apply runs_fuel|]. cbn [simple_vars_loop]. rstep. rewrite E. rstep.
    rewrite not_assignment by exact Ha.
    eapply runs_call; [eapply redirect_word; [exact H1|apply skipw_idem|exact Hn]|]. cbv beta match.
    rewrite app_nil_r. apply runs_ret.
  - intros n. now apply (H2 n [DCmdWord (pu_word P k)]).
Qed.
Lemma runs_simple_command vars args ts rest ts0 : simple_run vars args ts rest -> skipw ts0 = skipw ts ->
  (vars <> [] \/ args <> []) ->
  runs (simple_command B fuel K) ts0 (pu_simple_command P vars args) rest.
Proof.
  intros (exec & mid & H1 & H2) E Hn. unfold simple_command. eapply runs_call; [apply (H1 fuel []); exact E|].
  cbv beta match. cbn [app]. eapply runs_call; [apply H2|].
  replace (is_nil vars && is_nil args) with false
    by (destruct vars, args; try reflexivity; destruct Hn; congruence).
  apply runs_build_end, pu_simple_command_ok.
Qed.
End CommandRuns.
