(** * Printed commands are read back (C31) *)
From Coq Require Import String.
From Verif Require Import Base Token Lexer LexSpec LexProofs LexTheorems Relex Seams Ast Builder ParserBase BalancedSpec HeredocSpec ArithSpec
  DefaultBuilder Compress Runs Pure Forms BaseForms WordRuns CommandRuns ArithTheorems Quotes LexJoin Printer RoundTripWord.
Local Open Scope N_scope.

Section RoundTrip.
Context {U : Uni}.
Notation frag := (frag Bd Pd).
Notation frags := (frags Bd Pd).
Notation word_form := (word_form Bd Pd).
Notation redirect_form := (redirect_form Bd Pd).
Notation arguments := (arguments Bd Pd).
Notation redirects := (redirects Bd Pd).
Notation simple := (simple Bd Pd).
Notation compound := (compound Bd Pd).
Notation group := (group Bd Pd).
Notation command_form := (command_form Bd Pd).

(** ** Text before a character that is not a blank *)
Definition good (s : str) (ts : list token) : Prop := lexes_as s ts tight /\ forall r, tight r -> tight (s ++ r).
Lemma good_nil : good [] [].
Proof. split; [apply lexes_nil|auto]. Qed.
Lemma good_app s ts s' ts' : good s ts -> good s' ts' -> good (s ++ s') (ts ++ ts').
Proof.
  intros [L T] [L' T']. split; [eapply lexes_app; eauto|]. intros r Hr. rewrite <- app_assoc. auto.
Qed.
Lemma good_eq s s' ts ts' : good s ts -> s = s' -> ts = ts' -> good s' ts'.
Proof. now intros H <- <-. Qed.
(** The first character of a token. *)
Lemma first_char t (c : char) s : lexable t -> solid t = true -> t <> TNewline -> as_str t = c :: s -> is_whitespace c = false.
Proof.
  intros Hl Hs Hn E.
  assert (Or : ordinary c -> is_whitespace c = false).
  { intros H. apply ordinary_b_spec in H. unfold ordinary_b in H. apply andb_true_iff in H as [H _]. now apply negb_true_iff in H. }
  destruct t; try discriminate; try congruence; try (injection E as <- _; reflexivity).
  - destruct p; injection E as <- _; reflexivity.
  - cbn in E. subst s0. destruct Hl as [H _]. auto.
  - cbn in E. subst s0. destruct Hl as [[H _] _]. auto.
Qed.
Lemma tight_text t ts s ts' r : Forall lexable ts -> text ts = s -> ts = t :: ts' -> solid t = true -> t <> TNewline -> tight (s ++ r).
Proof.
  intros Hl <- -> Hs Hn. inversion Hl; subst. rewrite text_cons. destruct (as_str t) as [|c u] eqn:E; [now elim (lexable_text t)|].
  cbn. left. eapply first_char; eauto.
Qed.
Lemma good_spaced s ts : lexes_as s ts spaced -> (exists t ts', ts = t :: ts' /\ solid t = true /\ t <> TNewline \/ 
    exists u, ts = TBackslash :: u :: ts') -> good (blank_after s) (ts ++ [sp]).
Proof.
  intros L H. split.
  - eapply lexes_app; [exact L|apply lexes_sp|]. reflexivity.
  - intros r _. unfold blank_after. rewrite <- app_assoc.
    pose proof (lexes_as_text _ _ _ [32] L eq_refl) as E. pose proof (lexes_as_lexable _ _ _ [32] L eq_refl) as F.
    destruct H as (t & ts' & [(Et & H1 & H2)|(u & Eu)]); [eapply tight_text; eauto|].
    subst. rewrite text_cons. left. reflexivity.
Qed.
Lemma good_op t : lexable t -> operator t -> t <> TNewline -> good (as_str t ++ [32]) [t; sp].
Proof.
  intros Hl Ho Hn.
  assert (Hb : t <> TBackslash) by (intros ->; exact Ho).
  assert (Hs : solid t = true) by (destruct t; try reflexivity; contradiction).
  apply (good_spaced (as_str t) [t]).
  - eapply lexes_weaken; [now apply lexes_token|]. intros r Hr. destruct r as [|c r]; [discriminate|]. injection Hr as ->.
    destruct t; try contradiction; reflexivity.
  - exists t, []. left. auto.
Qed.
Lemma good_name w : lexable (TName w) -> good (w ++ [32]) [TName w; sp].
Proof.
  intros Hl. apply (good_spaced w [TName w]).
  - eapply lexes_weaken; [apply (lexes_token (TName w)); [exact Hl|discriminate]|]. intros r Hr. destruct r as [|c r]; [discriminate|]. injection Hr as ->.
    reflexivity.
  - exists (TName w), []. left. split; [reflexivity|]. split; [reflexivity|discriminate].
Qed.
Definition keywords : list str := [DO; THEN; ELIF; ELSE; FI; DONE; ESAC; FOR; CASE; IF; WHILE; UNTIL; IN].
Lemma good_kw w : In w keywords -> good (w ++ [32]) [TName w; sp].
Proof.
  intros H. apply good_name. apply (lex_lexable w). cbn [keywords In] in H.
  repeat (destruct H as [<- |H]; [now left|]). contradiction.
Qed.
Ltac kw := apply good_kw; cbn; tauto.

(** ** Words *)
Definition word_tokens (w : tlword) (k : cwk tlcmd) (ts : list token) : Prop :=
  default_word k = w /\ good (blank_after (show_word w)) (ts ++ [sp]) /\ text ts = show_word w /\ Forall lexable ts /\
  (forall rest, delimited rest -> word_form k (ts ++ rest) rest) /\
  (forall rest, word_start (ts ++ rest)) /\ ts <> [] /\ hd_error ts <> Some TPound /\
  (* a word that starts with literal text goes on with something else than a delimiter *)
  (forall t u ts', ts = t :: u :: ts' -> literal_token t = true -> is_word_delimiter u = false).
Lemma frags_start a ws ts rest : frags None (a :: ws) ts rest -> word_start ts.
Proof. intros H. inversion H; subst. eapply frag_word_start; eassumption. Qed.
Lemma word_sem w : W_sem w -> exists k ts, word_tokens w k ts.
Proof.
  intros (a & ws & k & ts & Ew & Ed & L & F & Hh & _). exists k, ts.
  pose proof (lexes_as_text _ _ _ [32] L eq_refl) as Et. pose proof (lexes_as_lexable _ _ _ [32] L eq_refl) as Fl.
  assert (Hne : ts <> []).
  { intros ->. specialize (F [] I). apply frags_start in F. exact F. }
  assert (Hp : hd_error ts <> Some TPound) by (apply (hd_text TPound _ _ Et); [exact Hh|discriminate]).
  assert (Hst : forall rest, word_start (ts ++ rest)).
  { intros rest. pose proof (frags_start _ _ _ _ (F [] I)) as S0. rewrite app_nil_r in S0.
    pose proof (frags_start _ _ _ _ (F [TNewline] eq_refl)) as S1.
    destruct ts as [|t ts]; [congruence|]. destruct t; try exact S0. destruct ts as [|t ts]; [contradiction|]. exact S0. }
  split; [exact Ed|]. split.
  { apply good_spaced; [exact L|]. specialize (Hst [TNewline]). destruct ts as [|t ts]; [congruence|]. exists t. 
    destruct t; try (exists ts; left; split; [reflexivity|split; [reflexivity|discriminate]]); try discriminate.
    destruct ts as [|u ts]; [contradiction|]. exists ts. right. eauto. }
  split; [exact Et|]. split; [exact Fl|]. split.
  { intros rest Hr. eapply wf_word; [apply F; exact Hr| |exact Ew]. destruct ts; [congruence|]. exact Hp. }
  split; [exact Hst|]. split; [exact Hne|]. split; [exact Hp|].
  intros t u ts' -> Ht. specialize (F [] I). rewrite app_nil_r in F. inversion F as [| |? ? ? mid ? ? Hf _ Hfs|]; subst.
  assert (mid = u :: ts').
  { inversion Hf as [| | | | |s ? ? He]; subst; try discriminate; [reflexivity|destruct t; discriminate || match goal with H : glob_token _ _ |- _ => inversion H end|].
    inversion He as [|? ? ? Hd]; subst; [discriminate|]. inversion Hd; subst; discriminate. }
  subst mid. inversion Hfs as [? ? Hd| |? ? ? ? ? ? Hf2|]; subst; try reflexivity.
  apply frag_word_start in Hf2. destruct u; try reflexivity; discriminate Hf2.
Qed.

Lemma skipw_sp x : skipw (sp :: x) = skipw x.
Proof. reflexivity. Qed.

(** ** Redirections *)
Definition redirect_start (t : token) : Prop := redirect_token t = true \/ exists n, t = TLiteral (dec n).
Definition R_sem (r : d_redirect) : Prop := exists ts,
  good (blank_after (show_redirect show_word r)) (ts ++ [sp]) /\
  (forall rest, delimited rest -> redirect_form r (ts ++ rest) rest) /\
  exists t ts', ts = t :: ts' /\ redirect_start t /\
    (redirect_token t = false -> match ts' with u :: _ => redirect_token u = true | [] => False end).
Lemma fd_sem fd op : ok_fd fd -> redirect_token op = true -> lexable op -> exists d,
  lexes_as (show_fd fd ++ as_str op) (d ++ [op]) spaced /\ (forall rest, fd_form fd (d ++ op :: rest) (op :: rest)) /\
  (d = [] \/ exists n, d = [TLiteral (dec n)]).
Proof.
  intros Hf Ho Hl.
  assert (Lo : lexes_as (as_str op) [op] spaced).
  { eapply lexes_weaken; [apply lexes_token; [exact Hl|]|].
    - intros ->; discriminate.
    - intros r Hr. destruct r as [|c r]; [discriminate|]. injection Hr as ->. destruct op; try discriminate; reflexivity. }
  destruct fd as [n|]; cbn [show_fd ok_fd] in *.
  - exists [TLiteral (dec n)]. split; [|split; [|eauto]].
    + eapply lexes_app; [apply (lexes_token (TLiteral (dec n))); [apply dec_lexable|discriminate]|exact Lo|].
      intros r _. destruct op; try discriminate; reflexivity.
    + intros rest. apply (fd_some [TLiteral (dec n)]); [now repeat constructor| |exact Hf].
      unfold text. cbn. rewrite app_nil_r. apply nu_digits, dec_value.
  - exists []. split; [exact Lo|]. split; [intros; apply fd_none|now left].
Qed.
Lemma redirect_sem r : ok_redirect r -> W_sem (redirect_word r) -> R_sem r.
Proof.
  intros Hok HW.
  assert (Start : forall d op x, d = [] \/ (exists n, d = [TLiteral (dec n)]) -> redirect_token op = true ->
    exists t ts', d ++ op :: x = t :: ts' /\ redirect_start t /\ (redirect_token t = false -> match ts' with u :: _ => redirect_token u = true | [] => False end)).
  { clear. intros d op x [-> |(n & ->)] Ho; cbn [app].
    - exists op, x. split; [reflexivity|]. split; [now left|congruence].
    - eexists _, _. split; [reflexivity|]. split; [right; eauto|]. intros _. exact Ho. }
  assert (Good : forall fd op d s wts, lexes_as (show_fd fd ++ as_str op) (d ++ [op]) spaced -> d = [] \/ (exists n, d = [TLiteral (dec n)]) ->
     redirect_token op = true -> good (blank_after s) (wts ++ [sp]) ->
     good (blank_after (show_fd fd ++ (as_str op ++ [32]) ++ s)) ((d ++ op :: sp :: wts) ++ [sp])).
  { clear. intros fd op d s wts L Hd Ho G. unfold blank_after in *.
    apply (good_eq ((show_fd fd ++ as_str op) ++ [32] ++ (s ++ [32])) _ ((d ++ [op]) ++ [sp] ++ (wts ++ [sp]))).
    - rewrite (app_assoc _ [32]), (app_assoc _ [sp]). apply good_app; [|exact G]. apply good_spaced; [exact L|].
      destruct Hd as [-> |(n & ->)]; cbn [app]; eexists _, _; left; (split; [reflexivity|split; [|]]); try reflexivity; try discriminate;
      destruct op; try discriminate; reflexivity.
    - now rewrite <- !app_assoc.
    - rewrite <- !app_assoc. reflexivity. }
  assert (File : forall fd op mk w, ok_fd fd -> redirect_op_form op mk -> redirect_token op = true -> lexable op -> W_sem w ->
    show_redirect show_word r = show_fd fd ++ (as_str op ++ [32]) ++ show_word w -> r = mk fd w -> R_sem r).
  { intros fd op mk w Hf Hop Ho Hl Hw Es ->. destruct (word_sem w Hw) as (k & wts & <- & G & _ & _ & F & _).
    destruct (fd_sem fd op Hf Ho Hl) as (d & L & Hfd & Hd). exists (d ++ op :: sp :: wts). split; [rewrite Es; now apply Good|]. split.
    - intros rest Hr. rewrite <- app_assoc. cbn [app]. 
      change (mk fd (default_word k)) with (pu_redirect Pd (mk fd (pu_word Pd k))).
      eapply rf_file; [apply Hfd|exact Hop|]. rewrite skipw_sp. specialize (F rest Hr). rewrite (word_form_skipw _ _ _ _ _ F). exact F.
    - rewrite <- (app_nil_r (_ ++ _)), <- app_assoc. now apply Start. }
  assert (Dup : forall fd op mk w, ok_fd fd -> ok_dup w -> dup_op_form op mk -> redirect_token op = true -> lexable op -> W_sem w ->
    show_redirect show_word r = show_fd fd ++ (as_str op ++ [32]) ++ show_word w -> r = mk fd w -> R_sem r).
  { intros fd op mk w Hf Hdup Hop Ho Hl Hw Es ->. pose proof Hw as Hw0. destruct (word_sem w Hw0) as (_ & wts' & _ & _ & Et & _).
    destruct Hw as (a & ws & k & wts & Ew & Ed & Lw & F & Hh & Hnum).
    destruct (fd_sem fd op Hf Ho Hl) as (d & L & Hfd & Hd). exists (d ++ op :: sp :: wts). split; [|split].
    - rewrite Es. apply Good; auto. apply good_spaced; [exact Lw|].
      pose proof (frags_start _ _ _ _ (F [] I)) as S0. rewrite app_nil_r in S0.
      pose proof (frags_start _ _ _ _ (F [TNewline] eq_refl)) as S1.
      destruct wts as [|t wts]; [contradiction|]. exists t.
      destruct t; try (exists wts; left; split; [reflexivity|split; [reflexivity|discriminate]]); try discriminate.
      destruct wts as [|u wts]; [contradiction|]. exists wts. right. eauto.
    - intros rest Hr. rewrite <- app_assoc. cbn [app]. destruct w as [x]. destruct Hdup as [Hn| ->].
      + rewrite <- Ed. change (mk fd (default_word k)) with (pu_redirect Pd (mk fd (pu_word Pd k))).
        specialize (F rest Hr). eapply rf_dup; [apply Hfd|exact Hop| |apply Hnum; exact Hn|exact Ew].
        rewrite skipw_sp. rewrite (word_start_skipw _ (frags_start _ _ _ _ F)). exact F.
      + assert (wts = [TDash]) as ->.
        { eapply (lexes_as_unique (s_of "-") wts [TDash] spaced any [32]); [exact Lw| |reflexivity|exact I]. exact (lexes_closed TDash eq_refl). }
        change (TLWord (WSingle (WSimple (WLiteral (s_of "-"))))) with (default_word (KSingle (KSimple (KLiteral (s_of "-"))))).
        change (mk fd (default_word ?k)) with (pu_redirect Pd (mk fd (pu_word Pd k))).
        eapply rf_close; [apply Hfd|exact Hop|reflexivity|exact Hr].
    - rewrite <- (app_nil_r (_ ++ _)), <- app_assoc. now apply Start. }
  destruct r as [fd w|fd w|fd w|fd w|fd w|fd w|fd w|fd w]; cbn [ok_redirect redirect_word] in *; try contradiction.
  - apply (File fd TLess RRead w); auto; [constructor|exact I].
  - apply (File fd TGreat RWrite w); auto; [constructor|exact I].
  - apply (File fd TLessGreat RReadWrite w); auto; [constructor|exact I].
  - apply (File fd TDGreat RAppend w); auto; [constructor|exact I].
  - apply (File fd TClobber RClobber w); auto; [constructor|exact I].
  - apply (Dup fd TLessAnd RDupRead w); try tauto; [constructor|exact I].
  - apply (Dup fd TGreatAnd RDupWrite w); try tauto; [constructor|exact I].
Qed.

(** ** Simple commands *)
(** What follows a command in a list. *)
Definition seps : list token := [TSemi; TAmp; TPipe; TAndIf; TOrIf].
Definition sep_next (k : list token) : Prop := exists t k', k = t :: k' /\ In t seps.
Lemma sep_cases k (Q : token -> Prop) : Q TSemi -> Q TAmp -> Q TPipe -> Q TAndIf -> Q TOrIf -> sep_next k -> exists t k', k = t :: k' /\ Q t.
Proof.
  intros H1 H2 H3 H4 H5 (t & k' & -> & H). exists t, k'. split; [reflexivity|]. cbn in H. destruct H as [<- |[<- |[<- |[<- |[<- |[]]]]]]; assumption.
Qed.
Lemma sep_ends k : sep_next k -> skipw k = k /\ delimited k /\ no_redirect k /\ hd_error k <> Some TParenOpen.
Proof.
  intros H. destruct (sep_cases k (fun t => forall k, skipw (t :: k) = t :: k /\ delimited (t :: k) /\ no_redirect (t :: k) /\ hd_error (t :: k) <> Some TParenOpen)) as (t & k' & -> & X); auto;
    repeat split; discriminate.
Qed.
Lemma no_word_sep k : sep_next k -> no_word (sp :: k) k.
Proof.
  intros H. destruct (sep_ends k H) as (E & D & _ & _). replace k with (skipw (sp :: k)) at 2 by exact E. apply nw_delimited. rewrite skipw_sp. now rewrite E.
Qed.
Lemma word_start_first ts : word_start ts -> exists t ts', ts = t :: ts' /\ is_word_delimiter t = false.
Proof. destruct ts as [|t ts]; [contradiction|]. intros H. exists t, ts. split; [reflexivity|]. destruct t; try exact H. reflexivity. Qed.
Lemma args_sem args : Forall (fun a => ok_arg a /\ W_sem (arg_word a)) args -> exists ts,
  good (concat (map (fun a => blank_after (show_arg show_word a)) args)) ts /\
  forall k, sep_next k -> arguments args (sp :: ts ++ k) k /\ hd_error (ts ++ k) <> Some TParenOpen.
Proof.
  induction 1 as [|a args [Ha Hw] _ (ts & G & F)].
  - exists []. split; [apply good_nil|]. intros k Hk. destruct (sep_ends k Hk) as (E & D & R & P). split; [|exact P].
    apply ag_end; [now apply no_word_sep|exact R].
  - cbn [map concat]. destruct a as [r|w].
    + destruct (redirect_sem r Ha Hw) as (rts & Gr & Fr & t & rts' & -> & St & _).
      exists (((t :: rts') ++ [sp]) ++ ts). split; [now apply good_app|]. intros k Hk. destruct (F k Hk) as [Fk _]. rewrite <- !app_assoc. split.
      * cbn [app]. eapply ag_redirect; [|exact Fk]. rewrite skipw_sp.
        specialize (Fr (sp :: ts ++ k) eq_refl). cbn [app] in Fr. rewrite (redirect_form_skipw _ _ _ _ _ Fr). exact Fr.
      * cbn. intros [= ->]. destruct St as [St|(n & St)]; discriminate.
    + destruct (word_sem w Hw) as (kw & wts & <- & Gw & _ & _ & Fw & Sw & _).
      exists ((wts ++ [sp]) ++ ts). split; [now apply good_app|]. intros k Hk. destruct (F k Hk) as [Fk _]. rewrite <- !app_assoc. split.
      * cbn [app]. change (DCmdWord (default_word kw)) with (@DCmdWord d_redirect tlword (pu_word Pd kw)).
        specialize (Fw (sp :: ts ++ k) eq_refl). pose proof (word_form_skipw _ _ _ _ _ Fw) as Es.
        eapply ag_word; [| |exact Fk]; rewrite skipw_sp, Es; [exact Fw|]. cbn. discriminate.
      * destruct (word_start_first _ (Sw ([sp] ++ ts ++ k))) as (t & ts' & -> & Ht). cbn. intros [= ->]. discriminate.
Qed.

(** The start of a command, not a reserved word. *)
Definition reserved_names : list str := terminators ++ [FOR; CASE; IF; WHILE; UNTIL; FUNCTION].
Definition plain_start (ts : list token) : Prop := exists t ts', ts = t :: ts' /\
  (forall k, skipw (ts ++ k) = ts ++ k) /\ ~ In t [TNewline; TPound; TBang; TParenOpen; TParenClose; TDSemi] /\
  (forall k, ~ at_keyword reserved_names (ts ++ k)) /\ (forall k, ~ at_token [TCurlyOpen; TCurlyClose] (ts ++ k)).
Lemma at_keyword_incl ks ks' ts : incl ks ks' -> at_keyword ks ts -> at_keyword ks' ts.
Proof. intros H (k & rest & Hk & X). exists k, rest. split; [now apply H|exact X]. Qed.
Lemma at_token_incl ks ks' ts : incl ks ks' -> at_token ks ts -> at_token ks' ts.
Proof. intros H (k & rest & Hk & X). exists k, rest. split; [now apply H|exact X]. Qed.
Lemma begins_intro t ts : (forall k, skipw (t :: ts ++ k) = t :: ts ++ k) -> ~ In t [TNewline; TPound; TParenClose; TDSemi] ->
  (forall k, ~ at_keyword terminators (t :: ts ++ k)) -> (forall k, ~ at_token [TCurlyClose] (t :: ts ++ k)) -> begins (t :: ts).
Proof.
  intros E Ht Hk Hc k. cbn [app]. split; [apply E|]. cbn [In] in Ht. split; [split; cbn; intuition congruence|].
  intros cfg (U1 & U2 & U3) [X|[(u & r & [= <- _] & X)|[X|X]]].
  - discriminate.
  - apply U1 in X. cbn in X. intuition congruence.
  - apply (Hk k). eapply at_keyword_incl; eassumption.
  - apply (Hc k). eapply at_token_incl; eassumption.
Qed.
Lemma plain_begins ts : plain_start ts -> begins ts.
Proof.
  intros (t & ts' & -> & E & Ht & Hk & Hc). cbn [app] in *. apply begins_intro; auto.
  - cbn in *. tauto.
  - intros k X. apply (Hk k). eapply at_keyword_incl; [|exact X]. apply incl_appl, incl_refl.
  - intros k X. apply (Hc k). eapply at_token_incl; [|exact X]. intros u [<- |[]]. right. now left.
Qed.
Lemma plain_compound ts k : plain_start ts -> ~ at_compound (ts ++ k) /\ ~ at_keyword [FUNCTION] (ts ++ k) /\ hd_error (ts ++ k) <> Some TBang.
Proof.
  intros (t & ts' & -> & E & Ht & Hk & Hc). split; [|split].
  - intros [X|[X|X]].
    + cbn in *. injection X as ->. tauto.
    + apply (Hc k). eapply at_token_incl; [|exact X]. intros u [<- |[]]. now left.
    + apply (Hk k). eapply at_keyword_incl; [|exact X]. intros u Hu. unfold reserved_names. apply in_or_app. right. cbn in *. tauto.
  - intros X. apply (Hk k). eapply at_keyword_incl; [|exact X]. intros u Hu. unfold reserved_names. apply in_or_app. right. cbn in *. tauto.
  - cbn. intros [= ->]. apply Ht. cbn. tauto.
Qed.
(** ... of a redirection *)
Lemma redirect_plain t ts : redirect_start t -> (redirect_token t = false -> match ts with u :: _ => redirect_token u = true | [] => False end) -> plain_start (t :: ts).
Proof.
  intros Hs Hu. exists t, ts. split; [reflexivity|].
  assert (So : solid t = true) by (destruct Hs as [H|(n & ->)]; [destruct t; discriminate || reflexivity|reflexivity]).
  assert (E : forall k, skipw ((t :: ts) ++ k) = (t :: ts) ++ k) by (intros k; cbn [app]; now apply skipw_solid).
  split; [exact E|]. split; [|split].
  - destruct Hs as [H|(n & ->)]; cbn; intros X; intuition (subst; discriminate).
  - intros k (w & rest & Hw & X). assert (Hd : t = TName w \/ t = TLiteral w).
    { apply keyword_rest in X. rewrite E in X. destruct X as [X|X]; injection X as -> _; auto. }
    destruct Hs as [H|(n & ->)]; [destruct Hd as [-> | ->]; discriminate|]. destruct Hd as [Hd|Hd]; [discriminate|]. injection Hd as <-.
    pose proof (Seams.dec_digits n) as D. remember (dec n) as w. clear -Hw D.
    cbn [reserved_names terminators app In] in Hw. repeat (destruct Hw as [<- |Hw]; [inversion D; cbn in *; lia|]). contradiction.
  - intros k (u & rest & Hi & X & _). rewrite E in X. injection X as -> _. destruct Hs as [H|(n & ->)]; cbn in Hi; intuition (subst; discriminate).
Qed.
(** ... of an assignment *)
Lemma assign_plain v ts : plain_start (TName v :: TEquals :: ts).
Proof.
  eexists _, _. split; [reflexivity|]. split; [reflexivity|]. split; [cbn; intuition discriminate|]. split.
  - intros k (w & rest & Hw & X). inversion X as [? ? E D|? ? E D]; subst; cbn in E; [|discriminate]. injection E as _ <-. discriminate D.
  - intros k (u & rest & Hi & X & _). cbn in X. injection X as <- _. cbn in Hi. intuition discriminate.
Qed.
(** ... of a word *)
Lemma reserved_names_incl : incl reserved_names reserved.
Proof. intros w H. cbn [reserved_names terminators app In] in H. cbn [reserved map In]. repeat (destruct H as [<- |H]; [cbn; tauto|]). contradiction. Qed.
Lemma word_plain w k ts x : word_tokens w k ts -> not_reserved w -> plain_start (ts ++ sp :: x).
Proof.
  intros (_ & _ & Et & Fl & _ & St & Hne & Hp & Hi) [Hr Hb].
  destruct ts as [|t ts]; [congruence|]. 
  assert (Tb : t <> TBang).
  { intros ->. apply Hb. rewrite <- Et. reflexivity. }
  assert (One : literal_token t = true -> forall rest y, t :: ts ++ sp :: y = t :: rest -> delimited rest -> ~ In (as_str t) reserved).
  { intros Hl rest y E D. destruct ts as [|u ts].
    - rewrite <- Et in Hr. unfold text in Hr. cbn in Hr. now rewrite app_nil_r in Hr.
    - exfalso. injection E as <-. cbn in D. rewrite (Hi t u ts eq_refl Hl) in D. discriminate. }
  exists t, (ts ++ sp :: x). split; [reflexivity|]. split; [|split; [|split]].
  - intros k'. rewrite <- app_assoc. apply word_start_skipw, St.
  - specialize (St []). cbn [In]. destruct t; cbn in St; try discriminate; try (intuition congruence).
  - intros k' (v & rest & Hv & X). rewrite <- app_assoc in X.
    inversion X as [? ? X' D|? ? X' D]; subst; rewrite (word_start_skipw _ (St ((sp :: x) ++ k'))) in X'; cbn [app] in X'; injection X' as -> X';
      (eapply One; [reflexivity| |exact D|cbn; apply reserved_names_incl; exact Hv]; f_equal; exact X').
  - intros k' (v & rest & Hv & X & D). rewrite <- app_assoc in X. rewrite (word_start_skipw _ (St ((sp :: x) ++ k'))) in X. cbn [app] in X. injection X as -> X.
    destruct Hv as [<- |[<- |[]]]; (eapply One; [reflexivity| |exact D|]; [f_equal; exact X|cbn; tauto]).
Qed.
Lemma simple_sp vars args ts rest : simple vars args (sp :: ts) rest -> simple vars args ts rest.
Proof.
  intros H. inversion H as [? ? Hn Hr|r ? mid ? ? ? Hf Hs|v k ? mid mid' ? ? ? E Hw Hf Hs|v ? mid mid' ? ? ? E Hn Hs|k ? mid ? ? Hf Hfd Ha Hs]; subst;
    try rewrite skipw_sp in *.
  - apply si_end; [|exact Hr]. inversion Hn as [? D|? D|? D]; subst; rewrite skipw_sp in *; [now apply nw_delimited|now apply nw_comment|now apply nw_backslash].
  - eapply si_redirect; eassumption.
  - eapply si_assign; eassumption.
  - eapply si_assign_empty; eassumption.
  - eapply si_command; eassumption.
Qed.
Lemma assign_lexes v : identifier v -> lexes_as (v ++ s_of "=") [TName v; TEquals] any.
Proof.
  intros Hv. apply (lexes_app v [TName v] (fun r => apart (TName v) r = true) (s_of "=") [TEquals]).
  - apply (lexes_token (TName v)); [exact Hv|discriminate].
  - exact (lexes_closed TEquals eq_refl).
  - reflexivity.
Qed.
Lemma name_tight' v r : identifier v -> tight (v ++ r).
Proof. intros H. apply (tight_text (TName v) [TName v] v []); [now constructor|unfold text; cbn; now rewrite app_nil_r|reflexivity|reflexivity|discriminate]. Qed.
Lemma env_good v w ts : identifier v -> good (blank_after (show_word w)) (ts ++ [sp]) ->
  good (blank_after (v ++ s_of "=" ++ show_word w)) (TName v :: TEquals :: ts ++ [sp]).
Proof.
  intros Hv [L T]. split.
  - apply (good_eq ((v ++ s_of "=") ++ blank_after (show_word w)) _ ([TName v; TEquals] ++ ts ++ [sp])); [|unfold blank_after; now rewrite <- !app_assoc|reflexivity].
    split; [eapply lexes_app; [now apply assign_lexes|exact L|intros; exact I]|]. intros r _. rewrite <- !app_assoc. now apply name_tight'.
  - intros r _. unfold blank_after. rewrite <- !app_assoc. now apply name_tight'.
Qed.
Lemma env_good_none v : identifier v -> good (blank_after (v ++ s_of "=" ++ [])) [TName v; TEquals; sp].
Proof.
  intros Hv. rewrite app_nil_r. split.
  - apply (lexes_app (v ++ s_of "=") [TName v; TEquals] any [32] [sp]); [now apply assign_lexes|apply lexes_sp|intros; exact I].
  - intros r _. unfold blank_after. rewrite <- !app_assoc. now apply name_tight'.
Qed.
Lemma vars_sem vars : Forall ok_env vars -> Forall W_sem (flat_map env_words vars) -> exists ts,
  good (concat (map (fun e => blank_after (show_env show_word e)) vars)) ts /\
  (forall args x rest, simple [] args (sp :: x) rest -> simple vars args (sp :: ts ++ x) rest) /\
  (vars <> [] -> plain_start ts /\ forall k, ~ at_function (ts ++ k)).
Proof.
  induction vars as [|e vars IH]; intros Hok HW.
  - exists []. split; [apply good_nil|]. split; [auto|congruence].
  - inversion Hok as [|? ? He Hok']; subst. cbn [flat_map] in HW. apply Forall_app in HW as [HW1 HW2].
    destruct (IH Hok' HW2) as (ts & G & F & _). cbn [map concat].
    assert (Assign : forall v w its, e = EEnvVar v w -> good (blank_after (show_env show_word e)) (TName v :: TEquals :: its ++ [sp]) ->
      (forall args x rest, simple vars args (sp :: x) rest -> simple (e :: vars) args (sp :: TName v :: TEquals :: its ++ sp :: x) rest) ->
      exists ts, good (blank_after (show_env show_word e) ++ concat (map (fun e => blank_after (show_env show_word e)) vars)) ts /\
        (forall args x rest, simple [] args (sp :: x) rest -> simple (e :: vars) args (sp :: ts ++ x) rest) /\
        (e :: vars <> [] -> plain_start ts /\ forall k, ~ at_function (ts ++ k))).
    { intros v w its -> Gi Fi. exists ((TName v :: TEquals :: its ++ [sp]) ++ ts). split; [now apply good_app|]. split.
      - intros args x rest Hs. cbn [app]. rewrite <- !app_assoc. cbn [app]. apply Fi. apply F. exact Hs.
      - intros _. split; [apply assign_plain|]. intros k. cbn. auto. }
    destruct e as [r|v w]; cbn [ok_env env_words] in *.
    + clear Assign. inversion HW1; subst. destruct (redirect_sem r He ltac:(assumption)) as (rts & Gr & Fr & t & rts' & -> & St & Hu).
      exists (((t :: rts') ++ [sp]) ++ ts). split; [now apply good_app|]. split.
      * intros args x rest Hs. rewrite <- !app_assoc. cbn [app]. eapply si_redirect; [|apply F; exact Hs].
        specialize (Fr (sp :: ts ++ x) eq_refl). rewrite skipw_sp. cbn [app] in Fr. rewrite (redirect_form_skipw _ _ _ _ _ Fr). exact Fr.
      * intros _. split.
        -- rewrite <- app_assoc. cbn [app]. apply redirect_plain; [exact St|]. intros Ht. specialize (Hu Ht). destruct rts'; [contradiction|exact Hu].
        -- intros k. cbn [app]. destruct St as [St|(n & ->)]; [|auto]. destruct t; try discriminate; auto.
    + destruct w as [w|]; cbn [opt_list] in HW1.
      * inversion HW1; subst. destruct (word_sem w ltac:(assumption)) as (kw & wts & Ed & Gw & _ & _ & Fw & Sw & _).
        apply (Assign v (Some w) wts eq_refl).
        -- cbn [show_env show_operand]. now apply env_good.
        -- intros args x rest Hs. rewrite <- Ed. specialize (Fw (sp :: x) eq_refl).
           change (EEnvVar v (Some (default_word kw))) with (@EEnvVar d_redirect str tlword v (Some (pu_word Pd kw))).
           eapply si_assign; [reflexivity| |rewrite (word_form_skipw _ _ _ _ _ Fw); exact Fw|exact Hs].
           destruct (word_start_first _ (Sw (sp :: x))) as (t & ts' & -> & Ht). intros y [= ->]. discriminate.
      * apply (Assign v None [] eq_refl).
        -- cbn [show_env show_operand]. exact (env_good_none v He).
        -- intros args x rest Hs. cbn [app]. eapply si_assign_empty; [reflexivity|apply nv_blank|exact Hs].
Qed.
(** ** Commands *)
Definition P_sem (p : d_pipeable) : Prop := exists ts,
  good (show_pipeable show_word show_cmd p) ts /\ begins ts /\ hd_error ts <> Some TBang /\
  forall k, sep_next k -> command_form p (ts ++ k) k.
Lemma word_not_function w k ts x : word_tokens w k ts -> hd_error x <> Some TParenOpen -> ~ at_function (ts ++ sp :: x).
Proof.
  intros (_ & _ & _ & _ & _ & _ & Hne & _ & Hi) Hx H. destruct ts as [|t ts]; [congruence|]. destruct t; try contradiction. destruct ts as [|u ts].
  - cbn in H. destruct x as [|y x]; [contradiction|]. destruct y; try contradiction; now apply Hx.
  - specialize (Hi (TName s) u ts eq_refl eq_refl). destruct u; try contradiction; discriminate.
Qed.
Lemma word_not_assignment w k ts x : word_tokens w k ts -> not_assignment w -> ~ at_assignment (ts ++ sp :: x).
Proof.
  intros (_ & _ & Et & Fl & _ & _ & Hne & _ & _) Hn H. destruct ts as [|t ts]; [congruence|]. destruct t; try contradiction. destruct ts as [|u ts]; [contradiction|].
  destruct u; try contradiction. inversion Fl; subst. apply (Hn s (text ts)); [assumption|]. rewrite <- Et. reflexivity.
Qed.
Lemma simple_sem c : ok_sc c -> Forall W_sem (sc_words c) -> P_sem (PSimple c).
Proof.
  destruct c as [vars args]. unfold sc_words, ok_sc. cbn [redirects_or_env_vars redirects_or_cmd_words].
  intros (Hv & Ha & Hx) HW. apply Forall_app in HW as [HW1 HW2].
  destruct (vars_sem vars Hv HW1) as (vts & Gv & Fv & Sv).
  destruct args as [|[r|w] args]; [|contradiction|].
  - destruct (Sv Hx) as [Pv Nf]. exists vts. cbn [show_pipeable show_sc redirects_or_env_vars redirects_or_cmd_words map concat].
    unfold show_sc. cbn [redirects_or_env_vars redirects_or_cmd_words map concat]. rewrite app_nil_r.
    split; [exact Gv|]. split; [now apply plain_begins|].
    split; [pose proof (plain_compound vts [] Pv) as (_ & _ & X); now rewrite app_nil_r in X|].
    intros k Hk. destruct (sep_ends k Hk) as (E & D & R & _). destruct (plain_compound vts k Pv) as (X1 & X2 & _).
    change (PSimple (mkSC vars [])) with (pu_simple_command Pd vars []). apply cf_simple; auto.
    apply simple_sp. apply Fv. apply si_end; [now apply no_word_sep|exact R].
  - destruct Hx as [Hna Hnr]. inversion Ha as [|? ? _ Ha']; subst. cbn [map arg_word] in HW2. inversion HW2 as [|? ? Hw HW2']; subst.
    destruct (args_sem args) as (ats & Ga & Fa).
    { clear -Ha' HW2'. induction args as [|a args IH]; [constructor|]. inversion Ha'; inversion HW2'; subst. constructor; auto. }
    destruct (word_sem w Hw) as (kw & wts & WT). pose proof WT as (Ed & Gw & _ & _ & Fw & _ & Hne & _).
    exists (vts ++ (wts ++ [sp]) ++ ats). cbn [show_pipeable]. unfold show_sc. cbn [redirects_or_env_vars redirects_or_cmd_words map concat show_arg].
    assert (Pl : plain_start (vts ++ (wts ++ [sp]) ++ ats)).
    { destruct vars as [|e vars].
      - assert (vts = []) as ->.
        { destruct Gv as [L _]. exact (lexes_as_unique _ _ _ _ _ [] L (lexes_nil tight) I I). }
        rewrite <- app_assoc. cbn [app]. eapply word_plain; [exact WT|auto].
      - destruct (Sv ltac:(discriminate)) as [(t & ts' & -> & E & H1 & H2 & H3) _]. exists t, (ts' ++ (wts ++ [sp]) ++ ats). split; [reflexivity|].
        repeat split; try (intros k; rewrite <- app_assoc); auto. }
    split; [apply good_app; [exact Gv|]; apply good_app; [exact Gw|exact Ga]|]. split; [now apply plain_begins|].
    split; [pose proof (plain_compound _ [] Pl) as (_ & _ & X); now rewrite app_nil_r in X|].
    intros k Hk. destruct (Fa k Hk) as [Fk Nk]. destruct (plain_compound _ k Pl) as (X1 & X2 & _).
    change (PSimple (mkSC vars (DCmdWord w :: args))) with (pu_simple_command Pd vars (DCmdWord w :: args)).
    apply cf_simple; auto.
    + rewrite <- !app_assoc. cbn [app]. apply simple_sp. apply Fv. rewrite <- Ed. change (default_word kw) with (pu_word Pd kw).
      specialize (Fw (sp :: ats ++ k) eq_refl). pose proof (word_form_skipw _ _ _ _ _ Fw) as Es.
      eapply si_command; [rewrite skipw_sp, Es; exact Fw|cbn; discriminate|rewrite skipw_sp, Es; eapply word_not_assignment; eassumption|exact Fk].
    + right. discriminate.
    + destruct vars as [|e vars].
      * assert (vts = []) as ->.
        { destruct Gv as [L _]. exact (lexes_as_unique _ _ _ _ _ [] L (lexes_nil tight) I I). }
        rewrite <- !app_assoc. cbn [app]. eapply word_not_function; eassumption.
      * destruct (Sv ltac:(discriminate)) as [_ N]. rewrite <- app_assoc. apply N.
Qed.
Lemma redirects_sem rs : Forall ok_redirect rs -> Forall W_sem (map redirect_word rs) -> exists ts,
  good (concat (map (fun r => blank_after (show_redirect show_word r)) rs)) ts /\
  forall k, sep_next k -> redirects rs (sp :: ts ++ k) k.
Proof.
  induction rs as [|r rs IH]; intros Hok HW.
  - exists []. split; [apply good_nil|]. intros k Hk. destruct (sep_ends k Hk) as (E & D & R & _).
    apply re_end; [now apply no_word_sep|exact R].
  - inversion Hok; subst. inversion HW; subst. destruct (IH ltac:(assumption) ltac:(assumption)) as (ts & G & F).
    destruct (redirect_sem r) as (rts & Gr & Fr & _); [assumption..|]. cbn [map concat].
    exists ((rts ++ [sp]) ++ ts). split; [now apply good_app|]. intros k Hk. rewrite <- !app_assoc. cbn [app].
    eapply re_more; [|now apply F]. specialize (Fr (sp :: ts ++ k) eq_refl). rewrite skipw_sp, (redirect_form_skipw _ _ _ _ _ Fr). exact Fr.
Qed.
(** Keywords at the end of lists of commands. *)
Lemma kw_unfollow w x : unfollow (TName w :: x).
Proof. split; [reflexivity|split; discriminate]. Qed.
Lemma kw_here w x : keyword w (TName w :: sp :: x) (sp :: x).
Proof. apply kw_name; reflexivity. Qed.
Lemma kw_here' w x : keyword w (sp :: TName w :: sp :: x) (sp :: x).
Proof. apply kw_name; reflexivity. Qed.
Lemma kw_end cfg w x : In w (reserved_words cfg) -> group_end cfg (TName w :: sp :: x).
Proof. intros H. right; right; left. exists w, (sp :: x). split; [exact H|apply kw_here]. Qed.
Lemma usual_words ws : incl ws terminators -> usual (mkDelims [] ws []).
Proof. intros H. split; [|split]; cbn; [easy|exact H|easy]. Qed.
Ltac inclt := let x := fresh in let H := fresh in intros x H; cbn in *; tauto.
(** Commands followed by a keyword. *)
Lemma cmds_kw cs : Forall C_sem cs -> exists ts, good (show_cs show_cmd cs) ts /\
  forall ws w x, In w ws -> incl ws terminators -> group (mkDelims [] ws []) (mkCG cs []) (sp :: ts ++ TName w :: sp :: x) (TName w :: sp :: x).
Proof.
  intros H. destruct (cmds_sem cs H) as (ts & L & T & _ & F). exists ts. split; [now split|]. intros ws w x Hw Hi.
  apply F; [now apply usual_words|now apply kw_end|apply kw_unfollow].
Qed.
(** ** Compound commands.  Their text ends with a blank, after which redirections may follow. *)
Definition K_sem (k : compound_kind str tlword tlcmd) : Prop := exists t ts,
  good (show_kind show_word show_cmd k) (t :: ts ++ [sp]) /\ begins (t :: ts ++ [sp]) /\ t <> TBang /\ 
  (forall x, skipw (t :: ts ++ sp :: x) = t :: ts ++ sp :: x) /\ no_newline [t] /\
  forall rs x rest, redirects rs (sp :: x) rest -> compound (mkCC k rs) (t :: ts ++ sp :: x) rest.
Lemma begins_kw w ts : ~ In w terminators -> begins (TName w :: sp :: ts).
Proof.
  intros Hw. apply begins_intro; try reflexivity.
  - cbn. intuition discriminate.
  - intros k (v & rest & Hv & X). apply keyword_rest in X. destruct X as [X|X]; [|discriminate]. injection X as -> _. contradiction.
  - intros k (v & rest & Hv & X & _). injection X as <- _. cbn in Hv. intuition discriminate.
Qed.
Lemma K_intro w ts k : ~ In w terminators -> good (show_kind show_word show_cmd k) ((TName w :: sp :: ts) ++ [sp]) ->
  (forall rs x rest, redirects rs (sp :: x) rest -> compound (mkCC k rs) (TName w :: sp :: ts ++ sp :: x) rest) -> K_sem k.
Proof.
  intros Hw G F. exists (TName w), (sp :: ts). split; [exact G|]. split; [now apply begins_kw|]. split; [discriminate|]. split; [reflexivity|].
  split; [split; discriminate|exact F].
Qed.
Lemma do_sem cs : Forall C_sem cs -> cs <> [] -> exists ts, good (s_of "do " ++ show_cs show_cmd cs ++ s_of "done ") (TName DO :: sp :: ts ++ [sp]) /\
  forall x, do_form Bd Pd (mkCG cs []) (TName DO :: sp :: ts ++ sp :: x) (sp :: x).
Proof.
  intros H Hn. destruct (cmds_kw cs H) as (ts & G & F). exists (ts ++ [TName DONE]). split.
  - eapply good_eq; [apply good_app; [apply (good_kw DO); cbn; tauto|apply good_app; [exact G|apply (good_kw DONE); cbn; tauto]]|reflexivity|].
    cbn [app]. rewrite <- app_assoc. reflexivity.
  - intros x. rewrite <- app_assoc. cbn [app]. eapply df_do; [apply kw_here|apply (F [DONE] DONE); [now left|inclt]|exact Hn|apply kw_here].
Qed.
Lemma loop_sem w (mk : guard_body tlcmd -> compound_kind str tlword tlcmd) gb : In w [WHILE; UNTIL] ->
  show_kind show_word show_cmd (mk gb) = (w ++ [32]) ++ show_cs show_cmd (guard gb) ++ s_of "do " ++ show_cs show_cmd (body gb) ++ s_of "done " ->
  (forall g b ts ts1 ts2 ts3 rs rest, keyword w ts ts1 ->
      group (mkDelims [] [DO] []) g ts1 ts2 -> commands g <> [] -> do_form Bd Pd b ts2 ts3 -> redirects rs ts3 rest ->
      compound (mkCC (mk (mkGB (commands g) (commands b))) rs) ts rest) ->
  guard gb <> [] -> body gb <> [] -> Forall C_sem (guard gb ++ body gb) -> K_sem (mk gb).
Proof.
  intros Hw Es Hc Hg Hb HC. apply Forall_app in HC as [HC1 HC2].
  destruct (cmds_kw _ HC1) as (gts & Gg & Fg). destruct (do_sem _ HC2 Hb) as (bts & Gb & Fb).
  apply (K_intro w (gts ++ TName DO :: sp :: bts)).
  - cbn in Hw. destruct Hw as [<- |[<- |[]]]; cbn; intuition discriminate.
  - rewrite Es. eapply good_eq; [apply good_app; [apply (good_kw w)|apply good_app; [exact Gg|exact Gb]]|reflexivity|].
    + cbn in Hw. destruct Hw as [<- |[<- |[]]]; cbn; tauto.
    + cbn [app]. rewrite <- app_assoc. reflexivity.
  - intros rs x rest Hr. rewrite <- app_assoc. cbn [app]. destruct gb as [g b]. cbn [guard body] in *.
    eapply (Hc (mkCG g []) (mkCG b []) _ _ _ (sp :: x) rs rest (kw_here w _)); [apply (Fg [DO] DO); [now left|inclt]|exact Hg|apply Fb|exact Hr].
Qed.
Ltac nrm := repeat progress (rewrite <- ?app_assoc; cbn [app]).
Definition gb_of (gb : gbpair tlcmd) : guard_body tlcmd := mkGB (commands (gguard gb)) (commands (gbody gb)).
Definition show_branches (gbs : list (guard_body tlcmd)) (els : option (list tlcmd)) : str :=
  concat (map (fun gb => s_of "elif " ++ show_guard show_cmd gb) gbs) ++
  match els with Some l => s_of "else " ++ show_cs show_cmd l | None => [] end ++ s_of "fi ".
Lemma branches_sem gbs : forall gb els, Forall (fun gb => guard gb <> [] /\ body gb <> []) (gb :: gbs) -> els <> Some [] ->
  Forall C_sem (flat_map (fun gb => guard gb ++ body gb) (gb :: gbs)) -> Forall C_sem (match els with Some l => l | None => [] end) ->
  exists conds e ts, map gb_of conds = gb :: gbs /\ option_map commands e = els /\
    good (show_guard show_cmd gb ++ show_branches gbs els) (ts ++ [sp]) /\
    forall x, conditionals Bd Pd conds e (sp :: ts ++ sp :: x) (sp :: x).
Proof.
  induction gbs as [|gb2 gbs IH]; intros gb els Hne He HC HE; cbn [flat_map] in HC; apply Forall_app in HC as [HC1 HC2]; apply Forall_app in HC1 as [HCg HCb];
    destruct (cmds_kw _ HCg) as (gts & Gg & Fg); destruct (cmds_kw _ HCb) as (bts & Gb & Fb); inversion Hne as [|? ? [Ng Nb] Hne']; subst;
    destruct gb as [g b]; cbn [guard body] in *; unfold show_guard at 1, show_branches; cbn [guard body].
  - destruct els as [l|].
    + destruct (cmds_kw _ HE) as (lts & Gl & Fl).
      exists [mkGBP (mkCG g []) (mkCG b [])], (Some (mkCG l [])), (gts ++ TName THEN :: sp :: bts ++ TName ELSE :: sp :: lts ++ [TName FI]).
      split; [reflexivity|]. split; [reflexivity|]. split.
      * eapply good_eq; [apply good_app; [exact Gg|]; apply good_app; [apply (good_kw THEN); cbn; tauto|]; apply good_app; [exact Gb|];
          apply good_app; [apply (good_kw ELSE); cbn; tauto|]; apply good_app; [exact Gl|apply (good_kw FI); cbn; tauto]| |].
        -- cbn [map concat app]. nrm. reflexivity.
        -- nrm. reflexivity.
      * intros x. nrm. 
        eapply cd_else; [apply (Fg [THEN] THEN); [now left|inclt]|exact Ng|apply kw_here|apply (Fb [ELIF; ELSE; FI] ELSE); [cbn; tauto|inclt]|exact Nb|apply kw_here
          |apply (Fl [FI] FI); [now left|inclt]|cbn; congruence|apply kw_here].
    + exists [mkGBP (mkCG g []) (mkCG b [])], None, (gts ++ TName THEN :: sp :: bts ++ [TName FI]).
      split; [reflexivity|]. split; [reflexivity|]. split.
      * eapply good_eq; [apply good_app; [exact Gg|]; apply good_app; [apply (good_kw THEN); cbn; tauto|]; apply good_app; [exact Gb|apply (good_kw FI); cbn; tauto]| |].
        -- cbn [map concat app]. nrm. reflexivity.
        -- nrm. reflexivity.
      * intros x. nrm. 
        eapply cd_fi; [apply (Fg [THEN] THEN); [now left|inclt]|exact Ng|apply kw_here|apply (Fb [ELIF; ELSE; FI] FI); [cbn; tauto|inclt]|exact Nb|apply kw_here].
  - destruct (IH gb2 els Hne' He HC2 HE) as (conds & e & ts & Ec & Ee & G & F).
    exists (mkGBP (mkCG g []) (mkCG b []) :: conds), e, (gts ++ TName THEN :: sp :: bts ++ TName ELIF :: sp :: ts).
    split; [cbn [map]; now rewrite Ec|]. split; [exact Ee|]. split.
    + eapply good_eq; [apply good_app; [exact Gg|]; apply good_app; [apply (good_kw THEN); cbn; tauto|]; apply good_app; [exact Gb|];
          apply good_app; [apply (good_kw ELIF); cbn; tauto|exact G]| |].
      * unfold show_branches. cbn [map concat]. nrm. reflexivity.
      * nrm. reflexivity.
    + intros x. nrm. 
      eapply cd_elif; [apply (Fg [THEN] THEN); [now left|inclt]|exact Ng|apply kw_here|apply (Fb [ELIF; ELSE; FI] ELIF); [cbn; tauto|inclt]|exact Nb|apply kw_here|apply F].
Qed.
Lemma words_sem ws : Forall W_sem ws -> exists ts, good (show_ws show_word ws) ts /\
  forall x, for_words_form Bd Pd ws (sp :: ts ++ TSemi :: x) (TSemi :: x).
Proof.
  induction 1 as [|w ws Hw _ (ts & G & F)].
  - exists []. split; [apply good_nil|]. intros x. apply fw_end. apply (nw_delimited (sp :: TSemi :: x)). reflexivity.
  - destruct (word_sem w Hw) as (k & wts & <- & Gw & _ & _ & Fw & _). exists ((wts ++ [sp]) ++ ts). split; [now apply good_app|].
    intros x. nrm. change (default_word k) with (pu_word Pd k).
    specialize (Fw (sp :: ts ++ TSemi :: x) eq_refl). eapply fw_word; [rewrite skipw_sp, (word_form_skipw _ _ _ _ _ Fw); exact Fw|apply F].
Qed.
Lemma patterns_sem ps : Forall W_sem ps -> ps <> [] -> exists ts, good (show_patterns show_word ps) (ts ++ [TParenClose; sp]) /\
  forall x, patterns_form Bd Pd ps (sp :: ts ++ TParenClose :: x) x.
Proof.
  induction 1 as [|w ps Hw HF IH]; intros Hne; [congruence|]. destruct (word_sem w Hw) as (k & wts & <- & Gw & _ & _ & Fw & _).
  change (default_word k) with (pu_word Pd k). destruct ps as [|p ps].
  - exists (wts ++ [sp]). split.
    + eapply good_eq; [apply good_app; [exact Gw|apply (good_op TParenClose); [exact I|exact I|discriminate]]|reflexivity|reflexivity].
    + intros x. nrm. specialize (Fw (sp :: TParenClose :: x) eq_refl).
      eapply pf_last; [rewrite skipw_sp, (word_form_skipw _ _ _ _ _ Fw); exact Fw|reflexivity].
  - destruct (IH ltac:(discriminate)) as (ts & G & F). exists (wts ++ sp :: TPipe :: sp :: ts). split.
    + eapply good_eq; [apply good_app; [exact Gw|]; apply good_app; [apply (good_op TPipe); [exact I|exact I|discriminate]|exact G]|reflexivity|].
      nrm. reflexivity.
    + intros x. nrm. specialize (Fw (sp :: TPipe :: sp :: ts ++ TParenClose :: x) eq_refl).
      eapply pf_more; [rewrite skipw_sp, (word_form_skipw _ _ _ _ _ Fw); exact Fw|reflexivity|apply F].
Qed.
Definition arm_of (a : case_arm tlword tlcmd) : pattern_body tlword tlcmd := mkPB (pattern_alternatives (arm_patterns a)) (commands (arm_body a)).
Lemma no_newline_tok t x : t <> TNewline -> t <> TPound -> no_newline (t :: x).
Proof. intros H1 H2. split; cbn; congruence. Qed.
Lemma maybe_newline_none x : unfollow x -> maybe_newline None (sp :: x) x.
Proof. intros [E H]. replace x with (skipw (sp :: x)) at 2 by exact E. apply mn_none. rewrite skipw_sp. now rewrite E. Qed.
Lemma arms_sem arms : Forall W_sem (flat_map patterns arms) -> Forall C_sem (flat_map pbody arms) -> Forall (fun a => patterns a <> []) arms ->
  exists karms ts, map arm_of karms = arms /\ good (concat (map (show_arm show_word show_cmd) arms)) ts /\
    forall x, unfollow (ts ++ TName ESAC :: sp :: x) /\ case_arms Bd Pd karms [] (ts ++ TName ESAC :: sp :: x) (TName ESAC :: sp :: x).
Proof.
  induction arms as [|a arms IH]; intros HW HC Hp.
  - exists [], []. split; [reflexivity|]. split; [apply good_nil|]. intros x. cbn [app]. split; [apply kw_unfollow|].
    apply ca_end; [apply newlines_none', kw_unfollow|]. exists ESAC, (sp :: x). split; [now left|apply kw_here].
  - cbn [flat_map] in HW, HC. apply Forall_app in HW as [HW1 HW2]. apply Forall_app in HC as [HC1 HC2]. inversion Hp as [|? ? Hpa Hp']; subst.
    destruct (IH HW2 HC2 Hp') as (karms & ts & Ek & G & F).
    destruct (patterns_sem _ HW1 Hpa) as (pts & Gp & Fp). destruct (cmds_sem _ HC1) as (bts & Lb & Tb & Bb & Fb).
    destruct a as [ps b]. cbn [patterns pbody] in *.
    exists (mkCA (mkCP [] ps None) (mkCG b []) None :: karms), (TParenOpen :: sp :: pts ++ TParenClose :: sp :: bts ++ TDSemi :: sp :: ts).
    split; [cbn [map]; now rewrite Ek|]. split.
    + cbn [map concat]. eapply good_eq; [apply good_app; [apply good_app; [apply (good_op TParenOpen); [exact I|exact I|discriminate]|];
        apply good_app; [exact Gp|]; apply good_app; [split; [exact Lb|exact Tb]|apply (good_op TDSemi); [exact I|exact I|discriminate]]|exact G]|reflexivity|].
      nrm. reflexivity.
    + intros x. nrm. destruct (F x) as [Ux Fx].
      split; [split; [reflexivity|split; discriminate]|].
      assert (Ub : unfollow (bts ++ TDSemi :: sp :: ts ++ TName ESAC :: sp :: x)).
      { destruct b as [|c b].
        - assert (bts = []) as -> by exact (lexes_as_unique _ _ _ _ _ [] Lb (lexes_nil tight) I I). split; [reflexivity|split; discriminate].
        - destruct (Bb ltac:(discriminate) (TDSemi :: sp :: ts ++ TName ESAC :: sp :: x)) as (X & Y & _). now split. }
      eapply ca_arm.
      * apply newlines_none'. split; [reflexivity|split; discriminate].
      * intros (k & rest & _ & X). apply keyword_rest in X. destruct X as [X|X]; discriminate.
      * left. reflexivity.
      * apply Fp.
      * apply maybe_newline_none. exact Ub.
      * apply Fb; [|right; left; eexists _, _; split; [reflexivity|now left]|split; [reflexivity|split; discriminate]].
        split; [|split]; cbn; [intros t [<- |[]]; cbn; tauto|inclt|easy].
      * apply maybe_newline_none. exact Ux.
      * exact Fx.
Qed.
Lemma kind_sem k : ok_kind k -> Forall W_sem (kind_words k) -> Forall C_sem (kind_cmds k) -> K_sem k.
Proof.
  intros Hok HW HC. destruct k as [l|l|gb|gb|gbs els|v ws l|w arms]; cbn [ok_kind kind_words kind_cmds] in *.
  - destruct (cmds_sem _ HC) as (ts & L & T & _ & F). exists TCurlyOpen, (sp :: ts ++ [TCurlyClose]). 
    assert (Nt : forall x, ~ at_token [TCurlyClose] (TCurlyOpen :: x)).
    { intros x (v & rest & Hv & X & _). injection X as <- _. cbn in Hv. intuition discriminate. }
    split; [|split; [|split; [discriminate|split; [reflexivity|split; [split; discriminate|]]]]].
    + eapply good_eq; [apply good_app; [apply (good_op TCurlyOpen); [exact I|exact I|discriminate]|]; apply good_app; [split; [exact L|exact T]|
        apply (good_op TCurlyClose); [exact I|exact I|discriminate]]|reflexivity|]. nrm. reflexivity.
    + apply begins_intro; try reflexivity.
      * cbn; intuition discriminate.
      * intros k (v & rest & Hv & X). apply keyword_rest in X. destruct X as [X|X]; discriminate.
      * intros k. apply Nt.
    + intros rs x rest Hr. nrm.
      change (mkCC (CBrace l) rs) with (pu_brace_group Pd (mkCG l []) rs).
      eapply co_brace; [reflexivity|apply F| |reflexivity|reflexivity|exact Hr].
      * split; [|split]; cbn; [easy|easy|inclt].
      * right; right; right. exists TCurlyClose, (sp :: x). split; [now left|]. split; reflexivity.
      * split; [reflexivity|split; discriminate].
      * exact Hok.
  - destruct (cmds_sem _ HC) as (ts & L & T & _ & F). exists TParenOpen, (sp :: ts ++ [TParenClose]). 
    split; [|split; [|split; [discriminate|split; [reflexivity|split; [split; discriminate|]]]]].
    + eapply good_eq; [apply good_app; [apply (good_op TParenOpen); [exact I|exact I|discriminate]|]; apply good_app; [split; [exact L|exact T]|
        apply (good_op TParenClose); [exact I|exact I|discriminate]]|reflexivity|]. nrm. reflexivity.
    + apply begins_intro; try reflexivity.
      * cbn; intuition discriminate.
      * intros k (v & rest & Hv & X). apply keyword_rest in X. destruct X as [X|X]; discriminate.
      * intros x (v & rest & Hv & X & _). injection X as <- _. cbn in Hv. intuition discriminate.
    + intros rs x rest Hr. nrm. change (mkCC (CSubshell l) rs) with (pu_subshell Pd (mkCG l []) rs).
      eapply co_subshell; [apply F| |exact Hr].
      * split; [|split]; cbn; [inclt|easy|easy].
      * right; left. exists TParenClose, (sp :: x). split; [reflexivity|now left].
      * split; [reflexivity|split; discriminate].
      * exact Hok.
  - destruct Hok as [H1 H2]. apply (loop_sem WHILE CWhile gb); auto; [now left|].
    intros g b ts ts1 ts2 ts3 rs rest X1 X2 X3 X4 X5. exact (co_while Bd Pd g b ts ts1 ts2 ts3 rs rest X1 X2 X3 X4 X5).
  - destruct Hok as [H1 H2]. apply (loop_sem UNTIL CUntil gb); auto; [right; now left|].
    intros g b ts ts1 ts2 ts3 rs rest X1 X2 X3 X4 X5. exact (co_until Bd Pd g b ts ts1 ts2 ts3 rs rest X1 X2 X3 X4 X5).
  - destruct Hok as (Hne & Hall & He). destruct gbs as [|gb gbs]; [congruence|]. apply Forall_app in HC as [HC1 HC2].
    destruct (branches_sem gbs gb els Hall He HC1 HC2) as (conds & e & ts & Ec & Ee & G & F).
    apply (K_intro IF ts); [cbn; intuition discriminate| |].
    + eapply good_eq; [apply good_app; [apply (good_kw IF); cbn; tauto|exact G]| |reflexivity]. cbn [show_kind]. unfold show_branches. nrm. reflexivity.
    + intros rs x rest Hr. rewrite <- Ec, <- Ee.
      change (mkCC (CIf (map gb_of conds) (option_map commands e)) rs) with (pu_if_command Pd (mkIF conds e) rs).
      eapply co_if; [apply kw_here|apply F|exact Hr].
  - destruct Hok as [Hv Hl]. destruct (do_sem l HC Hl) as (bts & Gb & Fb).
    assert (Sd : good (s_of "; do " ++ show_cs show_cmd l ++ s_of "done ") (TSemi :: sp :: TName DO :: sp :: bts ++ [sp])).
    { eapply good_eq; [apply good_app; [apply (good_op TSemi); [exact I|exact I|discriminate]|exact Gb]|reflexivity|reflexivity]. }
    destruct ws as [ws|].
    + destruct (words_sem ws HW) as (wts & Gw & Fw).
      apply (K_intro FOR (TName v :: sp :: TName IN :: sp :: wts ++ TSemi :: sp :: TName DO :: sp :: bts)); [cbn; intuition discriminate| |].
      * eapply good_eq; [apply good_app; [apply (good_kw FOR); cbn; tauto|]; apply good_app; [apply (good_name v); exact Hv|]; apply good_app; [apply (good_kw IN); cbn; tauto|];
          apply good_app; [exact Gw|exact Sd]| |].
        -- cbn [show_kind]. nrm. reflexivity.
        -- nrm. reflexivity.
      * intros rs x rest Hr. nrm.
        change (mkCC (CFor v (Some ws) l) rs) with (pu_for_command Pd (mkFF v None (Some ([], ws, None)) [] (mkCG l [])) rs).
        eapply co_for; [apply kw_here|reflexivity|apply maybe_newline_none; apply kw_unfollow| |apply Fb|exact Hr].
        eapply fl_words; [apply newlines_none', kw_unfollow|apply kw_here|apply Fw|left; reflexivity|apply maybe_newline_none, kw_unfollow|apply newlines_none', kw_unfollow].
    + apply (K_intro FOR (TName v :: sp :: TSemi :: sp :: TName DO :: sp :: bts)); [cbn; intuition discriminate| |].
      * eapply good_eq; [apply good_app; [apply (good_kw FOR); cbn; tauto|]; apply good_app; [apply (good_name v); exact Hv|exact Sd]| |].
        -- cbn [show_kind]. nrm. reflexivity.
        -- nrm. reflexivity.
      * intros rs x rest Hr. nrm.
        change (mkCC (CFor v None l) rs) with (pu_for_command Pd (mkFF v None None [] (mkCG l [])) rs).
        assert (Us : unfollow (TSemi :: sp :: TName DO :: sp :: bts ++ sp :: x)) by (split; [reflexivity|split; discriminate]).
        eapply co_for; [apply kw_here|reflexivity|apply maybe_newline_none; exact Us| |apply Fb|exact Hr].
        eapply fl_semi; [apply newlines_none'; exact Us|apply newlines_none, kw_unfollow].
  - inversion HW as [|? ? Hw HW']; subst. destruct (arms_sem arms HW' HC Hok) as (karms & ats & Ek & Ga & Fa).
    destruct (word_sem w Hw) as (kw & wts & Ed & Gw & _ & _ & Fw & _).
    apply (K_intro CASE (wts ++ sp :: TName IN :: sp :: ats ++ [TName ESAC])); [cbn; intuition discriminate| |].
    + eapply good_eq; [apply good_app; [apply (good_kw CASE); cbn; tauto|]; apply good_app; [exact Gw|]; apply good_app; [apply (good_kw IN); cbn; tauto|];
        apply good_app; [exact Ga|apply (good_kw ESAC); cbn; tauto]| |].
      * cbn [show_kind]. unfold blank_after. nrm. reflexivity.
      * nrm. reflexivity.
    + intros rs x rest Hr. nrm. rewrite <- Ed, <- Ek. destruct (Fa x) as [Ux Fx].
      change (mkCC (CCase (default_word kw) (map arm_of karms)) rs) with (pu_case_command Pd (mkCF (pu_word Pd kw) [] None karms []) rs).
      specialize (Fw (sp :: TName IN :: sp :: ats ++ TName ESAC :: sp :: x) eq_refl).
      eapply co_case; [apply kw_here|rewrite skipw_sp, (word_form_skipw _ _ _ _ _ Fw); exact Fw|apply newlines_none, kw_unfollow|apply kw_here
        |apply maybe_newline_none; exact Ux|exact Fx|apply kw_here|exact Hr].
Qed.
(** Compound commands with their redirections. *)
Lemma compound_sem c : ok_compound c -> Forall W_sem (compound_words c) -> Forall C_sem (compound_cmds c) -> exists t ts,
  good (show_compound show_word show_cmd c) (t :: ts) /\ begins (t :: ts) /\ t <> TBang /\
  (forall k, sep_next k -> compound c (t :: ts ++ k) k).
Proof.
  destruct c as [k rs]. unfold ok_compound, compound_words, compound_cmds, show_compound. cbn [kind io].
  intros [Hk Hr] HW HC. apply Forall_app in HW as [HW1 HW2].
  destruct (kind_sem k Hk HW1 HC) as (t & ts & G & Bg & Hb & _ & _ & F). destruct (redirects_sem rs Hr HW2) as (rts & Gr & Fr).
  exists t, (ts ++ sp :: rts). split.
  - eapply good_eq; [apply good_app; [exact G|exact Gr]|reflexivity|]. nrm. reflexivity.
  - split; [intros x; specialize (Bg (rts ++ x)); cbn [app] in *; rewrite <- !app_assoc in *; exact Bg|]. split; [exact Hb|].
    intros x Hx. nrm. apply F. now apply Fr.
Qed.
Lemma pipeable_sem p : ok_pipeable p -> Forall W_sem (pipeable_words p) -> Forall C_sem (pipeable_cmds p) -> P_sem p.
Proof.
  destruct p as [c|c|n c]; cbn [ok_pipeable pipeable_words pipeable_cmds]; intros Hok HW HC.
  - now apply simple_sem.
  - destruct (compound_sem c Hok HW HC) as (t & ts & G & Bg & Hb & F). exists (t :: ts). split; [exact G|]. split; [exact Bg|].
    split; [cbn; congruence|]. intros k Hk. exact (cf_compound Bd Pd c _ _ (F k Hk)).
  - destruct Hok as (Hn & Hr & Hok). destruct (compound_sem c Hok HW HC) as (t & ts & G & Bg & Hb & F).
    exists (TName n :: TParenOpen :: TParenClose :: sp :: t :: ts).
    assert (Pl : plain_start (TName n :: TParenOpen :: TParenClose :: sp :: t :: ts)).
    { eexists _, _. split; [reflexivity|]. split; [reflexivity|]. split; [cbn; intuition discriminate|]. split.
      - intros k (w & rest & Hw & X). apply keyword_rest in X. destruct X as [X|X]; [|discriminate]. injection X as -> _. apply Hr. now apply reserved_names_incl.
      - intros k (v & rest & Hv & X & _). injection X as <- _. cbn in Hv. intuition discriminate. }
    split; [|split; [now apply plain_begins|split; [discriminate|]]].
    + assert (Gn : good (n ++ s_of "() ") [TName n; TParenOpen; TParenClose; sp]).
      { split.
        - apply (lexes_app n [TName n] (fun r => apart (TName n) r = true) (s_of "() ") [TParenOpen; TParenClose; sp]).
          + apply (lexes_token (TName n)); [exact Hn|discriminate].
          + apply (lexes_op TParenOpen); [reflexivity|]. apply (lexes_op TParenClose); [reflexivity|]. exact lexes_sp.
          + reflexivity.
        - intros r _. rewrite <- app_assoc. now apply name_tight'. }
      eapply good_eq; [apply good_app; [exact Gn|exact G]| |reflexivity]. cbn [show_pipeable]. nrm. reflexivity.
    + intros k Hk. destruct (plain_compound _ k Pl) as (X1 & X2 & _).
      change (PFunctionDef n c) with (pu_function_declaration Pd n [] c).
      eapply cf_function; [exact X1|exact X2|reflexivity|left; reflexivity|reflexivity|].
      eapply fb_body; [|apply F; exact Hk]. apply newlines_none. destruct (Bg k) as (E & N & _). split; [exact E|exact N].
Qed.
(** ** Pipelines and lists *)
Lemma begins_hd ts : begins ts -> exists t ts', ts = t :: ts'.
Proof.
  intros H. destruct ts as [|t ts]; [|eauto]. destruct (H []) as (_ & _ & X). exfalso. apply (X no_delims); [|now left].
  split; [|split]; cbn; easy.
Qed.
Lemma begins_app ts x : begins ts -> begins (ts ++ x).
Proof. intros H k. rewrite <- app_assoc. apply H. Qed.
Lemma pipe_sem ps : Forall P_sem ps -> ps <> [] -> exists ts,
  good (show_pipe show_word show_cmd ps) ts /\ begins ts /\ hd_error ts <> Some TBang /\
  forall k, sep_next k -> hd_error k <> Some TPipe -> pipe_form Bd Pd (map (fun p => ([], p)) ps) (ts ++ k) k.
Proof.
  induction 1 as [|p ps (ts & G & Bg & Hb & F) _ IH]; intros Hne; [congruence|]. destruct ps as [|q ps].
  - exists ts. split; [exact G|]. split; [exact Bg|]. split; [exact Hb|]. intros k Hk Hp. destruct (Bg k) as (E & _ & _).
    destruct (begins_hd ts Bg) as (t & ts' & Et).
    apply pi_last; [rewrite E; now apply F| |exact Hp]. rewrite Et in *. exact Hb.
  - destruct (IH ltac:(discriminate)) as (ts2 & G2 & Bg2 & Hb2 & F2). exists (ts ++ TPipe :: sp :: ts2).
    destruct (begins_hd ts Bg) as (t & ts' & Et). split; [|split; [now apply begins_app|split]].
    + eapply good_eq; [apply good_app; [exact G|]; apply good_app; [apply (good_op TPipe); [exact I|exact I|discriminate]|exact G2]|reflexivity|reflexivity].
    + rewrite Et in *. exact Hb.
    + intros k Hk Hp. nrm. destruct (Bg (TPipe :: sp :: ts2 ++ k)) as (E & _ & _). cbn [map].
      eapply pi_more; [rewrite E; apply F; eexists _, _; split; [reflexivity|cbn; tauto]|rewrite Et in *; exact Hb| |apply F2; assumption].
      apply newlines_none. destruct (Bg2 k) as (E2 & N2 & _). now split.
Qed.
Definition no_pipe (k : list token) : Prop := hd_error k <> Some TPipe.
Lemma listable_sem l : ok_listable l -> Forall P_sem (pipeables l) -> exists ts,
  good (show_listable show_word show_cmd l) ts /\ begins ts /\
  forall k, sep_next k -> no_pipe k -> pipeline_form Bd Pd l (ts ++ k) k.
Proof.
  assert (Bang : forall ps ts, begins ts -> (forall k, sep_next k -> no_pipe k -> pipe_form Bd Pd (map (fun p => ([], p)) ps) (ts ++ k) k) -> hd_error ts <> Some TBang ->
    forall k, sep_next k -> no_pipe k -> pipeline_form Bd Pd (pipeline_ast false (map (fun p => ([], p)) ps)) (ts ++ k) k).
  { intros ps ts Bg F Hb k Hk Hp. destruct (Bg k) as (E & _ & _). destruct (begins_hd ts Bg) as (t & ts' & Et).
    change (pipeline_ast false ?x) with (pu_pipeline Pd false x). apply pp_plain; rewrite E; [rewrite Et in *; exact Hb|now apply F]. }
  destruct l as [bang ps|c]; cbn [ok_listable pipeables]; intros Hok HP; cycle 1.
  - destruct (pipe_sem [c] HP ltac:(discriminate)) as (ts & G & Bg & Hb & F). exists ts. split; [exact G|]. split; [exact Bg|].
    exact (Bang [c] ts Bg F Hb).
  - destruct Hok as [Hne Hl]. destruct (pipe_sem ps HP Hne) as (ts & G & Bg & Hb & F). destruct bang.
    + exists (TBang :: sp :: ts). split; [|split].
      * eapply good_eq; [apply good_app; [apply (good_op TBang); [exact I|exact I|discriminate]|exact G]|reflexivity|reflexivity].
      * apply begins_intro; try reflexivity.
        -- cbn; intuition discriminate.
        -- intros k (w & rest & Hw & X). apply keyword_rest in X. destruct X as [X|X]; discriminate.
        -- intros k (v & rest & Hv & X & _). injection X as <- _. cbn in Hv. intuition discriminate.
      * intros k Hk Hp. destruct (Bg k) as (E & _ & _).
        assert (Ea : LPipe true ps = pu_pipeline Pd true (map (fun p => ([], p)) ps)).
        { cbn. unfold pipeline_ast. destruct ps as [|p [|q ps]]; cbn; [congruence|reflexivity|]. rewrite map_map. cbn. now rewrite map_id. }
        rewrite Ea. cbn [app]. eapply pp_bang; [reflexivity|]. 
        assert (Sk : forall cs ts, pipe_form Bd Pd cs ts k -> skipw ts = ts -> pipe_form Bd Pd cs (sp :: ts) k).
        { clear. intros cs ts H Es. inversion H; subst.
          - eapply pi_last; [rewrite skipw_sp; assumption|discriminate|assumption].
          - eapply pi_more; [rewrite skipw_sp; eassumption|discriminate|eassumption|assumption]. }
        apply Sk; [now apply F|exact E].
    + exists ts. split; [exact G|]. split; [exact Bg|].
      assert (Ea : LPipe false ps = pipeline_ast false (map (fun p => ([], p)) ps)).
      { specialize (Hl eq_refl). destruct ps as [|p [|q ps]]; cbn in *; try lia. rewrite map_map. cbn. now rewrite map_id. }
      rewrite Ea. exact (Bang ps ts Bg F Hb).
Qed.
Definition end_next (k : list token) : Prop := exists t k', k = t :: k' /\ In t [TSemi; TAmp].
Lemma rest_sem l : Forall (fun a => ok_listable (listable_of a) /\ Forall P_sem (pipeables (listable_of a))) l -> exists ts,
  good (concat (map (show_and_or show_word show_cmd) l)) ts /\
  forall k, end_next k -> sep_next (ts ++ k) /\ no_pipe (ts ++ k) /\ and_or_form Bd Pd (map (fun a => ([], a)) l) (ts ++ k) k.
Proof.
  induction 1 as [|a l [Ha HP] _ (ts & G & F)].
  - exists []. split; [apply good_nil|]. intros k (t & k' & -> & Hk). cbn [app]. cbn in Hk.
    split; [exists t, k'; split; [reflexivity|]; cbn; tauto|].
    destruct Hk as [<- |[<- |[]]]; (split; [discriminate|]; cbn [map]; first [exact (ao_end Bd Pd (TSemi :: k') ltac:(discriminate) ltac:(discriminate))|
      exact (ao_end Bd Pd (TAmp :: k') ltac:(discriminate) ltac:(discriminate))]).
  - cbn [map concat]. destruct (listable_sem _ Ha HP) as (lts & Gl & Bl & Fl).
    assert (X : forall op mk, a = mk (listable_of a) -> show_and_or show_word show_cmd a = (as_str op ++ [32]) ++ show_listable show_word show_cmd (listable_of a) ->
      operator op -> lexable op -> op <> TNewline -> op = TAndIf \/ op = TOrIf ->
      (forall p ns l ts ts1 ts2 ts3 rest, skipw ts = op :: ts1 -> newlines ns ts1 ts2 -> pipeline_form Bd Pd p ts2 ts3 -> and_or_form Bd Pd l ts3 rest ->
         and_or_form Bd Pd ((ns, mk p) :: l) ts rest) ->
      exists ts, good (show_and_or show_word show_cmd a ++ concat (map (show_and_or show_word show_cmd) l)) ts /\
        forall k, end_next k -> sep_next (ts ++ k) /\ no_pipe (ts ++ k) /\ and_or_form Bd Pd (([], a) :: map (fun a => ([], a)) l) (ts ++ k) k).
    { intros op mk Ea Es Ho Hl Hn Hop Hf. exists (op :: sp :: lts ++ ts). split.
      - rewrite Es. eapply good_eq; [apply good_app; [apply good_app; [apply (good_op op); assumption|exact Gl]|exact G]|reflexivity|]. nrm. reflexivity.
      - intros k Hk. destruct (F k Hk) as (Hs & Hp & Fk). nrm. split; [eexists _, _; split; [reflexivity|]; destruct Hop as [-> | ->]; cbn; tauto|].
        split; [unfold no_pipe; cbn; destruct Hop as [-> | ->]; discriminate|]. rewrite Ea.
        eapply Hf; [destruct Hop as [-> | ->]; reflexivity| |apply Fl; [exact Hs|exact Hp]|exact Fk].
        apply newlines_none. destruct (Bl (ts ++ k)) as (E & N & _). now split. }
    destruct a as [p|p]; cbn [listable_of] in *.
    + apply (X TAndIf And); auto; [exact I|exact I|discriminate|]. intros. eapply ao_and_if; eassumption.
    + apply (X TOrIf Or); auto; [exact I|exact I|discriminate|]. intros. eapply ao_or_if; eassumption.
Qed.
Lemma cmd_step c : ok_command c -> Forall W_sem (flat_map pipeable_words (cmd_pipeables c)) ->
  Forall C_sem (flat_map pipeable_cmds (cmd_pipeables c)) -> C_sem (TLCmd c).
Proof.
  intros [Hl Hp] HW HC.
  assert (HP : Forall P_sem (cmd_pipeables c)).
  { clear Hl. unfold cmd_pipeables in *. revert Hp HW HC. generalize (flat_map pipeables (listables (list_of c))). intros l Hp.
    induction Hp as [|p l Hp _ IH]; intros HW HC; [constructor|]. cbn [flat_map] in HW, HC. apply Forall_app in HW as [HW1 HW2]. apply Forall_app in HC as [HC1 HC2].
    constructor; [now apply pipeable_sem|auto]. }
  clear Hp HW HC. unfold cmd_pipeables, listables in *.
  remember (list_of c) as l eqn:El. destruct l as [f r]. cbn [first rest flat_map] in *. inversion Hl as [|? ? Hf Hr]; subst. apply Forall_app in HP as [HPf HPr].
  destruct (listable_sem f Hf HPf) as (fts & Gf & Bf & Ff). destruct (rest_sem r) as (rts & Gr & Fr).
  { clear -Hr HPr. induction r as [|a r IH]; [constructor|]. cbn [map flat_map] in *. inversion Hr; subst. apply Forall_app in HPr as [H1' H2']. constructor; auto. }
  assert (List : forall k, end_next k -> list_form Bd Pd (mkAOL f r) (fts ++ rts ++ k) k).
  { intros k Hk. destruct (Fr k Hk) as (Hs & Hn & Fk).
    assert (Ea : mkAOL f r = pu_and_or_list Pd f (map (fun a => ([], a)) r)).
    { cbn. unfold d_and_or_list. rewrite map_map. cbn. now rewrite map_id. }
    rewrite Ea. eapply lf_list; [apply Ff; [exact Hs|exact Hn]|exact Fk]. }
  assert (X : forall op, In op [TSemi; TAmp] -> show_cmd (TLCmd c) = (show_listable show_word show_cmd f ++ concat (map (show_and_or show_word show_cmd) r)) ++ (as_str op ++ [32]) ->
    (forall k, unfollow k -> complete_form Bd Pd [] (TLCmd c) (fts ++ rts ++ op :: sp :: k) k) -> C_sem (TLCmd c)).
  { intros op Ho Es Fc. exists ((fts ++ rts) ++ [op; sp]).
    assert (Gt : good (show_cmd (TLCmd c)) ((fts ++ rts) ++ [op; sp])).
    { rewrite Es. apply good_app; [now apply good_app|]. cbn in Ho. destruct Ho as [<- |[<- |[]]]; apply good_op; solve [exact I|discriminate]. }
    split; [exact (proj1 Gt)|]. split; [|split].
    - intros x. rewrite Es, <- app_assoc. assert (Gfr := good_app _ _ _ _ Gf Gr). apply (proj2 Gfr).
      cbn in Ho. destruct Ho as [<- |[<- |[]]]; left; reflexivity.
    - rewrite <- app_assoc. now apply begins_app.
    - intros k Hk Hn. nrm. apply Fc. now split. }
  destruct c as [l|l]; cbn [list_of] in El; subst l; cycle 1.
  - apply (X TSemi); [now left|apply show_cmd_eq|]. intros k Hk.
    change (TLCmd (CList (mkAOL f r))) with (pu_complete_command Pd [] (mkAOL f r) SepSemi None).
    eapply cp_semi; [apply List; eexists _, _; split; [reflexivity|cbn; tauto]|now apply maybe_newline_none].
  - apply (X TAmp); [right; now left|apply show_cmd_eq|]. intros k Hk.
    change (TLCmd (CJob (mkAOL f r))) with (pu_complete_command Pd [] (mkAOL f r) SepAmp None).
    eapply cp_amp; [apply List; eexists _, _; split; [reflexivity|cbn; tauto]|now apply maybe_newline_none].
Qed.
End RoundTrip.
