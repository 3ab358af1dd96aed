(** * Printed words are read back (C31)

    For the words of [Printer.v] in normal form: the lexer turns the printed word into tokens that
    are a written form ([Forms.v]) of the word, whatever follows the blank after it. *)
From Coq Require Import String.
From Verif Require Import Base Token Lexer LexSpec LexProofs LexTheorems Relex Seams Ast Builder ParserBase BalancedSpec HeredocSpec ArithSpec
  DefaultBuilder Compress Runs Pure Forms BaseForms ArithTheorems Quotes LexJoin Printer.
Local Open Scope N_scope.

Notation Bd := default_builder.
Notation Pd := default_pure.

(** ** Lists of fragments and the builder's merging *)
(** The fragments [ws] in the source are merged into [f]. *)
Definition explodes (ws : list (wk tlcmd)) (f : wk tlcmd) : Prop :=
  ws = [f] \/ exists ls, ls <> [] /\ ws = map (fun s => KSimple (KLiteral s)) ls /\ f = KSimple (KLiteral (concat ls)).
Definition lit_frag (w : wk tlcmd) : Prop := match w with KSimple (KLiteral _) => True | _ => False end.
Lemma separate_tail {A} (R : A -> A -> Prop) x l : separate R (x :: l) -> separate R l.
Proof. destruct l; cbn; [auto|intros [_ H]; exact H]. Qed.
Lemma pass_literals ls : forall s ws, @pass (wk tlcmd) coalesce_word (KSimple (KLiteral s)) (map (fun s => KSimple (KLiteral s)) ls ++ ws) =
  pass coalesce_word (KSimple (KLiteral (s ++ concat ls))) ws.
Proof.
  induction ls as [|x ls IH]; intros s ws; cbn [map app concat]; [now rewrite app_nil_r|].
  cbn [pass coalesce_word coalesce_simple]. rewrite IH. now rewrite <- app_assoc.
Qed.
Lemma explodes_cons ws f : explodes ws f -> exists x ws', ws = x :: ws' /\ 
  (forall tl, pass coalesce_word x (ws' ++ tl) = pass coalesce_word f tl).
Proof.
  intros [-> |(ls & Hn & -> & ->)].
  - exists f, []. split; reflexivity.
  - destruct ls as [|s ls]; [congruence|]. eexists _, _. split; [reflexivity|]. intros tl. cbn [concat]. apply pass_literals.
Qed.
(** A fragment and the next one. *)
Lemma passes_separate (l : list (wk tlcmd)) wss : Forall2 explodes wss l ->
  (forall pre a b post, l = pre ++ a :: b :: post -> may_merge a b = false) ->
  passes coalesce_word (concat wss) = l.
Proof.
  intros HF Hs. destruct HF as [|ws f wss l Hf HF]; [reflexivity|]. cbn [concat].
  destruct (explodes_cons ws f Hf) as (x & ws' & -> & E). cbn [app passes]. rewrite E. clear x ws' E Hf.
  revert f Hs. induction HF as [|ws g wss l Hg HF IH]; intros f Hs; [reflexivity|]. cbn [concat].
  destruct (explodes_cons ws g Hg) as (x & ws' & -> & E). cbn [app].
  assert (M : may_merge f g = false) by exact (Hs [] f g l eq_refl).
  assert (M' : may_merge f x = false).
  { destruct Hg as [[= <- _]|(ls & Hn & E' & ->)]; [exact M|]. destruct ls as [|s ls]; [congruence|]. injection E' as -> _.
    destruct f as [[]| |]; cbn in *; congruence. }
  rewrite (wpass_no f x _ M'). f_equal. rewrite E. apply IH. intros pre a b post H. apply (Hs (f :: pre) a b post). now rewrite H.
Qed.

(** The numbers among the operands of [<&] and [>&]. *)
Lemma numeric_maybe_simple (k : swk tlcmd) : numeric_simple (d_map_simple default_word k) -> maybe_digits k.
Proof. destruct k; cbn; auto. Qed.
Lemma numeric_maybe (k : wk tlcmd) : numeric_frag (d_map_word default_word k) -> maybe_number k.
Proof.
  destruct k; cbn; auto using numeric_maybe_simple. intros H. induction l as [|x l IH]; cbn in *; constructor; inversion H; subst; auto using numeric_maybe_simple.
Qed.
Lemma numeric_explodes ws k : explodes ws k -> maybe_number k -> Forall maybe_number ws.
Proof.
  intros [-> |(ls & _ & -> & ->)] H; [now constructor|]. cbn in H. induction ls as [|s ls IH]; cbn in *; constructor.
  - unfold digits in H. now apply Forall_app in H as [H _].
  - apply IH. unfold digits in H. now apply Forall_app in H as [_ H].
Qed.

Lemma separate_kind (ks : list (wk tlcmd)) : separate same_kind (map (d_map_word default_word) ks) ->
  forall pre a b post, ks = pre ++ a :: b :: post -> may_merge a b = false.
Proof.
  intros H pre a b post ->. induction pre as [|x pre IH].
  - cbn in H. destruct H as [H _]. destruct a as [[]| |], b as [[]| |]; cbn in *; try reflexivity; now elim H.
  - apply IH. exact (separate_tail _ _ _ H).
Qed.
Lemma separate_simple (ks : list (swk tlcmd)) : separate two_literals (map (d_map_simple default_word) ks) ->
  coalesce coalesce_simple ks = ks.
Proof.
  rewrite coalesce_s. destruct ks as [|x ks]; [reflexivity|]. cbn [passes]. revert x. induction ks as [|y ks IH]; intros x H; [reflexivity|].
  pose proof (IH y (separate_tail _ _ _ H)) as E. destruct H as [H _]. cbn [pass].
  destruct x, y; cbn [coalesce_simple]; try (now rewrite E). now elim H.
Qed.
Lemma passes_nonempty wss (ks : list (wk tlcmd)) : Forall2 explodes wss ks -> (List.length ks <= List.length (concat wss))%nat.
Proof.
  induction 1 as [|ws k wss ks H _ IH]; [reflexivity|]. cbn [concat List.length]. rewrite app_length.
  destruct (explodes_cons _ _ H) as (x & ws' & -> & _). cbn [List.length]. lia.
Qed.
(** What the default builder makes of the fragments of a word in normal form. *)
Lemma word_merged wss ks x : Forall2 explodes wss ks ->
  fragments x = map (d_map_word default_word) ks ->
  match x with WConcat l => (2 <= List.length l)%nat /\ separate same_kind l | WSingle (WDoubleQuoted l) => separate two_literals l | _ => True end ->
  exists k, word_of (concat wss) = Some k /\ default_word k = TLWord x.
Proof.
  intros HF Ek Hx.
  assert (Hp : passes coalesce_word (concat wss) = ks).
  { apply passes_separate; [exact HF|]. apply separate_kind. rewrite <- Ek. destruct x as [l|f]; [apply Hx|exact I]. }
  pose proof (passes_nonempty _ _ HF) as Hl.
  assert (Hk : ks <> []).
  { intros ->. destruct x as [l|f]; [|discriminate]. cbn in Ek. subst l. cbn in Hx. lia. }
  destruct (concat wss) as [|a [|b ws]] eqn:Ew.
  - cbn in Hp. congruence.
  - cbn in Hp. subst ks. exists (KSingle a). split; [reflexivity|]. rewrite default_word_eq. unfold d_map_complex. f_equal.
    destruct x as [l|f]; [cbn in Ek; subst l; cbn in Hx; lia|].
    injection Ek as ->. destruct a as [s|v|s]; try reflexivity. cbn [compress]. cbn in Hx. rewrite separate_simple; [reflexivity|exact Hx].
  - exists (KConcat (a :: b :: ws)). split; [reflexivity|]. rewrite default_word_eq. unfold d_map_complex. f_equal. cbn [compress].
    rewrite coalesce_w, Hp. destruct x as [l|f].
    2: { destruct ks as [|k [|k2 ks]]; [congruence| |discriminate]. injection Ek as ->. reflexivity. }
    cbn in Ek. subst l. destruct ks as [|k [|k2 ks]]; [congruence| |reflexivity]. cbn in Hx. lia.
Qed.

Section RoundTrip.
Context {U : Uni}.
Notation frag := (frag Bd Pd).
Notation expansion := (expansion Bd Pd).
Notation dollar := (dollar Bd Pd).
Notation quoted := (quoted Bd Pd).
Notation frags := (frags Bd Pd).
Notation operand := (operand Bd Pd).

(** ** What is to be shown of the parts *)
Definition starts_in (cs : list char) (r : str) : Prop := exists c r', r = c :: r' /\ In c cs.
Definition specials : list char := [36; 42; 63; 91; 93; 126; 58; 39; 125; 34; 92].

Lemma lexes_as_text s ts c r : lexes_as s ts c -> c r -> text ts = s.
Proof.
  intros H Hr. specialize (H r Hr). apply (f_equal text) in H. rewrite text_app, !lex_text in H. symmetry. now apply app_inv_tail in H.
Qed.
Lemma lexes_as_lexable s ts c r : lexes_as s ts c -> c r -> Forall lexable ts.
Proof.
  intros H Hr. specialize (H r Hr). pose proof (lex_all_lexable (s ++ r)) as F. rewrite H in F. now apply Forall_app in F as [F _].
Qed.
Lemma lexes_as_unique s ts ts' c c' r : lexes_as s ts c -> lexes_as s ts' c' -> c r -> c' r -> ts = ts'.
Proof. intros H H' Hr Hr'. specialize (H r Hr). specialize (H' r Hr'). rewrite H in H'. now apply app_inv_tail in H'. Qed.

(** Lists of commands: delimiters used in the grammar. *)
Definition terminators : list str := [DO; THEN; ELIF; ELSE; FI; DONE; ESAC].
Definition usual (cfg : delimiters) : Prop :=
  incl (exact_tokens cfg) [TParenClose; TDSemi] /\ incl (reserved_words cfg) terminators /\ incl (reserved_tokens cfg) [TCurlyClose].
(** The start of a command. *)
Definition begins (ts : list token) : Prop := forall k,
  skipw (ts ++ k) = ts ++ k /\ no_newline (ts ++ k) /\ forall cfg, usual cfg -> ~ group_end cfg (ts ++ k).
Definition C_sem (c : tlcmd) : Prop := exists ts,
  lexes_as (show_cmd c) ts tight /\ (forall r, tight (show_cmd c ++ r)) /\ begins ts /\
  forall k, skipw k = k -> no_newline k -> complete_form Bd Pd [] c (ts ++ k) k.
Definition spaced (r : str) : Prop := hd_error r = Some 32.
Definition W_sem (w : tlword) : Prop := exists a ws k ts,
  word_of (a :: ws) = Some k /\ default_word k = w /\ lexes_as (show_word w) ts spaced /\
  (forall rest, delimited rest -> frags None (a :: ws) (ts ++ rest) rest) /\ hd_error (show_word w) <> Some 35 /\
  match w with TLWord x => Forall numeric_frag (fragments x) -> Forall maybe_number (a :: ws) end.
Definition O_sem (w : tlword) : Prop := exists a ws k ts,
  word_of (a :: ws) = Some k /\ default_word k = w /\ lexes_as (show_word w) ts (starts_in [125]) /\
  (forall rest, operand (a :: ws) (ts ++ TCurlyClose :: rest) (TCurlyClose :: rest)).

(** ** Lists of commands *)
Definition unfollow (ts : list token) : Prop := skipw ts = ts /\ no_newline ts.
Lemma lexes_sp : lexes_as [32] [sp] tight.
Proof.
  intros r Hr. transitivity (lex (text (sp :: lex r))); [rewrite text_cons, lex_text; reflexivity|].
  apply lex_relexable, relexable_sp; [apply lex_is_relexable|now rewrite lex_text].
Qed.
Lemma newlines_none ts : unfollow ts -> newlines [] (sp :: ts) ts.
Proof.
  intros [E H]. change (newlines [] (sp :: ts) ts). replace ts with (skipw (sp :: ts)) at 2 by exact E. apply ns_nil.
  cbn [skipw sp]. now rewrite E.
Qed.
Lemma newlines_none' ts : unfollow ts -> newlines [] ts ts.
Proof. intros [E H]. rewrite <- E at 2. apply ns_nil. now rewrite E. Qed.
Lemma cmds_sem cs : Forall C_sem cs -> exists ts,
  lexes_as (show_cs show_cmd cs) ts tight /\ (forall r, tight r -> tight (show_cs show_cmd cs ++ r)) /\
  (cs <> [] -> begins ts) /\
  forall cfg k, usual cfg -> group_end cfg k -> unfollow k ->
    group Bd Pd cfg (mkCG cs []) (ts ++ k) k /\ group Bd Pd cfg (mkCG cs []) (sp :: ts ++ k) k.
Proof.
  induction 1 as [|c cs (ts1 & L1 & T1 & B1 & F1) _ (ts2 & L2 & T2 & B2 & F2)].
  - exists []. split; [apply lexes_nil|]. split; [auto|]. split; [congruence|]. intros cfg k _ He Hk. cbn [app].
    split; apply gr_end; auto using newlines_none, newlines_none'.
  - exists (ts1 ++ ts2). unfold show_cs in *. cbn [map concat].
    split; [eapply lexes_app; [exact L1|exact L2|exact T2]|]. split; [intros r Hr; rewrite <- app_assoc; apply T1|].
    split; [intros _ k; rewrite <- app_assoc; apply B1|].
    intros cfg k Hu He Hk. destruct (F2 cfg k Hu He Hk) as [G _]. rewrite <- app_assoc.
    destruct (B1 (ts2 ++ k)) as (E & Hn & Hg).
    assert (Hk2 : unfollow (ts2 ++ k)).
    { destruct cs as [|c2 cs].
      - cbn [map concat] in L2. pose proof (lexes_as_unique _ _ _ _ _ [] L2 (lexes_nil tight) I I) as ->. exact Hk.
      - destruct (B2 ltac:(discriminate) k) as (X & Y & _). now split. }
    split; eapply gr_command; try exact G; try apply Hg; auto using newlines_none, newlines_none', F1.
    1,3: apply newlines_none' || apply newlines_none; now split.
    all: apply F1; apply Hk2.
Qed.

(** ** Parameters and substitutions *)
Definition param_next : list char := [45; 61; 63; 43; 37; 35; 58; 125].
Ltac in_cases H := cbn [In] in H; repeat (destruct H as [<- |H]; [|]); [..|contradiction].
Lemma name_apart t (c : char) r : (match t with TName _ | TLiteral _ | TDollar => True | _ => closed_op t = true end) ->
  In c (param_next ++ specials) -> apart t (c :: r) = true.
Proof.
  intros Ht H. cbn [param_next specials app In] in H.
  repeat (destruct H as [<- |H]; [destruct t; cbn in Ht; try discriminate; reflexivity|]). contradiction.
Qed.
Lemma param_sem p : valid_param p -> exists t, braced_param p t /\ lexes_as (show_name p) [t] (starts_in param_next).
Proof.
  intros Hp.
  assert (X : forall t, show_name p = as_str t -> lexable t ->
    (match t with TName _ | TLiteral _ | TDollar => True | _ => closed_op t = true end) -> lexes_as (show_name p) [t] (starts_in param_next)).
  { intros t -> Hl Ht. eapply lexes_weaken; [apply lexes_token; [exact Hl|]|].
    - intros ->. discriminate.
    - intros r (c & r' & -> & Hc). apply name_apart; [exact Ht|]. apply in_or_app. now left. }
  destruct p; eexists; (split; [first [apply bp_token; constructor|apply bp_positional; [apply nu_digits, dec_value|exact Hp]]|
    apply X; [reflexivity|first [exact I|exact Hp|apply dec_lexable]|first [exact I|reflexivity]]]).
Qed.
Lemma lexes_dollar (c : char) s ts cond : is_digit10 c = false -> lexes_as (c :: s) ts cond -> lexes_as (36 :: c :: s) (TDollar :: ts) cond.
Proof.
  intros Hd H. change (36 :: c :: s) with (as_str TDollar ++ (c :: s)). change (TDollar :: ts) with ([TDollar] ++ ts).
  eapply lexes_app; [apply lexes_token; [exact I|discriminate]|exact H|]. intros r _. cbn. now rewrite Hd.
Qed.
Lemma lexes_op t s ts cond : closed_op t = true -> lexes_as s ts cond -> lexes_as (as_str t ++ s) (t :: ts) cond.
Proof. intros Ht H. change (t :: ts) with ([t] ++ ts). eapply lexes_app; [now apply lexes_closed|exact H|]. intros; exact I. Qed.
(** The operand. *)
Definition operand_of (w : option tlword) (ws : list (wk tlcmd)) (ts : list token) : Prop :=
  option_map default_word (word_of ws) = w /\ lexes_as (show_operand show_word w) ts (starts_in [125]) /\
  (forall rest, operand ws (ts ++ TCurlyClose :: rest) (TCurlyClose :: rest)) /\ (ws = [] -> w = None).
Lemma operand_sem w : Forall O_sem (opt_list w) -> exists ws ts, operand_of w ws ts.
Proof.
  destruct w as [w|]; intros H.
  - inversion H as [|? ? (a & ws & k & ts & E1 & E2 & L & F) _]; subst. exists (a :: ws), ts. split; [now rewrite E1|].
    split; [exact L|]. split; [exact F|discriminate].
  - exists [], []. split; [reflexivity|]. split; [apply lexes_nil|]. split; [|auto]. intros rest. apply op_end.
Qed.
Lemma hd_text t ts s : text ts = s -> hd_error s <> hd_error (as_str t) -> as_str t <> [] -> hd_error ts <> Some t.
Proof.
  intros <- H Hn E. destruct ts as [|u ts]; [discriminate|]. injection E as ->. apply H. rewrite text_cons.
  destruct (as_str t); [congruence|reflexivity].
Qed.
Lemma lexes_ops ops s ts cond : Forall (fun t => closed_op t = true) ops -> lexes_as s ts cond -> lexes_as (text ops ++ s) (ops ++ ts) cond.
Proof.
  induction 1 as [|t ops Ht _ IH]; intros H; [exact H|]. rewrite text_cons, <- app_assoc. cbn [app]. apply lexes_op; auto.
Qed.
Lemma braces_sem p t op ops w wts : lexes_as (show_name p) [t] (starts_in param_next) ->
  op = text ops -> Forall (fun t => closed_op t = true) ops ->
  (forall r, starts_in param_next (text ops ++ r)) -> lexes_as (show_operand show_word w) wts (starts_in [125]) ->
  lexes_as (in_braces show_word p op w) (TDollar :: TCurlyOpen :: t :: ops ++ wts ++ [TCurlyClose]) any.
Proof.
  intros Lp -> Ho Hs Lw. unfold in_braces.
  change (s_of "${" ++ ?x) with (36 :: as_str TCurlyOpen ++ x).
  apply (lexes_dollar 123); [reflexivity|]. apply (lexes_op TCurlyOpen); [reflexivity|].
  change (t :: ?x) with ([t] ++ x). eapply lexes_app; [exact Lp| |].
  - apply lexes_ops; [exact Ho|]. eapply lexes_app; [exact Lw|exact (lexes_closed TCurlyClose eq_refl)|].
    intros r _. exists 125, r. split; [reflexivity|now left].
  - intros r _. rewrite <- app_assoc. apply Hs.
Qed.
Lemma subst_sem s : ok_subst s -> Forall O_sem (subst_operands s) -> Forall C_sem (subst_cmds s) ->
  exists k ts, d_map_subst default_word k = s /\ lexes_as (show_subst show_word show_cmd s) (TDollar :: ts) any /\
    forall mid, dollar (KSubst k) (TDollar :: ts ++ mid) mid.
Proof.
  intros Hok HO HC.
  assert (Sub : forall (mk : param -> option tlword -> d_subst) (kk : bool -> param -> option (cwk tlcmd) -> psk tlcmd) (c : bool) p w op,
    Forall O_sem (opt_list w) -> valid_param p -> subst_op c op (kk c) -> closed_op op = true -> In op [TDash; TEquals; TQuestion; TPlus] ->
    ~ (p = PmPound /\ c = false /\ w = None /\ (op = TDash \/ op = TQuestion)) ->
    (forall ws, d_map_subst default_word (kk c p ws) = mk p (option_map default_word ws)) ->
    exists k ts, d_map_subst default_word k = mk p w /\
      lexes_as (in_braces show_word p (with_colon c (as_str op)) w) (TDollar :: ts) any /\
      forall mid, dollar (KSubst k) (TDollar :: ts ++ mid) mid).
  { clear. intros mk kk c p w op HO Hp Hop Hc Hi Hno Hmk.
    destruct (operand_sem w HO) as (ws & wts & <- & Lw & Fw & Hw). destruct (param_sem p Hp) as (t & Hb & Lp).
    exists (kk c p (word_of ws)), (TCurlyOpen :: t :: ((if c then [TColon] else []) ++ [op]) ++ wts ++ [TCurlyClose]).
    split; [apply Hmk|]. split.
    - apply braces_sem; auto.
      + destruct c; cbn; [|now rewrite app_nil_r]. unfold text; cbn. now rewrite app_nil_r.
      + destruct c; repeat constructor; exact Hc.
      + intros r. destruct c; [exists 58; eexists; split; [reflexivity|cbn; tauto]|].
        cbn [In] in Hi. destruct Hi as [<- |[<- |[<- |[<- |[]]]]]; eexists _, _; (split; [reflexivity|cbn; tauto]).
    - intros mid. cbn [app]. rewrite <- !app_assoc. cbn [app]. apply do_subst; auto. intros (H1 & H2 & H3 & H4). apply Hno. auto. }
  destruct s as [cs|p|[e|]|c p w|c p w|c p w|c p w|p w|p w|p w|p w]; cbn [ok_subst subst_operands subst_cmds show_subst] in *.
  - destruct (cmds_sem cs HC) as (ts & L & T & _ & F). exists (KSCommand (mkCG cs [])), (TParenOpen :: sp :: ts ++ [TParenClose]).
    split; [reflexivity|]. split.
    + change (s_of "$( " ++ ?x) with (36 :: as_str TParenOpen ++ (as_str sp ++ x)). apply (lexes_dollar 40); [reflexivity|].
      apply (lexes_op TParenOpen); [reflexivity|]. change (sp :: ?x) with ([sp] ++ x). eapply lexes_app; [exact lexes_sp| |].
      * eapply lexes_app; [exact L|exact (lexes_closed TParenClose eq_refl)|]. intros r _. now left.
      * intros r _. rewrite <- app_assoc. apply T. now left.
    + intros mid. cbn [app]. rewrite <- !app_assoc. apply do_command; [|discriminate].
      apply F; [repeat split; try easy| |split; [reflexivity|split; discriminate]].
      * intros t [<- |[]]. now left.
      * right; left. exists TParenClose, mid. split; [reflexivity|now left].
  - destruct (param_sem p Hok) as (t & Hb & Lp). exists (KSLen p), (TCurlyOpen :: TPound :: t :: [TCurlyClose]). split; [reflexivity|]. split.
    + change (s_of "${#" ++ ?x) with (36 :: as_str TCurlyOpen ++ (as_str TPound ++ x)). apply (lexes_dollar 123); [reflexivity|].
      apply (lexes_op TCurlyOpen); [reflexivity|]. apply (lexes_op TPound); [reflexivity|]. change (t :: ?x) with ([t] ++ x).
      eapply lexes_app; [exact Lp|exact (lexes_closed TCurlyClose eq_refl)|]. intros r _. exists 125, r. split; [reflexivity|cbn; tauto].
    + intros mid. cbn [app]. now apply do_length.
  - exists (KSArith (Some e)), (TParenOpen :: TParenOpen :: awrite e 0 ++ [TParenClose; TParenClose]). split; [reflexivity|]. split.
    + change (s_of "$((" ++ ?x) with (36 :: as_str TParenOpen ++ (as_str TParenOpen ++ x)). apply (lexes_dollar 40); [reflexivity|].
      apply (lexes_op TParenOpen); [reflexivity|]. apply (lexes_op TParenOpen); [reflexivity|].
      intros r _. rewrite <- !app_assoc. cbn [app].
      transitivity (lex (text (awrite e 0 ++ TParenClose :: TParenClose :: lex r))).
      { f_equal. rewrite text_app, !text_cons, lex_text. reflexivity. }
      apply lex_relexable. apply awrite_relexable; [exact Hok| |cbn; tauto].
      apply relexable_closed; [reflexivity|]. apply relexable_closed; [reflexivity|]. apply lex_is_relexable.
    + intros mid. cbn [app]. rewrite <- !app_assoc. cbn [app].
      eapply do_arith; [apply (awrite_form e Hok 0); lia|reflexivity|reflexivity].
  - exists (KSArith None), [TParenOpen; TParenOpen; sp; TParenClose; TParenClose]. split; [reflexivity|]. split.
    + apply (lexes_dollar 40); [reflexivity|]. apply (lexes_op TParenOpen); [reflexivity|]. apply (lexes_op TParenOpen); [reflexivity|].
      apply (lexes_app [32] [sp] tight); [exact lexes_sp| |intros r _; now left].
      apply (lexes_op TParenClose); [reflexivity|]. exact (lexes_closed TParenClose eq_refl).
    + intros mid. cbn [app]. eapply do_arith_empty; reflexivity.
  - destruct Hok as [Hp Hno]. apply (Sub (SDefault c) KSDefault c p w TDash); [auto|auto|constructor|reflexivity|cbn; tauto|intuition congruence|reflexivity].
  - apply (Sub (SAssign c) KSAssign c p w TEquals); [auto|auto|constructor|reflexivity|cbn; tauto|intuition congruence|reflexivity].
  - destruct Hok as [Hp Hno]. apply (Sub (SError c) KSError c p w TQuestion); [auto|auto|constructor|reflexivity|cbn; tauto|intuition congruence|reflexivity].
  - apply (Sub (SAlternative c) KSAlternative c p w TPlus); [auto|auto|constructor|reflexivity|cbn; tauto|intuition congruence|reflexivity].
  - destruct Hok as [Hp Hno]. destruct (operand_sem w HO) as (ws & wts & Ew & Lw & Fw & Hw). destruct (param_sem p Hp) as (t & Hb & Lp).
    exists (KSRemoveSmallestSuffix p (word_of ws)), (TCurlyOpen :: t :: [TPercent] ++ wts ++ [TCurlyClose]). split; [cbn; now rewrite Ew|].
    split; [apply braces_sem; auto; intros r; exists 37; eexists; split; [reflexivity|cbn; tauto]|].
    intros mid. cbn [app]. rewrite <- !app_assoc. cbn [app]. apply do_suffix; auto.
    destruct wts as [|x wts]; [discriminate|]. cbn [app hd_error]. unfold not_before in Hno.
    apply (hd_text TPercent (x :: wts) (show_operand show_word w)); try discriminate; [|exact Hno].
    apply (lexes_as_text _ _ _ [125] Lw). exists 125, []. split; [reflexivity|now left].
  - destruct (operand_sem w HO) as (ws & wts & Ew & Lw & Fw & Hw). destruct (param_sem p Hok) as (t & Hb & Lp).
    exists (KSRemoveLargestSuffix p (word_of ws)), (TCurlyOpen :: t :: [TPercent; TPercent] ++ wts ++ [TCurlyClose]). split; [cbn; now rewrite Ew|].
    split; [apply braces_sem; auto; intros r; exists 37; eexists; split; [reflexivity|cbn; tauto]|].
    intros mid. cbn [app]. rewrite <- !app_assoc. cbn [app]. apply do_suffixes; auto.
  - destruct Hok as (Hp & Hno & Hne). destruct (operand_sem w HO) as (ws & wts & Ew & Lw & Fw & Hw). destruct (param_sem p Hp) as (t & Hb & Lp).
    exists (KSRemoveSmallestPrefix p (word_of ws)), (TCurlyOpen :: t :: [TPound] ++ wts ++ [TCurlyClose]). split; [cbn; now rewrite Ew|].
    split; [apply braces_sem; auto; intros r; exists 35; eexists; split; [reflexivity|cbn; tauto]|].
    intros mid. cbn [app]. rewrite <- !app_assoc. cbn [app]. apply do_prefix; auto; [|intuition].
    destruct wts as [|x wts]; [discriminate|]. cbn [app hd_error]. unfold not_before in Hno.
    apply (hd_text TPound (x :: wts) (show_operand show_word w)); try discriminate; [|exact Hno].
    apply (lexes_as_text _ _ _ [125] Lw). exists 125, []. split; [reflexivity|now left].
  - destruct (operand_sem w HO) as (ws & wts & Ew & Lw & Fw & Hw). destruct (param_sem p Hok) as (t & Hb & Lp).
    exists (KSRemoveLargestPrefix p (word_of ws)), (TCurlyOpen :: t :: [TPound; TPound] ++ wts ++ [TCurlyClose]). split; [cbn; now rewrite Ew|].
    split; [apply braces_sem; auto; intros r; exists 35; eexists; split; [reflexivity|cbn; tauto]|].
    intros mid. cbn [app]. rewrite <- !app_assoc. cbn [app]. apply do_prefixes; auto.
Qed.
Lemma expansion_sem f : (match f with WParam p => valid_param p | WSubst s => ok_subst s | _ => False end) ->
  Forall O_sem (simple_operands f) -> Forall C_sem (simple_cmds f) ->
  exists k ts, d_map_simple default_word k = f /\ lexes_as (show_simple show_word show_cmd f) (TDollar :: ts) any /\
    forall mid, expansion k (TDollar :: ts ++ mid) mid.
Proof.
  destruct f as [| |p| | | | | |s|]; cbn; try contradiction; intros Hok HO HC.
  - destruct (param_sem p Hok) as (t & Hb & Lp). exists (KParam p), [TCurlyOpen; t; TCurlyClose]. split; [reflexivity|]. split.
    + pose proof (braces_sem p t [] [] None [] Lp eq_refl (Forall_nil _)) as H. unfold in_braces in H.
      apply (lexes_dollar 123); [reflexivity|]. apply (lexes_op TCurlyOpen); [reflexivity|]. change [t; TCurlyClose] with ([t] ++ [TCurlyClose]).
      eapply lexes_app; [exact Lp|exact (lexes_closed TCurlyClose eq_refl)|]. intros r _. exists 125, r. split; [reflexivity|cbn; tauto].
    + intros mid. apply ex_dollar. now apply do_braces.
  - destruct (subst_sem s Hok HO HC) as (k & ts & E & L & F). exists (KSubst k), ts. split; [cbn; now rewrite E|]. split; [exact L|].
    intros mid. apply ex_dollar, F.
Qed.

(** ** Double quotes *)
Definition quote_next : list char := [36; 92; 34].
Lemma token_apart t (c : char) r : lexable t -> t <> TBackslash -> In c specials -> apart t (c :: r) = true.
Proof.
  intros Hl Hb H. cbn [specials In] in H. repeat (destruct H as [<- |H]; [destruct t; cbn; try reflexivity; congruence|]). contradiction.
Qed.
Lemma in_backslash s : In TBackslash (lex s) -> In backslash s.
Proof. intros H. rewrite <- (lex_text s). apply (in_text TBackslash); [exact H|now left]. Qed.
Lemma lexes_literal s cs : ~ In backslash s -> incl cs specials -> lexes_as s (lex s) (starts_in cs).
Proof.
  intros Hb Hc. apply lexes_text; [exact Hb|]. intros r t (c & r' & -> & Hin) Ht. apply token_apart; auto.
  - now apply (lex_lexable s).
  - intros ->. apply Hb. now apply in_backslash.
Qed.
Definition dq : option token := Some TDoubleQuote.
Definition not_lit (l : list d_simple_word) : Prop := match l with WLiteral _ :: _ => False | _ => True end.
Lemma quoted_sem l : Forall ok_quoted l -> separate two_literals l ->
  Forall O_sem (flat_map simple_operands l) -> Forall C_sem (flat_map simple_cmds l) ->
  exists ks ts, map (d_map_simple default_word) ks = l /\
    lexes_as (concat (map (show_simple show_word show_cmd) l)) ts (starts_in [34]) /\
    (forall rest, quoted dq ks (ts ++ TDoubleQuote :: rest) (TDoubleQuote :: rest)) /\
    (not_lit l -> forall r rest, starts_in [34] r ->
      starts_in quote_next (concat (map (show_simple show_word show_cmd) l) ++ r) /\ run_ends dq (ts ++ TDoubleQuote :: rest)).
Proof.
  induction l as [|f l IH]; intros Hok Hs HO HC.
  - exists [], []. split; [reflexivity|]. split; [apply lexes_nil|]. split; [intros rest; now apply qu_nil|].
    intros _ r rest (c & r' & -> & [<- |[]]). split; [exists 34, r'; split; [reflexivity|cbn; tauto]|reflexivity].
  - cbn [flat_map] in HO, HC. apply Forall_app in HO as [HO1 HO2]. apply Forall_app in HC as [HC1 HC2].
    inversion Hok as [|? ? Hf Hok']; subst. destruct (IH Hok' (separate_tail _ _ _ Hs) HO2 HC2) as (ks & ts & Ek & L & F & Hn). clear IH.
    cbn [map concat].
    assert (Exp : (match f with WParam p => valid_param p | WSubst s => ok_subst s | _ => False end) ->
      exists ks ts, map (d_map_simple default_word) ks = f :: l /\
      lexes_as (show_simple show_word show_cmd f ++ concat (map (show_simple show_word show_cmd) l)) ts (starts_in [34]) /\
      (forall rest, quoted dq ks (ts ++ TDoubleQuote :: rest) (TDoubleQuote :: rest)) /\
      (not_lit (f :: l) -> forall r rest, starts_in [34] r ->
        starts_in quote_next ((show_simple show_word show_cmd f ++ concat (map (show_simple show_word show_cmd) l)) ++ r) /\ run_ends dq (ts ++ TDoubleQuote :: rest))).
    { intros Hf'. destruct (expansion_sem f Hf' HO1 HC1) as (k & fts & E & Lf & Ff).
      exists (k :: ks), ((TDollar :: fts) ++ ts). split; [cbn; now rewrite E, Ek|].
      split; [eapply lexes_app; [exact Lf|exact L|intros; exact I]|]. split.
      - intros rest. rewrite <- app_assoc. eapply qu_expansion; [apply Ff|apply F].
      - intros _ r rest Hr. split; [|reflexivity]. rewrite <- app_assoc. pose proof (lexes_as_text _ _ _ [] Lf I) as <-.
        rewrite text_cons. eexists _, _. split; [reflexivity|cbn; tauto]. }
    destruct f as [s|s|p| | | | | |s|]; cbn [ok_quoted] in Hf; try contradiction; try (now apply Exp).
    + clear Exp. destruct Hf as [Hne Hf]. assert (Hl : not_lit l).
      { destruct l as [|g l]; [exact I|]. destruct Hs as [Hs _]. destruct g; try exact I. now elim Hs. }
      exists (KLiteral s :: ks), (lex s ++ ts). split; [cbn; now rewrite Ek|].
      assert (Hb : ~ In backslash s).
      { intros H. rewrite Forall_forall in Hf. destruct (Hf _ H) as (_ & _ & X & _). now apply X. }
      split; [|split].
      * eapply lexes_app; [apply (lexes_literal s quote_next); [exact Hb|]|exact L|].
        -- intros c Hc. cbn in *. tauto.
        -- intros r Hr. apply (Hn Hl r [] Hr).
      * intros rest. rewrite <- app_assoc. rewrite <- (lex_text s) at 1. apply qu_text.
        -- apply plain_run; [reflexivity|now rewrite lex_text].
        -- now rewrite lex_text.
        -- apply (Hn Hl [34]). exists 34, []. split; [reflexivity|now left].
        -- apply F.
      * intros [].
    + clear Exp. destruct Hf as (c & -> & Hc). destruct (lexes_backslash c) as (t & Lt & Et & Ht).
      assert (Hq : quoted_special t = true).
      { cbn [In] in Hc. assert (X : forall t0, as_str t0 = [c] -> lex [c] = [t0] -> t = t0).
        { intros t0 _ E. destruct (lex_single c) as (t1 & E1 & E2). rewrite E in E1. injection E1 as <-.
          specialize (Lt [] I). cbn [app] in Lt. destruct (lex_backslash c []) as (t2 & E3 & E4 & _). rewrite E3 in Lt. injection Lt as ->.
          assert (Lexes (backslash :: [c]) (TBackslash :: [t0])). { constructor; [apply lex_maximal_munch; exact E|constructor]. }
          apply lex_maximal_munch in H. rewrite E3 in H. now injection H. }
        destruct Hc as [<- |[<- |[<- |[<- |[<- |[]]]]]];
          [rewrite (X TDollar eq_refl eq_refl)|rewrite (X TBacktick eq_refl eq_refl)|rewrite (X TDoubleQuote eq_refl eq_refl)
          |rewrite (X TBackslash eq_refl eq_refl)|rewrite (X TNewline eq_refl eq_refl)]; reflexivity. }
      exists (KEscaped [c] :: ks), ([TBackslash; t] ++ ts). split; [cbn; now rewrite Ek|]. split; [|split].
      * eapply lexes_app; [exact Lt|exact L|intros; exact I].
      * intros rest. rewrite <- Et. cbn [app]. apply qu_escape; auto.
      * intros _ r rest Hr. split; [eexists _, _; split; [reflexivity|cbn; tauto]|exact Hq].
Qed.

(** ** Words and operands.  [m]: the word stands by itself; otherwise it is an operand. *)
Definition lit_char (m : bool) : char -> Prop := if m then word_char else operand_char.
Definition next (m : bool) (r : str) : Prop := starts_in (if m then 32 :: specials else specials) r.
Definition OP (ws : list (wk tlcmd)) (ts rest : list token) : Prop :=
  operand ws ts rest /\
  exists ws1 ws2 mid, ws = ws1 ++ ws2 /\ frags (Some TCurlyClose) ws1 ts mid /\ operand ws2 mid rest.
Definition chain (m : bool) (ws : list (wk tlcmd)) (ts : list token) : Prop :=
  if m then forall ws' mid rest, frags None ws' mid rest -> frags None (ws ++ ws') (ts ++ mid) rest
  else forall ws' mid rest, OP ws' mid rest -> OP (ws ++ ws') (ts ++ mid) rest.
Lemma chain_nil m : chain m [] [].
Proof. destruct m; intros ws' mid rest H; exact H. Qed.
Lemma chain_app m ws1 ts1 ws2 ts2 : chain m ws1 ts1 -> chain m ws2 ts2 -> chain m (ws1 ++ ws2) (ts1 ++ ts2).
Proof. destruct m; intros H1 H2 ws' mid rest H; rewrite <- !app_assoc; auto. Qed.
Lemma chain_frag m w ts : (forall mid, frag w (ts ++ mid) mid) -> ts <> [] -> (m = false -> hd_error ts <> Some TCurlyClose /\ hd_error ts <> Some TPound) ->
  chain m [w] ts.
Proof.
  intros Hf Hne Hh. destruct m; intros ws' mid rest H.
  - cbn [app]. eapply fs_frag; [apply Hf|congruence|exact H].
  - destruct (Hh eq_refl) as [H1 H2]. destruct ts as [|t ts]; [congruence|].
    destruct H as (Ho & ws1 & ws2 & mid' & -> & Hfr & Ho2).
    assert (Hfr' : frags (Some TCurlyClose) (w :: ws1) ((t :: ts) ++ mid) mid').
    { eapply fs_frag; [apply Hf|intros _; exact H1|exact Hfr]. }
    split.
    + cbn [app]. rewrite app_comm_cons. eapply op_frags; [exact Hfr'|exact H2|exact Ho2].
    + exists (w :: ws1), ws2, mid'. split; [reflexivity|]. split; [exact Hfr'|exact Ho2].
Qed.
Lemma chain_delimiter t : is_word_delimiter t = true -> chain false [KSimple (KLiteral (as_str t))] [t].
Proof.
  intros Ht ws' mid rest (Ho & _). assert (X : operand (KSimple (KLiteral (as_str t)) :: ws') (t :: mid) rest) by (apply op_delimiter; auto).
  split; [exact X|]. exists [], (KSimple (KLiteral (as_str t)) :: ws'), (t :: mid). split; [reflexivity|]. split; [|exact X].
  apply fs_end. now left.
Qed.
Lemma frag_literal t mid : literal_token t = true -> frag (KSimple (KLiteral (as_str t))) (t :: mid) mid.
Proof. intros H. apply fr_literal. exact H. Qed.
Lemma chain_pound m : chain m [KSimple (KLiteral (as_str TPound))] [TPound].
Proof.
  destruct m; intros ws' mid rest H.
  - cbn [app]. eapply fs_frag; [exact (frag_literal TPound _ eq_refl)|congruence|exact H].
  - destruct H as (Ho & ws1 & ws2 & mid' & -> & Hfr & Ho2). split; [apply op_delimiter; auto|].
    exists (KSimple (KLiteral (as_str TPound)) :: ws1), ws2, mid'. split; [reflexivity|]. split; [|exact Ho2].
    eapply fs_frag; [exact (frag_literal TPound _ eq_refl)|discriminate|exact Hfr].
Qed.
(** A token made of literal characters. *)
Lemma lexable_chars t : lexable t -> exists c s, as_str t = c :: s.
Proof. intros H. destruct (as_str t) as [|c s] eqn:E; [now elim (lexable_text t H)|eauto]. Qed.
Lemma chain_token m t : lexable t -> Forall (lit_char m) (as_str t) -> chain m [KSimple (KLiteral (as_str t))] [t].
Proof.
  intros Hl HF.
  assert (Hlit : literal_token t = true -> t <> TCurlyClose -> t <> TPound -> chain m [KSimple (KLiteral (as_str t))] [t]).
  { intros H H1 H2. apply chain_frag; [intros mid; now apply frag_literal|discriminate|]. cbn. intros _. split; congruence. }
  assert (Hd : m = false -> is_word_delimiter t = true -> chain m [KSimple (KLiteral (as_str t))] [t]).
  { intros -> H. now apply chain_delimiter. }
  assert (No : forall c s, as_str t = c :: s -> (lit_char m c -> False) -> chain m [KSimple (KLiteral (as_str t))] [t]).
  { intros c s E H. exfalso. rewrite E in HF. inversion HF; subst. auto. }
  destruct t; try (apply Hlit; [reflexivity|discriminate|discriminate]); try apply chain_pound.
  all: try (eapply No; [reflexivity|]; destruct m; cbn; unfold word_char, operand_char; cbn; intuition congruence).
  all: destruct m; cbn [lit_char] in *;
    try (apply Hd; reflexivity); try (eapply No; [reflexivity|]; unfold word_char, operand_char; cbn; intuition congruence).
  - apply chain_frag; [intros mid; exact (frag_literal TCurlyClose mid eq_refl)|discriminate|discriminate].
  - destruct p; (eapply No; [reflexivity|]; unfold word_char; cbn; intuition congruence).
  - destruct p; (eapply No; [reflexivity|]; unfold operand_char; cbn; intuition congruence).
  - destruct Hl as [Hn Hw]. destruct s as [|c s]; [congruence|]. eapply No; [reflexivity|]. intros [X _]. inversion Hw as [|? ? [Y _] _]; subst. congruence.
Qed.
Lemma chain_literal m ts : Forall lexable ts -> Forall (lit_char m) (text ts) ->
  chain m (map (fun s => KSimple (KLiteral s)) (map as_str ts)) ts.
Proof.
  induction ts as [|t ts IH]; intros Hl HF; [apply chain_nil|]. inversion Hl; subst. rewrite text_cons in HF. apply Forall_app in HF as [H1' H2'].
  cbn [map]. change (?x :: ?l) with ([x] ++ l). change (t :: ts) with ([t] ++ ts). apply chain_app; [now apply chain_token|auto].
Qed.
Definition is_literal (f : d_word) : Prop := match f with WSimple (WLiteral _) => True | _ => False end.
Lemma next_weaken m cs : incl cs specials -> forall r, starts_in cs r -> next m r.
Proof.
  intros H r (c & r' & -> & Hc). exists c, r'. split; [reflexivity|]. destruct m; [right|]; now apply H.
Qed.
Lemma frag_sem m f : ok_frag (lit_char m) f -> Forall O_sem (frag_operands f) -> Forall C_sem (frag_cmds f) ->
  exists ws k ts, explodes ws k /\ d_map_word default_word k = f /\ chain m ws ts /\
    lexes_as (show_frag show_word show_cmd f) ts (next m) /\
    (~ is_literal f -> lexes_as (show_frag show_word show_cmd f) ts any /\
       forall r, next m (show_frag show_word show_cmd f ++ r)).
Proof.
  intros Hok HO HC.
  assert (One : forall k ts (c : char) s, d_map_word default_word k = f -> (forall mid, frag k (ts ++ mid) mid) ->
    show_frag show_word show_cmd f = c :: s -> In c specials -> hd_error ts <> Some TCurlyClose -> hd_error ts <> Some TPound ->
    lexes_as (show_frag show_word show_cmd f) ts any ->
    exists ws k ts, explodes ws k /\ d_map_word default_word k = f /\ chain m ws ts /\
      lexes_as (show_frag show_word show_cmd f) ts (next m) /\
      (~ is_literal f -> lexes_as (show_frag show_word show_cmd f) ts any /\
         forall r, next m (show_frag show_word show_cmd f ++ r))).
  { intros k ts c s Ek Hf Ec Hc H1 H2 L. exists [k], k, ts. split; [now left|]. split; [exact Ek|]. split.
    - apply chain_frag; auto. intros ->. pose proof (lexes_as_text _ _ _ [] L I) as E. rewrite Ec in E. discriminate.
    - split; [eapply lexes_weaken; [exact L|intros; exact I]|]. intros _. split; [exact L|]. intros r. rewrite Ec.
      apply (next_weaken m [c]); [intros x [<- |[]]; exact Hc|]. eexists _, _. split; [reflexivity|now left]. }
  assert (Op : forall k t, d_map_word default_word k = f -> closed_op t = true -> show_frag show_word show_cmd f = as_str t ->
    (forall mid, frag k ([t] ++ mid) mid) -> In t [TStar; TQuestion; TTilde; TSquareOpen; TSquareClose; TColon] ->
    exists ws k ts, explodes ws k /\ d_map_word default_word k = f /\ chain m ws ts /\
      lexes_as (show_frag show_word show_cmd f) ts (next m) /\
      (~ is_literal f -> lexes_as (show_frag show_word show_cmd f) ts any /\
         forall r, next m (show_frag show_word show_cmd f ++ r))).
  { intros k t Ek Hc Es Hf Hin.
    assert (X : exists c, as_str t = [c] /\ In c specials /\ t <> TCurlyClose /\ t <> TPound).
    { cbn in Hin. repeat (destruct Hin as [<- |Hin]; [eexists; split; [reflexivity|]; split; [cbn; tauto|split; discriminate]|]). contradiction. }
    destruct X as (c & Ec & Hs & H1 & H2).
    apply (One k [t] c []); auto; cbn; try congruence. rewrite Es. now apply lexes_closed. }
  assert (Exp : forall s, f = WSimple s -> (match s with WParam p => valid_param p | WSubst s => ok_subst s | _ => False end) ->
    Forall O_sem (simple_operands s) -> Forall C_sem (simple_cmds s) ->
    exists ws k ts, explodes ws k /\ d_map_word default_word k = f /\ chain m ws ts /\
      lexes_as (show_frag show_word show_cmd f) ts (next m) /\
      (~ is_literal f -> lexes_as (show_frag show_word show_cmd f) ts any /\
         forall r, next m (show_frag show_word show_cmd f ++ r))).
  { intros s -> Hs HO' HC'. destruct (expansion_sem s Hs HO' HC') as (k & ts & E & L & F).
    pose proof (lexes_as_text _ _ _ [] L I) as Et. rewrite text_cons in Et.
    apply (One (KSimple k) (TDollar :: ts) 36 (text ts)); try discriminate; auto.
    - cbn. now rewrite E.
    - intros mid. apply fr_expansion, F.
    - now left. }
  destruct f as [s|l|s]; cbn [ok_frag frag_operands frag_cmds] in *.
  - destruct s as [s|s|p| | | | | |s|]; cbn [ok_simple] in Hok; try (now apply (Exp _ eq_refl)).
    + clear One Op Exp. destruct Hok as [Hne Hf].
      assert (Hb : ~ In backslash s).
      { intros H. rewrite Forall_forall in Hf. specialize (Hf _ H). destruct m; cbn in Hf; [destruct Hf as (_ & _ & _ & X)|destruct Hf as (_ & _ & X)]; now apply X. }
      exists (map (fun s => KSimple (KLiteral s)) (map as_str (lex s))), (KSimple (KLiteral s)), (lex s). split; [|split; [reflexivity|split]].
      * right. exists (map as_str (lex s)). split.
        -- intros E. apply map_eq_nil in E. apply Hne. rewrite <- (lex_text s), E. reflexivity.
        -- split; [reflexivity|]. do 2 f_equal. symmetry. exact (lex_text s).
      * apply chain_literal; [apply lex_all_lexable|now rewrite lex_text].
      * split; [|intros X; now elim X]. cbn [show_frag show_simple]. destruct m; cbn [next].
        -- apply lexes_text; [exact Hb|]. intros r t (c & r' & -> & [<- |Hin]) Ht.
           ++ assert (Hw : forall w, t <> TWhitespace w).
              { intros w ->. pose proof (lex_lexable s _ Ht) as [Hn Hw]. destruct w as [|c w]; [congruence|]. inversion Hw as [|? ? [X _] _]; subst.
                rewrite Forall_forall in Hf. assert (Hc : In c s) by (rewrite <- (lex_text s); eapply in_text; [exact Ht|now left]).
                destruct (Hf c Hc) as [Y _]. congruence. }
              destruct t; try reflexivity. now elim (Hw s0).
           ++ apply token_apart; [now apply (lex_lexable s)| |exact Hin]. intros ->. apply Hb. now apply in_backslash.
        -- apply lexes_literal; [exact Hb|apply incl_refl].
    + destruct Hok as (c & -> & Hc). destruct (lexes_backslash c) as (t & Lt & Et & Ht).
      apply (One (KSimple (KEscaped [c])) [TBackslash; t] backslash [c]); try discriminate; auto; [|cbn; tauto].
      intros mid. rewrite <- Et. apply fr_escape. intros ->. cbn in Et. congruence.
    + apply (Op (KSimple KStar) TStar); try reflexivity; [intros mid; apply fr_glob; constructor|cbn; tauto].
    + apply (Op (KSimple KQuestion) TQuestion); try reflexivity; [intros mid; apply fr_glob; constructor|cbn; tauto].
    + apply (Op (KSimple KSquareOpen) TSquareOpen); try reflexivity; [intros mid; apply fr_glob; constructor|cbn; tauto].
    + apply (Op (KSimple KSquareClose) TSquareClose); try reflexivity; [intros mid; apply fr_glob; constructor|cbn; tauto].
    + apply (Op (KSimple KTilde) TTilde); try reflexivity; [intros mid; apply fr_glob; constructor|cbn; tauto].
    + apply (Op (KSimple KColon) TColon); try reflexivity; [intros mid; apply fr_glob; constructor|cbn; tauto].
  - destruct Hok as [Hq Hs]. destruct (quoted_sem l Hq Hs HO HC) as (ks & ts & Ek & L & F & _).
    apply (One (KDoubleQuoted ks) (TDoubleQuote :: ts ++ [TDoubleQuote]) 34 (concat (map (show_simple show_word show_cmd) l) ++ [34])); try discriminate; auto.
    + cbn. now rewrite Ek.
    + intros mid. cbn [app]. rewrite <- app_assoc. apply fr_double, F.
    + cbn; tauto.
    + apply (lexes_op TDoubleQuote); [reflexivity|]. eapply lexes_app; [exact L|exact (lexes_closed TDoubleQuote eq_refl)|].
      intros r _. exists 34, r. split; [reflexivity|now left].
  - apply (One (KSingleQuoted s) (TSingleQuote :: lex s ++ [TSingleQuote]) 39 (s ++ [39])); try discriminate; auto.
    + intros mid. cbn [app]. rewrite <- app_assoc. rewrite <- (lex_text s) at 1. apply fr_single.
      intros H. apply Hok. rewrite <- (lex_text s). eapply in_text; [exact H|now left].
    + cbn; tauto.
    + apply lexes_single_quoted.
Qed.
Lemma fragments_sem m l : Forall (ok_frag (lit_char m)) l -> separate same_kind l ->
  Forall O_sem (flat_map frag_operands l) -> Forall C_sem (flat_map frag_cmds l) ->
  exists wss ks ts, Forall2 explodes wss ks /\ map (d_map_word default_word) ks = l /\ chain m (concat wss) ts /\
    lexes_as (concat (map (show_frag show_word show_cmd) l)) ts (next m) /\
    (match l with f :: _ => ~ is_literal f | [] => True end -> forall r, next m r -> next m (concat (map (show_frag show_word show_cmd) l) ++ r)).
Proof.
  induction l as [|f l IH]; intros Hok Hs HO HC.
  - exists [], [], []. split; [constructor|]. split; [reflexivity|]. split; [apply chain_nil|]. split; [apply lexes_nil|auto].
  - cbn [flat_map] in HO, HC. apply Forall_app in HO as [HO1 HO2]. apply Forall_app in HC as [HC1 HC2].
    inversion Hok as [|? ? Hf Hok']; subst. destruct (IH Hok' (separate_tail _ _ _ Hs) HO2 HC2) as (wss & ks & ts & F2 & Ek & Hc & L & Hn). clear IH.
    destruct (frag_sem m f Hf HO1 HC1) as (ws & k & fts & He & E & Hcf & Lf & Hnl).
    exists (ws :: wss), (k :: ks), (fts ++ ts). split; [now constructor|]. split; [cbn; now rewrite E, Ek|].
    split; [cbn [concat]; now apply chain_app|]. cbn [map concat]. split.
    + assert (D : is_literal f \/ ~ is_literal f) by (destruct f as [[]| |]; cbn; auto).
      destruct D as [D|D]; [|eapply lexes_app; [exact (proj1 (Hnl D))|exact L|intros; exact I]].
      eapply lexes_app; [exact Lf|exact L|]. intros r Hr. apply Hn; [|exact Hr]. destruct l as [|g l]; [exact I|].
      destruct Hs as [Hs _]. intros X. apply Hs. destruct f as [[]| |]; try contradiction; destruct g as [[]| |]; try contradiction; exact I.
    + intros D r Hr. rewrite <- app_assoc. apply (Hnl D).
Qed.
Lemma complex_sem m x : ok_complex (lit_char m) x -> Forall O_sem (word_operands x) -> Forall C_sem (word_cmds x) ->
  exists a ws k ts, word_of (a :: ws) = Some k /\ default_word k = TLWord x /\ chain m (a :: ws) ts /\
    lexes_as (show_word (TLWord x)) ts (next m) /\
    (Forall numeric_frag (fragments x) -> Forall maybe_number (a :: ws)).
Proof.
  intros Hok HO HC.
  assert (X : Forall (ok_frag (lit_char m)) (fragments x) /\ separate same_kind (fragments x)).
  { destruct x as [l|f]; cbn in *; [tauto|]. split; [now constructor|exact I]. }
  destruct X as [Hf Hs]. destruct (fragments_sem m _ Hf Hs HO HC) as (wss & ks & ts & F2 & Ek & Hc & L & _).
  destruct (word_merged wss ks x F2 (eq_sym Ek)) as (k & Ew & Ed).
  { destruct x as [l|[ |l| ]]; cbn in *; try exact I; [tauto|]. tauto. }
  destruct (concat wss) as [|a ws] eqn:Ec; [discriminate|]. exists a, ws, k, ts. split; [exact Ew|]. split; [exact Ed|]. split; [exact Hc|].
  split; [rewrite show_word_eq; destruct x as [l|f]; [exact L|]; cbn in L; now rewrite app_nil_r in L|].
  intros Hnum. rewrite <- Ec. rewrite <- Ek in Hnum. clear -F2 Hnum.
  induction F2 as [|ws k wss ks H _ IH]; [constructor|]. inversion Hnum; subst. cbn [concat]. apply Forall_app. split; [|auto].
  eapply numeric_explodes; [exact H|]. now apply numeric_maybe.
Qed.
Lemma word_step x : ok_complex word_char x -> hd_error (show_word (TLWord x)) <> Some 35 ->
  Forall O_sem (word_operands x) -> Forall C_sem (word_cmds x) -> W_sem (TLWord x).
Proof.
  intros Hok Hh HO HC. destruct (complex_sem true x Hok HO HC) as (a & ws & k & ts & Ew & Ed & Hc & L & Hn).
  exists a, ws, k, ts. split; [exact Ew|]. split; [exact Ed|]. split.
  - eapply lexes_weaken; [exact L|]. intros r Hr. destruct r as [|c r]; [discriminate|]. injection Hr as ->. exists 32, r. split; [reflexivity|now left].
  - split; [|split; [exact Hh|exact Hn]]. intros rest Hr. rewrite <- (app_nil_r (a :: ws)). apply Hc. apply fs_end. now left.
Qed.
Lemma operand_step x : ok_complex operand_char x ->
  Forall O_sem (word_operands x) -> Forall C_sem (word_cmds x) -> O_sem (TLWord x).
Proof.
  intros Hok HO HC. destruct (complex_sem false x Hok HO HC) as (a & ws & k & ts & Ew & Ed & Hc & L & Hn).
  exists a, ws, k, ts. split; [exact Ew|]. split; [exact Ed|]. split.
  - eapply lexes_weaken; [exact L|]. apply (next_weaken false). intros c [<- |[]]. cbn; tauto.
  - intros rest. rewrite <- (app_nil_r (a :: ws)). apply Hc. split; [apply op_end|].
    exists [], [], (TCurlyClose :: rest). split; [reflexivity|]. split; [|apply op_end]. apply fs_end. right. split; [discriminate|reflexivity].
Qed.
End RoundTrip.
