(** * What the readers of words have read

    The converse of [WordRuns.v]: a successful run has read one of the forms of [Forms.v]. *)
From Coq Require Import String.
From Verif Require Import Base Token Pos Ast Builder Prog Iter Located IterProofs ParserBase Balanced RunLemmas BaseRun
  Sim BalancedSpec BalancedProofs BalancedTotal Arith Word Redirect Command Runs Pure Relex ArithSpec HeredocSpec Forms
  BaseForms WordRuns HeredocRuns CompoundRuns FormsRuns Reserved Gives ArithRuns ArithExact SoundBase.
Notation gives := Gives.gives.

Lemma gives_skipw {BS BE} fuel ts (Q : unit -> list token -> Prop) :
  Q tt (skipw ts) -> gives (skip_whitespace fuel : prog BS BE _) ts Q.
Proof. intros H. eapply gives_runs; [apply runs_skip_end|exact H]. Qed.
Lemma hd_cons {A} (l : list A) x : hd_error l = Some x -> exists r, l = x :: r.
Proof. destruct l; [discriminate|]. intros [= ->]. eauto. Qed.

Section SoundWord.
Variable B : builder.
Variable P : pure B.
Notation C := (b_cmd B).
Notation prog := (prog (bst B) (b_err B)).
Notation frag := (@Forms.frag B P written_arith).
Notation expansion := (@Forms.expansion B P written_arith).
Notation dollar := (@Forms.dollar B P written_arith).
Notation quoted := (@Forms.quoted B P written_arith).
Notation frags := (@Forms.frags B P written_arith).
Notation operand := (@Forms.operand B P written_arith).
Notation word_form := (@Forms.word_form B P written_arith).
Notation group := (@Forms.group B P written_arith).

Lemma group_stops cfg : forall cs tr ts rest, group cfg (mkCG cs tr) ts rest -> group_end cfg rest.
Proof.
  induction cs as [|c cs IH]; intros tr ts rest H; inversion H; subst; [assumption|]. eapply IH. eassumption.
Qed.
Lemma group_no_delims g ts rest : group no_delims g ts rest -> rest = [].
Proof.
  destruct g as [cs tr]. intros H. apply group_stops in H.
  destruct H as [H|[(t & r & _ & [])|[(k & r & [] & _)|(t & r & [] & _)]]]. exact H.
Qed.

Variable fuel : nat.
Variable K : knots (bst B) (b_err B) C.
Hypothesis KG : forall cfg, plain cfg -> forall ts, gives (k_group K cfg) ts (fun g rest => group cfg g ts rest).
Hypothesis KP : forall ts, gives (k_param K) ts (fun s rest => dollar s ts rest).

Tactic Notation "gcall" constr(H) := eapply gives_mono; [apply H|]; cbv beta.

Lemma backticked_gives ts : gives (backticked_raw fuel K) ts (fun s rest => expansion s ts rest).
Proof.
  unfold backticked_raw. gstep. gstep. gstep. gstep. gstep. apply backtick_gives.
  intros body rest i -> Hc Ei. gstep. apply gives_sub. rewrite Ei. gcall (KG no_delims plain_nothing).
  intros g r H. gstep. apply ex_backticks; [exact Hc|]. now rewrite (group_no_delims _ _ _ H) in H.
Qed.

(** ** Double quotes and here-document bodies *)
Lemma flush_words (words : list (swk C)) buf : flush words buf = words ++ flush [] buf.
Proof. destruct buf; cbn; [now rewrite app_nil_r|reflexivity]. Qed.
Lemma quoted_after close run ws mid rest : quoted_run close run mid -> run_ends close mid -> quoted close ws mid rest ->
  quoted close (flush [] (text run) ++ ws) (run ++ mid) rest.
Proof.
  intros H1 H2 H3. destruct (text run) as [|c s] eqn:E.
  - cbn. now apply qu_empty.
  - cbn [flush app]. rewrite <- E. apply qu_text; auto. congruence.
Qed.
Definition interp_claim close words buf ts res rest : Prop :=
  exists run ws mid rest', ts = run ++ mid /\ quoted_run close run mid /\ run_ends close mid /\ quoted close ws mid rest' /\
    hd_error rest' = close /\ rest = tl rest' /\ res = flush words (buf ++ text run) ++ ws.
Lemma interp_gives delim p : option_map snd delim = None \/ option_map snd delim = Some TDoubleQuote ->
  forall m words buf ts, gives (word_interp_loop fuel K delim p m words buf) ts
    (interp_claim (option_map snd delim) words buf ts).
Proof.
  intros Hc. induction m as [|m IH]; intros words buf ts; [apply gives_fuel|]. rewrite interp_unfold. gstep. gstep.
  destruct (otoken_eqb_spec (hd_error ts) (option_map snd delim)) as [E|E].
  { gstep. gstep. gstep. exists [], [], ts, ts. split; [reflexivity|]. split; [constructor|]. split.
    - destruct ts as [|t ts]; [exact I|]. cbn [hd_error] in E. destruct Hc as [Hc|Hc]; rewrite Hc in E; [discriminate|].
      injection E as ->. cbn. rewrite Hc. reflexivity.
    - split; [now apply qu_nil|]. split; [exact E|]. split; [reflexivity|]. now rewrite !app_nil_r. }
  assert (X : forall w mid rest res, expansion w ts mid ->
    interp_claim (option_map snd delim) (flush words buf ++ [w]) [] mid res rest ->
    (hd_error ts = Some TDollar \/ (exists q, hd_error ts = Some (TParamPositional q)) \/ hd_error ts = Some TBacktick) ->
    interp_claim (option_map snd delim) words buf ts res rest).
  { intros w mid rest res Hw (run & ws & mid2 & rest' & -> & H1 & H2 & H3 & H4 & -> & ->) Hh.
    exists [], (w :: flush [] (text run) ++ ws), ts, rest'. split; [reflexivity|]. split; [constructor|]. split.
    - destruct ts as [|t ts]; [exact I|]. cbn in Hh. destruct Hh as [[= ->]|[[q [= ->]]|[= ->]]]; reflexivity.
    - split; [|split; [exact H4|]].
      + apply qu_expansion with (run ++ mid2); [exact Hw|]. now apply quoted_after.
      + split; [reflexivity|]. rewrite flush_words. cbn [app]. rewrite app_nil_r, <- !app_assoc. reflexivity. }
  destruct ts as [|t ts]; cbn [hd_error] in *.
  { gstep. gstep. destruct delim as [[o c]|]; [gstep|]. now elim E. }
  assert (Hp : forall q, quoted_plain (option_map snd delim) t = true ->
    gives (word_interp_loop fuel K delim p m words (buf ++ as_str t)) ts (interp_claim (option_map snd delim) words buf (t :: ts)) ->
    q = t -> gives (next ;; word_interp_loop fuel K delim p m words (buf ++ as_str q)) (t :: ts) (interp_claim (option_map snd delim) words buf (t :: ts))).
  { intros q _ H ->. gstep. gstep. exact H. }
  assert (Pl : quoted_plain (option_map snd delim) t = true ->
    gives (word_interp_loop fuel K delim p m words (buf ++ as_str t)) ts (interp_claim (option_map snd delim) words buf (t :: ts))).
  { intros Hq. gcall IH. intros res rest (run & ws & mid2 & rest' & -> & H1 & H2 & H3 & H4 & -> & ->).
    exists (t :: run), ws, mid2, rest'. split; [reflexivity|]. split; [now apply qr_plain|].
    repeat (split; [assumption|]). split; [reflexivity|]. now rewrite text_cons, app_assoc. }
  clear Hp.
  assert (Ot : match t with TDollar | TParamPositional _ | TBacktick | TBackslash => False | _ => True end ->
    quoted_plain (option_map snd delim) t = true).
  { unfold quoted_plain. destruct (otoken_eqb_spec (Some t) (option_map snd delim)) as [E'|E']; [contradiction|].
    destruct t; try contradiction; reflexivity. }
  destruct t; try (gstep; gstep; apply Pl, Ot; exact I); clear Pl Ot.
  - (* backslash *) clear X. gstep. gstep. gstep. gstep.
    destruct ts as [|u us].
    + cbn [hd_error dq_special orb]. destruct Hc as [Hc|Hc].
      * rewrite Hc. cbn [otoken_eqb]. gstep. gstep. gstep.
      * rewrite Hc. cbn [otoken_eqb]. destruct m; [apply gives_fuel|]. rewrite interp_unfold. gstep. gstep.
        rewrite Hc. cbn [otoken_eqb]. gstep. gstep. destruct delim as [[o c]|]; [gstep|]. discriminate.
    + cbn [hd_error].
      assert (Es : dq_special (Some u) || otoken_eqb (Some u) (option_map snd delim) = quoted_special u).
      { destruct Hc as [Hc|Hc]; rewrite Hc; destruct u; reflexivity. }
      rewrite Es. destruct (quoted_special u) eqn:Eu.
      * gstep. gstep. gcall IH. intros res rest (run & ws & mid2 & rest' & -> & H1 & H2 & H3 & H4 & -> & ->).
        exists [], (KEscaped (as_str u) :: flush [] (text run) ++ ws), (TBackslash :: u :: run ++ mid2), rest'.
        split; [reflexivity|]. split; [constructor|]. split; [exact Eu|]. split; [|split; [exact H4|]].
        -- apply qu_escape; [exact Eu|]. now apply quoted_after.
        -- split; [reflexivity|]. rewrite flush_words. cbn [app]. rewrite app_nil_r, <- !app_assoc. reflexivity.
      * gcall IH. intros res rest (run & ws & mid2 & rest' & E2 & H1 & H2 & H3 & H4 & -> & ->).
        exists (TBackslash :: run), ws, mid2, rest'. split; [cbn [app]; now rewrite E2|].
        split; [eapply qr_backslash; [rewrite <- E2; reflexivity|exact Eu|exact H1]|].
        repeat (split; [assumption|]). split; [reflexivity|]. rewrite text_cons, app_assoc. reflexivity.
  - (* backtick *) gstep. gcall backticked_gives. intros w mid Hw. gcall IH. intros res rest H.
    eapply X; [exact Hw|exact H|tauto].
  - (* dollar *) gstep. gcall KP. intros w mid Hw. gcall IH. intros res rest H.
    eapply X; [apply ex_dollar; exact Hw|exact H|tauto].
  - (* positional parameter *) gstep. gcall KP. intros w mid Hw. gcall IH. intros res rest H.
    eapply X; [apply ex_dollar; exact Hw|exact H|]. right. left. eauto.
Qed.
Lemma interpolated_gives delim p ts : option_map snd delim = None \/ option_map snd delim = Some TDoubleQuote ->
  gives (word_interpolated_raw fuel K delim p) ts (fun ws rest => exists rest', quoted (option_map snd delim) ws ts rest' /\
    hd_error rest' = option_map snd delim /\ rest = tl rest').
Proof.
  intros Hc. gcall (interp_gives delim p Hc fuel [] [] ts).
  intros res rest (run & ws & mid2 & rest' & -> & H1 & H2 & H3 & H4 & -> & ->). exists rest'.
  split; [|split; [exact H4|reflexivity]]. cbn [app]. now apply quoted_after.
Qed.

(** ** Unquoted words *)
Lemma loop_gives stop : stop = None \/ stop = Some TCurlyClose -> forall m words ts,
  gives (word_loop fuel K stop m words) ts (fun res rest => exists ws, res = words ++ ws /\ frags stop ws ts rest).
Proof.
  intros Hst. induction m as [|m IH]; intros words ts; [apply gives_fuel|]. cbn [word_loop]. gstep. gstep.
  destruct (match stop with Some _ => otoken_eqb (hd_error ts) stop | None => false end) eqn:Es.
  { gstep. exists []. split; [now rewrite app_nil_r|]. apply fs_end. right. destruct stop as [t|]; [|discriminate].
    split; [discriminate|]. now destruct (otoken_eqb_spec (hd_error ts) (Some t)). }
  assert (Hs : stop <> None -> hd_error ts <> stop).
  { intros Hn E. destruct stop as [t|]; [|congruence]. rewrite E in Es. cbn in Es. rewrite token_eqb_refl in Es. discriminate. }
  clear Es.
  assert (X : forall w mid, frag w ts mid -> gives (word_loop fuel K stop m (words ++ [w])) mid
    (fun res rest => exists ws, res = words ++ ws /\ frags stop ws ts rest)).
  { intros w mid Hw. gcall IH. intros res rest (ws & -> & H). exists (w :: ws). split; [now rewrite <- app_assoc|].
    eapply fs_frag; eassumption. }
  assert (E : delimited ts -> gives (ret words : prog _) ts (fun res rest => exists ws, res = words ++ ws /\ frags stop ws ts rest)).
  { intros Hd. gstep. exists []. split; [now rewrite app_nil_r|]. apply fs_end. now left. }
  destruct ts as [|t ts]; [now apply E|]. cbn [hd_error].
  destruct t; cbn [word_class_of]; try (apply E; reflexivity); clear E;
    try (gstep; gstep; gstep; gstep; apply X; apply fr_literal; reflexivity);
    try (gstep; gstep; gstep; gstep; apply X; apply fr_glob; constructor).
  - (* backslash *) gstep. gstep. gstep. gstep. gstep. gstep. destruct ts as [|u us]; cbn [hd_error tl].
    + gstep. exists []. split; [now rewrite app_nil_r|]. apply fs_backslash.
    + destruct u; try (apply X; apply fr_escape; discriminate).
      gstep. exists []. split; [now rewrite app_nil_r|]. apply fs_escaped_newline.
  - (* single quotes *) gstep. gstep. gstep. gstep. gstep. apply closed_gives; [unfold closer; tauto|].
    intros body rest -> Hb. rewrite concat_tokens_text. apply X. apply fr_single. now apply content_single_inv.
  - (* double quotes *) gstep. gstep. gstep. gstep. gstep. gcall interpolated_gives; [now right|].
    cbn [option_map snd]. intros ws rest (rest' & H & Hh & ->). apply X. apply fr_double.
    destruct (hd_cons _ _ Hh) as (r & ->). exact H.
  - (* backtick *) gstep. gcall backticked_gives. intros s mid H. apply X. apply fr_expansion, H.
  - (* dollar *) gstep. gcall KP. intros s mid H. apply X. apply fr_expansion, ex_dollar, H.
  - (* positional parameter *) gstep. gcall KP. intros s mid H. apply X. apply fr_expansion, ex_dollar, H.
  - (* literal *) gstep. gstep. gstep. gstep. apply (X _ _ (fr_literal B P (TLiteral s) ts eq_refl)).
  - (* name *) gstep. gstep. gstep. gstep. apply (X _ _ (fr_literal B P (TName s) ts eq_refl)).
Qed.
Lemma raw_gives stop ts : stop = None \/ stop = Some TCurlyClose ->
  gives (word_raw_with_delim fuel K stop) ts (fun k rest =>
    match k with
    | Some k => exists w ws, frags stop (w :: ws) (skipw ts) rest /\ hd_error (skipw ts) <> Some TPound /\ word_of (w :: ws) = Some k
    | None => (hd_error (skipw ts) = Some TPound /\ rest = skipw ts) \/ frags stop [] (skipw ts) rest
    end).
Proof.
  intros Hs. unfold word_raw_with_delim. gstep. apply gives_skipw. gstep. gstep.
  destruct (otoken_eqb_spec (hd_error (skipw ts)) (Some TPound)) as [E|E].
  - gstep. left. auto.
  - gstep. gcall (loop_gives stop Hs fuel [] (skipw ts)). intros res rest (ws & -> & H). gstep. cbn [app].
    destruct ws as [|w ws]; [right; exact H|]. rewrite pack_words_of. destruct ws; cbn [word_of]; (exists w; eexists; split; [exact H|]; split; [exact E|reflexivity]).
Qed.
Lemma word_raw_gives ts (Q : option (cwk C) -> list token -> Prop) :
  (forall k rest, word_form k (skipw ts) rest -> Q (Some k) rest) ->
  (forall rest, no_word ts rest -> Q None rest) ->
  gives (word_raw fuel K) ts Q.
Proof.
  intros H1 H2. unfold word_raw. gcall (raw_gives None ts (or_introl eq_refl)).
  intros [k|] rest.
  - intros (w & ws & Hf & Hp & Hk). apply H1. eapply wf_word; eassumption.
  - intros [[Hp ->]|H]; apply H2; [now apply nw_comment|].
    pose proof (skipw_idem ts) as Hi. remember (skipw ts) as us eqn:Eu.
    inversion H; subst.
    + match goal with D : _ \/ _ |- _ => destruct D as [Hd|[Hn _]] end; [now apply nw_delimited|congruence].
    + match goal with E : TBackslash :: _ = skipw ts |- _ => rewrite <- E in Hi end. cbn in Hi. exfalso. pose proof (skipw_length rest) as Hl. rewrite Hi in Hl. cbn in Hl. lia.
    + now apply nw_backslash.
Qed.

(** ** Operands of substitutions *)
Definition word_ahead (ts : list token) : Prop :=
  match ts with
  | [] => False
  | TBackslash :: TNewline :: _ => False
  | t :: _ => is_word_delimiter t = false /\ t <> TCurlyClose /\ t <> TPound
  end.
Lemma literals_gives n : forall words ts,
  gives (capture_literals n words : prog _) ts (fun res rest => exists ls, fst res = words ++ ls /\
    (forall ws rest', operand ws rest rest' -> operand (ls ++ ws) ts rest') /\
    (snd res = true -> rest = [] \/ hd_error rest = Some TCurlyClose) /\
    (snd res = false -> word_ahead rest)).
Proof.
  induction n as [|n IH]; intros words ts; [apply gives_fuel|]. cbn [capture_literals]. gstep. gstep.
  assert (E : forall b, (b = true -> ts = [] \/ hd_error ts = Some TCurlyClose) -> (b = false -> word_ahead ts) ->
    gives (ret (words, b) : prog _) ts (fun res rest => exists ls, fst res = words ++ ls /\
    (forall ws rest', operand ws rest rest' -> operand (ls ++ ws) ts rest') /\
    (snd res = true -> rest = [] \/ hd_error rest = Some TCurlyClose) /\
    (snd res = false -> word_ahead rest))).
  { intros b H1 H2. gstep. exists []. cbn [fst snd app]. rewrite app_nil_r. auto. }
  assert (X : forall l mid, (forall ws rest', operand ws mid rest' -> operand (l :: ws) ts rest') ->
    gives (capture_literals n (words ++ [l]) : prog _) mid (fun res rest => exists ls, fst res = words ++ ls /\
    (forall ws rest', operand ws rest rest' -> operand (ls ++ ws) ts rest') /\
    (snd res = true -> rest = [] \/ hd_error rest = Some TCurlyClose) /\
    (snd res = false -> word_ahead rest))).
  { intros l mid H. gcall IH. intros res rest (ls & H1 & H2 & H3). exists (l :: ls). split; [now rewrite H1, <- app_assoc|].
    split; [|exact H3]. intros ws rest' Ho. cbn [app]. apply H, H2, Ho. }
  destruct ts as [|t ts]; [apply E; [auto|discriminate]|]. cbn [hd_error].
  destruct t; cbn [subst_class_of];
    try (apply E; [discriminate|intros _; cbn; repeat split; discriminate]);
    try (gstep; gstep; apply X; intros ws rest' Ho; apply op_delimiter; [first [left; reflexivity|right; reflexivity]|exact Ho]).
  - apply E; [now right|discriminate].
  - gstep. gstep. destruct ts as [|u us].
    + change (look escaped_newline_try [TBackslash]) with false. apply E; [discriminate|]. intros _. cbn. repeat split; discriminate.
    + change (look escaped_newline_try (TBackslash :: u :: us)) with (otoken_eqb (Some u) (Some TNewline)).
      destruct (otoken_eqb_spec (Some u) (Some TNewline)) as [Eu|Eu].
      * injection Eu as ->. gstep. gstep. gstep. gstep. apply X. intros ws rest' Ho. now apply op_escaped_newline.
      * apply E; [discriminate|]. intros _. destruct u; cbn; try (repeat split; discriminate). congruence.
Qed.
Lemma ahead_skipw ts : word_ahead ts -> skipw ts = ts.
Proof.
  destruct ts as [|t ts]; [contradiction|]. destruct t; cbn; try reflexivity; try (intros (H & _); discriminate H).
  destruct ts as [|t ts]; [reflexivity|]. destruct t; try reflexivity. contradiction.
Qed.
Lemma captured_gives n : forall words ts,
  gives (capture_words fuel K n words) ts (fun res rest => forall rest', rest = TCurlyClose :: rest' ->
    exists ws, res = words ++ ws /\ operand ws ts rest).
Proof.
  induction n as [|n IH]; intros words ts; [apply gives_fuel|]. cbn [capture_words]. gstep. gcall literals_gives.
  intros [words1 stop] mid (ls & E1 & H1 & H2 & H3). cbn [fst snd] in *. subst words1. destruct stop.
  - gstep. intros rest' ->. exists ls. split; [reflexivity|]. rewrite <- (app_nil_r ls). apply H1, op_end.
  - specialize (H3 eq_refl). gstep. gcall (raw_gives (Some TCurlyClose) mid (or_intror eq_refl)). rewrite (ahead_skipw _ H3).
    intros [k|] rest.
    + intros (w & ws & Hf & Hp & Hk).
      assert (G : gives (capture_words fuel K n ((words ++ ls) ++ w :: ws)) rest (fun res rest => forall rest', rest = TCurlyClose :: rest' ->
          exists ws, res = words ++ ws /\ operand ws ts rest)).
      { gcall IH. intros res r H rest' E. destruct (H rest' E) as (ws' & -> & Ho). exists (ls ++ (w :: ws) ++ ws').
        split; [rewrite <- !app_assoc; reflexivity|]. apply H1. eapply op_frags; eassumption. }
      destruct ws; cbn [word_of] in Hk; injection Hk as <-; exact G.
    + intros Hn. gstep. intros rest' ->. exfalso. destruct Hn as [[Hh _]|H].
      * destruct mid as [|t mid]; [contradiction|]. injection Hh as ->. destruct H3 as (_ & _ & H3). congruence.
      * inversion H; subst.
        -- destruct H3 as (H3 & H4 & _). congruence.
        -- contradiction.
Qed.
Lemma operand_gives p ts (Q : option (cwk C) -> list token -> Prop) :
  (forall ws rest, operand ws ts (TCurlyClose :: rest) -> Q (word_of ws) rest) ->
  gives (parameter_substitution_word_raw fuel K p) ts Q.
Proof.
  intros H. unfold parameter_substitution_word_raw. gstep. gcall captured_gives. intros res rest Hr. gstep. gstep.
  - gstep. destruct (Hr us eq_refl) as (ws & -> & Ho). cbn [app]. rewrite pack_words_of. apply H, Ho.
  - gstep.
Qed.

(** ** Parameters *)
Lemma inner_gives ts (Q : param -> list token -> Prop) :
  (forall p t rest, ts = t :: rest -> braced_param p t -> Q p rest) ->
  gives (parameter_inner : prog _) ts Q.
Proof.
  intros H. unfold parameter_inner. gstep. gstep. gstep. gstep.
  destruct ts as [|t ts]; cbn [hd_error tl]; [gstep|].
  destruct t; try gstep; try (eapply H; [reflexivity|]; apply bp_token; constructor).
  destruct (from_str_radix_u u32_max 10 s) as [n|] eqn:E; gstep. eapply H; [reflexivity|].
  apply number_inv in E as [E1 E2]. apply bp_positional; [exact E1|]. unfold u32_max in E2. lia.
Qed.
Lemma braced_pound t : braced_param PmPound t -> t = TPound.
Proof. intros H. inversion H as [? ? Hp|]; subst. now inversion Hp. Qed.
Lemma param_eqb_true a b : param_eqb a b = true -> a = b.
Proof. unfold param_eqb. now destruct (param_dec a b). Qed.
Lemma param_eqb_false a b : param_eqb a b = false -> a <> b.
Proof. unfold param_eqb. now destruct (param_dec a b). Qed.
Lemma operand_nil ts rest : operand [] ts rest -> ts = rest /\ hd_error ts = Some TCurlyClose.
Proof. inversion 1; subst; auto. Qed.
Lemma word_of_none (ws : list (wk C)) : word_of ws = None -> ws = [].
Proof. destruct ws as [|w [|? ?]]; [reflexivity|discriminate|discriminate]. Qed.

Lemma body_gives p t pos ts (Q : swk C -> list token -> Prop) : braced_param p t ->
  (forall s rest, dollar s (TDollar :: TCurlyOpen :: t :: ts) rest -> Q s rest) ->
  gives (parameter_substitution_body_raw fuel K p pos) ts Q.
Proof.
  intros Hp H. unfold parameter_substitution_body_raw. gstep.
  assert (X : forall (c : bool) us, ts = (if c then [TColon] else []) ++ us ->
    gives (op_pos <- getpos ;;
      t <- next ;;
      match t with
      | Some ((TDash | TEquals | TQuestion | TPlus) as op) =>
          word <- parameter_substitution_word_raw fuel K pos ;;
          match subst_of_op op c p word with
          | Some s => ret (KSubst s)
          | None => panic PS_subst_op
          end
      | Some TCurlyClose => ret (KParam p)
      | Some t => throw (BadSubst t op_pos)
      | None => throw (Unmatched TCurlyOpen pos)
      end) us Q).
  { intros c us ->. gstep. gstep. gstep. gstep. destruct us as [|op us]; cbn [hd_error tl]; [gstep|].
    assert (Y : forall mk : param -> option (cwk C) -> psk C, subst_op c op mk -> gives (word <- parameter_substitution_word_raw fuel K pos ;;
          match subst_of_op op c p word with
          | Some s => ret (KSubst s)
          | None => panic PS_subst_op
          end) us Q).
    { intros mk Hm. gstep. apply operand_gives. intros ws rest Ho.
      assert (D : (p = PmPound /\ c = false /\ ws = [] /\ (op = TDash \/ op = TQuestion)) \/
                  ~ (p = PmPound /\ c = false /\ ws = [] /\ (op = TDash \/ op = TQuestion))).
      { destruct (param_dec p PmPound) as [->|]; [|right; tauto]. destruct c; [right; intros (_ & D & _); discriminate|].
        destruct ws; [|right; intros (_ & _ & D & _); discriminate].
        destruct (token_eqb_spec op TDash); [left; tauto|]. destruct (token_eqb_spec op TQuestion); [left; tauto|]. right. tauto. }
      destruct D as [(-> & -> & -> & D)|D].
      - destruct (operand_nil _ _ Ho) as [E _]. subst us. pose proof (braced_pound _ Hp) as ->.
        destruct D as [-> | ->];
          [change (subst_of_op TDash false PmPound (word_of (C:=C) [])) with (Some (KSLen (C:=C) PmDash))
          |change (subst_of_op TQuestion false PmPound (word_of (C:=C) [])) with (Some (KSLen (C:=C) PmQuestion))];
          gstep; apply H; cbn [app]; apply do_length; apply bp_token; constructor.
      - assert (E : subst_of_op op c p (word_of ws) = Some (mk p (word_of ws))).
        { unfold subst_of_op.
          assert (M : param_eqb p PmPound && negb c && match word_of ws with None => true | Some _ => false end = true ->
            p = PmPound /\ c = false /\ ws = []).
          { intros M. apply andb_true_iff in M as [M M3]. apply andb_true_iff in M as [M1 M2].
            split; [now apply param_eqb_true|]. split; [now destruct c|].
            apply word_of_none. destruct (word_of ws); [discriminate|reflexivity]. }
          destruct (param_eqb p PmPound && negb c && match word_of ws with None => true | Some _ => false end) eqn:Em.
          - destruct (M eq_refl) as (M1 & M2 & M3).
            destruct Hm; cbn; try reflexivity; exfalso; apply D; tauto.
          - destruct Hm; reflexivity. }
        rewrite E. gstep. apply H. apply do_subst; assumption. }
    destruct op; try (eapply Y; solve [constructor]); try gstep.
    apply H. destruct c; cbn [app]; [now apply do_colon|now apply do_braces]. }
  gstep.
  - apply (X true). reflexivity.
  - apply (X false). reflexivity.
Qed.
Lemma curly_gives pos ts : gives (curly_substitution fuel K pos) (TCurlyOpen :: ts)
  (fun s rest => dollar s (TDollar :: TCurlyOpen :: ts) rest).
Proof.
  unfold curly_substitution. gstep. gstep. gstep. apply inner_gives. intros p t us -> Hp. gstep. gstep.
  assert (Bd : gives (parameter_substitution_body_raw fuel K p pos) us (fun s rest => dollar s (TDollar :: TCurlyOpen :: t :: us) rest)).
  { eapply body_gives; [exact Hp|]. auto. }
  assert (Df : gives (if param_eqb PmPound p then
        match hd_error us with
        | Some TColon | Some TDash | Some TEquals | Some TQuestion | Some TPlus
        | Some TCurlyClose => parameter_substitution_body_raw fuel K p pos
        | _ =>
            p' <- parameter_inner ;;
            eat TCurlyClose ;;
            ret (KSubst (KSLen p'))
        end
      else parameter_substitution_body_raw fuel K p pos) us (fun s rest => dollar s (TDollar :: TCurlyOpen :: t :: us) rest)).
  { destruct (param_eqb PmPound p) eqn:Ep; [|exact Bd]. apply param_eqb_true in Ep. subst p.
    assert (L : gives (p' <- parameter_inner ;; eat TCurlyClose ;; ret (KSubst (KSLen p')) : prog _) us
       (fun s rest => dollar s (TDollar :: TCurlyOpen :: t :: us) rest)).
    { gstep. apply inner_gives. intros p' t' r -> Hp'. gstep. gstep. gstep. rewrite (braced_pound _ Hp). now apply do_length. }
    destruct us as [|u us]; [exact L|]. cbn [hd_error]. destruct u; first [exact L|exact Bd]. }
  destruct us as [|u us]; [exact Df|]. cbn [hd_error] in *. destruct u; try exact Df; clear Df Bd.
  - (* pound *) gstep. gstep. gstep. gstep.
    + gstep. apply operand_gives. intros ws rest Ho. gstep. now apply do_prefixes.
    + gstep. apply operand_gives. intros ws rest Ho. gstep.
      destruct (word_of ws) as [k|] eqn:Ew.
      * rewrite <- Ew. apply do_prefix; auto. intros [_ ->]. discriminate.
      * apply word_of_none in Ew. subst ws. destruct (param_eqb PmPound p) eqn:Ep.
        -- apply param_eqb_true in Ep. subst p. rewrite (braced_pound _ Hp). destruct (operand_nil _ _ Ho) as [-> _].
           apply do_length. apply bp_token. constructor.
        -- apply param_eqb_false in Ep. change None with (word_of (C:=C) []). apply do_prefix; auto. intros [-> _]. congruence.
  - (* percent *) gstep. gstep. gstep. gstep.
    + gstep. apply operand_gives. intros ws rest Ho. gstep. now apply do_suffixes.
    + gstep. apply operand_gives. intros ws rest Ho. gstep. now apply do_suffix.
Qed.
Lemma subshell_gives ok ts (Q : cgroup C -> list token -> Prop) :
  (forall g us rest, ts = TParenOpen :: us -> group (mkDelims [] [] [TParenClose]) g us (TParenClose :: rest) ->
     (ok = false -> commands g <> []) -> Q g rest) ->
  gives (subshell_internal K ok) ts Q.
Proof.
  intros H. unfold subshell_internal. gstep. gstep. gstep. gstep. gstep. gcall (KG _ plain_paren). intros g r Hg. gstep. gstep.
  destruct r as [|t r]; cbn [hd_error]; [gstep|]. destruct t; try apply gives_unexpected.
  destruct (ok || negb (is_nil (commands g))) eqn:E; [|apply gives_unexpected]. gstep. gstep. gstep.
  apply (H g us r eq_refl Hg). intros ->. cbn in E. intros E'. rewrite E' in E. discriminate.
Qed.
Lemma paren_gives ts : gives (paren_substitution fuel K) (TParenOpen :: ts)
  (fun s rest => dollar s (TDollar :: TParenOpen :: ts) rest).
Proof.
  unfold paren_substitution. gstep. gstep.
  assert (L : look arith_try (TParenOpen :: ts) = otoken_eqb (hd_error ts) (Some TParenOpen)) by now destruct ts.
  rewrite L. clear L. destruct (otoken_eqb_spec (hd_error ts) (Some TParenOpen)) as [E|E].
  - destruct (hd_cons _ _ E) as (us & ->). gstep. gstep. gstep. gstep. gstep. apply gives_skipw. gstep. gstep. gstep.
    destruct (otoken_eqb_spec (hd_error (skipw us0)) (Some TParenClose)) as [Eh|Eh].
    + gstep. gstep. apply gives_skipw. rewrite skipw_idem. gstep. apply gives_eat. intros mid' E1.
      gstep. apply gives_skipw. gstep. apply gives_eat. intros rest E2. gstep. eapply do_arith_empty; eassumption.
    + gstep. gcall (arith_gives (BS:=bst B) (BE:=b_err B) fuel). intros e r (us' & y & E1 & Hy & o & He). gstep. gstep. apply gives_skipw.
      gstep. apply gives_eat. intros mid' E2. gstep. apply gives_skipw. gstep. apply gives_eat. intros rest E3. gstep.
      destruct (skipw_decomp us0) as (w & Hw & E4). rewrite E1 in E4. rewrite E4. rewrite app_assoc.
      eapply do_arith; [|rewrite skipw_blank by exact Hy; eassumption|eassumption]. exists o. now apply aexpr_before.
  - gstep. apply subshell_gives. intros g us rest [= <-] Hg _. gstep. now apply do_command.
Qed.
Lemma parameter_gives ts : gives (parameter_raw fuel K) ts (fun s rest => dollar s ts rest).
Proof.
  unfold parameter_raw. gstep. gstep. gstep. gstep. destruct ts as [|t ts]; cbn [hd_error tl]; [gstep|].
  destruct t; try gstep; [|apply do_positional]. gstep.
  assert (I : forall t us, ts = t :: us -> (match t with TLiteral _ => False | _ => True end) ->
    gives (p <- parameter_inner ;; ret (KParam p) : prog _) ts (fun s rest => dollar s (TDollar :: ts) rest)).
  { intros t us -> Ht. gstep. apply inner_gives. intros p' t' rest [= <- <-] Hp. gstep. apply do_param.
    inversion Hp; subst; [assumption|contradiction]. }
  assert (S2 : forall t us, ts = t :: us -> t = TParenOpen \/ t = TCurlyOpen -> gives (parameter_substitution_raw fuel K) ts
    (fun s rest => dollar s (TDollar :: ts) rest)).
  { intros t us -> Ht. unfold parameter_substitution_raw. gstep. gstep. gstep. gstep.
    destruct Ht as [-> | ->]; [apply paren_gives|apply curly_gives]. }
  destruct ts as [|u us]; cbn [hd_error]; [gstep; now apply do_lone|].
  destruct u; try (eapply I; [reflexivity|exact Logic.I]); try (eapply S2; [reflexivity|tauto]); gstep; apply do_lone; exact Logic.I.
Qed.
End SoundWord.
