(** * What the parser's primitives have read when they succeed

    The converse of [BaseForms.v] and of the lemmas on balanced regions and here-documents: a
    successful run has read one of the written forms. *)
From Coq Require Import String.
From Verif Require Import Base Token Pos Ast Builder Prog Iter Located IterProofs ParserBase Balanced RunLemmas BaseRun
  Sim BalancedSpec BalancedProofs BalancedTotal Arith Word Redirect Command Runs Pure Relex ArithSpec HeredocSpec Forms
  BaseForms WordRuns HeredocRuns Reserved Gives.
Notation gives := Gives.gives.

Section Generic.
Context {BS BE : Type}.
Notation prog := (prog BS BE).

Lemma gives_sim {A} (p1 p2 : prog A) ts Q : sim eq eq same p1 p2 -> gives p2 ts Q -> gives p1 ts Q.
Proof.
  intros HS H L e b HL. specialize (HS (mkL L e) b b eq_refl). specialize (H L e b HL).
  destruct (lrun p1 (mkL L e) b) as [[o1 l1] b1], (lrun p2 (mkL L e) b) as [[o2 l2] b2].
  destruct o1; auto; destruct o2; destruct HS as (S1 & S2 & S3); cbn in S1; try contradiction.
  unfold same in S1. subst. exact H.
Qed.
(** A run whose result is only known through a function of it. *)
Lemma gives_map {A C} (p : prog A) (h : A -> C) ts c r :
  runs (bind p (fun x => ret (h x))) ts c r -> gives p ts (fun x rest => h x = c /\ rest = r).
Proof.
  intros H L e b HL. specialize (H L e b HL). rewrite lrun_bind in H.
  destruct (lrun p (mkL L e) b) as [[[x|x|x|] l'] b']; auto. cbn in H. tauto.
Qed.
Lemma gives_sub {A} i r (q : prog A) ts (Q : A -> list token -> Prop) :
  gives q (iter_toks i) (fun a _ => Q a ts) -> gives (sub_iter i r q) ts Q.
Proof.
  intros H L e b HL. rewrite lrun_sub.
  specialize (H (toks (l_make i)) (end_pos (l_make i)) b (iter_toks_make i)).
  replace (mkL (toks (l_make i)) (end_pos (l_make i))) with (l_make i) in H by now destruct (l_make i).
  destruct (lrun q (l_make i) b) as [[[y|y|y|] l'] b']; auto. cbn [toks]. now rewrite HL.
Qed.
Lemma gives_buffer us p ts (Q : unit -> list token -> Prop) : Q tt (us ++ ts) -> gives (buffer us p : prog _) ts Q.
Proof.
  intros H L e b HL. rewrite lrun_buffer.
  replace (map fst (toks _)) with (us ++ ts); [exact H|]. unfold l_buffer. cbn [toks]. rewrite map_app, HL. f_equal.
  clear. revert p. induction us as [|u us IH]; intros p; cbn; [reflexivity|]. now rewrite <- IH.
Qed.
Lemma gives_build {A} (g : BS -> (A + BE) * BS) x ts (Q : A -> list token -> Prop) :
  (forall b, g b = (inl x, b)) -> Q x ts -> gives (build g : prog _) ts Q.
Proof. intros Hg H. eapply gives_runs; [apply runs_build_end; exact Hg|exact H]. Qed.
Lemma gives_all {A} (p : prog A) ts (Q : A -> list token -> Prop) : (forall a r, Q a r) -> gives p ts Q.
Proof. intros H L e b HL. destruct (lrun p (mkL L e) b) as [[[x|x|x|] l'] b']; auto. Qed.
Lemma gives_and {A} (p : prog A) ts (Q1 Q2 : A -> list token -> Prop) : gives p ts Q1 -> gives p ts Q2 -> gives p ts (fun a r => Q1 a r /\ Q2 a r).
Proof.
  intros H1 H2 L e b HL. specialize (H1 L e b HL). specialize (H2 L e b HL).
  destruct (lrun p (mkL L e) b) as [[[x|x|x|] l'] b']; auto.
Qed.
End Generic.

(** ** Newlines *)
Lemma newline_split ts : (exists c rest, ts = c ++ TNewline :: rest /\ ~ In TNewline c) \/ ~ In TNewline ts.
Proof.
  induction ts as [|t ts IH]; [now right|].
  destruct (token_eqb_spec t TNewline) as [->|Hn].
  - left. exists [], ts. split; [reflexivity|]. intros [].
  - destruct IH as [(c & rest & -> & Hc)|Hc].
    + left. exists (t :: c), rest. split; [reflexivity|]. intros [H|H]; congruence.
    + right. intros [H|H]; congruence.
Qed.
Lemma newline_form_dec ts : (exists n rest, newline_form n ts rest) \/ no_newline (skipw ts).
Proof.
  destruct (skipw ts) as [|t r] eqn:E; [right; split; discriminate|].
  destruct (token_eqb_spec t TNewline) as [->|H1]; [left; eexists _, r; now apply nf_newline|].
  destruct (token_eqb_spec t TPound) as [->|H2]; [|right; split; cbn; congruence].
  left. destruct (newline_split r) as [(c & rest & -> & Hc)|Hc].
  - eexists _, rest. now apply nf_comment with (c := c).
  - eexists _, []. now apply nf_comment_end with (c := r).
Qed.
Lemma skipw_length ts : (List.length (skipw ts) <= List.length ts)%nat.
Proof. destruct (skipw_decomp ts) as (w & _ & E). rewrite E at 2. rewrite app_length. lia. Qed.
Lemma newline_form_shorter n ts rest : newline_form n ts rest -> (List.length rest < List.length ts)%nat.
Proof.
  intros H. pose proof (skipw_length ts). destruct H as [ts rest E|ts c rest E _|ts c E _]; rewrite E in *; cbn [List.length] in *.
  - lia.
  - rewrite app_length in *. cbn [List.length] in *. lia.
  - lia.
Qed.
Lemma maybe_newline_total ts : exists n rest, maybe_newline n ts rest.
Proof.
  destruct (newline_form_dec ts) as [(n & rest & H)|H].
  - exists (Some n), rest. now constructor.
  - exists None, (skipw ts). now constructor.
Qed.
Lemma newlines_total ts : exists ns rest, newlines ns ts rest.
Proof.
  remember (List.length ts) as n eqn:Hn. revert ts Hn. induction n as [n IH] using lt_wf_ind. intros ts Hn.
  destruct (newline_form_dec ts) as [(x & mid & H)|H].
  - destruct (IH _ ltac:(rewrite Hn; eapply newline_form_shorter; exact H) mid eq_refl) as (ns & rest & H').
    exists (x :: ns), rest. econstructor; eauto.
  - exists [], (skipw ts). now constructor.
Qed.

Section Base.
Context {BS BE : Type}.
Notation prog := (prog BS BE).
Variable fuel : nat.

Lemma newline_gives ts (Q : option newline_ -> list token -> Prop) :
  (forall n rest, maybe_newline n ts rest -> Q n rest) -> gives (newline fuel : prog _) ts Q.
Proof.
  intros H. destruct (maybe_newline_total ts) as (n & rest & Hn).
  eapply gives_runs; [apply runs_newline; exact Hn|]. now apply H.
Qed.
Lemma linebreak_gives ts (Q : list newline_ -> list token -> Prop) :
  (forall ns rest, newlines ns ts rest -> Q ns rest) -> gives (linebreak fuel : prog _) ts Q.
Proof.
  intros H. destruct (newlines_total ts) as (n & rest & Hn).
  eapply gives_runs; [apply runs_linebreak; exact Hn|]. now apply H.
Qed.
Lemma peek_word_gives ks ts (Q : option str -> list token -> Prop) : ks <> [] ->
  (forall k rest, In k ks -> keyword k ts rest -> Q (Some k) (skipw ts)) ->
  (~ at_keyword ks ts -> Q None (skipw ts)) ->
  gives (peek_reserved_word fuel ks : prog _) ts Q.
Proof.
  intros Hn H1 H2. destruct (Reserved.at_keyword_dec ks ts) as [[[k rest] [Hi Hk]]|H].
  - eapply gives_runs; [eapply runs_peek_word_yes; eassumption|]. eapply H1; eassumption.
  - eapply gives_runs; [apply runs_peek_word_no; assumption|]. now apply H2.
Qed.
Lemma word_gives ks ts (Q : option str -> list token -> Prop) : ks <> [] ->
  (forall k rest, In k ks -> keyword k ts rest -> Q (Some k) rest) ->
  (~ at_keyword ks ts -> Q None (skipw ts)) ->
  gives (reserved_word fuel ks : prog _) ts Q.
Proof.
  intros Hn H1 H2. unfold reserved_word. gstep. apply peek_word_gives; [exact Hn| |].
  - intros k rest Hi Hk. cbv beta match. gstep. gstep. gstep.
    replace (tl (skipw ts)) with rest; [now apply H1|]. destruct Hk as [us r E _|us r E _]; now rewrite E.
  - intros Hk. cbv beta match. gstep. now apply H2.
Qed.
Lemma peek_token_gives tks ts (Q : option token -> list token -> Prop) : tks <> [] -> Forall (fun t => solid t = true) tks ->
  (forall t rest, In t tks -> skipw ts = t :: rest -> delimited rest -> Q (Some t) (skipw ts)) ->
  (~ at_token tks ts -> Q None (skipw ts)) ->
  gives (peek_reserved_token fuel tks : prog _) ts Q.
Proof.
  intros Hn Hs H1 H2. destruct (Reserved.at_token_dec tks ts) as [[[t rest] (Hi & Ht & Hd)]|H].
  - cbn [fst snd] in *. eapply gives_runs; [eapply runs_peek_token_yes; eassumption|]. rewrite <- Ht. eapply H1; eassumption.
  - eapply gives_runs; [apply runs_peek_token_no; assumption|]. now apply H2.
Qed.
Lemma token_res_gives tks ts (Q : token + perr BE -> list token -> Prop) : tks <> [] -> Forall (fun t => solid t = true) tks ->
  (forall t rest, In t tks -> skipw ts = t :: rest -> delimited rest -> Q (inl t) rest) ->
  (forall e rest, Q (inr e) rest) ->
  gives (reserved_token_res fuel tks : prog _) ts Q.
Proof.
  intros Hn Hs H1 H2. unfold reserved_token_res. gstep. apply peek_token_gives; [exact Hn|exact Hs| |].
  - intros t rest Hi E Hd. cbv beta match. rewrite E. gstep. gstep. gstep. eapply H1; eassumption.
  - intros _. cbv beta match. gstep. gstep. gstep. apply gives_all. intros ? ?. gstep. apply gives_all. intros ? ?. gstep. apply H2.
Qed.
Lemma token_gives tks ts (Q : token -> list token -> Prop) : tks <> [] -> Forall (fun t => solid t = true) tks ->
  (forall t rest, In t tks -> skipw ts = t :: rest -> delimited rest -> Q t rest) ->
  gives (reserved_token fuel tks : prog _) ts Q.
Proof.
  intros Hn Hs H1. unfold reserved_token. gstep. apply token_res_gives; [exact Hn|exact Hs| |].
  - intros t rest Hi E Hd. gstep. eapply H1; eassumption.
  - intros e rest. gstep.
Qed.

(** ** Balanced regions *)
Lemma content_single_inv ts : content TSingleQuote ts -> ~ In TSingleQuote ts.
Proof.
  induction ts as [|t ts IH]; intros H; [intros []|].
  inversion H; subst; try congruence. intros [E|E]; [congruence|]. now apply IH.
Qed.
Lemma closed_gives X p ts (Q : list token -> list token -> Prop) : closer X ->
  (forall body rest, ts = body ++ X :: rest -> content X body -> Q body rest) ->
  gives (collect_balanced fuel (Some (X, p)) : prog _) ts Q.
Proof.
  intros HX H. eapply gives_sim; [apply (sim_collect_balanced eq eq fuel (fuel + S (List.length ts))); lia|].
  intros L e b HL. subst ts. rewrite map_length in *.
  destruct (balanced_cases X p L HX) as [(body & q & rest & -> & Hc)|(er & Hu)].
  - rewrite balanced_region; [|exact HX|exact Hc|rewrite app_length; lia]. cbn [toks].
    apply H; [|exact Hc]. rewrite map_app. reflexivity.
  - rewrite (balanced_unclosed X p L e er); [exact I|exact HX|exact Hu|lia].
Qed.
Lemma piece_gives ts (Q : list token -> list token -> Prop) : ts <> [] ->
  (forall t p rest, ts = (t :: p) ++ rest -> piece (t :: p) rest -> Q (t :: p) rest) ->
  gives (collect_balanced fuel None : prog _) ts Q.
Proof.
  intros Hn H. eapply gives_sim; [apply (sim_collect_balanced eq eq fuel (fuel + S (List.length ts))); lia|].
  intros L e b HL. subst ts. rewrite map_length in *.
  destruct (piece_cases L) as [->|[(a & c & -> & Ha & Hp)|(o & c & q & inner & er & pre & Hpre & E & Hu)]].
  - now elim Hn.
  - rewrite balanced_piece; [|exact Hp|rewrite app_length; lia]. cbn [toks].
    destruct a as [|[t q] a]; [congruence|]. cbn [map fst]. apply H; [|exact Hp].
    cbn [app map fst]. now rewrite map_app.
  - rewrite (balanced_piece_unclosed L e _ b o c q inner er pre Hpre E Hu); [exact I|]. subst L. lia.
Qed.
Lemma backtick_gives p ts (Q : new_iter -> list token -> Prop) :
  (forall body rest i, ts = body ++ TBacktick :: rest -> content TBacktick body -> iter_toks i = unescape body -> Q i rest) ->
  gives (create_token_iter fuel p : prog _) ts Q.
Proof.
  intros H. eapply gives_sim; [apply (sim_create_token_iter eq eq fuel (fuel + S (S (List.length ts))) p); lia|].
  intros L e b HL. subst ts. rewrite map_length in *.
  destruct (create_token_iter_total (BS:=BS) (BE:=BE) (fuel + S (S (List.length L))) p (mkL L e) b ltac:(cbn [toks]; lia))
    as [(i & body & q & rest & E & E1 & Hc & E2 & _)|(t & q & l' & E & _)]; rewrite E; [|exact I].
  cbn [toks] in E1 |- *. subst L. apply (H (map fst body) (map fst rest)).
  - rewrite map_app. reflexivity.
  - exact Hc.
  - now rewrite <- iter_toks_make.
Qed.
End Base.

(** ** Here-documents *)
Lemma delimiter_extends X ts : content X ts -> X <> TSingleQuote -> X <> TDoubleQuote -> X <> TBacktick ->
  forall d s q, delimiter d s q -> exists s' q', delimiter (ts ++ d) s' q'.
Proof.
  induction 1 as [X|t ts Ht Hc IH|X t ts HX Hc IH|X t ts HX Ht Hbs Ho Hd Hc IH|X o c inner ts HX Ho Hop Hc IHi Hc2 IH|X inner ts HX Hc IHi Hc2 IH];
    intros N1 N2 N3 d s q Hq; cbn [app].
  - eauto.
  - congruence.
  - destruct (IH N1 N2 N3 _ _ _ Hq) as (s' & q' & H). eexists _, _. eapply dl_escape; eassumption.
  - destruct (IH N1 N2 N3 _ _ _ Hq) as (s' & q' & H). eexists _, _.
    apply dl_plain; [exact Hbs| | | |exact H]; intros ->; cbn in Ho; try discriminate Ho.
    destruct X; (discriminate Ho || congruence).
  - destruct (IH N1 N2 N3 _ _ _ Hq) as (s' & q' & H). rewrite <- app_assoc. cbn [app].
    destruct o; cbn in Hop; try discriminate Hop; try (injection Hop as <-).
    + (* parenthesis *)
      assert (H1 : exists s1 q1, delimiter (TParenClose :: ts ++ d) s1 q1)
        by (eexists _, _; apply dl_plain; [discriminate..|exact H]).
      destruct H1 as (s1 & q1 & H1). destruct (IHi ltac:(discriminate) ltac:(discriminate) ltac:(discriminate) _ _ _ H1) as (s2 & q2 & H2).
      eexists _, _. apply dl_plain; [discriminate..|exact H2].
    + (* single quotes *)
      destruct X; try discriminate Hop; try congruence; injection Hop as <-;
        (eexists _, _; eapply dl_single; [now apply content_single_inv|exact H]).
    + eexists _, _. eapply dl_double; [exact Hc|exact H].
    + eexists _, _. eapply dl_backtick; [exact Hc|exact H].
  - destruct (IH N1 N2 N3 _ _ _ Hq) as (s' & q' & H). rewrite <- app_assoc. cbn [app].
    assert (H1 : exists s1 q1, delimiter (TCurlyClose :: ts ++ d) s1 q1)
      by (eexists _, _; apply dl_plain; [discriminate..|exact H]).
    destruct H1 as (s1 & q1 & H1). destruct (IHi ltac:(discriminate) ltac:(discriminate) ltac:(discriminate) _ _ _ H1) as (s2 & q2 & H2).
    eexists _, _. apply dl_plain; [discriminate..|]. apply dl_plain; [discriminate..|exact H2].
Qed.
Lemma delimiter_of_extent d rest : delimiter_extent d rest -> exists s q, delimiter d s q.
Proof.
  induction 1 as [rest _|t p d rest Ht Hp He (s & q & IH)].
  - eexists _, _. constructor.
  - change (t :: p ++ d) with ((t :: p) ++ d). remember (t :: p) as tp eqn:Etp. remember (d ++ rest) as r eqn:Er.
    assert (Par : forall inner c, c = TParenClose \/ c = TCurlyClose -> content c inner -> exists s' q', delimiter (inner ++ c :: d) s' q').
    { intros inner c Hc H. assert (H1 : exists s1 q1, delimiter (c :: d) s1 q1)
        by (destruct Hc as [-> | ->]; eexists _, _; (apply dl_plain; [discriminate..|exact IH])).
      destruct H1 as (s1 & q1 & H1). destruct Hc as [-> | ->]; (eapply delimiter_extends; [exact H|discriminate..|exact H1]). }
    destruct Hp as [u r Hb Hd Ho|u r| |o c inner r Hop Hc|inner r Hc|r H1 H2|inner r Hc]; cbn [app]; rewrite <- ?app_assoc; cbn [app].
    + eexists _, _. apply dl_plain; [exact Hb| | | |exact IH]; intros ->; discriminate.
    + eexists _, _. eapply dl_escape; eassumption.
    + destruct d; [|discriminate Er]. eexists _, _. apply dl_backslash.
    + destruct o; cbn in Hop; try discriminate Hop; injection Hop as <-.
      * destruct (Par inner TParenClose (or_introl eq_refl) Hc) as (s1 & q1 & H1). eexists _, _. apply dl_plain; [discriminate..|exact H1].
      * eexists _, _. eapply dl_single; [now apply content_single_inv|exact IH].
      * eexists _, _. eapply dl_double; [exact Hc|exact IH].
      * eexists _, _. eapply dl_backtick; [exact Hc|exact IH].
    + destruct (Par inner TCurlyClose (or_intror eq_refl) Hc) as (s1 & q1 & H1). eexists _, _.
      apply dl_plain; [discriminate..|]. apply dl_plain; [discriminate..|exact H1].
    + eexists _, _. apply dl_plain; [discriminate..|exact IH].
    + destruct (Par inner TParenClose (or_introl eq_refl) Hc) as (s1 & q1 & H1). eexists _, _.
      apply dl_plain; [discriminate..|]. apply dl_plain; [discriminate..|exact H1].
Qed.
Lemma closes_dec s l : closes s l \/ ~ closes s l.
Proof.
  unfold closes. destruct (str_eqb_spec (text l) s); [tauto|]. destruct (str_eqb_spec (text l) (s ++ [c_cr])); [tauto|]. right. tauto.
Qed.
Lemma here_lines_total strip s ts : exists body rest, here_lines strip s body ts rest.
Proof.
  remember (List.length ts) as n eqn:Hn. revert ts Hn. induction n as [n IH] using lt_wf_ind. intros ts Hn.
  destruct (newline_split ts) as [(l & us & -> & Hl)|Hl].
  - destruct (closes_dec s (body_line strip l)) as [Hc|Hc].
    + exists [], us. now apply hl_close.
    + destruct (IH (List.length us) ltac:(subst n; rewrite app_length; cbn; lia) us eq_refl) as (body & rest & H).
      eexists _, rest. apply hl_line; eassumption.
  - destruct (closes_dec s (body_line strip ts)) as [Hc|Hc].
    + exists [], []. apply hl_close_end; auto.
    + destruct (body_line strip ts) eqn:E.
      * exists [], []. apply hl_close_end; auto.
      * exists (body_line strip ts), []. apply hl_last; [exact Hl|now rewrite E|congruence].
Qed.

Section Heredoc.
Variable B : builder.
Variable fuel : nat.
Notation prog := (prog (bst B) (b_err B)).

Lemma delim_tokens_gives f : forall acc ts (Q : list token -> list token -> Prop),
  (forall d rest, ts = d ++ rest -> delimiter_extent d rest -> Q (acc ++ d) rest) ->
  gives (delim_tokens_loop B fuel f acc) ts Q.
Proof.
  induction f as [|f IH]; intros acc ts Q H; cbn [delim_tokens_loop]; [gstep|]. gstep. gstep.
  assert (E : forall r, ts = r -> (match r with [] => True | t :: _ => ends_delimiter t = true end) -> Q acc r).
  { intros r -> Hr. rewrite <- (app_nil_r acc). apply H; [reflexivity|now apply de_end]. }
  destruct ts as [|t ts]; cbn [hd_error].
  { gstep. now apply E. }
  change (is_word_delimiter t && negb (token_eqb t TParenOpen)) with (ends_delimiter t).
  destruct (ends_delimiter t) eqn:Et; [gstep; now apply E|].
  gstep. apply piece_gives; [discriminate|]. intros t' p rest E' Hp. injection E' as <- ->. apply IH.
  intros d rest' -> Hd. rewrite <- app_assoc. apply H.
  - cbn [app]. now rewrite <- app_assoc.
  - cbn [app]. now apply de_piece.
Qed.
Lemma delim_gives d rest (Q : str * bool -> list token -> Prop) : delimiter_extent d rest ->
  (forall s q, delimiter d s q -> Q (s, q) []) ->
  gives (delim_loop B fuel fuel false []) d Q.
Proof.
  intros He H. destruct (delimiter_of_extent _ _ He) as (s & q & Hd).
  eapply gives_runs; [apply (runs_delim_loop B fuel d s q Hd fuel false [])|]. cbn [app orb]. now apply H.
Qed.
Lemma saved_gives f : forall acc ts (Q : list token -> list token -> Prop),
  (forall l rest, ts = l ++ rest -> line_rest l rest -> Q (acc ++ l) rest) ->
  gives (saved_tokens_loop B fuel f acc) ts Q.
Proof.
  induction f as [|f IH]; intros acc ts Q H; cbn [saved_tokens_loop]; [gstep|]. gstep. gstep.
  destruct ts as [|t ts]; cbn [hd_error].
  { gstep. rewrite <- (app_nil_r acc). apply H; [reflexivity|apply lr_end]. }
  destruct (token_eqb_spec t TNewline) as [->|Hn].
  { gstep. gstep. gstep. apply H; [reflexivity|apply lr_newline]. }
  assert (X : gives (ts <- collect_balanced fuel None ;; saved_tokens_loop B fuel f (acc ++ ts)) (t :: ts) Q).
  { gstep. apply piece_gives; [discriminate|]. intros t' p rest E' Hp. injection E' as <- ->. apply IH.
    intros l rest' -> Hl. rewrite <- app_assoc. apply H.
    - cbn [app]. now rewrite <- app_assoc.
    - cbn [app]. now apply lr_piece. }
  destruct t; first [congruence | exact X].
Qed.
Lemma lines_gives strip s ts (Q : list (list token * spos) -> list token -> Prop) :
  (forall body rest chunks, here_lines strip s body ts rest -> flat_map fst chunks = body -> Q chunks rest) ->
  gives (heredoc_lines B fuel strip s fuel []) ts Q.
Proof.
  intros H. destruct (here_lines_total strip s ts) as (body & rest & Hh).
  eapply gives_mono; [eapply (gives_map _ (flat_map fst)); eapply runs_lines; [exact Hh|]|].
  - intros chunks E. rewrite E. cbn. apply runs_ret.
  - cbv beta. intros chunks r [E ->]. cbn [flat_map app] in E. now apply (H body rest).
Qed.
End Heredoc.
