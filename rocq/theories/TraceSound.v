(** * C49: nothing in the AST is made up

    Whatever the parser returns was written in the source: the trace of the AST ([Trace.v]) is part of
    the source, in order. *)
From Coq Require Import String.
From Verif Require Import Base Token Pos Lexer LexSpec LexTheorems Ast Builder Prog Iter Located IterProofs RunLemmas ParserBase Balanced BalancedSpec
  BalancedProofs BalancedTotal Wp Arith Word WpWord Redirect Command DefaultBuilder Entry EntryWp Total Api Runs Pure Relex ArithSpec HeredocSpec Forms BaseForms CompoundRuns FormsRuns FormsTheorems
  SoundScript Exact ExactMethods Seams Quotes Compress Printer Join Trace.

Notation DB := default_builder.
Notation DP := default_pure.

Scheme aexpr_tr := Minimality for aexpr Sort Prop with aseq_tr := Minimality for aseq Sort Prop.
Combined Scheme arith_tr from aexpr_tr, aseq_tr.

(** An order on strings in which a string is below what it is a part of. *)
Section Order.
Variable bodies : bool.
Variable le : str -> str -> Prop.
Hypothesis le_refl : forall a, le a a.
Hypothesis le_trans : forall a b c, le a b -> le b c -> le a c.
Hypothesis le_app : forall a b c d, le a b -> le c d -> le (a ++ c) (b ++ d).
Hypothesis le_nil : forall a, le [] a.
(** If bodies of here-documents count, parts may be moved. *)
Hypothesis le_comm : bodies = true -> forall a b, le (a ++ b) (b ++ a).

Notation tw := (trace_word bodies).
Notation tc := (trace_cmd bodies).

Lemma le_keep a x y : le x y -> le (a ++ x) (a ++ y).
Proof. intros H. now apply le_app. Qed.
Lemma le_drop a x y : le x y -> le x (a ++ y).
Proof. intros H. change x with ([] ++ x). now apply le_app. Qed.
Lemma le_tail a x y : le x y -> le (x ++ a) (y ++ a).
Proof. intros H. now apply le_app. Qed.
(** Reading [a] then [b]. *)
Lemma le_chain a b x y z : le (a ++ x) y -> le (b ++ z) x -> le (a ++ b ++ z) y.
Proof. intros H1 H2. eapply le_trans; [|exact H1]. now apply le_keep. Qed.
Lemma le_skip a x y z : le (a ++ x) y -> le z x -> le (a ++ z) y.
Proof. intros H1 H2. eapply le_trans; [|exact H1]. now apply le_keep. Qed.

Lemma text_cons' t ts : text (t :: ts) = as_str t ++ text ts.
Proof. reflexivity. Qed.
Lemma text_app' a b : text (a ++ b) = text a ++ text b.
Proof. unfold text. now rewrite map_app, concat_app. Qed.
Lemma le_token t x ts : le x (text ts) -> le (as_str t ++ x) (text (t :: ts)).
Proof. apply le_keep. Qed.
Lemma le_skipw ts : le (text (skipw ts)) (text ts).
Proof.
  remember (List.length ts) as n eqn:Hn. assert (H : (List.length ts <= n)%nat) by lia. clear Hn. revert ts H.
  induction n as [|n IH]; intros ts H; [destruct ts; [apply le_refl|cbn in H; lia]|].
  destruct ts as [|t ts]; [apply le_refl|]. cbn in H.
  destruct t; try apply le_refl.
  - destruct ts as [|u ts]; [apply le_refl|]. destruct u; try apply le_refl. cbn in H. cbn [skipw]. rewrite !text_cons'. do 2 apply le_drop. apply IH. lia.
  - cbn [skipw]. rewrite text_cons'. apply le_drop, IH. lia.
Qed.
Lemma le_skipw_to ts us : skipw ts = us -> le (text us) (text ts).
Proof. intros <-. apply le_skipw. Qed.
Lemma le_blank w : forall x ts, le x (text ts) -> le x (text (w ++ ts)).
Proof. intros x ts H. rewrite text_app'. now apply le_drop. Qed.
Lemma le_newline n ts rest : newline_form n ts rest -> le (text rest) (text ts).
Proof.
  intros H. inversion H; subst; try apply le_nil.
  - eapply le_trans; [|apply le_skipw_to; eassumption]. rewrite text_cons'. apply le_drop, le_refl.
  - eapply le_trans; [|apply le_skipw_to; eassumption]. rewrite text_cons', text_app', text_cons'. do 3 apply le_drop. apply le_refl.
Qed.
Lemma le_maybe_newline n ts rest : maybe_newline n ts rest -> le (text rest) (text ts).
Proof. intros H. inversion H; subst; [eapply le_newline; eassumption|apply le_skipw]. Qed.
Lemma le_newlines ns ts rest : newlines ns ts rest -> le (text rest) (text ts).
Proof. induction 1; [apply le_skipw|]. eapply le_trans; [eassumption|]. eapply le_newline; eassumption. Qed.
Lemma le_keyword k ts rest : keyword k ts rest -> le (k ++ text rest) (text ts).
Proof. intros H. inversion H; subst; (eapply le_trans; [|apply le_skipw_to; eassumption]); apply le_refl. Qed.
Lemma le_no_word ts rest : no_word ts rest -> le (text rest) (text ts).
Proof. intros H. inversion H; subst; try apply le_skipw. apply le_nil. Qed.
Lemma le_no_value ts rest : no_value ts rest -> le (text rest) (text ts).
Proof. intros H. inversion H; subst; [apply le_refl|now apply le_no_word]. Qed.

(** Numbers. *)
Lemma dec_loop_fuel f : forall f' n, (n < 2 ^ N.of_nat f)%N -> (n < 2 ^ N.of_nat f')%N -> (0 < f)%nat -> (0 < f')%nat -> dec_loop f n = dec_loop f' n.
Proof.
  induction f as [|f IH]; intros [|f'] n H1 H2 P1 P2; try lia. cbn [dec_loop].
  destruct (N.ltb_spec n 10) as [|Hn]; [reflexivity|]. f_equal.
  assert (Q : forall g, (n < 2 ^ N.of_nat (S g))%N -> (n / 10 < 2 ^ N.of_nat g)%N /\ (0 < g)%nat).
  { intros g Hg. rewrite Nnat.Nat2N.inj_succ, N.pow_succ_r' in Hg. split.
    - apply N.div_lt_upper_bound; lia.
    - destruct g; [cbn in Hg; lia|lia]. }
  destruct (Q f H1), (Q f' H2). now apply IH.
Qed.
Lemma dec_step n : dec n = if (n <? 10)%N then [digit_char n] else dec (n / 10) ++ [digit_char (n mod 10)].
Proof.
  unfold dec at 1. cbn [dec_loop]. destruct (N.ltb_spec n 10) as [|Hn]; [reflexivity|]. f_equal.
  pose proof (N.log2_spec n ltac:(lia)) as [L1 L2].
  pose proof (N.log2_spec (n / 10) ltac:(assert (1 <= n / 10)%N by (apply N.div_le_lower_bound; lia); lia)) as [M1 M2].
  apply dec_loop_fuel.
  - rewrite Nnat.N2Nat.id. apply N.div_lt_upper_bound; [lia|]. rewrite N.pow_succ_r' in L2. lia.
  - rewrite Nnat.Nat2N.inj_succ, Nnat.N2Nat.id. exact M2.
  - assert (3 <= N.log2 n)%N by (change 3%N with (N.log2 8); apply N.log2_le_mono; lia). lia.
  - lia.
Qed.
Lemma digit_value_char c d : digit_value 10 c d -> digit_char d = c.
Proof. intros [H [[H1 H2]|[[H1 H2]|[H1 H2]]]]; unfold digit_char; lia. Qed.
Lemma le_dec s n : numeral_value 10 s n -> le (dec n) s.
Proof.
  induction 1 as [c d Hd|s c v d Hv IH Hd].
  - rewrite dec_step. destruct Hd as [H X]. destruct (N.ltb_spec d 10); [|lia]. rewrite (digit_value_char c d); [apply le_refl|]. split; assumption.
  - rewrite dec_step. pose proof (digit_value_char c d Hd) as E. destruct Hd as [H X]. destruct (N.ltb_spec (v * 10 + d) 10) as [L|L].
    + assert (v = 0%N) by lia. subst v. cbn [N.mul N.add]. rewrite E. apply le_drop, le_refl.
    + replace ((v * 10 + d) / 10)%N with v by (rewrite N.div_add_l, (N.div_small d 10) by lia; lia).
      replace ((v * 10 + d) mod 10)%N with d by (rewrite N.add_comm, N.mod_add, N.mod_small by lia; reflexivity).
      rewrite E. now apply le_tail.
Qed.
Lemma le_number s n : number s n -> le (dec n) s.
Proof. intros H. inversion H; subst; [now apply le_dec|]. change (43%N :: s0) with ([43%N] ++ s0). now apply le_drop, le_dec. Qed.
Lemma le_fd fd ts rest : fd_form fd ts rest -> le (show_fd fd ++ text rest) (text ts).
Proof.
  intros H. inversion H as [|d n r Hd Hn|d n r Hd Hn]; subst; cbn [show_fd app]; [apply le_refl| |].
  - rewrite text_app'. now apply le_tail, le_number.
  - rewrite text_app', !text_cons'. apply le_app; [now apply le_number|]. do 2 apply le_drop. apply le_refl.
Qed.
Lemma le_param_token p t : param_token p t -> le (show_name p) (as_str t).
Proof. intros H. inversion H; subst; apply le_refl. Qed.
Lemma le_braced p t : braced_param p t -> le (show_name p) (as_str t).
Proof. intros H. inversion H; subst; [now apply le_param_token|]. cbn. now apply le_number. Qed.

(** Backquotes. *)
Lemma le_unescape n : forall ts, (List.length ts <= n)%nat -> le (text (unescape ts)) (text ts).
Proof.
  induction n as [|n IH]; intros ts H; [destruct ts; [apply le_refl|cbn in H; lia]|].
  destruct ts as [|t ts]; [apply le_refl|]. cbn in H.
  assert (D : le (as_str t ++ text (unescape ts)) (text (t :: ts))) by (apply le_keep, IH; lia).
  destruct t; try exact D. destruct ts as [|u ts]; [exact D|]. cbn in H.
  assert (D1 : le (as_str TBackslash ++ as_str u ++ text (unescape ts)) (text (TBackslash :: u :: ts))) by (apply le_keep, le_keep, IH; lia).
  assert (D2 : le (as_str u ++ text (unescape ts)) (text (TBackslash :: u :: ts))) by (rewrite text_cons'; apply le_drop, le_keep, IH; lia).
  destruct u; first [exact D2|exact D1].
Qed.

(** Words. *)
Definition tS (s : swk tlcmd) : str := t_simple tw tc (d_map_simple default_word s).
Definition tF (w : wk tlcmd) : str := t_frag tw tc (d_map_word default_word w).
Definition tSs (l : list (swk tlcmd)) : str := concat (map tS l).
Definition tFs (l : list (wk tlcmd)) : str := concat (map tF l).
Section Pass.
Context {A : Type} (func : A -> A -> A + A * A) (F : A -> str).
Hypothesis Hl : forall a b c, func a b = inl c -> le (F c) (F a ++ F b).
Lemma le_pass : forall l x, le (concat (map F (pass func x l))) (F x ++ concat (map F l)).
Proof.
  induction l as [|y l IH]; intros x; cbn [pass map concat].
  - apply le_refl.
  - destruct (func x y) as [c|] eqn:E; cbn [map concat].
    + eapply le_trans; [apply IH|]. rewrite app_assoc. apply le_tail. now apply Hl.
    + apply le_keep, IH.
Qed.
Lemma le_passes l : le (concat (map F (passes func l))) (concat (map F l)).
Proof. destruct l; [apply le_refl|]. apply le_pass. Qed.
End Pass.
Lemma le_coalesce_simple l : le (tSs (coalesce coalesce_simple l)) (tSs l).
Proof.
  rewrite coalesce_s. apply le_passes. intros a b c. destruct a; destruct b; cbn; try discriminate. intros [= <-]. apply le_refl.
Qed.
Lemma tF_double l : tF (KDoubleQuoted l) = [34%N] ++ tSs l ++ [34%N].
Proof. unfold tF, tSs. cbn [d_map_word t_frag]. now rewrite map_map. Qed.
Lemma le_coalesce_word l : le (tFs (coalesce coalesce_word l)) (tFs l).
Proof.
  rewrite coalesce_w. apply le_passes. intros a b c. destruct a as [a|a|a]; destruct b as [b|b|b]; cbn [coalesce_word]; try discriminate.
  - destruct a; destruct b; cbn; try discriminate. intros [= <-]. apply le_refl.
  - intros [= <-]. rewrite !tF_double, <- !app_assoc. apply le_keep. eapply le_trans; [apply le_tail, le_coalesce_simple|].
    unfold tSs. rewrite map_app, concat_app, <- app_assoc. apply le_keep. do 2 apply le_drop. apply le_refl.
  - intros [= <-]. cbn [tF d_map_word t_frag]. unfold tF. cbn [d_map_word t_frag]. rewrite <- !app_assoc. do 2 apply le_keep. do 2 apply le_drop. apply le_refl.
Qed.
Definition tK (k : cwk tlcmd) : str := match k with KSingle w => tF w | KConcat ws => tFs ws end.
Lemma le_default_word k : le (tw (default_word k)) (tK k).
Proof.
  rewrite default_word_eq. unfold d_map_complex. rewrite trace_word_eq.
  assert (C : forall k', t_complex tw tc (match k' with KSingle s => WSingle (d_map_word default_word s) | KConcat ws => WConcat (map (d_map_word default_word) ws) end) = tK k').
  { intros [ws|w]; [|reflexivity]. cbn [t_complex tK]. unfold tFs, tF. now rewrite map_map. }
  rewrite C. destruct k as [ws|w]; cbn [compress].
  - pose proof (le_coalesce_word ws) as H. destruct (coalesce coalesce_word ws) as [|x [|y l]]; try exact H.
    cbn [tK]. unfold tFs in H at 1. cbn in H. now rewrite app_nil_r in H.
  - destruct w as [s|l|s]; try apply le_refl. cbn [tK]. rewrite !tF_double. apply le_keep, le_tail, le_coalesce_simple.
Qed.
Lemma le_word_of ws : le (t_operand tw (option_map default_word (word_of ws))) (tFs ws).
Proof.
  destruct ws as [|w [|w' ws]]; cbn [word_of option_map t_operand]; [apply le_nil| |apply le_default_word].
  eapply le_trans; [apply le_default_word|]. unfold tFs. cbn. rewrite app_nil_r. apply le_refl.
Qed.
Lemma le_word_some ws k : word_of ws = Some k -> le (tw (default_word k)) (tFs ws).
Proof. intros E. pose proof (le_word_of ws) as H. rewrite E in H. exact H. Qed.
Lemma le_here_word ws : le (tw (default_word (here_word ws))) (tSs ws).
Proof.
  eapply le_trans; [apply le_default_word|]. destruct ws as [|w [|w' ws]]; cbn [here_word tK].
  - apply le_nil.
  - unfold tSs. cbn. rewrite app_nil_r. apply le_refl.
  - unfold tFs, tSs. rewrite map_map. apply le_refl.
Qed.

(** Arithmetic. *)
Lemma le_variable v ts : variable v ts -> le v (text ts).
Proof. intros H. inversion H; subst; cbn [text map concat as_str]; rewrite ?app_nil_r; [apply le_refl|]. apply le_drop, le_refl. Qed.
Lemma trace_assign v a : le (trace_arith (AAssign v a)) (v ++ s_of "=" ++ trace_arith a).
Proof.
  cbn [trace_arith]. do 2 apply le_keep.
  destruct a as [| | | | | | | | | | |a b|a b|a b|a b|a b|a b|a b| | | | | | |a b|a b|a b| | | | |]; try apply le_refl;
  (destruct a; try apply le_refl; destruct (str_eqb v v0); [|apply le_refl]; cbn [trace_arith]; do 2 apply le_drop; apply le_refl).
Qed.
Lemma trace_assign_op v t c e : assignop t c -> le (trace_arith (AAssign v (c (AVar v) e))) (v ++ s_of "=" ++ trace_arith e).
Proof. intros H. inversion H; subst; cbn [trace_arith]; rewrite str_eqb_refl; apply le_refl. Qed.
Lemma trace_binop k op c a b : binop k op c -> trace_arith (c a b) = trace_arith a ++ text op ++ trace_arith b.
Proof. intros H. inversion H; subst; reflexivity. Qed.
Lemma trace_unop t c a : unop t c -> trace_arith (c a) = as_str t ++ trace_arith a.
Proof. intros H. inversion H; subst; reflexivity. Qed.
Lemma le_arith :
  (forall k o e ts, aexpr k o e ts -> le (trace_arith e) (text ts)) /\
  (forall o es ts, aseq o es ts -> le (s_of "," ++ join (s_of ",") (map trace_arith es)) (text ts)).
Proof.
  apply arith_tr; cbn [trace_arith].
  - auto.
  - intros. apply le_nil.
  - intros w v ts _ H. apply le_blank. now apply le_variable.
  - intros w v ts w' _ H _. rewrite !text_app'. apply le_drop. apply le_app; [now apply le_variable|]. apply le_drop, le_refl.
  - intros w v ts w' _ H _. rewrite !text_app'. apply le_drop. apply le_app; [now apply le_variable|]. apply le_drop, le_refl.
  - intros w o e ts w' _ _ IH _. rewrite !text_app', text_cons', !text_app'. do 2 apply le_drop. rewrite <- (app_nil_r (trace_arith e)). apply le_app; [exact IH|apply le_nil].
  - intros w w' v ts _ _ H. rewrite text_app', !text_cons', text_app'. apply le_drop.
    change (s_of "++" ++ v) with (as_str TPlus ++ as_str TPlus ++ v). do 2 apply le_keep. apply le_drop. now apply le_variable.
  - intros w w' v ts _ _ H. rewrite text_app', !text_cons', text_app'. apply le_drop.
    change (s_of "--" ++ v) with (as_str TDash ++ as_str TDash ++ v). do 2 apply le_keep. apply le_drop. now apply le_variable.
  - intros w t c o e ts _ Hc _ IH _. rewrite (trace_unop t c e Hc), text_app', text_cons'. apply le_drop, le_keep, IH.
  - intros w o e ts _ _ IH. rewrite text_app', !text_cons'. apply le_drop, le_keep, le_keep, IH.
  - intros w o e ts _ _ IH. rewrite text_app', !text_cons'. apply le_drop, le_keep, le_keep, IH.
  - intros o1 e1 ts1 w o2 e2 ts2 _ IH1 _ _ IH2. rewrite !text_app', !text_cons'. apply le_app; [exact IH1|]. apply le_drop.
    change (s_of "**" ++ trace_arith e2) with (as_str TStar ++ as_str TStar ++ trace_arith e2). do 2 apply le_keep. exact IH2.
  - intros k op c o1 e1 ts1 w o2 e2 ts2 Hc _ IH1 _ _ IH2 _. rewrite (trace_binop k op c e1 e2 Hc), !text_app'. apply le_app; [exact IH1|]. apply le_drop, le_keep, IH2.
  - intros o1 g ts1 w1 o2 b ts2 w2 o3 e ts3 _ IH1 _ _ IH2 _ _ IH3. rewrite !text_app', !text_cons', !text_app', !text_cons'.
    apply le_app; [exact IH1|]. apply le_drop. apply (le_keep (s_of "?")). apply le_app; [exact IH2|]. apply le_drop. apply (le_keep (s_of ":")), IH3.
  - intros w v ts1 w' o e ts2 _ H _ _ IH. eapply le_trans; [apply trace_assign|]. rewrite !text_app', text_cons'. apply le_drop.
    apply le_app; [now apply le_variable|]. apply le_drop. apply (le_keep (s_of "=")), IH.
  - intros w v ts1 w' t c o e ts2 _ H _ Hc _ IH. eapply le_trans; [eapply trace_assign_op; exact Hc|]. rewrite !text_app', !text_cons'. apply le_drop.
    apply le_app; [now apply le_variable|]. do 2 apply le_drop. apply (le_keep (s_of "=")), IH.
  - intros o e ts o' es tss _ IH1 Hs IH2. rewrite text_app'. destruct es as [|e' es]; [inversion Hs|].
    cbn [map join]. apply le_app; [exact IH1|exact IH2].
  - intros w o e ts _ _ IH. rewrite text_app', text_cons'. apply le_drop. apply (le_keep (s_of ",")). exact IH.
  - intros w o e ts o' es tss _ _ IH1 Hs IH2. rewrite text_app', text_cons', text_app'. apply le_drop. apply (le_keep (s_of ",")).
    destruct es as [|e' es]; [inversion Hs|]. cbn [map join]. apply le_app; [exact IH1|exact IH2].
Qed.
Lemma le_written e ts : written e ts -> le (trace_arith e) (text ts).
Proof. intros [o H]. exact (proj1 le_arith _ _ _ _ H). Qed.

(** Here-documents. *)
Lemma le_untab w : le (text (untab w)) w.
Proof.
  unfold untab. assert (D : le (trim_start_matches c_tab w) w).
  { induction w as [|c w IH]; [apply le_refl|]. cbn. destruct (c =? c_tab)%N; [|apply le_refl]. apply (le_drop [c]), IH. }
  destruct (trim_start_matches c_tab w) as [|c r]; [apply le_nil|]. cbn. now rewrite app_nil_r.
Qed.
Lemma le_strip_line n : forall l, (List.length l <= n)%nat -> le (text (strip_line l)) (text l).
Proof.
  induction n as [|n IH]; intros l H; [destruct l; [apply le_refl|cbn in H; lia]|].
  destruct l as [|t l]; [apply le_refl|]. cbn in H.
  assert (D : le (as_str t ++ text (strip_line l)) (text (t :: l))) by (apply le_keep, IH; lia).
  destruct t; try exact D. cbn [strip_line]. rewrite text_app', text_cons'. apply le_app; [apply le_untab|].
  destruct l as [|u l]; [apply le_refl|]. apply le_keep, IH. cbn in H. lia.
Qed.
Lemma le_body_line strip l : le (text (body_line strip l)) (text l).
Proof. destruct strip; [eapply le_strip_line; reflexivity|apply le_refl]. Qed.
Lemma le_here_lines strip s body ts rest : here_lines strip s body ts rest -> le (text body ++ text rest) (text ts).
Proof.
  induction 1.
  - rewrite text_app', text_cons'. do 2 apply le_drop. apply le_refl.
  - apply le_nil.
  - rewrite !text_app', !text_cons', <- !app_assoc. apply le_app; [apply le_body_line|]. apply le_keep. exact IHhere_lines.
  - cbn [text map concat]. rewrite app_nil_r. apply le_body_line.
Qed.
Lemma le_here strip q body ts rest X : here_document strip q body ts rest -> le X (text body) ->
  le ((if bodies then X else []) ++ text rest) (text ts).
Proof.
  intros H HX. inversion H as [d s line lines r Hd Hs He Hl Hh]; subst. apply le_here_lines in Hh.
  rewrite !text_app'. apply le_drop. destruct bodies eqn:Eb.
  - eapply le_trans; [apply le_app; [exact HX|apply le_refl]|]. rewrite app_assoc.
    eapply le_trans; [apply le_tail, (le_comm eq_refl)|]. rewrite <- app_assoc. now apply le_keep.
  - cbn [app]. apply le_keep. eapply le_trans; [|exact Hh]. apply le_drop, le_refl.
Qed.

(** Joining. *)
Lemma join_cons sep x l : l <> [] -> join sep (x :: l) = x ++ sep ++ join sep l.
Proof. destruct l; [congruence|reflexivity]. Qed.

Definition tG (g : cgroup tlcmd) : str := t_cs tc (commands g).
Definition tP (c : d_pipeable) : str := t_pipeable bodies tw tc c.
Definition tC (c : d_compound) : str := t_compound bodies tw tc c.
Definition tR (r : d_redirect) : str := t_redirect bodies tw r.
Definition tGB (gb : gbpair tlcmd) : str := tG (gguard gb) ++ s_of "then" ++ tG (gbody gb).
Definition tA (a : case_arm tlword tlcmd) : str := t_patterns tw (pattern_alternatives (arm_patterns a)) ++ tG (arm_body a).

Ltac norm := repeat first [rewrite text_app' | rewrite text_cons' | rewrite <- app_assoc].

Theorem forms_trace :
  (forall w ts rest, frag DB DP w ts rest -> le (tF w ++ text rest) (text ts)) /\
  (forall s ts rest, expansion DB DP s ts rest -> le (tS s ++ text rest) (text ts)) /\
  (forall s ts rest, dollar DB DP s ts rest -> le (tS s ++ text rest) (text ts)) /\
  (forall close ws ts rest, quoted DB DP close ws ts rest -> le (tSs ws ++ text rest) (text ts)) /\
  (forall stop ws ts rest, frags DB DP stop ws ts rest -> le (tFs ws ++ text rest) (text ts)) /\
  (forall ws ts rest, operand DB DP ws ts rest -> le (tFs ws ++ text rest) (text ts)) /\
  (forall k ts rest, word_form DB DP k ts rest -> le (tw (default_word k) ++ text rest) (text ts)) /\
  (forall r ts rest, redirect_form DB DP r ts rest -> le (tR r ++ text rest) (text ts)) /\
  (forall rs ts rest, redirects DB DP rs ts rest -> le (concat (map tR rs) ++ text rest) (text ts)) /\
  (forall args ts rest, arguments DB DP args ts rest -> le (concat (map (t_arg bodies tw) args) ++ text rest) (text ts)) /\
  (forall vars args ts rest, simple DB DP vars args ts rest ->
     le (concat (map (t_env bodies tw) vars) ++ concat (map (t_arg bodies tw) args) ++ text rest) (text ts)) /\
  (forall c ts rest, command_form DB DP c ts rest -> le (tP c ++ text rest) (text ts)) /\
  (forall ns c ts rest, function_body DB DP ns c ts rest -> le (tC c ++ text rest) (text ts)) /\
  (forall c ts rest, compound DB DP c ts rest -> le (tC c ++ text rest) (text ts)) /\
  (forall g ts rest, do_form DB DP g ts rest -> le (s_of "do" ++ tG g ++ s_of "done" ++ text rest) (text ts)) /\
  (forall conds els ts rest, conditionals DB DP conds els ts rest -> conds <> [] /\
     le (join (s_of "elif") (map tGB conds) ++ t_else tc (option_map commands els) ++ s_of "fi" ++ text rest) (text ts)) /\
  (forall ws cs ts rest, for_list DB DP ws cs ts rest ->
     le (t_in tw (option_map (fun t => snd (fst t)) ws) ++ text rest) (text ts)) /\
  (forall ws ts rest, for_words_form DB DP ws ts rest -> le (t_ws tw ws ++ text rest) (text ts)) /\
  (forall arms cs ts rest, case_arms DB DP arms cs ts rest -> le (concat (map tA arms) ++ text rest) (text ts)) /\
  (forall ps ts rest, patterns_form DB DP ps ts rest -> ps <> [] /\ le (join (s_of "|") (map tw ps) ++ s_of ")" ++ text rest) (text ts)) /\
  (forall cs ts rest, pipe_form DB DP cs ts rest -> cs <> [] /\ le (join (s_of "|") (map (fun x => tP (snd x)) cs) ++ text rest) (text ts)) /\
  (forall p ts rest, pipeline_form DB DP p ts rest -> le (t_listable bodies tw tc p ++ text rest) (text ts)) /\
  (forall l ts rest, and_or_form DB DP l ts rest -> le (concat (map (fun x => t_and_or bodies tw tc (snd x)) l) ++ text rest) (text ts)) /\
  (forall l ts rest, list_form DB DP l ts rest -> le (t_list bodies tw tc l ++ text rest) (text ts)) /\
  (forall ns c ts rest, complete_form DB DP ns c ts rest -> le (tc c ++ text rest) (text ts)) /\
  (forall cfg g ts rest, group DB DP cfg g ts rest -> le (tG g ++ text rest) (text ts)).
Proof.
  apply (forms_mind DB DP written_arith).
  - (* fr_literal *) intros t rest _. apply le_refl.
  - intros t s rest H. inversion H; subst; apply le_refl.
  - intros t rest _. apply le_refl.
  - intros ts rest _. change (tF (KSingleQuoted (text ts))) with ([39%N] ++ text ts ++ [39%N]). norm. apply le_refl.
  - intros ws ts rest _ IH. rewrite tF_double. norm. apply le_keep. exact IH.
  - intros s ts rest _ IH. exact IH.
  - (* ex_backticks *) intros g ts rest _ _ IH. change (tS (KCommandSubst g)) with (tG g). norm. apply le_drop.
    apply le_app; [|apply le_drop, le_refl]. cbn [text map concat] in IH. rewrite app_nil_r in IH.
    eapply le_trans; [exact IH|]. eapply le_unescape. reflexivity.
  - intros s ts rest _ IH. exact IH.
  - (* do_lone *) intros rest _. apply le_refl.
  - intros p rest. destruct p; apply le_refl.
  - intros p t rest H. change (tS (KParam p)) with (s_of "$" ++ show_name p). norm. apply le_keep, le_tail. now apply le_param_token.
  - intros p t rest H. change (tS (KParam p)) with (s_of "$" ++ show_name p). norm. apply le_keep, le_drop.
    apply le_app; [now apply le_braced|]. apply le_drop, le_refl.
  - intros p t rest H. change (tS (KSubst (KSLen p))) with (s_of "${#" ++ show_name p ++ s_of "}"). norm.
    change (s_of "${#" ++ show_name p ++ s_of "}" ++ text rest) with (s_of "$" ++ s_of "{" ++ s_of "#" ++ show_name p ++ s_of "}" ++ text rest).
    do 3 apply le_keep. apply le_tail. now apply le_braced.
  - (* do_subst *) intros p t colon op mk ws ts rest H1 H2 _ IH H3.
    assert (E : tS (KSubst (mk p (word_of ws))) = t_braces tw p (with_colon colon (as_str op)) (option_map default_word (word_of ws))).
    { inversion H2; subst; reflexivity. }
    rewrite E. unfold t_braces. norm. change (s_of "${") with (s_of "$" ++ s_of "{"). norm. do 2 apply le_keep.
    apply le_app; [now apply le_braced|]. apply (le_chain _ _ (text ts)).
    + destruct colon; cbn [with_colon]; norm; apply le_refl.
    + eapply le_trans; [|exact IH]. norm. apply le_app; [apply le_word_of|]. apply le_refl.
  - intros p t ws ts rest H1 _ IH _. change (tS (KSubst (KSRemoveSmallestSuffix p (word_of ws)))) with (t_braces tw p (s_of "%") (option_map default_word (word_of ws))).
    unfold t_braces. norm. change (s_of "${") with (s_of "$" ++ s_of "{"). norm. do 2 apply le_keep.
    apply le_app; [now apply le_braced|]. apply le_keep. eapply le_trans; [|exact IH]. norm. apply le_app; [apply le_word_of|]. apply le_refl.
  - intros p t ws ts rest H1 _ IH. change (tS (KSubst (KSRemoveLargestSuffix p (word_of ws)))) with (t_braces tw p (s_of "%" ++ s_of "%") (option_map default_word (word_of ws))).
    unfold t_braces. norm. change (s_of "${") with (s_of "$" ++ s_of "{"). norm. do 2 apply le_keep.
    apply le_app; [now apply le_braced|]. do 2 apply le_keep. eapply le_trans; [|exact IH]. norm. apply le_app; [apply le_word_of|]. apply le_refl.
  - intros p t ws ts rest H1 _ IH _ _. change (tS (KSubst (KSRemoveSmallestPrefix p (word_of ws)))) with (t_braces tw p (s_of "#") (option_map default_word (word_of ws))).
    unfold t_braces. norm. change (s_of "${") with (s_of "$" ++ s_of "{"). norm. do 2 apply le_keep.
    apply le_app; [now apply le_braced|]. apply le_keep. eapply le_trans; [|exact IH]. norm. apply le_app; [apply le_word_of|]. apply le_refl.
  - intros p t ws ts rest H1 _ IH. change (tS (KSubst (KSRemoveLargestPrefix p (word_of ws)))) with (t_braces tw p (s_of "#" ++ s_of "#") (option_map default_word (word_of ws))).
    unfold t_braces. norm. change (s_of "${") with (s_of "$" ++ s_of "{"). norm. do 2 apply le_keep.
    apply le_app; [now apply le_braced|]. do 2 apply le_keep. eapply le_trans; [|exact IH]. norm. apply le_app; [apply le_word_of|]. apply le_refl.
  - (* do_arith *) intros e ts mid mid' rest H1 H2 H3. change (tS (KSubst (KSArith (Some e)))) with (s_of "$((" ++ trace_arith e ++ s_of "))"). norm.
    change (s_of "$((") with (as_str TDollar ++ as_str TParenOpen ++ as_str TParenOpen). norm. do 3 apply le_keep.
    apply le_app; [now apply le_written|]. apply le_skipw_to in H2, H3. eapply le_trans; [|exact H2]. norm.
    change (s_of "))") with (as_str TParenClose ++ as_str TParenClose). norm. apply le_keep. exact H3.
  - intros mid mid' rest H2 H3. change (tS (KSubst (KSArith None))) with (as_str TDollar ++ as_str TParenOpen ++ as_str TParenOpen ++ as_str TParenClose ++ as_str TParenClose). norm.
    do 3 apply le_keep. apply le_skipw_to in H2, H3. eapply le_trans; [|exact H2]. norm. apply le_keep. exact H3.
  - intros g ts rest _ IH _. change (tS (KSubst (KSCommand g))) with (tG g). norm. do 2 apply le_drop. eapply le_trans; [|exact IH]. apply le_keep. norm. apply le_drop, le_refl.
  - (* do_colon *) intros p t rest H. change (tS (KParam p)) with (s_of "$" ++ show_name p). norm. apply le_keep, le_drop.
    apply le_app; [now apply le_braced|]. do 2 apply le_drop. apply le_refl.
  - (* qu_nil *) intros. apply le_refl.
  - intros close ts ws mid rest _ _ _ _ IH. unfold tSs. cbn [map concat]. norm. apply le_keep, IH.
  - intros close t ws ts rest _ _ IH. unfold tSs. cbn [map concat]. norm. change (tS (KEscaped (as_str t))) with (as_str TBackslash ++ as_str t). norm. do 2 apply le_keep. exact IH.
  - intros close s ts mid ws rest _ IH1 _ IH2. unfold tSs. cbn [map concat]. norm. eapply le_chain; [exact IH1|exact IH2].
  - intros close ts ws mid rest _ _ _ _ IH. norm. apply le_drop, IH.
  - (* fs_end *) intros. apply le_refl.
  - intros. norm. do 2 apply le_drop. apply le_refl.
  - intros stop w ts mid ws rest _ IH1 _ _ IH2. unfold tFs. cbn [map concat]. norm. eapply le_chain; [exact IH1|exact IH2].
  - intros. apply le_nil.
  - (* op_end *) intros. apply le_refl.
  - intros t ws ts rest _ _ IH. unfold tFs. cbn [map concat]. norm. apply le_keep, IH.
  - intros ws ts rest _ IH. unfold tFs. cbn [map concat]. norm. change (tF (KSimple (KEscaped (as_str TNewline)))) with (as_str TBackslash ++ as_str TNewline). norm. do 2 apply le_keep. exact IH.
  - intros w ws ts mid ws' rest _ IH1 _ _ IH2. unfold tFs. rewrite map_app, concat_app. norm. eapply le_chain; [exact IH1|exact IH2].
  - (* wf_word *) intros w ws k ts rest _ IH _ Hk. eapply le_trans; [|exact IH]. apply le_tail. now apply le_word_some.
  - (* rf_file *) intros fd op mk k ts ts' rest Hf Ho _ IH. apply le_fd in Hf. eapply le_trans; [|exact Hf].
    assert (E : tR (mk fd (default_word k)) = show_fd fd ++ as_str op ++ tw (default_word k)) by (inversion Ho; subst; reflexivity).
    change (pu_redirect DP (mk fd (pu_word DP k))) with (mk fd (default_word k)). rewrite E. norm. do 2 apply le_keep. eapply le_trans; [exact IH|]. apply le_skipw.
  - intros fd op mk w ws k ts ts' rest Hf Ho _ IH _ Hk. apply le_fd in Hf. eapply le_trans; [|exact Hf].
    assert (E : tR (mk fd (default_word k)) = show_fd fd ++ as_str op ++ tw (default_word k)) by (inversion Ho; subst; reflexivity).
    change (pu_redirect DP (mk fd (pu_word DP k))) with (mk fd (default_word k)). rewrite E. norm. do 2 apply le_keep. eapply le_trans; [|apply le_skipw].
    eapply le_trans; [|exact IH]. apply le_tail. now apply le_word_some.
  - intros fd op mk ts ts' rest Hf Ho Hs _. apply le_fd in Hf. eapply le_trans; [|exact Hf].
    assert (E : forall k, tR (mk fd (default_word k)) = show_fd fd ++ as_str op ++ tw (default_word k)) by (intros k; inversion Ho; subst; reflexivity).
    change (le (tR (mk fd (default_word (KSingle (KSimple (KLiteral (s_of "-")))))) ++ text rest) (show_fd fd ++ text (op :: ts'))).
    rewrite E. norm. do 2 apply le_keep. eapply le_trans; [|apply le_skipw_to; exact Hs]. apply le_refl.
  - (* rf_here_quoted *) intros fd op strip body ts ts' rest Hf Ho Hh. apply le_fd in Hf. eapply le_trans; [|exact Hf].
    change (tR (pu_redirect DP (RHeredoc fd (pu_word DP (KSingle (KSimple (KLiteral (text body)))))))) with (show_fd fd ++ s_of "<<" ++ (if bodies then tw (default_word (KSingle (KSimple (KLiteral (text body))))) else [])).
    norm. apply le_keep. apply (le_chain _ _ (text ts')).
    + inversion Ho; subst; [apply le_refl|]. change (as_str TDLessDash) with (s_of "<<" ++ s_of "-"). norm. apply le_keep, le_drop, le_refl.
    + eapply le_trans; [|apply le_skipw]. eapply le_here; [exact Hh|]. eapply le_trans; [apply le_default_word|]. apply le_refl.
  - intros fd op strip body ws ts ts' rest Hf Ho Hh _ IH. apply le_fd in Hf. eapply le_trans; [|exact Hf].
    change (tR (pu_redirect DP (RHeredoc fd (pu_word DP (here_word ws))))) with (show_fd fd ++ s_of "<<" ++ (if bodies then tw (default_word (here_word ws)) else [])).
    norm. apply le_keep. apply (le_chain _ _ (text ts')).
    + inversion Ho; subst; [apply le_refl|]. change (as_str TDLessDash) with (s_of "<<" ++ s_of "-"). norm. apply le_keep, le_drop, le_refl.
    + eapply le_trans; [|apply le_skipw]. eapply le_here; [exact Hh|]. eapply le_trans; [apply le_here_word|]. cbn [text map concat] in IH. now rewrite app_nil_r in IH.
  - (* redirects *) intros ts rest H _. now apply le_no_word.
  - intros r ts mid rs rest _ IH1 _ IH2. cbn [map concat]. norm. eapply le_chain; [|exact IH2]. eapply le_trans; [exact IH1|apply le_skipw].
  - (* arguments *) intros ts rest H _. now apply le_no_word.
  - intros r ts mid args rest _ IH1 _ IH2. cbn [map concat t_arg]. norm. eapply le_chain; [|exact IH2]. eapply le_trans; [exact IH1|apply le_skipw].
  - intros k ts mid args rest _ IH1 _ _ IH2. cbn [map concat t_arg]. norm. eapply le_chain; [|exact IH2]. eapply le_trans; [exact IH1|apply le_skipw].
  - (* simple *) intros ts rest H _. now apply le_no_word.
  - intros r ts mid vars args rest _ IH1 _ IH2. cbn [map concat t_env]. norm. eapply le_chain; [|exact IH2]. eapply le_trans; [exact IH1|apply le_skipw].
  - intros v k ts mid mid' vars args rest Hs _ _ IH1 _ IH2. cbn [map concat t_env t_operand]. norm. eapply le_trans; [|apply le_skipw_to; exact Hs]. norm. do 2 apply le_keep.
    eapply le_chain; [|exact IH2]. eapply le_trans; [exact IH1|apply le_skipw].
  - intros v ts mid mid' vars args rest Hs Hv _ IH2. cbn [map concat t_env t_operand]. norm. eapply le_trans; [|apply le_skipw_to; exact Hs]. norm. do 2 apply le_keep.
    cbn [app]. eapply le_trans; [exact IH2|]. now apply le_no_value.
  - intros k ts mid args rest _ IH1 _ _ _ IH2. cbn [map concat t_arg app]. norm. eapply le_chain; [|exact IH2]. eapply le_trans; [exact IH1|apply le_skipw].
  - (* command_form *) intros vars args ts rest _ IH _ _ _ _.
    change (tP (pu_simple_command DP vars args)) with (concat (map (t_env bodies tw) vars) ++ concat (map (t_arg bodies tw) args)). norm. exact IH.
  - intros c ts rest _ IH. exact IH.
  - intros v ns c ts ts1 ts2 ts3 rest _ _ -> Hp Hc _ IH. change (tP (pu_function_declaration DP v ns c)) with (v ++ tC c). norm. apply le_keep.
    apply le_skipw_to in Hc. eapply le_trans; [exact IH|]. apply (le_trans _ (text (TParenClose :: ts3))); [norm; apply le_drop, le_refl|]. eapply le_trans; [exact Hc|].
    destruct Hp as [->|(w & ->)]; norm; repeat apply le_drop; apply le_refl.
  - intros v ns c ts ts0 ts1 ts2 rest Hk Hs Hc _ IH. change (tP (pu_function_declaration DP v ns c)) with (v ++ tC c). norm.
    apply le_keyword in Hk. eapply le_trans; [|exact Hk]. apply le_drop. eapply le_trans; [|apply le_skipw_to; exact Hs]. norm. apply le_keep, le_drop.
    eapply le_trans; [|apply le_skipw_to; exact Hc]. norm. apply le_drop, IH.
  - intros v ns c ts ts0 ts1 rest Hk Hs _ _ IH. change (tP (pu_function_declaration DP v ns c)) with (v ++ tC c). norm.
    apply le_keyword in Hk. eapply le_trans; [|exact Hk]. apply le_drop. eapply le_trans; [|apply le_skipw_to; exact Hs]. norm. apply le_keep, IH.
  - intros v ns c ts ts0 w ts1 ts2 ts3 rest Hk Hs Hs1 Hs2 _ IH. change (tP (pu_function_declaration DP v ns c)) with (v ++ tC c). norm.
    apply le_keyword in Hk. eapply le_trans; [|exact Hk]. apply le_drop. eapply le_trans; [|apply le_skipw_to; exact Hs]. norm. apply le_keep, le_drop.
    eapply le_trans; [|apply le_skipw_to; exact Hs1]. norm. apply le_drop. eapply le_trans; [|apply le_skipw_to; exact Hs2]. norm. apply le_drop, IH.
  - intros v g ts ts0 w ts1 ts2 rest Hk Hs Hs1 _ IH _.
    change (tP (pu_function_declaration DP v [] (pu_subshell DP g []))) with (v ++ (s_of "(" ++ tG g ++ s_of ")") ++ []). rewrite app_nil_r. norm.
    apply le_keyword in Hk. eapply le_trans; [|exact Hk]. apply le_drop. eapply le_trans; [|apply le_skipw_to; exact Hs]. norm. apply le_keep, le_drop.
    eapply le_trans; [|apply le_skipw_to; exact Hs1]. norm. apply le_keep. exact IH.
  - (* function_body *) intros ns c ts mid rest Hn _ IH. eapply le_trans; [exact IH|]. eapply le_newlines; exact Hn.
  - (* co_brace *) intros g ts mid mid' rs rest _ _ IH1 _ -> _ _ IH2.
    change (tC (pu_brace_group DP g rs)) with ((s_of "{" ++ tG g ++ s_of "}") ++ concat (map tR rs)). norm. apply le_keep.
    eapply le_chain; [exact IH1|]. norm. apply le_keep. exact IH2.
  - intros g ts mid rs rest _ IH1 _ _ IH2.
    change (tC (pu_subshell DP g rs)) with ((s_of "(" ++ tG g ++ s_of ")") ++ concat (map tR rs)). norm. apply le_keep.
    eapply le_chain; [exact IH1|]. norm. apply le_keep. exact IH2.
  - intros g b ts ts1 ts2 ts3 rs rest Hk _ IH1 _ _ IH2 _ IH3.
    change (tC (pu_loop_command DP LoopWhile (mkGBP g b) rs)) with ((s_of "while" ++ tG g ++ (s_of "do" ++ tG b ++ s_of "done")) ++ concat (map tR rs)). norm.
    apply le_keyword in Hk. eapply le_chain; [exact Hk|]. eapply le_chain; [exact IH1|]. eapply le_trans; [|exact IH2]. do 3 apply le_keep. exact IH3.
  - intros g b ts ts1 ts2 ts3 rs rest Hk _ IH1 _ _ IH2 _ IH3.
    change (tC (pu_loop_command DP LoopUntil (mkGBP g b) rs)) with ((s_of "until" ++ tG g ++ (s_of "do" ++ tG b ++ s_of "done")) ++ concat (map tR rs)). norm.
    apply le_keyword in Hk. eapply le_chain; [exact Hk|]. eapply le_chain; [exact IH1|]. eapply le_trans; [|exact IH2]. do 3 apply le_keep. exact IH3.
  - (* co_if *) intros conds els ts ts1 ts2 rs rest Hk _ [_ IH1] _ IH2.
    assert (E : tC (pu_if_command DP (mkIF conds els) rs) = (s_of "if" ++ join (s_of "elif") (map tGB conds) ++ t_else tc (option_map commands els) ++ s_of "fi") ++ concat (map tR rs)).
    { change (tC (pu_if_command DP (mkIF conds els) rs)) with ((s_of "if" ++ join (s_of "elif") (map (t_guard tc) (map (fun gb => mkGB (commands (gguard gb)) (commands (gbody gb))) conds)) ++ t_else tc (option_map commands els) ++ s_of "fi") ++ concat (map tR rs)).
      rewrite map_map. reflexivity. }
    rewrite E. norm. apply le_keyword in Hk. eapply le_chain; [exact Hk|]. eapply le_trans; [|exact IH1]. do 3 apply le_keep. exact IH2.
  - (* co_for *) intros v vc ws cs b ts ts1 ts2 ts3 ts4 ts5 rs rest Hk Hs Hm _ IH1 _ IH2 _ IH3.
    change (tC (pu_for_command DP (mkFF v vc ws cs b) rs)) with ((s_of "for" ++ v ++ t_in tw (option_map (fun t => snd (fst t)) ws) ++ (s_of "do" ++ tG b ++ s_of "done")) ++ concat (map tR rs)). norm.
    apply le_keyword in Hk. eapply le_chain; [exact Hk|]. eapply le_trans; [|apply le_skipw_to; exact Hs]. norm. apply le_keep.
    eapply le_trans; [|eapply le_maybe_newline; exact Hm]. eapply le_chain; [exact IH1|]. eapply le_trans; [|exact IH2]. do 3 apply le_keep. exact IH3.
  - (* co_case *) intros k cs ic arms ac ts ts1 ts2 ts3 ts4 ts5 ts6 ts7 rs rest Hk _ IH1 Hn Hi Hm _ IH2 He _ IH3.
    assert (E : tC (pu_case_command DP (mkCF (pu_word DP k) cs ic arms ac) rs) = (s_of "case" ++ tw (default_word k) ++ s_of "in" ++ concat (map tA arms) ++ s_of "esac") ++ concat (map tR rs)).
    { change (tC (pu_case_command DP (mkCF (pu_word DP k) cs ic arms ac) rs)) with ((s_of "case" ++ tw (default_word k) ++ s_of "in" ++
        concat (map (t_arm tw tc) (map (fun arm => mkPB (pattern_alternatives (arm_patterns arm)) (commands (arm_body arm))) arms)) ++ s_of "esac") ++ concat (map tR rs)).
      rewrite map_map. reflexivity. }
    rewrite E. norm. apply le_keyword in Hk, Hi, He. eapply le_chain; [exact Hk|]. eapply le_chain; [eapply le_trans; [exact IH1|apply le_skipw]|].
    eapply le_trans; [|eapply le_newlines; exact Hn]. eapply le_chain; [exact Hi|]. eapply le_trans; [|eapply le_maybe_newline; exact Hm].
    eapply le_chain; [exact IH2|]. eapply le_chain; [exact He|exact IH3].
  - (* do_form *) intros g ts ts1 ts2 rest Hk _ IH _ Hd. apply le_keyword in Hk, Hd. eapply le_chain; [exact Hk|]. eapply le_chain; [exact IH|exact Hd].
  - (* conditionals *) intros g b ts ts1 ts2 ts3 rest _ IH1 _ Hk1 _ IH2 _ Hk2. split; [discriminate|]. cbn [map join option_map t_else app]. unfold tGB. cbn [gguard gbody]. norm.
    apply le_keyword in Hk1, Hk2. eapply le_chain; [exact IH1|]. eapply le_chain; [exact Hk1|]. eapply le_chain; [exact IH2|exact Hk2].
  - intros g b e ts ts1 ts2 ts3 ts4 ts5 rest _ IH1 _ Hk1 _ IH2 _ Hk2 _ IH3 _ Hk3. split; [discriminate|]. cbn [map join option_map t_else]. change (t_cs tc (commands e)) with (tG e). unfold tGB. cbn [gguard gbody]. norm.
    apply le_keyword in Hk1, Hk2, Hk3. eapply le_chain; [exact IH1|]. eapply le_chain; [exact Hk1|]. eapply le_chain; [exact IH2|].
    eapply le_chain; [exact Hk2|]. eapply le_chain; [exact IH3|exact Hk3].
  - intros g b conds els ts ts1 ts2 ts3 ts4 rest _ IH1 _ Hk1 _ IH2 _ Hk2 _ [Hne IH3]. split; [discriminate|]. cbn [map]. rewrite join_cons by (destruct conds; [congruence|discriminate]).
    unfold tGB at 1. cbn [gguard gbody]. norm.
    apply le_keyword in Hk1, Hk2. eapply le_chain; [exact IH1|]. eapply le_chain; [exact Hk1|]. eapply le_chain; [exact IH2|]. eapply le_chain; [exact Hk2|exact IH3].
  - (* for_list *) intros ns ws wc cs ts ts1 ts2 ts3 ts4 ts5 rest Hn Hk _ IH Hs Hm Hc. cbn [option_map t_in fst snd]. norm.
    eapply le_trans; [|eapply le_newlines; exact Hn]. apply le_keyword in Hk. eapply le_chain; [exact Hk|]. eapply le_skip; [exact IH|].
    eapply le_trans; [eapply le_newlines; exact Hc|]. eapply le_trans; [eapply le_maybe_newline; exact Hm|]. destruct Hs as [->|[-> _]]; [norm; apply le_drop|]; apply le_refl.
  - intros ns cs ts ts1 rest Hn Hc. cbn [option_map t_in app]. eapply le_trans; [|eapply le_newlines; exact Hn]. norm. apply le_drop. eapply le_newlines; exact Hc.
  - intros ns ts rest Hn _ _. eapply le_newlines; exact Hn.
  - (* for words *) intros ts rest H. now apply le_no_word.
  - intros k ts mid ws rest _ IH1 _ IH2. unfold t_ws. cbn [map concat]. norm. eapply le_chain; [|exact IH2]. eapply le_trans; [exact IH1|apply le_skipw].
  - (* case_arms *) intros cs ts rest Hn _. eapply le_newlines; exact Hn.
  - intros pre ps pc b ac arms cs ts ts1 ts2 ts3 ts4 ts5 ts6 rest Hn _ Hp _ [_ IH1] Hm _ IH2 Ha _ IH3. cbn [map concat]. unfold tA at 1. cbn [arm_patterns arm_body pattern_alternatives]. unfold t_patterns. norm.
    eapply le_trans; [|eapply le_newlines; exact Hn]. assert (P : le (text ts2) (text ts1)) by (destruct Hp as [->|[_ ->]]; [norm; apply le_drop|]; apply le_refl).
    eapply le_trans; [|exact P]. eapply le_trans; [|exact IH1]. do 2 apply le_keep. eapply le_trans; [|eapply le_maybe_newline; exact Hm].
    eapply le_chain; [exact IH2|]. norm. apply le_drop. eapply le_trans; [exact IH3|]. eapply le_maybe_newline; exact Ha.
  - intros pre ps pc b ts ts1 ts2 ts3 ts4 rest Hn _ Hp _ [_ IH1] Hm _ IH2 _. cbn [map concat]. rewrite app_nil_r. unfold tA. cbn [arm_patterns arm_body pattern_alternatives]. unfold t_patterns. norm.
    eapply le_trans; [|eapply le_newlines; exact Hn]. assert (P : le (text ts2) (text ts1)) by (destruct Hp as [->|[_ ->]]; [norm; apply le_drop|]; apply le_refl).
    eapply le_trans; [|exact P]. eapply le_trans; [|exact IH1]. do 2 apply le_keep. eapply le_trans; [|eapply le_maybe_newline; exact Hm]. exact IH2.
  - (* patterns *) intros k ts mid rest _ IH Hs. split; [discriminate|]. cbn [map join]. eapply le_chain; [eapply le_trans; [exact IH|apply le_skipw]|].
    eapply le_trans; [|apply le_skipw_to; exact Hs]. apply le_refl.
  - intros k ts mid mid' ps rest _ IH1 Hs _ [Hne IH2]. split; [discriminate|]. cbn [map]. rewrite join_cons by (destruct ps; [congruence|discriminate]). norm.
    eapply le_chain; [eapply le_trans; [exact IH1|apply le_skipw]|]. eapply le_trans; [|apply le_skipw_to; exact Hs]. norm. apply le_keep. exact IH2.
  - (* pipe *) intros c ts rest _ IH _ _. split; [discriminate|]. cbn [map join snd]. eapply le_trans; [exact IH|apply le_skipw].
  - intros c ns cs ts mid mid' rest _ IH1 _ Hn _ [Hne IH2]. split; [discriminate|]. cbn [map snd]. rewrite join_cons by (destruct cs; [congruence|discriminate]). norm.
    eapply le_chain; [eapply le_trans; [exact IH1|apply le_skipw]|]. norm. apply le_keep. eapply le_trans; [exact IH2|]. eapply le_newlines; exact Hn.
  - (* pipeline *) intros cs ts rest _ _ [Hne IH]. eapply le_trans; [|apply le_skipw]. eapply le_trans; [|exact IH]. apply le_tail.
    destruct cs as [|[n1 c1] [|[n2 c2] cs]]; [congruence|apply le_refl|].
    change (pu_pipeline DP false ((n1, c1) :: (n2, c2) :: cs)) with (LPipe false (c1 :: c2 :: map snd cs)).
    cbn [t_listable app map snd]. rewrite map_map. apply le_refl.
  - intros cs ts mid rest Hs _ [Hne IH]. eapply le_trans; [|apply le_skipw_to; exact Hs]. norm.
    assert (Ep : pu_pipeline DP true cs = LPipe true (map snd cs)) by (destruct cs as [|[? ?] [|[? ?] cs]]; [congruence|reflexivity|reflexivity]).
    rewrite Ep. cbn [t_listable]. norm. apply le_keep. rewrite map_map. exact IH.
  - (* and_or *) intros ts _ _. apply le_skipw.
  - intros p ns l ts ts1 ts2 ts3 rest Hs Hn _ IH1 _ IH2. cbn [map concat snd t_and_or]. norm. eapply le_trans; [|apply le_skipw_to; exact Hs]. norm. apply le_keep.
    eapply le_trans; [|eapply le_newlines; exact Hn]. eapply le_chain; [exact IH1|exact IH2].
  - intros p ns l ts ts1 ts2 ts3 rest Hs Hn _ IH1 _ IH2. cbn [map concat snd t_and_or]. norm. eapply le_trans; [|apply le_skipw_to; exact Hs]. norm. apply le_keep.
    eapply le_trans; [|eapply le_newlines; exact Hn]. eapply le_chain; [exact IH1|exact IH2].
  - intros p l ts mid rest _ IH1 _ IH2. change (pu_and_or_list DP p l) with (mkAOL p (map snd l)). unfold t_list. cbn [Ast.first Ast.rest]. rewrite map_map. norm. eapply le_chain; [exact IH1|exact IH2].
  - (* complete *) intros ns l nl ts mid rest _ IH Hm. change (tc (pu_complete_command DP ns l SepSemi nl)) with (trace_cmd bodies (TLCmd (CList l))). rewrite trace_cmd_eq. cbn [t_command].
    eapply le_skip; [exact IH|]. norm. apply le_drop. eapply le_maybe_newline; exact Hm.
  - intros ns l nl ts mid rest _ IH Hm. change (tc (pu_complete_command DP ns l SepAmp nl)) with (trace_cmd bodies (TLCmd (CJob l))). rewrite trace_cmd_eq. cbn [t_command]. norm.
    eapply le_chain; [exact IH|]. norm. apply le_keep. eapply le_maybe_newline; exact Hm.
  - intros ns l nl ts mid rest _ IH Hm. change (tc (pu_complete_command DP ns l SepNewline (Some nl))) with (trace_cmd bodies (TLCmd (CList l))). rewrite trace_cmd_eq. cbn [t_command].
    eapply le_skip; [exact IH|]. eapply le_newline; exact Hm.
  - intros ns l ts rest _ IH _ _ _ _. change (tc (pu_complete_command DP ns l SepOther None)) with (trace_cmd bodies (TLCmd (CList l))). rewrite trace_cmd_eq. exact IH.
  - (* group *) intros cfg ns ts rest Hn _. eapply le_newlines; exact Hn.
  - intros cfg ns c cs tr ts ts1 ts2 rest Hn _ _ IH1 _ IH2. unfold tG, t_cs. cbn [commands map concat]. norm. eapply le_trans; [|eapply le_newlines; exact Hn]. eapply le_chain; [exact IH1|exact IH2].
Qed.
End Order.

(** ** The orders *)
(** [a] is left of [b] when some characters are struck out. *)
Inductive subseq : str -> str -> Prop :=
  | sub_nil : subseq [] []
  | sub_take c a b : subseq a b -> subseq (c :: a) (c :: b)
  | sub_skip c a b : subseq a b -> subseq a (c :: b).
Lemma subseq_refl a : subseq a a.
Proof. induction a; now constructor. Qed.
Lemma subseq_nil a : subseq [] a.
Proof. induction a; now constructor. Qed.
Lemma subseq_trans a b c : subseq a b -> subseq b c -> subseq a c.
Proof.
  intros H1 H2. revert a H1. induction H2 as [|x b c H2 IH|x b c H2 IH]; intros a H1; [exact H1| |apply sub_skip; now apply IH].
  inversion H1; subst; constructor; now apply IH.
Qed.
Lemma subseq_app a b c d : subseq a b -> subseq c d -> subseq (a ++ c) (b ++ d).
Proof. intros H1 H2. induction H1; cbn; [exact H2| |]; now constructor. Qed.

(** Every character is in [b] at least as often as in [a]. *)
Definition among (a b : str) : Prop := forall c, (count_occ N.eq_dec a c <= count_occ N.eq_dec b c)%nat.
Lemma among_app a b c d : among a b -> among c d -> among (a ++ c) (b ++ d).
Proof. intros H1 H2 x. rewrite !(count_occ_app N.eq_dec). specialize (H1 x). specialize (H2 x). unfold char, str in *. lia. Qed.
Lemma among_comm a b : among (a ++ b) (b ++ a).
Proof. intros x. rewrite !(count_occ_app N.eq_dec). unfold char, str in *. lia. Qed.
Lemma among_length a : forall b, among a b -> (List.length a <= List.length b)%nat.
Proof.
  induction a as [|c a IH]; intros b H; cbn; [lia|].
  assert (Hi : In c b). { apply (count_occ_In N.eq_dec). specialize (H c). cbn in H. destruct (N.eq_dec c c); [lia|congruence]. }
  apply in_split in Hi as (b1 & b2 & ->). rewrite app_length. cbn. rewrite Nat.add_succ_r, <- app_length. apply le_n_S, IH. intros x. specialize (H x).
  rewrite count_occ_app in *. cbn in H. destruct (N.eq_dec c x); lia.
Qed.

(** ** The claim *)
Section Source.
Context `{Uni}.

Lemma accepted_group s fuel cs : (List.length (lex s) + 2 < fuel)%nat -> parses_to DB fuel (lex s) tt cs ->
  exists g, group DB DP no_delims g (lex s) [] /\ commands g = cs.
Proof. intros Hf E. exact (proj1 (script_exact DB DP fuel (lex s) tt cs Hf) E). Qed.

Theorem ast_in_source s fuel cs : (List.length (lex s) + 2 < fuel)%nat -> parses_to DB fuel (lex s) tt cs ->
  subseq (trace_script false cs) s.
Proof.
  intros Hf E. destruct (accepted_group s fuel cs Hf E) as (g & G & <-).
  destruct (forms_trace false subseq subseq_refl subseq_trans subseq_app subseq_nil ltac:(discriminate)) as (_ & T). do 24 apply proj2 in T.
  specialize (T _ _ _ _ G). cbn [text map concat] in T. rewrite app_nil_r in T. rewrite <- (lex_lossless s), concat_tokens_text. exact T.
Qed.

Theorem ast_text_in_source s fuel cs : (List.length (lex s) + 2 < fuel)%nat -> parses_to DB fuel (lex s) tt cs ->
  among (trace_script true cs) s.
Proof.
  intros Hf E. destruct (accepted_group s fuel cs Hf E) as (g & G & <-).
  destruct (forms_trace true among (fun a c => le_n _) (fun a b c p q x => Nat.le_trans _ _ _ (p x) (q x)) among_app (fun a c => Nat.le_0_l _) (fun _ => among_comm)) as (_ & T). do 24 apply proj2 in T.
  specialize (T _ _ _ _ G). cbn [text map concat] in T. rewrite app_nil_r in T. rewrite <- (lex_lossless s), concat_tokens_text. exact T.
Qed.

(** An AST is not larger than its source. *)
Theorem ast_not_larger s fuel cs : (List.length (lex s) + 2 < fuel)%nat -> parses_to DB fuel (lex s) tt cs ->
  (List.length (trace_script true cs) <= List.length s)%nat.
Proof. intros Hf E. eapply among_length, ast_text_in_source; eassumption. Qed.
End Source.

(** ** Witnesses *)
Section Examples.
#[local] Instance some_uni : Uni := fun _ => false.
Definition sample : str := s_of "for i in a'b' ""$x$((v+1))""; do" ++ [10%N] ++ s_of "cat <<E ${y:-z} 2>&1 | f # c" ++ [10%N] ++ s_of "k $w" ++ [10%N] ++ s_of "E" ++ [10%N] ++ s_of "done & ! g && h".
Example trace_witness : exists cs, parses_to DB 100 (lex sample) tt cs /\
  trace_script false cs = s_of "foriina'b'""$x$((v+))""docat<<${y:-z}2>&1|fdone&!g&&h" /\
  trace_script true cs = s_of "foriina'b'""$x$((v+))""docat<<k $w" ++ [10%N] ++ s_of "${y:-z}2>&1|fdone&!g&&h".
Proof.
  eexists. split.
  - apply (parses_steps 5); [apply enough; vm_compute; reflexivity|]. vm_compute. reflexivity.
  - split; vm_compute; reflexivity.
Qed.
End Examples.
