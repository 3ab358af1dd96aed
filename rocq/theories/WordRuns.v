(** * The parser reads the forms of words *)
From Coq Require Import String.
From Verif Require Import Base Token Pos Ast Builder Prog Located RunLemmas ParserBase Balanced Arith Word
  Redirect Command Sim BalancedSpec BalancedProofs BalancedTotal Runs Pure Relex ArithSpec ArithRuns Forms
  BaseForms.

Lemma runs_sim {BS BE A} (p1 p2 : prog BS BE A) ts a rest : sim eq eq same p1 p2 ->
  runs p2 ts a rest -> runs p1 ts a rest.
Proof.
  intros HS H L e b HL. specialize (HS (mkL L e) b b eq_refl). specialize (H L e b HL).
  destruct (lrun p1 (mkL L e) b) as [[o1 l1] b1], (lrun p2 (mkL L e) b) as [[o2 l2] b2].
  destruct o1; auto; destruct o2; destruct HS as (S1 & S2 & S3); cbn in S1; try contradiction.
  unfold same in S1. subst. exact H.
Qed.
Lemma err_rel_refl {E} (e : perr E) : err_rel eq e e.
Proof. destruct e; cbn; auto. Qed.

Lemma content_single ts : ~ In TSingleQuote ts -> content TSingleQuote ts.
Proof.
  induction ts as [|t ts IH]; intros H; [constructor|]. apply c_quoted; [intros ->; apply H; now left|].
  apply IH. intros Hi. apply H. now right.
Qed.

Section Prims.
Context {BS BE : Type}.
Notation prog := (prog BS BE).

Lemma runs_single_quoted fuel p ts rest : ~ In TSingleQuote ts ->
  runs (collect_balanced fuel (Some (TSingleQuote, p)) : prog _) (ts ++ TSingleQuote :: rest) ts rest.
Proof.
  intros H. eapply runs_sim; [apply (sim_collect_balanced eq eq fuel (fuel + S (List.length ts))); lia|].
  intros L e b HL. apply map_fst_app in HL as (L1 & L2 & -> & E1 & E2).
  apply map_fst_cons in E2 as (q & L3 & -> & E3).
  rewrite balanced_region.
  - cbn. auto.
  - unfold closer; tauto.
  - rewrite E1. now apply content_single.
  - rewrite <- E1, map_length. lia.
Qed.
Lemma runs_backtick_iter {C} fuel p ts (f : new_iter -> prog C) rest c r : content TBacktick ts ->
  (forall i, iter_toks i = unescape ts -> runs (f i) rest c r) ->
  runs (bind (create_token_iter fuel p) f) (ts ++ TBacktick :: rest) c r.
Proof.
  intros Hc Hf L e b HL. apply map_fst_app in HL as (L1 & L2 & -> & E1 & E2).
  apply map_fst_cons in E2 as (q & L3 & -> & E3). rewrite lrun_bind.
  pose proof (sim_create_token_iter (BS1:=BS) (BE1:=BE) (BS2:=BS) (BE2:=BE) eq eq fuel (fuel + S (S (List.length L1))) p ltac:(lia)
    (mkL (L1 ++ (TBacktick, q) :: L3) e) b b eq_refl) as HS.
  rewrite <- E1 in Hc.
  destruct (create_token_iter_ok (BS:=BS) (BE:=BE) p L1 q L3 e (fuel + S (S (List.length L1))) b Hc ltac:(lia)) as (i & E4 & E5 & _).
  rewrite E4 in HS. rewrite iter_toks_make, E1 in E5.
  destruct (lrun (create_token_iter fuel p) _ b) as [[o1 l1] b1].
  destruct o1; auto; destruct HS as (S1 & S2 & S3); cbn in S1; try contradiction.
  unfold same in S1. subst. apply Hf; auto.
Qed.
End Prims.

Section WordRuns.
Context {BS BE C : Type}.
Notation prog := (prog BS BE).
Variable fuel : nat.
Variable K : knots BS BE C.
Notation word_loop := (word_loop fuel K).
Notation interp := (word_interp_loop fuel K).

(** ** Unquoted fragments *)
Definition not_stop (stop : option token) (ts : list token) : Prop := stop <> None -> hd_error ts <> stop.
Lemma stop_test stop ts : not_stop stop ts ->
  (match stop with Some _ => otoken_eqb (hd_error ts) stop | None => false end) = false.
Proof.
  intros H. destruct stop as [t|]; [|reflexivity].
  destruct (otoken_eqb_spec (hd_error ts) (Some t)); [|reflexivity]. exfalso. apply H; [discriminate|assumption].
Qed.
Ltac wl H := cbn [Word.word_loop]; apply runs_peek; rewrite (stop_test _ _ H); cbn [hd_error].

Lemma loop_literal stop m words t rest ws r : literal_token t = true -> not_stop stop (t :: rest) ->
  runs (word_loop stop m (words ++ [KSimple (KLiteral (as_str t))])) rest ws r ->
  runs (word_loop stop (S m) words) (t :: rest) ws r.
Proof.
  intros Hl Hs H. wl Hs.
  destruct t; cbn in Hl; try discriminate; cbn [word_class_of]; rstep; rstep; exact H.
Qed.
Lemma loop_glob stop m words t s rest ws r : glob_token t s -> not_stop stop (t :: rest) ->
  runs (word_loop stop m (words ++ [KSimple s])) rest ws r ->
  runs (word_loop stop (S m) words) (t :: rest) ws r.
Proof.
  intros Hl Hs H. wl Hs. destruct Hl; cbn [word_class_of]; rstep; rstep; exact H.
Qed.
Lemma loop_escape stop m words t rest ws r : t <> TNewline -> not_stop stop (TBackslash :: t :: rest) ->
  runs (word_loop stop m (words ++ [KSimple (KEscaped (as_str t))])) rest ws r ->
  runs (word_loop stop (S m) words) (TBackslash :: t :: rest) ws r.
Proof.
  intros Hl Hs H. wl Hs. cbn [word_class_of]. rstep. rstep. rstep.
  destruct t; try exact H; congruence.
Qed.
Lemma loop_single stop m words ts rest ws r : ~ In TSingleQuote ts ->
  not_stop stop (TSingleQuote :: ts ++ TSingleQuote :: rest) ->
  runs (word_loop stop m (words ++ [KSingleQuoted (text ts)])) rest ws r ->
  runs (word_loop stop (S m) words) (TSingleQuote :: ts ++ TSingleQuote :: rest) ws r.
Proof.
  intros Hl Hs H. wl Hs. cbn [word_class_of]. rstep. rstep.
  eapply runs_call; [apply runs_single_quoted; exact Hl|]. rewrite concat_tokens_text. exact H.
Qed.
Lemma loop_double stop m words qs ts rest ws r :
  not_stop stop (TDoubleQuote :: ts) ->
  (forall p, runs (word_interpolated_raw fuel K (Some (TDoubleQuote, TDoubleQuote)) p) ts qs rest) ->
  runs (word_loop stop m (words ++ [KDoubleQuoted qs])) rest ws r ->
  runs (word_loop stop (S m) words) (TDoubleQuote :: ts) ws r.
Proof.
  intros Hs Hq H. wl Hs. cbn [word_class_of]. rstep. rstep.
  eapply runs_call; [apply Hq|]. exact H.
Qed.
(** An expansion, read by the function its first token calls for. *)
Definition expands (s : swk C) (ts rest : list token) : Prop :=
  (hd_error ts = Some TBacktick /\ runs (backticked_raw fuel K) ts s rest) \/
  ((hd_error ts = Some TDollar \/ exists p, hd_error ts = Some (TParamPositional p)) /\
   runs (k_param K) ts s rest).
Lemma loop_expansion stop m words s ts rest ws r : expands s ts rest -> not_stop stop ts ->
  runs (word_loop stop m (words ++ [KSimple s])) rest ws r ->
  runs (word_loop stop (S m) words) ts ws r.
Proof.
  intros He Hs H. cbn [Word.word_loop]; rstep; rewrite (stop_test _ _ Hs).
  destruct He as [[E He]|[[E|[p E]] He]]; rewrite E; cbn [word_class_of]; (eapply runs_call; [exact He|exact H]).
Qed.
Lemma loop_end stop m words rest : delimited rest \/ (stop <> None /\ hd_error rest = stop) ->
  runs (word_loop stop m words) rest words rest.
Proof.
  intros H. destruct m; [apply runs_fuel|]. cbn [Word.word_loop]. rstep.
  destruct (match stop with Some _ => otoken_eqb (hd_error rest) stop | None => false end) eqn:E; [apply runs_ret|].
  destruct H as [H|[H1 H2]].
  - destruct rest as [|t r]; [apply runs_ret|]. cbn in *. destruct t; cbn in H; try discriminate; apply runs_ret.
  - exfalso. destruct stop as [t|]; [|congruence]. rewrite H2 in E. cbn in E. rewrite token_eqb_refl in E. discriminate.
Qed.
Lemma loop_escaped_newline stop m words rest : stop <> Some TBackslash ->
  runs (word_loop stop m words) (TBackslash :: TNewline :: rest) words rest.
Proof.
  intros H. destruct m; [apply runs_fuel|].
  assert (Hs : not_stop stop (TBackslash :: TNewline :: rest)) by (intros _; cbn; congruence). wl Hs.
  cbn [word_class_of]. rstep. rstep. rstep. apply runs_ret.
Qed.

Lemma loop_backslash stop m words : stop <> Some TBackslash ->
  runs (word_loop stop m words) [TBackslash] words [].
Proof.
  intros H. destruct m; [apply runs_fuel|].
  assert (Hs : not_stop stop [TBackslash]) by (intros _; cbn; congruence). wl Hs.
  cbn [word_class_of]. rstep. rstep. rstep. apply runs_ret.
Qed.

(** ** Double quotes and here-document bodies *)
Lemma flush_flush words buf : flush (flush words buf) [] = flush words buf :> list (swk C).
Proof. reflexivity. Qed.
Lemma interp_unfold delim start_pos m words buf :
  word_interp_loop fuel K delim start_pos (S m) words buf =
  (
      p <- peek ;;
      if otoken_eqb p (option_map snd delim) then
        next ;; ret (flush words buf)
      else
        match p with
        | Some TDollar | Some (TParamPositional _) =>
            w <- k_param K ;;
            word_interp_loop fuel K delim start_pos m (flush words buf ++ [w]) []
        | Some TBacktick =>
            w <- backticked_raw fuel K ;;
            word_interp_loop fuel K delim start_pos m (flush words buf ++ [w]) []
        | _ =>
            t <- next ;;
            match t with
            | Some TBackslash =>
                q <- peek ;;
                if dq_special q || otoken_eqb q (option_map snd delim) then
                  e <- next ;;
                  match e with
                  | Some e =>
                      word_interp_loop fuel K delim start_pos m
                        (flush words buf ++ [KEscaped (as_str e)]) []
                  | None => panic PS_interp_escaped
                  end
                else
                  word_interp_loop fuel K delim start_pos m words (buf ++ as_str TBackslash)
            | Some TDollar | Some TBacktick => panic PS_interp_sanity
            | Some t => word_interp_loop fuel K delim start_pos m words (buf ++ as_str t)
            | None =>
                match delim with
                | Some (o, _) => throw (Unmatched o start_pos)
                | None => ret (flush words buf)
                end
            end
        end).
Proof. reflexivity. Qed.
Lemma interp_flush delim p m words buf mid x r : run_ends (option_map snd delim) mid ->
  runs (interp delim p m (flush words buf) []) mid x r ->
  runs (interp delim p m words buf) mid x r.
Proof.
  intros He H. destruct m; [apply runs_fuel|]. rewrite interp_unfold in H |- *.
  apply runs_peek.
  destruct mid as [|t mid].
  - intros L e b HL. specialize (H L e b HL). rewrite lrun_bind, lrun_peek in H.
    unfold l_hd in H. cbn [toks] in H. rewrite HL in H. destruct delim as [[o c]|]; [|exact H].
    cbn [hd_error option_map snd otoken_eqb] in H. cbv match in H. rewrite lrun_bind, lrun_next in H. unfold l_hd in H. cbn [toks] in H. rewrite HL in H. destruct H.
  - intros L e b HL. specialize (H L e b HL). rewrite lrun_bind, lrun_peek in H.
    unfold l_hd in H. cbn [toks] in H. rewrite HL in H. cbn [hd_error] in *.
    destruct (otoken_eqb (Some t) (option_map snd delim)) eqn:Eq; [exact H|].
    assert (Hp : quoted_plain (option_map snd delim) t = false ->
                 t = TDollar \/ (exists p, t = TParamPositional p) \/ t = TBacktick \/ t = TBackslash).
    { unfold quoted_plain. destruct t; rewrite ?Eq; cbn; eauto; discriminate. }
    assert (D : t = TDollar \/ (exists p, t = TParamPositional p) \/ t = TBacktick \/
                (t = TBackslash /\ exists u mid', mid = u :: mid' /\ quoted_special u = true)).
    { destruct t; cbn [run_ends] in He; try (specialize (Hp He); destruct Hp as [Hp|[[q Hp]|[Hp|Hp]]]; try discriminate Hp; eauto).
      destruct mid as [|u mid]; [contradiction|]. right; right; right. eauto. }
    clear Hp He.
    destruct D as [->|[[q ->]|[->|[-> (u & mid' & -> & Hu)]]]]; try exact H.
    revert H. rewrite !lrun_bind, !lrun_next. unfold l_hd, l_tl. cbn [toks]. rewrite HL. cbn [hd_error].
    rewrite !lrun_bind, !lrun_peek. unfold l_hd. cbn [toks].
    destruct L as [|x1 L]; [discriminate|]. cbn [tl]. cbn in HL. injection HL as HL1 HL2. rewrite HL2. cbn [hd_error].
    replace (dq_special (Some u)) with true by (now destruct u). cbn [orb]. exact (fun H => H).
Qed.

Lemma interp_text_token delim p m words buf t rest x r : quoted_plain (option_map snd delim) t = true ->
  runs (interp delim p m words (buf ++ as_str t)) rest x r ->
  runs (interp delim p (S m) words buf) (t :: rest) x r.
Proof.
  intros Hp H. rewrite interp_unfold. rstep.
  assert (Eq : otoken_eqb (Some t) (option_map snd delim) = false).
  { unfold quoted_plain in Hp. destruct t; try discriminate; now apply negb_true_iff in Hp. }
  rewrite Eq. destruct t; cbn in Hp; try discriminate; rstep; exact H.
Qed.
Lemma interp_text_backslash delim p m words buf t rest x r : quoted_special t = false ->
  option_map snd delim = None \/ option_map snd delim = Some TDoubleQuote ->
  runs (interp delim p m words (buf ++ s_of "\")) (t :: rest) x r ->
  runs (interp delim p (S m) words buf) (TBackslash :: t :: rest) x r.
Proof.
  intros Hp Hc H. rewrite interp_unfold. rstep.
  replace (otoken_eqb (Some TBackslash) (option_map snd delim)) with false
    by (destruct Hc as [-> | ->]; reflexivity).
  rstep. rstep. replace (dq_special (Some t) || otoken_eqb (Some t) (option_map snd delim)) with false.
  - exact H.
  - destruct Hc as [-> | ->]; destruct t; try reflexivity; discriminate.
Qed.
Lemma interp_run delim p ts : 
  option_map snd delim = None \/ option_map snd delim = Some TDoubleQuote ->
  forall mid, quoted_run (option_map snd delim) ts mid -> forall m words buf x r, 
  run_ends (option_map snd delim) mid -> buf ++ text ts <> [] ->
  (forall m, runs (interp delim p m (words ++ [KLiteral (buf ++ text ts)]) []) mid x r) ->
  runs (interp delim p m words buf) (ts ++ mid) x r.
Proof.
  intros Hc mid. induction 1 as [mid|t ts mid Hp _ IH|t ts mid Ht Hp _ IH]; intros m words buf x r He Hn H.
  - cbn [app]. apply interp_flush; [exact He|]. cbn [text] in *. unfold text in Hn, H. cbn in Hn, H.
    rewrite app_nil_r in *. unfold flush. destruct buf; [congruence|]. apply H.
  - destruct m; [apply runs_fuel|]. cbn [app]. apply interp_text_token; [exact Hp|].
    rewrite text_cons, app_assoc in Hn, H. now apply IH.
  - destruct m; [apply runs_fuel|]. cbn [app]. destruct (ts ++ mid) as [|t' us] eqn:Eu; [discriminate|]. injection Ht as ->.
    apply interp_text_backslash; [exact Hp|exact Hc|].
    rewrite text_cons, app_assoc in Hn, H. now apply IH.
Qed.
Lemma interp_empty_run delim p ts :
  option_map snd delim = None \/ option_map snd delim = Some TDoubleQuote ->
  forall mid, quoted_run (option_map snd delim) ts mid -> forall m words x r,
  text ts = [] ->
  (forall m, runs (interp delim p m words []) mid x r) ->
  runs (interp delim p m words []) (ts ++ mid) x r.
Proof.
  intros Hc mid. induction 1 as [mid|t ts mid Hp _ IH|t ts mid Ht Hp _ IH]; intros m words x r Hn H.
  - apply H.
  - destruct m; [apply runs_fuel|]. cbn [app]. rewrite text_cons in Hn. apply app_eq_nil in Hn as [H1 H2].
    apply interp_text_token; [exact Hp|]. rewrite H1. now apply IH.
  - rewrite text_cons in Hn. discriminate.
Qed.
Lemma interp_escape delim p m words t rest x r : quoted_special t = true ->
  option_map snd delim = None \/ option_map snd delim = Some TDoubleQuote ->
  runs (interp delim p m (words ++ [KEscaped (as_str t)]) []) rest x r ->
  runs (interp delim p (S m) words []) (TBackslash :: t :: rest) x r.
Proof.
  intros Hp Hc H. rewrite interp_unfold. rstep.
  replace (otoken_eqb (Some TBackslash) (option_map snd delim)) with false
    by (destruct Hc as [-> | ->]; reflexivity).
  rstep. rstep. replace (dq_special (Some t)) with true by (now destruct t). cbn [orb].
  rstep. exact H.
Qed.
Lemma interp_expansion delim p m words s ts rest x r : expands s ts rest ->
  option_map snd delim = None \/ option_map snd delim = Some TDoubleQuote ->
  runs (interp delim p m (words ++ [s]) []) rest x r ->
  runs (interp delim p (S m) words []) ts x r.
Proof.
  intros He Hc H. rewrite interp_unfold. rstep.
  destruct He as [[E He]|[[E|[q E]] He]]; rewrite E; 
  (match goal with |- runs (if ?c then _ else _) _ _ _ => replace c with false by (destruct Hc as [-> | ->]; reflexivity) end);
  (eapply runs_call; [exact He|exact H]).
Qed.
Lemma interp_close delim p m words rest : hd_error rest = option_map snd delim ->
  runs (interp delim p m words []) rest words (tl rest).
Proof.
  intros H. destruct m; [apply runs_fuel|]. rewrite interp_unfold. rstep. rewrite H.
  replace (otoken_eqb _ _) with true.
  - rstep. apply runs_ret.
  - destruct (option_map snd delim) as [t|]; cbn; [now rewrite token_eqb_refl|reflexivity].
Qed.

(** ** Parameters *)
Lemma digits_u_max s n max : numeral_value 10 s n -> (n <= max)%N -> from_str_radix_u max 10 s = Some n.
Proof.
  intros H Hm. pose proof (numeral_nonempty _ _ _ H) as Hn.
  apply digits_value_numeral in H; [|lia]. unfold from_str_radix_u.
  destruct s as [|c s]; [congruence|].
  destruct (digit_not_sign 10 c s ltac:(congruence)) as [H1 H2]. unfold c_plus.
  destruct (N.eqb_spec c 43); [congruence|]. rewrite H.
  destruct (N.leb_spec n max); [reflexivity|lia].
Qed.
Lemma number_u_max s n max : number s n -> (n <= max)%N -> from_str_radix_u max 10 s = Some n.
Proof.
  intros [x v H|x v H] Hm; [now apply digits_u_max|].
  pose proof (numeral_nonempty _ _ _ H) as Hn. apply digits_value_numeral in H; [|lia].
  unfold from_str_radix_u, c_plus. cbn [N.eqb Pos.eqb]. destruct x as [|c x]; [congruence|].
  rewrite H. destruct (N.leb_spec v max); [reflexivity|lia].
Qed.
Lemma number_inv max s n : from_str_radix_u max 10 s = Some n -> number s n /\ (n <= max)%N.
Proof.
  unfold from_str_radix_u. destruct s as [|c s]; [discriminate|]. unfold c_plus.
  assert (X : forall ds, ds <> [] -> match digits_value 10 0 ds with Some v => if (v <=? max)%N then Some v else None | None => None end = Some n ->
     numeral_value 10 ds n /\ (n <= max)%N).
  { intros ds Hn H. destruct (digits_value 10 0 ds) as [v|] eqn:E; [|discriminate].
    destruct (N.leb_spec v max); [|discriminate]. injection H as ->. split; [|assumption].
    apply digits_value_inv; auto. lia. }
  destruct (N.eqb_spec c 43) as [->|Hc]; intros H.
  - destruct s as [|c s]; [discriminate|]. apply X in H as [H1 H2]; [|discriminate]. split; [|exact H2]. now constructor.
  - apply X in H as [H1 H2]; [|discriminate]. split; [|exact H2]. now constructor.
Qed.
Lemma number_chars s n : number s n -> s <> [] /\ Forall (fun c => c = 43%N \/ (48 <= c <= 57)%N) s.
Proof.
  assert (X : forall ds n, numeral_value 10 ds n -> Forall (fun c => c = 43%N \/ (48 <= c <= 57)%N) ds).
  { induction 1 as [c d H|s' c v d Hs IH H].
    - constructor; [|constructor]. destruct H as [H1 [H|[H|H]]]; lia.
    - apply Forall_app. split; [exact IH|]. constructor; [|constructor]. destruct H as [H1 [H|[H|H]]]; lia. }
  intros [x v H|x v H]; pose proof (X _ _ H) as Y.
  - split; [|exact Y]. eapply numeral_nonempty; eauto.
  - split; [discriminate|]. constructor; auto.
Qed.
Lemma inner_braced p t rest : braced_param p t -> runs (parameter_inner : prog _) (t :: rest) p rest.
Proof.
  intros H. unfold parameter_inner. rstep. rstep.
  destruct H as [p t H|s n H Hn]; [destruct H; apply runs_ret|].
  rewrite (number_u_max s n u32_max H); [apply runs_ret|]. unfold u32_max. lia.
Qed.

(** *** Operands *)
Lemma pack_words_of (ws : list (wk C)) : pack_words ws = word_of ws.
Proof. reflexivity. Qed.
Definition frag_start (t : token) : bool :=
  match t with
  | TWhitespace _ | TCurlyClose | TPound => false
  | _ => negb (is_word_delimiter t)
  end.
Definition operand_run (ws : list (wk C)) (ts rest : list token) : Prop :=
  forall n m words,
    runs ('(words1, stop) <- capture_literals n words ;;
          if stop : bool then ret words1
          else
            w <- word_raw_with_delim fuel K (Some TCurlyClose) ;;
            match w with
            | Some (KSingle w) => capture_words fuel K m (words1 ++ [w])
            | Some (KConcat ws) => capture_words fuel K m (words1 ++ ws)
            | None => ret words1
            end) ts (words ++ ws) rest.
Lemma operand_end rest : operand_run [] (TCurlyClose :: rest) (TCurlyClose :: rest).
Proof.
  intros n m words. destruct n; [apply runs_fuelb|]. cbn [capture_literals]. rstep. rstep.
  rewrite app_nil_r. cbn [subst_class_of]. rstep. apply runs_ret.
Qed.
Lemma operand_delimiter t ws ts rest : is_word_delimiter t = true \/ t = TPound ->
  operand_run ws ts rest -> operand_run (KSimple (KLiteral (as_str t)) :: ws) (t :: ts) rest.
Proof.
  intros Ht H n m words. destruct n; [apply runs_fuelb|]. cbn [capture_literals]. rstep. rstep.
  replace (subst_class_of (Some t)) with (SCLiteral t)
    by (destruct Ht as [Ht|Ht]; [destruct t; try discriminate; reflexivity|subst; reflexivity]).
  rstep. rstep. specialize (H n m (words ++ [KSimple (KLiteral (as_str t))])).
  rewrite <- app_assoc in H. exact H.
Qed.
Lemma operand_escaped_newline ws ts rest :
  operand_run ws ts rest ->
  operand_run (KSimple (KEscaped (as_str TNewline)) :: ws) (TBackslash :: TNewline :: ts) rest.
Proof.
  intros H n m words. destruct n; [apply runs_fuelb|]. cbn [capture_literals]. rstep. rstep.
  cbn [subst_class_of]. rstep. rstep. change (look escaped_newline_try _) with true. cbv match.
  rstep. rstep. rstep. rstep.
  specialize (H n m (words ++ [KSimple (KEscaped (as_str TNewline))])).
  rewrite <- app_assoc in H. exact H.
Qed.
(** The tokens unquoted words start with; after a backslash no newline. *)
Definition word_start (ts : list token) : Prop :=
  match ts with
  | TBackslash :: TNewline :: _ => False
  | t :: _ => is_word_delimiter t = false
  | [] => False
  end.
Lemma word_start_skipw ts : word_start ts -> skipw ts = ts.
Proof.
  destruct ts as [|t ts]; [contradiction|]. destruct t; cbn; try reflexivity; try discriminate.
  destruct ts as [|t ts]; [reflexivity|]. destruct t; try reflexivity. contradiction.
Qed.
Lemma operand_frags w ws ts mid ws' rest : word_start ts ->
  hd_error ts <> Some TCurlyClose -> hd_error ts <> Some TPound ->
  (forall m words, runs (word_loop (Some TCurlyClose) m words) ts (words ++ w :: ws) mid) ->
  operand_run ws' mid rest -> operand_run ((w :: ws) ++ ws') ts rest.
Proof.
  intros Hs Hc Hp Hw H n m words. destruct n; [apply runs_fuelb|]. cbn [capture_literals]. rstep. rstep.
  assert (X : runs (w <- word_raw_with_delim fuel K (Some TCurlyClose) ;;
            match w with
            | Some (KSingle w) => capture_words fuel K m (words ++ [w])
            | Some (KConcat ws) => capture_words fuel K m (words ++ ws)
            | None => ret words
            end) ts (words ++ (w :: ws) ++ ws') rest).
  { unfold word_raw_with_delim. rstep. rstep. rewrite (word_start_skipw _ Hs). rstep. rstep.
    replace (otoken_eqb (hd_error ts) (Some TPound)) with false
      by (destruct (otoken_eqb_spec (hd_error ts) (Some TPound)); congruence).
    rstep. eapply runs_call; [apply (Hw fuel [])|]. rstep. cbn [app].
    destruct m as [|m].
    { destruct ws; apply runs_fuel. }
    specialize (H fuel m (words ++ w :: ws)). rewrite <- app_assoc in H.
    destruct ws; exact H. }
  destruct ts as [|t ts]; [contradiction|]. cbn [hd_error] in *.
  destruct t; cbn in Hs; try discriminate; try congruence; cbn [subst_class_of]; try exact X.
  rstep. rstep. 
  replace (look escaped_newline_try (TBackslash :: ts)) with false.
  - exact X.
  - destruct ts as [|t ts]; [reflexivity|]. destruct t; try reflexivity. contradiction.
Qed.
Lemma operand_word p ws ts rest : operand_run ws ts (TCurlyClose :: rest) ->
  runs (parameter_substitution_word_raw fuel K p) ts (word_of ws) rest.
Proof.
  intros H. unfold parameter_substitution_word_raw. eapply runs_call.
  - enough (X : forall m, runs (capture_words fuel K m []) ts ws (TCurlyClose :: rest)) by apply X.
    intros [|m]; [apply runs_fuel|]. exact (H fuel m []).
  - rstep. rstep. 
Qed.

(** *** Dollar expansions *)
Lemma param_lone rest : lone_dollar rest ->
  runs (parameter_raw fuel K) (TDollar :: rest) (KLiteral (s_of "$")) rest.
Proof.
  intros H. unfold parameter_raw. rstep. rstep. rstep.
  destruct rest as [|t rest]; [apply runs_ret|]. destruct t; try contradiction; apply runs_ret.
Qed.
Lemma param_positional p rest :
  runs (parameter_raw fuel K) (TParamPositional p :: rest) (KParam (PmPositional (as_num p))) rest.
Proof. unfold parameter_raw. rstep. rstep. apply runs_ret. Qed.
Lemma param_param p t rest : param_token p t ->
  runs (parameter_raw fuel K) (TDollar :: t :: rest) (KParam p) rest.
Proof.
  intros H. unfold parameter_raw. rstep. rstep. rstep.
  assert (X : runs (p <- (parameter_inner : prog _) ;; ret (KParam p)) (t :: rest) (KParam p : swk C) rest).
  { eapply runs_call; [apply inner_braced; apply bp_token; exact H|apply runs_ret]. }
  destruct H; exact X.
Qed.
Lemma param_curly ts x rest : (forall p, runs (curly_substitution fuel K p) (TCurlyOpen :: ts) x rest) ->
  runs (parameter_raw fuel K) (TDollar :: TCurlyOpen :: ts) x rest.
Proof.
  intros H. unfold parameter_raw. rstep. rstep. rstep. unfold parameter_substitution_raw. rstep. rstep. apply H.
Qed.
Lemma param_eqb_spec a b : reflect (a = b) (param_eqb a b).
Proof. unfold param_eqb. destruct (param_dec a b); now constructor. Qed.
Lemma param_eqb_refl p : param_eqb p p = true.
Proof. destruct (param_eqb_spec p p); congruence. Qed.
Lemma braces_start p t ts x rest :
  braced_param p t ->
  (forall q, runs (
      t <- peek ;;
  match t with
  | Some TPercent =>
      next ;;
      d <- eat_maybe TPercent ;;
      w <- parameter_substitution_word_raw fuel K q ;;
      ret (KSubst (if d : bool then KSRemoveLargestSuffix p w else KSRemoveSmallestSuffix p w))
  | Some TPound =>
      next ;;
      d <- eat_maybe TPound ;;
      w <- parameter_substitution_word_raw fuel K q ;;
      ret (KSubst (if d : bool then KSRemoveLargestPrefix p w
                   else match w with
                        | None => if param_eqb PmPound p then KSLen PmPound
                                  else KSRemoveSmallestPrefix p None
                        | w => KSRemoveSmallestPrefix p w
                        end))
  | _ =>
      if param_eqb PmPound p then
        match t with
        | Some TColon | Some TDash | Some TEquals | Some TQuestion | Some TPlus
        | Some TCurlyClose => parameter_substitution_body_raw fuel K p q
        | _ =>
            p' <- parameter_inner ;;
            eat TCurlyClose ;;
            ret (KSubst (KSLen p'))
        end
      else parameter_substitution_body_raw fuel K p q
  end) ts x rest) ->
  runs (parameter_raw fuel K) (TDollar :: TCurlyOpen :: t :: ts) x rest.
Proof.
  intros Hp H. apply param_curly. intros q. unfold curly_substitution. rstep.
  eapply runs_call; [apply inner_braced; exact Hp|]. apply H.
Qed.
Lemma param_braces p t rest : braced_param p t ->
  runs (parameter_raw fuel K) (TDollar :: TCurlyOpen :: t :: TCurlyClose :: rest) (KParam p) rest.
Proof.
  intros H. apply (braces_start p); [exact H|]. intros q. rstep.
  assert (X : runs (parameter_substitution_body_raw fuel K p q) (TCurlyClose :: rest) (KParam p) rest).
  { unfold parameter_substitution_body_raw. apply runs_eat_maybe_no; [discriminate|]. rstep. rstep. apply runs_ret. }
  destruct (param_eqb PmPound p); exact X.
Qed.
Lemma param_colon p t rest : braced_param p t ->
  runs (parameter_raw fuel K) (TDollar :: TCurlyOpen :: t :: TColon :: TCurlyClose :: rest) (KParam p) rest.
Proof.
  intros H. apply (braces_start p); [exact H|]. intros q. rstep.
  assert (X : runs (parameter_substitution_body_raw fuel K p q) (TColon :: TCurlyClose :: rest) (KParam p) rest).
  { unfold parameter_substitution_body_raw. rstep. rstep. rstep. apply runs_ret. }
  destruct (param_eqb PmPound p); exact X.
Qed.
Lemma param_length p t rest : braced_param p t ->
  runs (parameter_raw fuel K) (TDollar :: TCurlyOpen :: TPound :: t :: TCurlyClose :: rest) (KSubst (KSLen p)) rest.
Proof.
  intros H. apply (braces_start PmPound); [constructor; constructor|]. intros q. rstep.
  assert (X : runs (p' <- (parameter_inner : prog _) ;; eat TCurlyClose ;; ret (KSubst (KSLen p')))
            (t :: TCurlyClose :: rest) (KSubst (KSLen p) : swk C) rest).
  { eapply runs_call; [apply inner_braced; exact H|]. rstep. apply runs_ret. }
  assert (Y : forall q, runs (parameter_substitution_word_raw fuel K q) (TCurlyClose :: rest) None rest).
  { intros q'. apply (operand_word q' [] (TCurlyClose :: rest) rest), operand_end. }
  destruct H as [p t H|]; [destruct H|]; try exact X.
  - rstep. apply runs_eat_maybe_no; [discriminate|]. eapply runs_call; [apply Y|]. apply runs_ret.
  - change (param_eqb PmPound PmPound) with true. cbv match.
    unfold parameter_substitution_body_raw. apply runs_eat_maybe_no; [discriminate|]. rstep. rstep.
    eapply runs_call; [apply Y|]. apply runs_ret.
  - change (param_eqb PmPound PmPound) with true. cbv match.
    unfold parameter_substitution_body_raw. apply runs_eat_maybe_no; [discriminate|]. rstep. rstep.
    eapply runs_call; [apply Y|]. apply runs_ret.
Qed.
Lemma word_of_none (ws : list (wk C)) : word_of ws = None -> ws = [].
Proof. destruct ws as [|? [|? ?]]; cbn; congruence. Qed.
Lemma param_subst p t (colon : bool) op mk ws ts rest : braced_param p t -> subst_op colon op mk ->
  operand_run ws ts (TCurlyClose :: rest) ->
  ~ (p = PmPound /\ colon = false /\ ws = [] /\ (op = TDash \/ op = TQuestion)) ->
  runs (parameter_raw fuel K)
    (TDollar :: TCurlyOpen :: t :: (if colon then [TColon] else []) ++ op :: ts)
    (KSubst (mk p (word_of ws))) rest.
Proof.
  intros Hp Ho Hw Hn. apply (braces_start p); [exact Hp|]. intros q.
  assert (X : runs (parameter_substitution_body_raw fuel K p q)
     ((if colon then [TColon] else []) ++ op :: ts) (KSubst (mk p (word_of ws))) rest).
  { unfold parameter_substitution_body_raw.
    assert (Y : runs (op_pos <- getpos ;;
  t <- next ;;
  match t with
  | Some ((TDash | TEquals | TQuestion | TPlus) as op) =>
      word <- parameter_substitution_word_raw fuel K q ;;
      match subst_of_op op colon p word with
      | Some s => ret (KSubst s)
      | None => panic PS_subst_op
      end
  | Some TCurlyClose => ret (KParam p)
  | Some t => throw (BadSubst t op_pos)
  | None => throw (Unmatched TCurlyOpen q)
  end) (op :: ts) (KSubst (mk p (word_of ws))) rest).
    { rstep. rstep.
      assert (S : subst_of_op op colon p (word_of ws) = Some (mk p (word_of ws))).
      { unfold subst_of_op.
        destruct (param_eqb p PmPound && negb colon && match word_of ws with Some _ => false | None => true end) eqn:E.
        - apply andb_prop in E as [E E3]. apply andb_prop in E as [E1 E2].
          destruct (param_eqb_spec p PmPound) as [->|]; [|discriminate]. destruct colon; [discriminate|].
          destruct (word_of ws) eqn:Ew; [discriminate|]. apply word_of_none in Ew.
          destruct Ho; try reflexivity; exfalso; apply Hn; auto.
        - cbn [andb]. destruct Ho; reflexivity. }
      destruct Ho; (eapply runs_call; [apply operand_word; exact Hw|]; rewrite S; apply runs_ret). }
    destruct colon; cbn [app].
    - rstep. exact Y.
    - apply runs_eat_maybe_no; [destruct Ho; discriminate|exact Y]. }
  rstep. destruct colon; cbn [app hd_error] in *.
  - destruct (param_eqb PmPound p); exact X.
  - destruct Ho; (destruct (param_eqb PmPound p); exact X).
Qed.
Lemma param_suffix p t ws ts rest : braced_param p t -> operand_run ws ts (TCurlyClose :: rest) ->
  hd_error ts <> Some TPercent ->
  runs (parameter_raw fuel K) (TDollar :: TCurlyOpen :: t :: TPercent :: ts)
    (KSubst (KSRemoveSmallestSuffix p (word_of ws))) rest.
Proof.
  intros Hp Hw Hn. apply (braces_start p); [exact Hp|]. intros q. rstep. rstep.
  apply runs_eat_maybe_no; [exact Hn|]. eapply runs_call; [apply operand_word; exact Hw|]. apply runs_ret.
Qed.
Lemma param_suffixes p t ws ts rest : braced_param p t -> operand_run ws ts (TCurlyClose :: rest) ->
  runs (parameter_raw fuel K) (TDollar :: TCurlyOpen :: t :: TPercent :: TPercent :: ts)
    (KSubst (KSRemoveLargestSuffix p (word_of ws))) rest.
Proof.
  intros Hp Hw. apply (braces_start p); [exact Hp|]. intros q. rstep. rstep. rstep.
  eapply runs_call; [apply operand_word; exact Hw|]. apply runs_ret.
Qed.
Lemma param_prefix p t ws ts rest : braced_param p t -> operand_run ws ts (TCurlyClose :: rest) ->
  hd_error ts <> Some TPound -> ~ (p = PmPound /\ ws = []) ->
  runs (parameter_raw fuel K) (TDollar :: TCurlyOpen :: t :: TPound :: ts)
    (KSubst (KSRemoveSmallestPrefix p (word_of ws))) rest.
Proof.
  intros Hp Hw Hn Hl. apply (braces_start p); [exact Hp|]. intros q. rstep. rstep.
  apply runs_eat_maybe_no; [exact Hn|]. eapply runs_call; [apply operand_word; exact Hw|].
  destruct (word_of ws) eqn:E; [apply runs_ret|]. apply word_of_none in E.
  destruct (param_eqb_spec PmPound p) as [<-|]; [exfalso; apply Hl; auto|]. apply runs_ret.
Qed.
Lemma param_prefixes p t ws ts rest : braced_param p t -> operand_run ws ts (TCurlyClose :: rest) ->
  runs (parameter_raw fuel K) (TDollar :: TCurlyOpen :: t :: TPound :: TPound :: ts)
    (KSubst (KSRemoveLargestPrefix p (word_of ws))) rest.
Proof.
  intros Hp Hw. apply (braces_start p); [exact Hp|]. intros q. rstep. rstep. rstep.
  eapply runs_call; [apply operand_word; exact Hw|]. apply runs_ret.
Qed.
Lemma param_paren ts x rest : runs (paren_substitution fuel K) (TParenOpen :: ts) x rest ->
  runs (parameter_raw fuel K) (TDollar :: TParenOpen :: ts) x rest.
Proof.
  intros H. unfold parameter_raw. rstep. rstep. rstep. unfold parameter_substitution_raw. rstep. rstep. apply H.
Qed.
Lemma param_arith e ts mid mid' rest : written e ts -> skipw mid = TParenClose :: mid' ->
  skipw mid' = TParenClose :: rest ->
  runs (parameter_raw fuel K) (TDollar :: TParenOpen :: TParenOpen :: ts ++ mid) (KSubst (KSArith (Some e))) rest.
Proof.
  intros [o He] E1 E2. apply param_paren. unfold paren_substitution. rstep. change (look arith_try _) with true. cbv match.
  rstep. rstep. rstep. rstep.
  destruct (aexpr_skipw _ _ _ _ mid He) as (t & r & E & Ht & _). rewrite E. cbn [hd_error].
  replace (otoken_eqb (Some t) (Some TParenClose)) with false by (destruct t; try reflexivity; discriminate).
  rstep. eapply runs_call.
  - apply (arith_runs_at fuel o e ts mid); [exact He| |rewrite <- E; apply skipw_idem].
    unfold follow. rewrite E1. repeat split; try discriminate. intros _ [H|H]; discriminate.
  - rstep. rewrite E1. rstep. rewrite skipw_solid by reflexivity. rstep. rstep. rewrite E2. rstep. apply runs_ret.
Qed.
Lemma param_arith_empty mid mid' rest : skipw mid = TParenClose :: mid' ->
  skipw mid' = TParenClose :: rest ->
  runs (parameter_raw fuel K) (TDollar :: TParenOpen :: TParenOpen :: mid) (KSubst (KSArith None)) rest.
Proof.
  intros E1 E2. apply param_paren. unfold paren_substitution. rstep. change (look arith_try _) with true. cbv match.
  rstep. rstep. rstep. rewrite E1. rstep. change (otoken_eqb (Some TParenClose) (Some TParenClose)) with true. cbv match.
  rstep. rstep. rewrite skipw_solid by reflexivity. rstep. rstep. rewrite E2. rstep. apply runs_ret.
Qed.
Lemma runs_subshell_internal (ok : bool) g ts rest : 
  runs (k_group K (mkDelims [] [] [TParenClose])) ts g (TParenClose :: rest) ->
  (ok = true \/ commands g <> []) ->
  runs (subshell_internal K ok) (TParenOpen :: ts) g rest.
Proof.
  intros H Ho. unfold subshell_internal. rstep. rstep. eapply runs_call; [exact H|]. rstep.
  replace (ok || negb (is_nil (commands g))) with true.
  - rstep. apply runs_ret.
  - destruct Ho as [-> |Ho]; [reflexivity|]. destruct (commands g); [congruence|]. now rewrite orb_true_r.
Qed.
Lemma param_command g ts rest : 
  runs (k_group K (mkDelims [] [] [TParenClose])) ts g (TParenClose :: rest) ->
  hd_error ts <> Some TParenOpen ->
  runs (parameter_raw fuel K) (TDollar :: TParenOpen :: ts) (KSubst (KSCommand g)) rest.
Proof.
  intros H Hn. apply param_paren. unfold paren_substitution. rstep.
  replace (look arith_try (TParenOpen :: ts)) with false.
  - eapply runs_call; [apply runs_subshell_internal; [exact H|now left]|]. apply runs_ret.
  - cbn [look arith_try hd_error tl]. destruct ts as [|t ts]; [reflexivity|]. cbn in *.
    destruct t; try reflexivity; congruence.
Qed.
Lemma backticks_run g ts rest : content TBacktick ts -> runs (k_group K no_delims) (unescape ts) g [] ->
  runs (backticked_raw fuel K) (TBacktick :: ts ++ TBacktick :: rest) (KCommandSubst g) rest.
Proof.
  intros Hc H. unfold backticked_raw. rstep. rstep. eapply runs_backtick_iter; [exact Hc|].
  intros i Hi. eapply runs_sub; [rewrite Hi; exact H|]. apply runs_ret.
Qed.
End WordRuns.
