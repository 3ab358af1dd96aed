(** * The parser reads here-documents *)
From Coq Require Import String.
From Verif Require Import Base Token Pos Ast Builder Prog Located RunLemmas ParserBase Balanced Arith Word
  Redirect Command Sim BalancedSpec BalancedProofs BalancedTotal Runs Pure Relex HeredocSpec Forms WordRuns.

Section Prims.
Context {BS BE : Type}.
Notation prog := (prog BS BE).

Lemma runs_piece fuel p rest : piece p rest ->
  runs (collect_balanced fuel None : prog _) (p ++ rest) p rest.
Proof.
  intros H. eapply runs_sim; [apply (sim_collect_balanced eq eq fuel (fuel + S (List.length p))); lia|].
  intros L e b HL. apply map_fst_app in HL as (L1 & L2 & -> & E1 & E2).
  rewrite balanced_piece.
  - cbn. auto.
  - now rewrite E1, E2.
  - rewrite <- E1, map_length. lia.
Qed.
Lemma runs_bbr fuel p ts rest : content TBacktick ts ->
  runs (collect_bbr fuel p : prog _) (ts ++ TBacktick :: rest) (unescape ts) rest.
Proof.
  intros H. eapply runs_sim; [apply (sim_collect_bbr eq eq fuel (fuel + S (List.length ts))); lia|].
  intros L e b HL. apply map_fst_app in HL as (L1 & L2 & -> & E1 & E2).
  apply map_fst_cons in E2 as (q & L3 & -> & E3).
  rewrite backtick_stream.
  - cbn. now rewrite E1.
  - now rewrite E1.
  - rewrite <- E1, map_length. lia.
Qed.

Lemma text_concat ts : concat_tokens ts = text ts.
Proof. unfold concat_tokens, text. now rewrite flat_map_concat_map. Qed.
Lemma concat_tokens_text ts : concat_tokens ts = text ts.
Proof. apply text_concat. Qed.

Lemma runs_assoc' {A C D} (p : prog A) (f : A -> prog C) (g : C -> prog D) ts y mid c rest :
  runs (bind p f) ts y mid -> runs (g y) mid c rest -> runs (bind p (fun x => bind (f x) g)) ts c rest.
Proof.
  intros H1 H2 L e b HL. pose proof (runs_call _ g ts y mid c rest H1 H2 L e b HL) as H. revert H.
  rewrite !lrun_bind. destruct (lrun p (mkL L e) b) as [[[x|x|x|] l'] b']; auto. now rewrite lrun_bind.
Qed.
(** Double quotes in a delimiter. *)
Lemma dq_unquote_cons t ts : t <> TBackslash -> dq_unquote (t :: ts) = as_str t ++ dq_unquote ts.
Proof. intros H. destruct t; try reflexivity. congruence. Qed.
End Prims.

Section HeredocRuns.
Variable B : builder.
Variable P : pure B.
Variable fuel : nat.
Variable K : knots (bst B) (b_err B) (b_cmd B).
Notation prog := (prog (bst B) (b_err B)).
Notation stepb := (BalancedProofs.step (BS:=bst B) (BE:=b_err B)).
Notation givesb := (BalancedProofs.gives (BS:=bst B) (BE:=b_err B)).

Definition done_or {A} (r : outcome (b_err B) A * located * bst B) (x : A) (l : located) (b : bst B) : Prop :=
  match r with (OFuel, _, _) => True | _ => r = (OOk x, l, b) end.

Lemma dq_loop n : forall xs b l b' l' bf lf f d bs, (List.length xs <= n)%nat ->
  givesb b l xs b' l' -> stepb b' l' None bf lf -> stepb bf lf None bf lf ->
  done_or (lrun (delim_dq_loop B f b d) l bs) (d ++ dq_unquote (map fst xs)) lf bs.
Proof.
  induction n as [|n IH]; intros xs b l b' l' bf lf f d bs Hn G Hs Hs2;
    (destruct f as [|f]; [exact I|]); cbn [delim_dq_loop].
  - destruct xs; [|simpl in Hn; lia]. inversion G; subst. rewrite lrun_bind, (Hs bs). cbn. now rewrite app_nil_r.
  - destruct xs as [|[t q] xs].
    { inversion G; subst. rewrite lrun_bind, (Hs bs). cbn. now rewrite app_nil_r. }
    apply gives_inv in G. destruct G as (b1 & l1 & S1 & G & _). cbn [fst] in S1. cbn [List.length] in Hn.
    rewrite lrun_bind, (S1 bs). cbv beta match.
    destruct (token_eqb_spec t TBackslash) as [->|Ht].
    + rewrite lrun_bind. destruct xs as [|[u q2] xs].
      * inversion G; subst. rewrite (Hs bs). cbv beta match. destruct f as [|f]; [exact I|].
        cbn [delim_dq_loop]. rewrite lrun_bind, (Hs2 bs). reflexivity.
      * apply gives_inv in G. destruct G as (b2 & l2 & S2 & G & _). cbn [fst] in S2. cbn [List.length] in Hn.
        rewrite (S2 bs). cbv beta match.
        assert (X : forall d', d' ++ dq_unquote (map fst xs) = d ++ dq_unquote (TBackslash :: u :: map fst xs) ->
          done_or (lrun (delim_dq_loop B f b2 d') l2 bs) (d ++ dq_unquote (map fst ((TBackslash, q) :: (u, q2) :: xs))) lf bs).
        { intros d' E. cbn [map fst]. rewrite <- E. apply (IH xs b2 l2 b' l' bf lf); auto; lia. }
        destruct u; apply X; rewrite <- ?app_assoc; reflexivity.
    + assert (X : done_or (lrun (delim_dq_loop B f b1 (d ++ as_str t)) l1 bs) (d ++ dq_unquote (map fst ((t, q) :: xs))) lf bs).
      { cbn [map fst]. rewrite dq_unquote_cons by exact Ht. rewrite app_assoc. apply (IH xs b1 l1 b' l' bf lf); auto; lia. }
      destruct t; first [congruence | exact X].
Qed.
Lemma runs_dq f p d ts rest : content TDoubleQuote ts ->
  runs (bind (balanced_new (Some (TDoubleQuote, p))) (fun b => delim_dq_loop B f b d)) (ts ++ TDoubleQuote :: rest)
    (d ++ dq_unquote ts) rest.
Proof.
  intros H L e b HL. apply map_fst_app in HL as (L1 & L2 & -> & E1 & E2).
  apply map_fst_cons in E2 as (q & L3 & -> & E3). rewrite <- E1 in H.
  pose proof (content_gives (BS:=bst B) (BE:=b_err B) _ _ H ltac:(unfold closer; tauto) p [] true L1 q L3 e eq_refl) as G.
  pose proof (step_close (BS:=bst B) (BE:=b_err B) TDoubleQuote p [] true q L3 e) as S1.
  unfold balanced_new. rewrite !lrun_bind, lrun_getpos, !lrun_ret.
  pose proof (dq_loop _ _ _ _ _ _ _ _ f d b (le_n _) G S1 ltac:(apply step_done)) as X.
  unfold done_or in X. rewrite E1 in X. unfold bal_at in X.
  destruct (lrun (delim_dq_loop B f _ d) _ b) as [[o l'] b'].
  destruct o; auto; try discriminate. injection X as -> -> ->. cbn. auto.
Qed.

(** The delimiter. *)
Lemma runs_delim_loop d s q : delimiter d s q -> forall f q0 s0,
  runs (delim_loop B fuel f q0 s0) d (s0 ++ s, q0 || q) [].
Proof.
  induction 1 as [|t d s q H1 H2 H3 H4 _ IH|t d s q _ IH| |inner d s q Hn _ IH|inner d s q Hc _ IH|inner d s q Hc _ IH];
    intros f q0 s0; (destruct f as [|f]; [apply runs_fuel|]); cbn [delim_loop]; rstep; rstep.
  - rewrite app_nil_r, orb_false_r. apply runs_ret.
  - assert (X : runs (delim_loop B fuel f q0 (s0 ++ as_str t)) d (s0 ++ as_str t ++ s, q0 || q) []).
    { rewrite app_assoc. apply IH. }
    destruct t; first [congruence | exact X].
  - rstep. rewrite app_assoc, orb_true_r. apply (IH f true).
  - rstep. rewrite app_nil_r, orb_true_r. destruct f as [|f]; [apply runs_fuel|]. cbn [delim_loop]. rstep. rstep. apply runs_ret.
  - eapply runs_call; [apply runs_single_quoted; exact Hn|]. cbv beta. rewrite text_concat, app_assoc, orb_true_r. apply (IH f true).
  - eapply runs_assoc'; [apply runs_dq; exact Hc|]. cbv beta. rewrite app_assoc, orb_true_r. apply (IH f true).
  - eapply runs_call; [apply runs_bbr; exact Hc|]. cbv beta. rewrite text_concat, orb_true_r.
    replace (s0 ++ s_of "`" ++ text (unescape inner) ++ s_of "`" ++ s)
      with ((s0 ++ as_str TBacktick ++ text (unescape inner) ++ as_str TBacktick) ++ s) by (rewrite <- !app_assoc; reflexivity).
    apply (IH f true).
Qed.
Lemma runs_delim_tokens d rest : delimiter_extent d rest -> forall f acc,
  runs (delim_tokens_loop B fuel f acc) (d ++ rest) (acc ++ d) rest.
Proof.
  induction 1 as [rest Hr|t p d rest Ht Hp _ IH]; intros f acc; (destruct f as [|f]; [apply runs_fuel|]);
    cbn [delim_tokens_loop app]; rstep.
  - rewrite app_nil_r. destruct rest as [|t rest]; [apply runs_ret|]. cbn [hd_error]. unfold ends_delimiter in Hr. rewrite Hr. apply runs_ret.
  - unfold ends_delimiter in Ht. rewrite Ht. rewrite <- app_assoc. change (t :: p ++ d ++ rest) with ((t :: p) ++ d ++ rest).
    eapply runs_call; [apply runs_piece; exact Hp|]. cbv beta.
    change (t :: p ++ d) with ((t :: p) ++ d). rewrite app_assoc. apply IH.
Qed.
Lemma runs_saved l rest : line_rest l rest -> forall f acc,
  runs (saved_tokens_loop B fuel f acc) (l ++ rest) (acc ++ l) rest.
Proof.
  induction 1 as [rest| |t p l rest Ht Hp _ IH]; intros f acc; (destruct f as [|f]; [apply runs_fuel|]);
    cbn [saved_tokens_loop app]; rstep.
  - rstep. apply runs_ret.
  - rewrite app_nil_r. apply runs_ret.
  - assert (X : runs (ts <- collect_balanced fuel None ;; saved_tokens_loop B fuel f (acc ++ ts)) (t :: (p ++ l) ++ rest) (acc ++ t :: p ++ l) rest).
    { rewrite <- app_assoc. change (t :: p ++ l ++ rest) with ((t :: p) ++ l ++ rest).
      eapply runs_call; [apply runs_piece; exact Hp|]. cbv beta.
      change (t :: p ++ l) with ((t :: p) ++ l). rewrite app_assoc. apply IH. }
    destruct t; first [congruence | exact X].
Qed.

(** Lines. *)
Lemma bounded_len_spec : forall line bound acc,
  bounded_len line bound acc = (acc + str_len (text line))%nat \/
  (bound < bounded_len line bound acc /\ bound < acc + str_len (text line))%nat.
Proof.
  induction line as [|t line IH]; intros bound acc; cbn [bounded_len].
  - left. cbn. lia.
  - assert (E : str_len (text (t :: line)) = (tok_len t + str_len (text line))%nat).
    { rewrite text_cons. unfold tok_len. apply str_len_app. }
    rewrite E. destruct (Nat.ltb_spec bound (acc + tok_len t)); [right; lia|].
    destruct (IH bound (acc + tok_len t)%nat) as [X|[X Y]]; [left|right]; lia.
Qed.
Lemma is_delim_line_spec s l : is_delim_line s l = true <-> closes s l.
Proof.
  unfold is_delim_line, closes. rewrite text_concat.
  set (n := bounded_len l _ 0). pose proof (bounded_len_spec l (str_len (s ++ [c_cr])) 0) as H. fold n in H.
  rewrite str_len_app in *.
  assert (L : text l = s \/ text l = s ++ [c_cr] -> n = str_len s \/ n = (str_len s + str_len [c_cr])%nat).
  { intros [E|E]; rewrite E in H; [left|right]; rewrite ?str_len_app in H; cbn in *; lia. }
  split.
  - destruct (_ || _); [|discriminate]. rewrite orb_true_iff. intros [X|X]; (destruct (str_eqb_spec (text l) s); auto); (destruct (str_eqb_spec (text l) (s ++ [c_cr])); auto); discriminate.
  - intros X. destruct (L X) as [Y|Y]; rewrite Y, Nat.eqb_refl, ?orb_true_r; cbn [orb]; destruct X as [-> | ->];
      rewrite ?str_eqb_refl, ?orb_true_r; reflexivity.
Qed.

Definition line_result (s : str) (line : list token) (nl : bool) (q : spos) : line_end :=
  if nl then if is_delim_line s line then HDone else HLine (line ++ [TNewline]) q
  else match line with [] => HDone | _ => if is_delim_line s line then HDone else HLine line q end.
Lemma strip_line_cons t l : is_whitespace_tok t = false -> strip_line (t :: l) = t :: strip_line l.
Proof. destruct t; try reflexivity. discriminate. Qed.
Lemma runs_line {C} strip s (nl : bool) (g : line_end -> prog C) c r n : forall l f line p rest, (List.length l <= n)%nat -> ~ In TNewline l ->
  (nl = false -> rest = []) ->
  (forall q, runs (g (line_result s (line ++ body_line strip l) nl q)) rest c r) ->
  runs (bind (heredoc_line B strip s f line p) g) (l ++ (if nl then TNewline :: rest else [])) c r.
Proof.
  induction n as [|n IH]; intros l f line p rest Hn Hl Hr H; (destruct f as [|f]; [apply runs_fuelb|]).
  { destruct l; [|simpl in Hn; lia].
    replace (line ++ body_line strip []) with line in H by (destruct strip; now rewrite app_nil_r).
    cbn [app heredoc_line]. rstep.
    assert (X : runs (bind (t <- next ;;
      match t with
      | None => match line with [] => ret HDone | _ => if is_delim_line s line then ret HDone else ret (HLine line p) end
      | Some TNewline => if is_delim_line s line then ret HDone else ret (HLine (line ++ [TNewline]) p)
      | Some t => heredoc_line B strip s f (line ++ [t]) p
      end) g) (if nl then TNewline :: rest else []) c r).
    { rstep. rstep. specialize (H p). unfold line_result in H. destruct nl; cbn [hd_error tl].
      - destruct (is_delim_line s line); rstep; exact H.
      - rewrite Hr in H by reflexivity. destruct line; [rstep; exact H|]. destruct (is_delim_line s (t :: line)); rstep; exact H. }
    destruct strip; [|rstep; exact X]. rstep. rstep. destruct nl; cbn [hd_error]; rstep; exact X. }
  destruct l as [|t l].
  { apply (IH [] (S f) line p rest); auto; simpl; lia. }
  cbn [app heredoc_line]. rstep. cbn [List.length] in Hn.
  (* the token consumed and the loop resumed *)
  assert (X : forall line' l' q, (List.length l' <= n)%nat -> ~ In TNewline l' -> line' ++ body_line strip l' = line ++ body_line strip (t :: l) ->
     runs (bind (heredoc_line B strip s f line' q) g) (l' ++ (if nl then TNewline :: rest else [])) c r).
  { intros line' l' q Hl' Hi E. apply (IH l' f line' q rest); auto. rewrite E. exact H. }
  assert (Hl2 : ~ In TNewline l) by (intros Hi; apply Hl; now right).
  (* a token that is simply appended *)
  assert (Y : forall t0 line0 l0 q0, t0 <> TNewline -> (List.length l0 <= n)%nat -> ~ In TNewline l0 ->
     (line0 ++ [t0]) ++ body_line strip l0 = line ++ body_line strip (t :: l) ->
     runs (bind (t <- next ;;
      match t with
      | None => match line0 with [] => ret HDone | _ => if is_delim_line s line0 then ret HDone else ret (HLine line0 q0) end
      | Some TNewline => if is_delim_line s line0 then ret HDone else ret (HLine (line0 ++ [TNewline]) q0)
      | Some t => heredoc_line B strip s f (line0 ++ [t]) q0
      end) g) (t0 :: l0 ++ (if nl then TNewline :: rest else [])) c r).
  { intros t0 line0 l0 q0 Ht H1 H2 E. rstep. rstep.
    assert (Z : runs (bind (heredoc_line B strip s f (line0 ++ [t0]) q0) g) (l0 ++ (if nl then TNewline :: rest else [])) c r) by (now apply X).
    destruct t0; first [congruence | exact Z]. }
  assert (Ht : t <> TNewline) by (intros ->; apply Hl; now left).
  destruct strip.
  - rstep. rstep. destruct (is_whitespace_tok t) eqn:Ew.
    + destruct t; try discriminate Ew. rename s0 into w. rstep. rstep.
      destruct l as [|t2 l].
      * (* blanks at the end of the line *)
        cbn [app]. rstep. rstep.
        assert (E : line ++ body_line true [TWhitespace w] = match trim_start_matches c_tab w with [] => line | _ => line ++ [TWhitespace (trim_start_matches c_tab w)] end).
        { cbn. unfold untab. destruct (trim_start_matches c_tab w); now rewrite ?app_nil_r. }
        rewrite E in H. match goal with |- context [HLine _ ?q] => specialize (H q) end.
        revert H. generalize (match trim_start_matches c_tab w with [] => line | _ => line ++ [TWhitespace (trim_start_matches c_tab w)] end).
        intros line' H. unfold line_result in H. destruct nl; cbn [hd_error tl].
        -- destruct (is_delim_line s line'); rstep; exact H.
        -- rewrite Hr in H by reflexivity. destruct line'; [rstep; exact H|]. destruct (is_delim_line s (t :: line')); rstep; exact H.
      * cbn [app]. apply Y.
        -- intros ->. apply Hl2. now left.
        -- simpl in Hn. lia.
        -- intros Hi. apply Hl2. now right.
        -- cbn [body_line strip_line]. unfold untab. destruct (trim_start_matches c_tab w); rewrite <- ?app_assoc; reflexivity.
    + assert (Z : runs (bind (ret (line, p)) (fun x => bind (let '(line, lsp) := x in t <- next ;;
      match t with
      | None => match line with [] => ret HDone | _ => if is_delim_line s line then ret HDone else ret (HLine line lsp) end
      | Some TNewline => if is_delim_line s line then ret HDone else ret (HLine (line ++ [TNewline]) lsp)
      | Some t => heredoc_line B true s f (line ++ [t]) lsp
      end) g)) (t :: l ++ (if nl then TNewline :: rest else [])) c r).
      { rstep. apply Y; auto; [lia|]. cbn [body_line]. rewrite strip_line_cons by exact Ew. now rewrite <- app_assoc. }
      destruct t; first [discriminate Ew | exact Z].
  - rstep. apply Y; auto; [lia|]. cbn [body_line]. now rewrite <- app_assoc.
Qed.
Lemma delim_line_true s l : closes s l -> is_delim_line s l = true.
Proof. apply is_delim_line_spec. Qed.
Lemma delim_line_false s l : ~ closes s l -> is_delim_line s l = false.
Proof. intros H. destruct (is_delim_line s l) eqn:E; [|reflexivity]. apply is_delim_line_spec in E. contradiction. Qed.
Lemma runs_lines {C} strip s (g : list (list token * spos) -> prog C) c r body ts rest : here_lines strip s body ts rest ->
  forall f acc,
  (forall chunks, flat_map fst chunks = flat_map fst acc ++ body -> runs (g chunks) rest c r) ->
  runs (bind (heredoc_lines B fuel strip s f acc) g) ts c r.
Proof.
  induction 1 as [l rest Hl Hc|l Hl Hc|l body ts rest Hl Hc _ IH|l Hl Hc Hn]; intros f acc H;
    (destruct f as [|f]; [apply runs_fuelb|]); cbn [heredoc_lines]; rstep; rstep; rstep.
  - apply (runs_line strip s true _ c r _ l fuel [] _ rest (le_n _) Hl); [discriminate|]. intros q. cbn [app].
    unfold line_result. rewrite (delim_line_true _ _ Hc). rstep. apply H. now rewrite app_nil_r.
  - replace l with (l ++ (if false then TNewline :: [] else [])) by apply app_nil_r.
    apply (runs_line strip s false _ c r _ l fuel [] _ [] (le_n _) Hl); [reflexivity|]. intros q. cbn [app].
    assert (E : line_result s (body_line strip l) false q = HDone).
    { unfold line_result. destruct Hc as [Hc|Hc]; [rewrite (delim_line_true _ _ Hc); now destruct (body_line strip l)|now rewrite Hc]. }
    rewrite E. rstep. apply H. now rewrite app_nil_r.
  - apply (runs_line strip s true _ c r _ l fuel [] _ ts (le_n _) Hl); [discriminate|]. intros q. cbn [app].
    unfold line_result. rewrite (delim_line_false _ _ Hc). apply IH. intros chunks E. apply H.
    rewrite E, flat_map_app. cbn. rewrite app_nil_r, <- !app_assoc. reflexivity.
  - match goal with |- runs ?p l ?c ?r => cut (runs p (l ++ []) c r); [now rewrite app_nil_r|] end.
    apply (runs_line strip s false _ c r _ l fuel [] _ [] (le_n _) Hl); [reflexivity|]. intros q. cbn [app].
    assert (E : line_result s (body_line strip l) false q = HLine (body_line strip l) q).
    { unfold line_result. rewrite (delim_line_false _ _ Hc). now destruct (body_line strip l). }
    rewrite E. destruct f as [|f]; [apply runs_fuelb|]. cbn [heredoc_lines]. rstep. rstep. rstep.
    apply (runs_line strip s false _ c r _ [] fuel [] _ [] (le_n _)); [intros []|reflexivity|]. intros q'.
    replace (line_result s ([] ++ body_line strip []) false q') with HDone by (destruct strip; reflexivity).
    rstep. apply H. rewrite flat_map_app. cbn. now rewrite app_nil_r.
Qed.

(* Here-documents that meet the hypotheses, with each operator and with quoted and unquoted
   delimiters: the examples of Heredocs.v, which are proved from this lemma. *)
Lemma redirect_heredoc_run op strip quoted body fd ts ts' after k : here_op op strip ->
  skipw ts = ts' -> here_document strip quoted body ts' after ->
  (if quoted then k = KSingle (KSimple (KLiteral (text body)))
   else exists ws, k = here_word ws /\ forall p, runs (word_interpolated_raw fuel K None p) body ws []) ->
  runs (redirect_heredoc B fuel K fd) (op :: ts) (pu_redirect P (RHeredoc fd (pu_word P k))) after.
Proof.
  intros Ho E Hd Hk. destruct Hd as [d s line lines rest Hd Hs He Hl Hb].
  unfold redirect_heredoc. rstep.
  assert (X : runs (skip_whitespace fuel ;;
    delim_tokens <- delim_tokens_loop B fuel fuel [] ;;
    '(delim, quoted) <- sub_iter (FromTokens delim_tokens) true (delim_loop B fuel fuel false []) ;;
    match delim with
    | [] => unexpected
    | _ =>
      saved_pos <- getpos ;;
      saved_tokens <- saved_tokens_loop B fuel fuel [] ;;
      heredoc_start_pos <- getpos ;;
      heredoc <- heredoc_lines B fuel strip delim fuel [] ;;
      buffer saved_tokens saved_pos ;;
      body <- (if quoted : bool then
                 ret (KSingle (KSimple (KLiteral (concat_tokens (flat_map fst heredoc)))))
               else
                 ws <- sub_iter (FromChunks heredoc_start_pos heredoc) false
                         (word_interpolated_raw fuel K None heredoc_start_pos) ;;
                 ret (heredoc_body_word ws)) ;;
      w <- build (o_word B body) ;;
      build (o_redirect B (RHeredoc fd w))
    end) ts (pu_redirect P (RHeredoc fd (pu_word P k))) (line ++ rest)).
  { rstep. rewrite E. eapply runs_call; [apply (runs_delim_tokens d (line ++ lines) He fuel [])|]. cbn [app].
    eapply runs_sub; [apply (runs_delim_loop d s quoted Hd fuel false [])|]. cbn [app orb].
    destruct s as [|ch s]; [congruence|]. rstep. eapply runs_call; [apply (runs_saved line lines Hl fuel [])|]. cbn [app].
    rstep. apply (runs_lines strip (ch :: s) _ _ _ body lines rest Hb). intros chunks Ec. cbn [flat_map app] in Ec.
    rstep. destruct quoted.
    - subst k. rstep. rewrite Ec, text_concat. eapply runs_build; [apply pu_word_ok|]. apply runs_build_end, pu_redirect_ok.
    - destruct Hk as (ws & -> & Hw). rstep. eapply runs_sub; [cbn [iter_toks]; rewrite Ec; apply Hw|]. rstep.
      eapply runs_build; [apply pu_word_ok|]. apply runs_build_end, pu_redirect_ok. }
  destruct Ho; rstep; rstep; rstep; exact X.
Qed.
End HeredocRuns.
