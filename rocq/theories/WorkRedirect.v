(** * How much a call does: redirections and here-documents *)
From Coq Require Import String.
From Verif Require Import Base Token Pos Ast Builder Prog Iter Located IterProofs RunLemmas ParserBase Balanced BalancedSpec BalancedTotal Wp
  Total Arith Word Redirect WpRedirect Work WorkBase WorkBal WorkArith WorkWord.
Local Open Scope Z_scope.

(** ** Accounts while tokens are put back *)
Section Back.
Context {BS BE : Type}.
Notation prog := (prog BS BE).
Variables N P : Z.
Hypothesis HN : 0 <= N.
Hypothesis HP : 20 <= P.
Definition costb {A} (M k : Z) (r : A -> Z) (p : prog A) (l : located) : Prop :=
  sz l <= N -> forall b, match lrun p l b with
  | (OOk a, l', _) => sz l' <= M /\ lwork p l b + r a <= P * (sz l - sz l') + k
  | (OErr _, _, _) | (OPanic _, _, _) => lwork p l b <= P * sz l + k
  | (OFuel, _, _) => True
  end.
Lemma b_start {A} k r (p : prog A) l : costb (sz l) k r p l -> cost N P k r p l.
Proof. exact (fun H => H). Qed.
Lemma b_end {A} M k r (p : prog A) l : sz l <= M -> cost N P k r p l -> costb M k r p l.
Proof. intros HM H HS b. specialize (H HS b). destruct (lrun p l b) as [[[a|e|s|] l'] b']; auto. lia. Qed.
Lemma b_raw {A C} w (Q : A -> located -> Prop) M k r (p : prog A) (f : A -> prog C) l :
  (sz l <= N -> forall b, match lrun p l b with
    | (OOk a, l', _) => sz l' <= sz l /\ Q a l' /\ lwork p l b <= w
    | (OErr _, _, _) | (OPanic _, _, _) => lwork p l b <= w
    | (OFuel, _, _) => True end) ->
  w <= k + P * sz l ->
  (forall a l', sz l <= N -> sz l' <= sz l -> Q a l' -> costb M (k - w + P * (sz l - sz l')) r (f a) l') -> costb M k r (bind p f) l.
Proof.
  intros Hp Hk Hf HS b. rewrite lrun_bind. specialize (Hp HS b). rewrite lwork_bind.
  destruct (lrun p l b) as [[[a|e|s|] l'] b'] eqn:E; auto; try lia.
  destruct Hp as [H1 [HQ H2]]. specialize (Hf a l' HS H1 HQ ltac:(lia) b').
  destruct (lrun (f a) l' b') as [[[c|e|s|] l2] b2]; auto; nia.
Qed.
Lemma b_getpos {A} M k (r : A -> Z) f l : (forall p, costb M (k - 1) r (f p) l) -> costb M k r (bind getpos f) l.
Proof.
  intros H HS b. specialize (H (l_pos l) HS b). rewrite lrun_bind, lwork_bind, lrun_getpos. change (lwork getpos l b) with 1.
  destruct (lrun _ l b) as [[[c|e|s|] l2] b2]; auto; lia.
Qed.
Lemma b_buffer {A} M k (r : A -> Z) ts q f l : Z.of_nat (length ts) + sz l <= N ->
  costb M (k - 1 - Z.of_nat (length ts) - P * Z.of_nat (length ts)) r (f tt) (l_buffer ts q l) ->
  costb M k r (bind (buffer ts q) f) l.
Proof.
  intros HB H HS b. assert (E : sz (l_buffer ts q l) = Z.of_nat (length ts) + sz l) by (unfold sz; rewrite size_buffer; lia).
  specialize (H ltac:(lia) b). rewrite lrun_bind, lwork_bind, lrun_buffer.
  assert (W : lwork (buffer ts q : prog _) l b = 1 + Z.of_nat (length ts)) by (unfold lwork; cbn [buffer work]; lia).
  rewrite W, E in *. destruct (lrun _ (l_buffer ts q l) b) as [[[c|e|s|] l2] b2]; auto; nia.
Qed.
(** A program whose cost at the lowest price and whose effect on the stream are known. *)
Lemma raw20 {A} c (Q : A -> located -> Prop) (p : prog A) l : 0 <= c -> Work.spec N 20 c (fun _ => - c) p ->
  (forall b, match lrun p l b with (OOk a, l', _) => Q a l' | _ => True end) ->
  sz l <= N -> forall b, match lrun p l b with
    | (OOk a, l', _) => sz l' <= sz l /\ Q a l' /\ lwork p l b <= 20 * N + c
    | (OErr _, _, _) | (OPanic _, _, _) => lwork p l b <= 20 * N + c
    | (OFuel, _, _) => True end.
Proof.
  intros Hc H HQ HS b. specialize (H c l (Z.le_refl _) HS b). specialize (HQ b).
  pose proof (sz_pos l).
  destruct (lrun p l b) as [[[a|e|s|] l'] b']; auto; try lia. pose proof (sz_pos l'). split; [|split]; auto; lia.
Qed.
End Back.
#[local] Opaque cost Work.spec.

Section Pieces.
Variable B : builder.
Notation prog := (prog (bst B) (b_err B)).
Variables N P : Z.
Hypothesis HN : 0 <= N.
Hypothesis HP : 20 <= P.
Notation spec := (spec N P).
Variable fuel : nat.
Ltac wred ::= cbv beta iota.

(** Text that is not enclosed starts with a token. *)
Definition g_first (x : option (token + unmatched) * balanced) : Z := match fst x with Some (inl _) => 10 + phi (snd x) | _ => 100 end.
Lemma c_first k l t p : 8 <= k -> l_hd l = Some t ->
  cost N P k (fun x => k + g_first x) (balanced_next (mkBal None [] false false p) : prog _) l.
Proof.
  intros Hk E. unfold balanced_next. cbn [escaped bdone bstack stack_top single_quote_top is_nil skip_last_delimeter orb tl].
  wk1. rewrite E. change (otoken_eqb None (Some t)) with false. cbv iota. wk1. wk1.
  destruct t; repeat (wk1; unfold g_first, phi; cbn [fst snd escaped]); lia.
Qed.
Lemma c_collect_ne n k l t : 20 <= k -> l_hd l = Some t ->
  cost N P k (fun _ => k + 1) (collect_balanced n None : prog _) l.
Proof.
  intros Hk E. unfold collect_balanced, balanced_new. wk1. wk1. wk1. cbv beta. destruct n as [|n]; [apply c_fuel|].
  cbn [balanced_collect]. eapply c_bind; [eapply (c_first (k - 1)); [lia|exact E]|].
  intros [[[a|[t0 p0]]|] b] l' Hs; unfold g_first; cbn [fst snd]; pose proof (phi_range b); cbv beta iota.
  - eapply c_end; [apply s_bal_collect; lia|lia|intros; cbv beta; lia].
  - wk.
  - wk.
Qed.
Lemma s_delim_tokens : forall n acc, spec 30 (fun _ => -30) (delim_tokens_loop B fuel n acc).
Proof.
  induction n as [|n IH]; intros acc; wspec; cbn [delim_tokens_loop]; [wk|]. wk1.
  destruct (l_hd l) as [t|] eqn:E; [|wk]. wk1; [wk|].
  eapply c_bind; [eapply c_collect_ne; [lia|exact E]|]. intros ts l' Hs. wk.
Qed.
Lemma s_saved : forall n acc, spec 30 (fun _ => -30) (saved_tokens_loop B fuel n acc).
Proof.
  induction n as [|n IH]; intros acc; wspec; cbn [saved_tokens_loop]; [wk|]. wk1.
  destruct (l_hd l) as [t|] eqn:E; [|wk].
  assert (X : cost N P (k - 1) (fun _ => k + -30) (ts <- collect_balanced fuel None ;; saved_tokens_loop B fuel n (acc ++ ts)) l).
  { eapply c_bind; [eapply c_collect_ne; [lia|exact E]|]. intros ts l' Hs. wk. }
  destruct t; try exact X. wk.
Qed.
Definition potl (l : list token) : Z := match l with [] => 0 | _ => 12 end.
Lemma potl_snoc l t : potl (l ++ [t]) = 12.
Proof. destruct l; reflexivity. Qed.
Lemma potl_range l : 0 <= potl l <= 12.
Proof. destruct l; cbn; lia. Qed.
Definition g_line (l : list token) (r : line_end) : Z := match r with HDone => -10 | HLine _ _ => 2 - potl l end.
Lemma s_line st d : forall n line p, spec 10 (g_line line) (heredoc_line B st d n line p).
Proof.
  induction n as [|n IH]; intros line p; wspec; cbn [heredoc_line]; [wk|].
  pose proof (potl_range line) as R.
  assert (X : forall line' p' k' l', k - 1 <= k' -> (line = line' \/ k + 15 <= k') ->
    cost N P k' (fun a => k + g_line line a)
      (' t <- next;;
       match t with
       | Some TNewline => if is_delim_line d line' then ret HDone else ret (HLine (line' ++ [TNewline]) p')
       | Some t => heredoc_line B st d n (line' ++ [t]) p'
       | None => match line' with [] => ret HDone | _ :: _ => if is_delim_line d line' then ret HDone else ret (HLine line' p') end
       end) l').
  { intros line' p' k' l' H1 H2. apply c_next.
    - intros t l2 _ _.
      assert (Y : cost N P (k' - 1 + P) (fun a => k + g_line line a) (heredoc_line B st d n (line' ++ [t]) p') l2).
      { eapply c_end; [apply IH|lia|]. intros a. destruct a; cbn [g_line]; rewrite ?potl_snoc; lia. }
      destruct t; try exact Y. destruct (is_delim_line d line'); apply c_ret; cbn [g_line]; lia.
    - intros _. destruct line' as [|t0 line']; [apply c_ret; cbn [g_line]; lia|].
      destruct (is_delim_line d _); apply c_ret; cbn [g_line]; [lia|]. destruct H2 as [->|H2]; cbn [potl]; lia. }
  destruct st.
  - wk1. wk1. destruct (l_hd l) as [t|] eqn:E; [|wk1; apply X; [lia|now left]].
    destruct t; try (wk1; apply X; [lia|now left]). wk1. wk1. wk1. apply X; [lia|right; lia].
  - wk1. apply X; [lia|now left].
Qed.
Lemma s_lines st d : forall n acc, spec 15 (fun _ => -15) (heredoc_lines B fuel st d n acc).
Proof.
  pose proof s_line as H. induction n as [|n IH]; intros acc; wspec; cbn [heredoc_lines]; [wk|]. wk1.
  eapply c_spec; [apply H|lia|]. intros r l' Hs. destruct r; cbn [g_line potl]; cbv iota; [wk|]. wk.
Qed.
Ltac ph := repeat match goal with b : balanced |- _ =>
  lazymatch goal with _ : 0 <= phi b <= 20 |- _ => fail | _ => pose proof (phi_range b) end end.
Ltac wred ::= cbv beta iota delta [g_bal fst snd]; ph.
Ltac wleaf ::=
  lazymatch goal with
  | |- Work.spec _ _ _ _ (balanced_new _) => apply s_bal_new
  | |- Work.spec _ _ _ _ (balanced_next _) => apply s_bal_next
  | |- Work.spec _ _ _ _ (collect_balanced _ _) => apply s_collect
  | |- Work.spec _ _ _ _ (collect_bbr _ _) => apply s_collect_bbr
  | |- _ => whyp
  end; try lia.
Lemma s_delim_dq : forall n b d, spec (10 + phi b) (fun _ => -10 - phi b) (delim_dq_loop B n b d).
Proof.
  induction n as [|n IH]; intros b d; wspec; cbn [delim_dq_loop]; ph; wk.
Qed.
Hypothesis HP2 : 100 <= P.
Lemma s_delim : forall n q d, spec 10 (fun _ => -10) (delim_loop B fuel n q d).
Proof.
  pose proof s_delim_dq. induction n as [|n IH]; intros q d; wspec; cbn [delim_loop]; wk.
Qed.
End Pieces.

Section Redirect.
Variable B : builder.
Notation prog := (prog (bst B) (b_err B)).
Variables N P : Z.
Hypothesis HN : 0 <= N.
Hypothesis HP : 5000 + 100 * N <= P.
Notation spec := (spec N P).
Variable fuel : nat.
Hypothesis Hfuel : N + 2 < Z.of_nat fuel.
Variable K : knots (bst B) (b_err B) (b_cmd B).
Hypothesis HK : k_ok N P K.
Ltac wleaf ::=
  lazymatch goal with
  | |- Work.spec _ _ _ _ (eat _) => apply s_eat
  | |- Work.spec _ _ _ _ (eat_maybe _) => apply s_eat_maybe
  | |- Work.spec _ _ _ _ (skip_whitespace _) => apply s_skip_whitespace
  | |- Work.spec _ _ _ _ (peek_reserved_token _ _) => apply s_prt
  | |- Work.spec _ _ _ _ (reserved_token _ _) => apply s_rt
  | |- Work.spec _ _ _ _ (word_raw _ _) => apply s_word_raw
  | |- _ => whyp
  end; first [exact HK | lia | idtac].
Definition g_bword (o : option (b_word B)) : Z := match o with Some _ => 800 | None => -40 end.
Definition g_bwordp (o : option (b_word B)) : Z := match o with Some _ => 820 | None => -32 end.
Ltac wred ::= cbv beta iota delta [g_word g_bword g_bwordp].
Lemma s_wpt : spec 40 g_bwordp (word_preserve_trailing_whitespace B fuel K).
Proof. wspec. unfold word_preserve_trailing_whitespace. wk. Qed.
Lemma s_word : spec 50 g_bword (word B fuel K).
Proof. wspec. unfold word. eapply c_spec; [apply s_wpt|lia|]. intros [w|] l1 Hs; wred; wk. Qed.
Lemma s_backticked_cs : spec 10 (fun _ => 900) (backticked_command_substitution B fuel K).
Proof. wspec. unfold backticked_command_substitution. pose proof (s_backticked N P HN HP fuel Hfuel K HK). wk. Qed.
Lemma s_param : spec 10 (fun _ => 900) (parameter B fuel K).
Proof. wspec. unfold parameter. pose proof (s_parameter N P HN HP fuel Hfuel K HK). wk. Qed.
Lemma s_get_path : spec 50 (fun _ => 700) (get_path B fuel K).
Proof. wspec. unfold get_path. wk. Qed.
Lemma s_get_dup_path : spec 100 (fun _ => 700) (get_dup_path B fuel K).
Proof. wspec. unfold get_dup_path. wk. Qed.
Lemma s_redirect_op op fd : spec 110 (fun _ => 600) (redirect_op B fuel K op fd).
Proof. wspec. unfold redirect_op. pose proof s_get_path. pose proof s_get_dup_path. wk. Qed.

(** What the walks of [Total.v] say of where a loop leaves the stream. *)
Notation am := (am_total B True True).
Lemma from_wp {A} (p : prog A) l (Q : A -> located -> Prop) : wp am p l Q ->
  forall b, match lrun p l b with (OOk a, l', _) => Q a l' | _ => True end.
Proof. intros H b. specialize (H b Logic.I). destruct (lrun p l b) as [[[a|e|x|] l'] b']; auto. apply H. Qed.
Lemma raw_delim l : sz l <= N -> forall b, match lrun (delim_tokens_loop B fuel fuel []) l b with
    | (OOk a, l', _) => sz l' <= sz l /\ Z.of_nat (length a) + sz l' <= sz l /\
        lwork (delim_tokens_loop B fuel fuel []) l b <= 20 * N + 30
    | (OErr _, _, _) | (OPanic _, _, _) => lwork (delim_tokens_loop B fuel fuel []) l b <= 20 * N + 30
    | (OFuel, _, _) => True end.
Proof.
  intros HS. apply (raw20 N 30 (fun a l' => Z.of_nat (length a) + sz l' <= sz l)); [lia|apply s_delim_tokens; lia| |exact HS].
  apply from_wp. eapply wp_mono; [apply (wp_delim_tokens am I fuel 0 ltac:(lia) fuel [] l); unfold sz in HS; lia|].
  cbn [length]. intros ts l' [_ H]. unfold sz. lia.
Qed.
Lemma raw_saved l : sz l <= N -> forall b, match lrun (saved_tokens_loop B fuel fuel []) l b with
    | (OOk a, l', _) => sz l' <= sz l /\ Z.of_nat (length a) + sz l' <= sz l /\
        lwork (saved_tokens_loop B fuel fuel []) l b <= 20 * N + 30
    | (OErr _, _, _) | (OPanic _, _, _) => lwork (saved_tokens_loop B fuel fuel []) l b <= 20 * N + 30
    | (OFuel, _, _) => True end.
Proof.
  intros HS. apply (raw20 N 30 (fun a l' => Z.of_nat (length a) + sz l' <= sz l)); [lia|apply s_saved; lia| |exact HS].
  apply from_wp. eapply wp_mono; [apply (wp_saved_tokens am I fuel 0 ltac:(lia) fuel [] l); unfold sz in HS; lia|].
  cbn [length]. intros ts l' (_ & H & _). unfold sz. lia.
Qed.
Lemma raw_lines st d p l : sz l <= N -> forall b, match lrun (heredoc_lines B fuel st d fuel []) l b with
    | (OOk a, l', _) => sz l' <= sz l /\ sz (l_make (FromChunks p a)) + sz l' <= sz l /\
        lwork (heredoc_lines B fuel st d fuel []) l b <= 20 * N + 15
    | (OErr _, _, _) | (OPanic _, _, _) => lwork (heredoc_lines B fuel st d fuel []) l b <= 20 * N + 15
    | (OFuel, _, _) => True end.
Proof.
  intros HS. apply (raw20 N 15 (fun a l' => sz (l_make (FromChunks p a)) + sz l' <= sz l)); [lia|apply s_lines; lia| |exact HS].
  apply from_wp. eapply wp_mono; [apply (wp_heredoc_lines am fuel 0 ltac:(lia) st d fuel [] l); unfold sz in HS; try lia|].
  - left; now left.
  - intros cs l' (_ & H & _). unfold sz. rewrite size_make. unfold chunk_sum in *. cbn in H. lia.
Qed.
Definition heredoc_rest (fd : option BinNums.N) (strip_tabs : bool) : prog (b_redirect B) :=
  skip_whitespace fuel ;;
  delim_tokens <- delim_tokens_loop B fuel fuel [] ;;
  '(delim, quoted) <- sub_iter (FromTokens delim_tokens) true (delim_loop B fuel fuel false []) ;;
  match delim with
  | [] => unexpected
  | _ =>
      saved_pos <- getpos ;;
      saved_tokens <- saved_tokens_loop B fuel fuel [] ;;
      heredoc_start_pos <- getpos ;;
      heredoc <- heredoc_lines B fuel strip_tabs delim fuel [] ;;
      buffer saved_tokens saved_pos ;;
      body <- (if quoted : bool then
                 ret (KSingle (KSimple (KLiteral (concat_tokens (flat_map fst heredoc)))))
               else
                 ws <- sub_iter (FromChunks heredoc_start_pos heredoc) false
                         (word_interpolated_raw fuel K None heredoc_start_pos) ;;
                 ret (heredoc_body_word ws)) ;;
      w <- build (o_word B body) ;;
      build (o_redirect B (RHeredoc fd w))
  end.
Ltac szp := repeat match goal with l : located |- _ =>
  lazymatch goal with _ : 0 <= sz l |- _ => fail | _ => pose proof (sz_pos l) end end.
Lemma c_heredoc_rest fd st k l : 100 * N + 1000 <= k -> cost N P k (fun _ => k - 100 * N - 1000) (heredoc_rest fd st) l.
Proof.
  intros Hk. unfold heredoc_rest. eapply c_spec; [apply s_skip_whitespace; lia|lia|]. intros [] l1 H1. cbv beta.
  eapply c_raw; [lia|apply raw_delim|szp; nia|]. intros dts l2 HS1 X2 X3. cbv beta in X3.
  assert (Hd : sz (l_make (FromTokens dts)) = Z.of_nat (length dts)) by (unfold sz; now rewrite size_make).
  assert (P * Z.of_nat (length dts) <= P * (sz l1 - sz l2)) by nia. szp.
  eapply (c_sub_end N P ltac:(lia) _ _ _ 10); [lia|apply s_delim; lia|lia|rewrite Hd; lia|]. rewrite Hd.
  intros [delim quoted]. destruct delim as [|ch delim]; [apply c_unexpected; lia|]. set (dl := ch :: delim). clearbody dl.
  match goal with |- cost _ _ ?k0 _ _ _ => set (k1 := k0); assert (Hk1 : k - 21 * N - 50 <= k1) by (unfold k1; lia) end.
  clearbody k1. clear dts X3 Hd H.
  apply b_start. apply b_getpos. intros sp. cbv beta. eapply b_raw; [lia|apply raw_saved|nia|]. intros saved l3 HS2 X4 X5. cbv beta in X5.
  apply b_getpos. intros hp. cbv beta. pose proof (sz_pos l3).
  assert (0 <= P * (sz l2 - sz l3)) by nia. assert (0 <= P * sz l3) by nia.
  eapply b_raw; [lia|apply (raw_lines _ _ hp)|lia|]. intros hd l4 HS3 X6 X7. cbv beta in X7.
  pose proof (sz_pos l4). pose proof (sz_pos (l_make (FromChunks hp hd))).
  assert (P * Z.of_nat (length saved) <= P * (sz l2 - sz l3)) by nia.
  assert (P * sz (l_make (FromChunks hp hd)) <= P * (sz l3 - sz l4)) by nia.
  assert (0 <= P * sz (l_make (FromChunks hp hd))) by nia.
  apply b_buffer; [lia|]. apply b_end.
  { assert (E : sz (l_buffer saved sp l4) = Z.of_nat (length saved) + sz l4) by (unfold sz; rewrite size_buffer; lia). lia. }
  destruct quoted.
  - wk.
  - apply c_assoc. eapply (c_sub_end N P ltac:(lia) _ _ _ 20); [lia|apply s_interp; try exact HK; lia|lia|lia|]. intros ws. wk.
Qed.
Lemma s_heredoc fd : spec 30 (fun _ => 2000) (redirect_heredoc B fuel K fd).
Proof.
  wspec. unfold redirect_heredoc. wk1. destruct (l_hd l) as [t|] eqn:E; [|wk]. destruct t; try solve [wk].
  - wk1. wk1. wk1. eapply c_mono; [apply Z.le_refl| |apply (c_heredoc_rest fd)]; intros; cbv beta; lia.
  - wk1. wk1. wk1. eapply c_mono; [apply Z.le_refl| |apply (c_heredoc_rest fd)]; intros; cbv beta; lia.
Qed.
Definition g_after (w : option (cwk (b_cmd B))) (x : option (b_redirect B + b_word B)) : Z :=
  match w, x with None, Some _ => 600 | _, _ => -20 end.
Lemma s_after fd w : spec 40 (g_after w) (redirect_after B fuel K fd w).
Proof.
  wspec. unfold redirect_after. pose proof s_heredoc. pose proof s_redirect_op. wk1.
  destruct (l_hd l) as [t|] eqn:E; [destruct t|]; destruct w; wk; cbn [g_after]; lia.
Qed.
Definition g_red (x : option (b_redirect B + b_word B)) : Z := match x with Some _ => 500 | None => -60 end.
Lemma s_redirect : spec 80 g_red (redirect B fuel K).
Proof.
  wspec. unfold redirect. eapply c_spec; [apply s_word_raw; try exact HK; lia|lia|]. intros [w|] l1 Hs; cbn [g_word]; cbv iota.
  - destruct (word_as_num w) as [num|].
    + eapply c_end; [apply s_after|lia|]. intros [x|]; cbn [g_after g_red]; lia.
    + wk; cbn [g_red]; lia.
  - eapply c_end; [apply s_after|lia|]. intros [x|]; cbn [g_after g_red]; lia.
Qed.
Ltac wred ::= cbv beta iota delta [g_red].
Lemma s_redirect_list_loop : forall n acc, spec 100 (fun _ => -100) (redirect_list_loop B fuel K n acc).
Proof. pose proof s_redirect. induction n as [|n IH]; intros acc; wspec; cbn [redirect_list_loop]; wk. Qed.
Lemma s_redirect_list : spec 100 (fun _ => -100) (redirect_list B fuel K).
Proof. apply s_redirect_list_loop. Qed.
End Redirect.
