(** * What the parser primitives compute, as functions on the remaining tokens *)
From Verif Require Import Base Token Pos Ast Prog Located RunLemmas ParserBase.

Notation ltoks := (list (token * spos)).

(** Blanks and escaped newlines removed from the front. *)
Fixpoint skip_ws (ts : ltoks) : ltoks :=
  match ts with
  | (TWhitespace _, _) :: r => skip_ws r
  | (TBackslash, _) :: (TNewline, _) :: r => skip_ws r
  | _ => ts
  end.

Fixpoint skip_bl (ts : ltoks) : ltoks :=
  match ts with
  | (TWhitespace _, _) :: r => skip_bl r
  | _ => ts
  end.

(** The tokens up to the next newline, and what follows it. *)
Fixpoint split_line (ts : ltoks) : list token * ltoks :=
  match ts with
  | [] => ([], [])
  | (t, _) :: r =>
      if token_eqb t TNewline then ([], r)
      else let (a, b) := split_line r in (t :: a, b)
  end.

Lemma skip_bl_length ts : (length (skip_bl ts) <= length ts)%nat.
Proof. induction ts as [|[t p] ts IH]; simpl; auto. destruct t; simpl; lia. Qed.

Lemma skip_ws_length ts : (length (skip_ws ts) <= length ts)%nat.
Proof.
  remember (length ts) as n eqn:Hn. assert (H : (length ts <= n)%nat) by lia.
  rewrite Hn. clear Hn. revert ts H. induction n as [|n IH]; intros ts H.
  - destruct ts; simpl in *; [auto|lia].
  - destruct ts as [|[t p] ts]; simpl in *; auto.
    destruct t; simpl; try lia.
    + destruct ts as [|[t2 p2] ts]; simpl; [lia|].
      destruct t2; simpl; try lia. simpl in H. specialize (IH ts ltac:(lia)). lia.
    + specialize (IH ts ltac:(lia)). lia.
Qed.

(** Not a blank, not an escaped newline. *)
Definition ws_free (ts : ltoks) : Prop := skip_ws ts = ts.

Lemma skip_ws_eq t p r :
  skip_ws ((t, p) :: r) =
  match t with
  | TWhitespace _ => skip_ws r
  | TBackslash => match r with
                  | (t2, p2) :: r2 => if token_eqb t2 TNewline then skip_ws r2 else (t, p) :: r
                  | [] => (t, p) :: r
                  end
  | _ => (t, p) :: r
  end.
Proof.
  destruct t; try reflexivity. destruct r as [|[t2 p2] r2]; [reflexivity|].
  destruct t2; reflexivity.
Qed.

Lemma skip_ws_suffix ts : exists pre, ts = pre ++ skip_ws ts.
Proof.
  remember (length ts) as n eqn:Hn. assert (H : (length ts <= n)%nat) by lia.
  clear Hn. revert ts H. induction n as [|n IH]; intros ts H.
  - destruct ts; [exists []; reflexivity|simpl in H; lia].
  - destruct ts as [|[t p] ts]; [exists []; reflexivity|]. simpl in H.
    rewrite skip_ws_eq. destruct t; try (exists []; reflexivity).
    + destruct ts as [|[t2 p2] ts]; [exists []; reflexivity|].
      destruct (token_eqb_spec t2 TNewline) as [->|]; [|exists []; reflexivity].
      simpl in H. destruct (IH ts ltac:(lia)) as [pre E].
      exists ((TBackslash, p) :: (TNewline, p2) :: pre). simpl. now rewrite <- E.
    + destruct (IH ts ltac:(lia)) as [pre E]. eexists (_ :: pre). simpl. now rewrite <- E.
Qed.

Lemma skip_ws_free ts : ws_free (skip_ws ts).
Proof.
  unfold ws_free. remember (length ts) as n eqn:Hn. assert (H : (length ts <= n)%nat) by lia.
  clear Hn. revert ts H. induction n as [|n IH]; intros ts H.
  - destruct ts; [reflexivity|simpl in H; lia].
  - destruct ts as [|[t p] ts]; [reflexivity|]. simpl in H.
    rewrite skip_ws_eq. destruct t; try (rewrite skip_ws_eq; reflexivity).
    + destruct ts as [|[t2 p2] ts]; [reflexivity|].
      destruct (token_eqb_spec t2 TNewline) as [->|Ht]; [apply IH; simpl in H; lia|].
      rewrite skip_ws_eq. destruct (token_eqb_spec t2 TNewline); [congruence|reflexivity].
    + apply IH; lia.
Qed.

Lemma split_line_length ts : (length (fst (split_line ts)) + length (snd (split_line ts)) <= length ts)%nat.
Proof.
  induction ts as [|[t p] ts IH]; simpl; auto. destruct (token_eqb t TNewline); simpl; [lia|].
  destruct (split_line ts); simpl in *. lia.
Qed.

Lemma split_line_suffix ts : exists pre, ts = pre ++ snd (split_line ts).
Proof.
  induction ts as [|[t p] ts [pre IH]]; simpl; [exists []; auto|].
  destruct (token_eqb t TNewline); simpl; [exists [(t, p)]; reflexivity|].
  destruct (split_line ts); simpl in *. exists ((t, p) :: pre). simpl. now rewrite IH.
Qed.

(** One newline: [Some (comment, rest)]. *)
Definition nl (ts : ltoks) : option (newline_ * ltoks) :=
  match skip_ws ts with
  | (TPound, p) :: r =>
      let (c, rest) := split_line ((TPound, p) :: r) in
      Some (Newline (Some (concat_tokens c)), rest)
  | (TNewline, _) :: r => Some (Newline None, r)
  | _ => None
  end.

Inductive linebreaks : ltoks -> list newline_ -> ltoks -> Prop :=
  | lb_stop ts : nl ts = None -> linebreaks ts [] (skip_ws ts)
  | lb_more ts x r xs r' : nl ts = Some (x, r) -> linebreaks r xs r' ->
                           linebreaks ts (x :: xs) r'.

Lemma nl_length ts x r : nl ts = Some (x, r) -> (length r < length ts)%nat.
Proof.
  unfold nl. pose proof (skip_ws_length ts). destruct (skip_ws ts) as [|[t p] u]; [discriminate|].
  destruct t; try discriminate.
  - intros [= <- <-]. simpl in *. lia.
  - pose proof (split_line_length ((TPound, p) :: u)) as L. simpl in *.
    destruct (split_line u) as [a b]. simpl in *. intros [= <- <-]. lia.
Qed.

Lemma nl_suffix ts x r : nl ts = Some (x, r) -> exists pre, ts = pre ++ r.
Proof.
  unfold nl. destruct (skip_ws_suffix ts) as [pre E].
  destruct (skip_ws ts) as [|[t p] u]; [discriminate|].
  destruct t; try discriminate.
  - intros [= <- <-]. exists (pre ++ [(TNewline, p)]). now rewrite <- app_assoc.
  - destruct (split_line_suffix ((TPound, p) :: u)) as [pre2 E2].
    destruct (split_line ((TPound, p) :: u)) as [a b]. simpl in *. intros [= <- <-].
    exists (pre ++ pre2). rewrite <- app_assoc. now rewrite <- E2.
Qed.

Lemma linebreaks_total ts : exists xs r, linebreaks ts xs r.
Proof.
  remember (length ts) as n eqn:Hn. assert (H : (length ts <= n)%nat) by lia.
  clear Hn. revert ts H. induction n as [|n IH]; intros ts H.
  - destruct ts; [|simpl in H; lia]. exists [], []. apply (lb_stop []). reflexivity.
  - destruct (nl ts) as [[x r]|] eqn:E.
    + pose proof (nl_length _ _ _ E). destruct (IH r ltac:(lia)) as (xs & r' & Hl).
      exists (x :: xs), r'. econstructor; eauto.
    + exists [], (skip_ws ts). now constructor.
Qed.

Lemma linebreaks_det ts xs r xs' r' : linebreaks ts xs r -> linebreaks ts xs' r' -> xs = xs' /\ r = r'.
Proof.
  intros H. revert xs' r'. induction H as [ts E|ts x r xs r1 E H IH]; intros xs' r' H'.
  - inversion H'; subst; auto. congruence.
  - inversion H'; subst; [congruence|]. rewrite E in H0. injection H0 as <- <-.
    destruct (IH _ _ H1) as [-> ->]. auto.
Qed.

Lemma linebreaks_length ts xs r : linebreaks ts xs r -> (length r + length xs <= length ts)%nat.
Proof.
  induction 1 as [ts E|ts x r xs r1 E H IH]; simpl.
  - pose proof (skip_ws_length ts). lia.
  - pose proof (nl_length _ _ _ E). lia.
Qed.

Lemma linebreaks_suffix ts xs r : linebreaks ts xs r -> exists pre, ts = pre ++ r.
Proof.
  induction 1 as [ts E|ts x r xs r1 E H [pre IH]].
  - apply skip_ws_suffix.
  - destruct (nl_suffix _ _ _ E) as [pre1 E1]. exists (pre1 ++ pre). rewrite <- app_assoc. congruence.
Qed.

Lemma linebreaks_free ts xs r : linebreaks ts xs r -> ws_free r /\ nl r = None.
Proof.
  induction 1 as [ts E|ts x r xs r1 E H IH]; auto.
  split; [apply skip_ws_free|]. unfold nl in *. now rewrite skip_ws_free.
Qed.

(** The word of a reserved-word look-ahead. *)
Definition rw_found (words : list str) (ts : list token) : option str :=
  match ts with
  | (TName kw | TLiteral kw) :: r =>
      match r with
      | d :: _ => if is_word_delimiter d then find (fun w => str_eqb w kw) words else None
      | [] => find (fun w => str_eqb w kw) words
      end
  | _ => None
  end.

(** The token of a reserved-token look-ahead. *)
Definition rt_found (tokens : list token) (ts : list token) : option token :=
  match ts with
  | tok :: r =>
      match find (fun t => token_eqb t tok) tokens with
      | Some t => match r with
                  | d :: _ => if is_word_delimiter d then Some t else None
                  | [] => Some t
                  end
      | None => None
      end
  | [] => None
  end.

Section BaseRun.
Context {BS BE : Type}.
Notation prog := (prog BS BE).
Variable fuel : nat.

Lemma lrun_skip_blanks n ts e (b : BS) : (length ts < n)%nat ->
  lrun (skip_blanks n : prog unit) (mkL ts e) b = (OOk tt, mkL (skip_bl ts) e, b).
Proof.
  revert ts. induction n as [|n IH]; intros ts H; [lia|].
  cbn [skip_blanks]. rewrite lrun_bind, lrun_peek. unfold l_hd. cbn [toks].
  destruct ts as [|[t p] ts]; [reflexivity|]. cbn [map fst hd_error skip_bl].
  destruct t; try reflexivity.
  rewrite lrun_bind, lrun_next. unfold l_tl. cbn [toks end_pos tl]. simpl in H. rewrite IH; [reflexivity|lia].
Qed.

Lemma skip_ws_bl ts : skip_ws ts =
  match skip_bl ts with
  | (TBackslash, p) :: (TNewline, q) :: r => skip_ws r
  | ts' => ts'
  end.
Proof.
  induction ts as [|[t p] ts IH]; [reflexivity|].
  rewrite skip_ws_eq. cbn [skip_bl]. destruct t; try reflexivity; [|exact IH].
  destruct ts as [|[t2 p2] ts]; [reflexivity|]. destruct t2; reflexivity.
Qed.

Lemma look_bsnl (ts : ltoks) : look found_backslash_newline (map fst ts) =
  match ts with (TBackslash, _) :: (TNewline, _) :: _ => true | _ => false end.
Proof.
  destruct ts as [|[t p] ts]; [reflexivity|]. destruct t; try reflexivity.
  destruct ts as [|[t2 p2] ts]; [reflexivity|]. destruct t2; reflexivity.
Qed.

Lemma lrun_skip_ws_loop n ts e (b : BS) : (length ts < n)%nat -> (length ts < fuel)%nat ->
  lrun (skip_whitespace_loop fuel n : prog unit) (mkL ts e) b = (OOk tt, mkL (skip_ws ts) e, b).
Proof.
  revert ts. induction n as [|n IH]; intros ts Hn Hf; [lia|].
  cbn [skip_whitespace_loop]. rewrite lrun_bind, lrun_skip_blanks by auto.
  rewrite lrun_bind, lrun_multipeek. cbn [toks]. rewrite look_bsnl, skip_ws_bl.
  pose proof (skip_bl_length ts) as L.
  destruct (skip_bl ts) as [|[t p] u]; [reflexivity|].
  destruct t; try reflexivity. destruct u as [|[t2 p2] u]; [reflexivity|].
  destruct t2; try reflexivity.
  rewrite lrun_bind, lrun_next, lrun_bind, lrun_next. unfold l_tl. cbn [toks end_pos tl].
  simpl in L. apply IH; lia.
Qed.

Lemma lrun_skip_ws ts e (b : BS) : (length ts < fuel)%nat ->
  lrun (skip_whitespace fuel : prog unit) (mkL ts e) b = (OOk tt, mkL (skip_ws ts) e, b).
Proof. intros H. apply lrun_skip_ws_loop; auto. Qed.

Lemma lrun_take_comment n ts e (b : BS) acc : (length ts < n)%nat ->
  lrun (take_comment n acc : prog (list token)) (mkL ts e) b =
  (OOk (acc ++ fst (split_line ts)), mkL (snd (split_line ts)) e, b).
Proof.
  revert ts acc. induction n as [|n IH]; intros ts acc H; [lia|].
  cbn [take_comment]. rewrite lrun_bind, lrun_next. unfold l_hd, l_tl. cbn [toks end_pos].
  destruct ts as [|[t p] ts]; cbn [map fst hd_error tl split_line].
  - rewrite app_nil_r. reflexivity.
  - simpl in H. destruct (token_eqb_spec t TNewline) as [->|Ht].
    + cbn [fst snd]. rewrite app_nil_r. reflexivity.
    + replace (lrun _ _ b) with (lrun (take_comment n (acc ++ [t]) : prog (list token)) (mkL ts e) b)
        by (destruct t; auto; congruence).
      rewrite IH by lia. destruct (split_line ts) as [a r]. cbn [fst snd].
      rewrite <- app_assoc. reflexivity.
Qed.

Lemma lrun_newline ts e (b : BS) : (length ts < fuel)%nat ->
  lrun (newline fuel : prog _) (mkL ts e) b =
  match nl ts with
  | Some (x, r) => (OOk (Some x), mkL r e, b)
  | None => (OOk None, mkL (skip_ws ts) e, b)
  end.
Proof.
  intros H. unfold newline. rewrite lrun_bind, lrun_skip_ws by auto.
  rewrite lrun_bind, lrun_peek. unfold l_hd, nl. cbn [toks].
  pose proof (skip_ws_length ts) as L.
  destruct (skip_ws ts) as [|[t p] u]; [reflexivity|]. cbn [map fst hd_error].
  destruct t; try reflexivity.
  rewrite lrun_bind, lrun_take_comment by (simpl in *; lia).
  destruct (split_line ((TPound, p) :: u)) as [a r]. reflexivity.
Qed.

Lemma lrun_linebreak_loop n ts e (b : BS) acc xs r : (length ts < n)%nat -> (length ts < fuel)%nat ->
  linebreaks ts xs r ->
  lrun (linebreak_loop fuel n acc : prog _) (mkL ts e) b = (OOk (acc ++ xs), mkL r e, b).
Proof.
  intros Hn Hf H. revert n acc Hn Hf. induction H as [ts E|ts x r xs r1 E H IH]; intros n acc Hn Hf;
    (destruct n as [|n]; [lia|]); cbn [linebreak_loop]; rewrite lrun_bind, lrun_newline, E by auto.
  - now rewrite app_nil_r.
  - pose proof (nl_length _ _ _ E). rewrite IH by lia. now rewrite <- app_assoc.
Qed.

Lemma lrun_linebreak ts e (b : BS) xs r : (length ts < fuel)%nat -> linebreaks ts xs r ->
  lrun (linebreak fuel : prog _) (mkL ts e) b = (OOk xs, mkL r e, b).
Proof. intros H1 H2. unfold linebreak. now rewrite (lrun_linebreak_loop _ _ _ _ _ xs r) by auto. Qed.

Lemma look_rw words ts : look (reserved_word_try words) ts = rw_found words ts.
Proof.
  unfold reserved_word_try, rw_found. cbn [look]. destruct ts as [|t [|d r]]; cbn [hd_error tl look].
  - reflexivity.
  - destruct t; reflexivity.
  - destruct t; destruct (is_word_delimiter d); reflexivity.
Qed.

Lemma lrun_peek_reserved_word words ts e (b : BS) : (length ts < fuel)%nat ->
  lrun (peek_reserved_word fuel words : prog _) (mkL ts e) b =
  (OOk (rw_found words (map fst (skip_ws ts))),
   mkL (match words with [] => ts | _ => skip_ws ts end) e, b).
Proof.
  intros H. unfold peek_reserved_word. destruct words as [|w ws].
  - unfold rw_found. destruct (map fst (skip_ws ts)) as [|t [|d r]]; try reflexivity.
    + destruct t; reflexivity.
    + destruct t; try reflexivity; destruct (is_word_delimiter d); reflexivity.
  - rewrite lrun_bind, lrun_skip_ws, lrun_multipeek, look_rw by auto. reflexivity.
Qed.

Lemma lrun_reserved_word words ts e (b : BS) : words <> [] -> (length ts < fuel)%nat ->
  lrun (reserved_word fuel words : prog _) (mkL ts e) b =
  (OOk (rw_found words (map fst (skip_ws ts))),
   mkL (match rw_found words (map fst (skip_ws ts)) with
        | Some _ => tl (skip_ws ts) | None => skip_ws ts end) e, b).
Proof.
  intros Hw H. unfold reserved_word. rewrite lrun_bind, lrun_peek_reserved_word by auto.
  destruct words as [|w ws]; [congruence|].
  destruct (rw_found (w :: ws) (map fst (skip_ws ts))); [|reflexivity].
  rewrite lrun_bind, lrun_next. reflexivity.
Qed.

Lemma look_rt tokens ts : look (reserved_token_try tokens) ts =
  match ts with [] => None | _ => Some (rt_found tokens ts) end.
Proof.
  unfold reserved_token_try, rt_found. cbn [look]. destruct ts as [|t r]; [reflexivity|].
  cbn [hd_error tl]. destruct (find (fun t0 => token_eqb t0 t) tokens); [|reflexivity].
  destruct r as [|d r]; reflexivity.
Qed.

(** For tokens which are not blanks (all uses by the parser itself). *)
Lemma lrun_peek_reserved_token tokens ts e (b : BS) :
  existsb is_whitespace_tok tokens = false -> (length ts < fuel)%nat ->
  lrun (peek_reserved_token fuel tokens : prog _) (mkL ts e) b =
  (OOk (rt_found tokens (map fst (skip_ws ts))),
   mkL (match tokens with [] => ts | _ => skip_ws ts end) e, b).
Proof.
  intros Hw H. unfold peek_reserved_token. destruct tokens as [|w ws].
  - unfold rt_found. destruct (map fst (skip_ws ts)); reflexivity.
  - rewrite Hw. rewrite lrun_bind, lrun_skip_ws by auto. cbn [reserved_token_tries].
    rewrite lrun_bind, lrun_multipeek, look_rt. cbn [toks].
    destruct (map fst (skip_ws ts)) eqn:E; [destruct (skip_ws ts); [reflexivity|discriminate]|].
    destruct (rt_found (w :: ws) (t :: l)); [reflexivity|].
    pose proof (skip_ws_length ts).
    rewrite lrun_bind, lrun_skip_ws by lia. rewrite skip_ws_free. reflexivity.
Qed.

(** For any tokens: with a blank among them a second try is made after skipping blanks. *)
Lemma lrun_peek_reserved_token_ws tokens ts e (b : BS) :
  existsb is_whitespace_tok tokens = true -> (length ts < fuel)%nat ->
  lrun (peek_reserved_token fuel tokens : prog _) (mkL ts e) b =
  match rt_found tokens (map fst ts) with
  | Some t => (OOk (Some t), mkL ts e, b)
  | None => (OOk (rt_found tokens (map fst (skip_ws ts))), mkL (skip_ws ts) e, b)
  end.
Proof.
  intros Hw H. unfold peek_reserved_token. destruct tokens as [|w ws]; [discriminate|].
  rewrite Hw. cbn [reserved_token_tries].
  rewrite lrun_bind, lrun_multipeek, look_rt. cbn [toks].
  destruct (map fst ts) eqn:E.
  - destruct ts; [|discriminate]. reflexivity.
  - destruct (rt_found (w :: ws) (t :: l)); [reflexivity|].
    rewrite lrun_bind, lrun_skip_ws by auto. rewrite lrun_bind, lrun_multipeek, look_rt.
    cbn [toks]. pose proof (skip_ws_length ts).
    destruct (map fst (skip_ws ts)) eqn:E2.
    { destruct (skip_ws ts); [reflexivity|discriminate]. }
    destruct (rt_found (w :: ws) (t0 :: l0)); [reflexivity|].
    rewrite lrun_bind, lrun_skip_ws by lia. rewrite skip_ws_free. reflexivity.
Qed.

Lemma lrun_unexpected {A} ts e (b : BS) :
  lrun (unexpected : prog A) (mkL ts e) b =
  match ts with
  | (t, p) :: r => (OErr (Unexpected t p), mkL r e, b)
  | [] => (OErr UnexpectedEOF, mkL [] e, b)
  end.
Proof. destruct ts as [|[t p] r]; reflexivity. Qed.

Lemma lrun_eat t ts e (b : BS) :
  lrun (eat t : prog _) (mkL ts e) b =
  match ts with
  | (t', p) :: r => if token_eqb t' t then (OOk tt, mkL r e, b)
                    else (OErr (Unexpected t' p), mkL r e, b)
  | [] => (OErr UnexpectedEOF, mkL [] e, b)
  end.
Proof.
  unfold eat. rewrite lrun_bind, lrun_peek. unfold l_hd. cbn [toks].
  destruct ts as [|[t' p] r]; cbn [map fst hd_error otoken_eqb]; [reflexivity|].
  destruct (token_eqb t' t); reflexivity.
Qed.

Lemma lrun_eat_maybe t ts e (b : BS) :
  lrun (eat_maybe t : prog _) (mkL ts e) b =
  match ts with
  | (t', p) :: r => if token_eqb t' t then (OOk true, mkL r e, b) else (OOk false, mkL ts e, b)
  | [] => (OOk false, mkL [] e, b)
  end.
Proof.
  unfold eat_maybe. rewrite lrun_bind, lrun_peek. unfold l_hd. cbn [toks].
  destruct ts as [|[t' p] r]; cbn [map fst hd_error otoken_eqb]; [reflexivity|].
  destruct (token_eqb t' t); reflexivity.
Qed.

End BaseRun.

Lemma rw_found_in words ts w : rw_found words ts = Some w -> In w words /\ ts <> [].
Proof.
  destruct ts as [|t r]; [discriminate|]. intros H. split; [|discriminate].
  destruct t; try discriminate; simpl in H.
  all: destruct r as [|d r]; [|destruct (is_word_delimiter d); [|discriminate]];
    apply find_some in H; tauto.
Qed.

Lemma rt_found_in tokens ts t : rt_found tokens ts = Some t ->
  In t tokens /\ exists r, ts = t :: r.
Proof.
  destruct ts as [|t0 r]; [discriminate|]. simpl. 
  destruct (find (fun t => token_eqb t t0) tokens) as [x|] eqn:E; [|discriminate].
  intros H. assert (x = t) as ->.
  { destruct r as [|d r]; [|destruct (is_word_delimiter d)]; congruence. }
  apply find_some in E. destruct E as [E1 E2]. destruct (token_eqb_spec t t0); [|discriminate].
  subst. eauto.
Qed.
