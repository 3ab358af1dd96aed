(** * The parser's primitives read the forms of newlines and reserved words *)
From Coq Require Import String.
From Verif Require Import Base Token Ast Builder Prog Located RunLemmas ParserBase Runs Pure Relex BalancedSpec ArithSpec Forms.

Lemma skipw_hd ts : match skipw ts with TWhitespace _ :: _ => False | TBackslash :: TNewline :: _ => False | _ => True end.
Proof.
  pose proof (skipw_idem ts) as H. destruct (skipw ts) as [|t r] eqn:E; [exact I|].
  destruct t; try exact I.
  - destruct r as [|t2 r]; [exact I|]. destruct t2; try exact I.
    cbn in H. assert (L : (List.length (skipw r) <= List.length r)%nat).
    { destruct (skipw_decomp r) as (w & _ & E2). rewrite E2 at 2. rewrite app_length. lia. }
    rewrite H in L. cbn in L. lia.
  - cbn in H. assert (L : (List.length (skipw r) <= List.length r)%nat).
    { destruct (skipw_decomp r) as (w & _ & E2). rewrite E2 at 2. rewrite app_length. lia. }
    rewrite H in L. cbn in L. lia.
Qed.

Lemma newline_form_some n ts rest : newline_form n ts rest ->
  hd_error (skipw ts) = Some TNewline \/ hd_error (skipw ts) = Some TPound.
Proof. destruct 1 as [ts rest E|ts c rest E _|ts c E _]; rewrite E; cbn; auto. Qed.
Lemma newlines_nil ns ts rest : newlines ns ts rest -> no_newline (skipw ts) -> ns = [] /\ rest = skipw ts.
Proof.
  destruct 1 as [ts H|n ts mid ns rest H _]; [auto|].
  intros [H1 H2]. apply newline_form_some in H as [H|H]; congruence.
Qed.
Lemma newlines_rest ns ts rest : newlines ns ts rest -> no_newline rest /\ skipw rest = rest.
Proof. induction 1 as [ts H|]; auto. split; auto. apply skipw_idem. Qed.
Lemma maybe_newline_skipw n ts ts0 rest : skipw ts0 = skipw ts -> maybe_newline n ts rest -> maybe_newline n ts0 rest.
Proof.
  intros E H. destruct H as [n ts rest H|ts H].
  - constructor. destruct H as [ts rest H|ts c rest H H'|ts c H H']; econstructor; eauto; congruence.
  - rewrite <- E in *. now constructor.
Qed.
Lemma newlines_skipw ns ts ts0 rest : skipw ts0 = skipw ts -> newlines ns ts rest -> newlines ns ts0 rest.
Proof.
  intros E H. destruct H as [ts H|n ts mid ns rest H H'].
  - rewrite <- E in *. now constructor.
  - econstructor; eauto.
    destruct H as [ts rest1 H|ts c rest1 H H2|ts c H H2]; econstructor; eauto; congruence.
Qed.

Section Runs.
Context {BS BE : Type}.
Notation prog := (prog BS BE).
Variable fuel : nat.

Lemma concat_tokens_text ts : concat_tokens ts = text ts.
Proof. unfold concat_tokens, text. induction ts as [|t ts IH]; cbn; [reflexivity|]. now rewrite <- IH. Qed.

Lemma runs_take_comment n : forall acc c rest, ~ In TNewline c ->
  runs (take_comment n acc : prog (list token)) (c ++ TNewline :: rest) (acc ++ c) rest.
Proof.
  induction n as [|n IH]; intros acc c rest Hc; cbn [take_comment]; [apply runs_fuel|].
  rstep. destruct c as [|t c]; cbn [app].
  - rewrite app_nil_r. apply runs_ret.
  - cbn [hd_error tl].
    replace (acc ++ t :: c) with ((acc ++ [t]) ++ c) by (now rewrite <- app_assoc).
    destruct t; try (apply IH; intros H; apply Hc; now right). exfalso. apply Hc. now left.
Qed.
Lemma runs_take_comment_end n : forall acc c, ~ In TNewline c ->
  runs (take_comment n acc : prog (list token)) c (acc ++ c) [].
Proof.
  induction n as [|n IH]; intros acc c Hc; cbn [take_comment]; [apply runs_fuel|].
  rstep. destruct c as [|t c].
  - rewrite app_nil_r. apply runs_ret.
  - cbn [hd_error tl].
    replace (acc ++ t :: c) with ((acc ++ [t]) ++ c) by (now rewrite <- app_assoc).
    destruct t; try (apply IH; intros H; apply Hc; now right). exfalso. apply Hc. now left.
Qed.

Lemma runs_newline x ts rest : maybe_newline x ts rest -> runs (newline fuel : prog _) ts x rest.
Proof.
  intros H. unfold newline. rstep.
  destruct H as [n ts rest H|ts [H1 H2]].
  - destruct H as [ts rest E|ts c rest E Hc|ts c E Hc]; rewrite E.
    + rstep. rstep. apply runs_ret.
    + rstep. eapply runs_call; [apply (runs_take_comment fuel [] (TPound :: c) rest)|].
      * intros [H|H]; [discriminate|contradiction].
      * cbv beta. rewrite concat_tokens_text. apply runs_ret.
    + rstep. eapply runs_call; [apply (runs_take_comment_end fuel [] (TPound :: c))|].
      * intros [H|H]; [discriminate|contradiction].
      * cbv beta. rewrite concat_tokens_text. apply runs_ret.
  - rstep. destruct (skipw ts) as [|t r]; [apply runs_ret|]. cbn [hd_error] in *.
    destruct t; try apply runs_ret; congruence.
Qed.
Lemma runs_linebreak ns ts rest : newlines ns ts rest -> runs (linebreak fuel : prog _) ts ns rest.
Proof.
  unfold linebreak.
  enough (H : newlines ns ts rest -> forall n acc,
             runs (linebreak_loop fuel n acc : prog _) ts (acc ++ ns) rest) by (intros; now apply (H H0 fuel [])).
  induction 1 as [ts H|n ts mid ns rest H _ IH]; intros m acc; (destruct m; [apply runs_fuel|]); cbn [linebreak_loop].
  - eapply runs_call; [apply runs_newline; constructor; exact H|]. rewrite app_nil_r. apply runs_ret.
  - eapply runs_call; [apply runs_newline; constructor; exact H|]. cbv beta match.
    replace (acc ++ n :: ns) with ((acc ++ [n]) ++ ns) by (now rewrite <- app_assoc). apply IH.
Qed.

(** *** Reserved words *)
Lemma find_in ks k : In k ks -> find (fun w => str_eqb w k) ks = Some k.
Proof.
  induction ks as [|x ks IH]; [contradiction|]. cbn. destruct (str_eqb_spec x k) as [->|Hn]; [reflexivity|].
  intros [->|H]; [congruence|auto].
Qed.
Lemma find_out ks k : ~ In k ks -> find (fun w => str_eqb w k) ks = None.
Proof.
  induction ks as [|x ks IH]; [reflexivity|]. cbn. intros H. destruct (str_eqb_spec x k) as [->|Hn]; [tauto|].
  apply IH. tauto.
Qed.
Lemma look_rw_yes ks k ts rest : In k ks -> keyword k ts rest ->
  look (reserved_word_try ks) (skipw ts) = Some k.
Proof.
  intros Hin [ts' rest' E D|ts' rest' E D]; rewrite E; unfold reserved_word_try; cbn; rewrite (find_in _ _ Hin);
    (destruct rest' as [|t r]; cbn in *; [reflexivity|now rewrite D]).
Qed.
Lemma look_rw_no ks ts : ~ at_keyword ks ts -> look (reserved_word_try ks) (skipw ts) = None.
Proof.
  intros H. unfold reserved_word_try. destruct (skipw ts) as [|t r] eqn:E; [reflexivity|]. cbn.
  assert (F : match t with TName kw | TLiteral kw => find (fun w => str_eqb w kw) ks | _ => None end = None
              \/ ~ delimited r).
  { destruct (match r with [] => true | t :: _ => is_word_delimiter t end) eqn:D.
    - left. assert (delimited r) by (destruct r; [exact I|exact D]).
      destruct t; try reflexivity.
      + destruct (in_dec str_dec s ks) as [Hi|Hi]; [|now apply find_out].
        exfalso. apply H. exists s, r. split; [exact Hi|]. now apply kw_literal.
      + destruct (in_dec str_dec s ks) as [Hi|Hi]; [|now apply find_out].
        exfalso. apply H. exists s, r. split; [exact Hi|]. now apply kw_name.
    - right. destruct r; [discriminate|]. cbn. congruence. }
  destruct r as [|t2 r2]; cbn.
  - destruct F as [F|F]; [now rewrite F|]. exfalso. now apply F.
  - destruct (is_word_delimiter t2) eqn:D; [|reflexivity].
    destruct F as [F|F]; [now rewrite F|]. exfalso. apply F. exact D.
Qed.
Lemma keyword_rest k ts rest : keyword k ts rest -> skipw ts = TName k :: rest \/ skipw ts = TLiteral k :: rest.
Proof. destruct 1; auto. Qed.
Lemma keyword_skipw k ts ts0 rest : skipw ts0 = skipw ts -> keyword k ts rest -> keyword k ts0 rest.
Proof. intros E H. destruct H as [ts rest H D|ts rest H D]; rewrite <- E in H; [now apply kw_name|now apply kw_literal]. Qed.
Lemma at_keyword_skipw ks ts ts0 : skipw ts0 = skipw ts -> at_keyword ks ts -> at_keyword ks ts0.
Proof. intros E (k & rest & Hi & H). exists k, rest. split; [exact Hi|]. eapply keyword_skipw; eauto. Qed.
Lemma at_token_skipw ks ts ts0 : skipw ts0 = skipw ts -> at_token ks ts -> at_token ks ts0.
Proof. intros E (k & rest & Hi & H). exists k, rest. split; [exact Hi|]. now rewrite E. Qed.

Lemma runs_peek_word_yes ks k ts rest : In k ks -> keyword k ts rest ->
  runs (peek_reserved_word fuel ks : prog _) ts (Some k) (skipw ts).
Proof.
  intros Hi Hk. unfold peek_reserved_word. destruct ks as [|x ks]; [contradiction|].
  rstep. rewrite <- (look_rw_yes _ _ _ _ Hi Hk). apply runs_multipeek_end.
Qed.
Lemma runs_peek_word_no ks ts : ks <> [] -> ~ at_keyword ks ts ->
  runs (peek_reserved_word fuel ks : prog _) ts None (skipw ts).
Proof.
  intros Hn Hk. unfold peek_reserved_word. destruct ks as [|x ks]; [contradiction|].
  rstep. rewrite <- (look_rw_no _ _ Hk). apply runs_multipeek_end.
Qed.
Lemma runs_reserved_word ks k ts rest : In k ks -> keyword k ts rest ->
  runs (reserved_word fuel ks : prog _) ts (Some k) rest.
Proof.
  intros Hi Hk. unfold reserved_word. eapply runs_call; [eapply runs_peek_word_yes; eauto|].
  cbv beta match. rstep. replace rest with (tl (skipw ts)); [apply runs_ret|].
  destruct (keyword_rest _ _ _ Hk) as [-> | ->]; reflexivity.
Qed.

Lemma existsb_ws tks : Forall (fun t => solid t = true) tks -> existsb is_whitespace_tok tks = false.
Proof. induction 1 as [|t tks H _ IH]; [reflexivity|]. cbn. rewrite IH. destruct t; cbn in *; congruence. Qed.
Lemma find_tok_in tks t : In t tks -> find (fun u => token_eqb u t) tks = Some t.
Proof.
  induction tks as [|x ks IH]; [contradiction|]. cbn. destruct (token_eqb_spec x t) as [->|Hn]; [reflexivity|].
  intros [->|H]; [congruence|auto].
Qed.
Lemma find_tok_out tks t : ~ In t tks -> find (fun u => token_eqb u t) tks = None.
Proof.
  induction tks as [|x ks IH]; [reflexivity|]. cbn. intros H. destruct (token_eqb_spec x t) as [->|Hn]; [tauto|].
  apply IH. tauto.
Qed.
Lemma runs_peek_token_yes tks t ts rest : In t tks -> Forall (fun t => solid t = true) tks ->
  skipw ts = t :: rest -> delimited rest ->
  runs (peek_reserved_token fuel tks : prog _) ts (Some t) (t :: rest).
Proof.
  intros Hi Hs E D. unfold peek_reserved_token. destruct tks as [|x tks]; [contradiction|].
  rewrite (existsb_ws _ Hs). rstep. rewrite E. cbn [reserved_token_tries]. rstep.
  unfold reserved_token_try. cbn [look hd_error tl]. rewrite (find_tok_in _ _ Hi).
  cbn. destruct rest as [|t2 r]; cbn in *; [apply runs_ret|]. rewrite D. apply runs_ret.
Qed.
Lemma runs_peek_token_no tks ts : tks <> [] -> Forall (fun t => solid t = true) tks -> ~ at_token tks ts ->
  runs (peek_reserved_token fuel tks : prog _) ts None (skipw ts).
Proof.
  intros Hn Hs H. unfold peek_reserved_token. destruct tks as [|x tks]; [contradiction|].
  rewrite (existsb_ws _ Hs). rstep. cbn [reserved_token_tries]. rstep.
  unfold reserved_token_try. destruct (skipw ts) as [|t r] eqn:E; cbn [look].
  - apply runs_ret.
  - cbn [hd_error tl]. destruct (in_dec token_dec t (x :: tks)) as [Hi|Hi].
    + rewrite (find_tok_in _ _ Hi). cbn.
      assert (Hd : ~ delimited r) by (intros D; apply H; exists t, r; auto).
      destruct r as [|t2 r]; cbn in *; [exfalso; now apply Hd|].
      destruct (is_word_delimiter t2) eqn:D; [exfalso; now apply Hd|].
      rstep. rewrite <- E, skipw_idem. apply runs_ret.
    + rewrite (find_tok_out _ _ Hi). cbn. rstep. rewrite <- E, skipw_idem. apply runs_ret.
Qed.
Lemma runs_reserved_token tks t ts rest : In t tks -> Forall (fun t => solid t = true) tks ->
  skipw ts = t :: rest -> delimited rest ->
  runs (reserved_token_res fuel tks : prog _) ts (inl t) rest.
Proof.
  intros Hi Hs E D. unfold reserved_token_res. eapply runs_call; [eapply runs_peek_token_yes; eauto|].
  cbv beta match. rstep. apply runs_ret.
Qed.
End Runs.
