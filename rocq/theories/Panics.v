(** * C11: which sources cannot make the parser panic

    [parser_never_panics_partial] (Total.v) leaves one panic site, reached only with a here-document operator.
    Here: it is not reached either unless, blanks aside, the input ends in a backslash, or has a backslash
    before a backquote or another backslash (and backquotes at all). *)
From Coq Require Import String.
From Verif Require Import Base Token Lexer LexSpec LexTheorems Pos Ast Builder Prog Iter Located IterProofs RunLemmas
  ParserBase Wp Arith Word Redirect Command Entry EntryWp Api Total DefaultBuilder EmptyBuilder.

(** A source is safe: it has no backquote (96), and its last character that is not a blank is no backslash. *)
Definition safe_source (src : str) : Prop :=
  ~ In 96%N src /\
  forall before after, src = before ++ backslash :: after -> exists c, In c after /\ ~ blank c.

Section Panics.
Variable B : builder.

(** In any state a parser can reach, if what is left to read is settled, no method panics. *)
Theorem settled_never_panics_partial m fuel s b : parser_reach B s b -> settled (tokens_left s) ->
  (List.length (tokens_left s) + 2 < fuel)%nat ->
  forall x s' b', run concrete (call B m fuel) s b <> (OPanic x, s', b').
Proof.
  intros HR HS Hf x s' b' E.
  pose proof (entry_total_at B _ _ True False fuel s b (call_entry B m) (parser_reach_good _ _ _ HR) (fun _ => I)
                (or_introl HS) Hf) as T.
  rewrite E in T. tauto.
Qed.

(** A method that succeeds leaves a settled rest. *)
Lemma settled_preserved m fuel s b : parser_reach B s b -> settled (tokens_left s) ->
  (List.length (tokens_left s) + 2 < fuel)%nat ->
  forall x s' b', run concrete (call B m fuel) s b = (OOk x, s', b') -> settled (tokens_left s').
Proof.
  intros HR HS Hf x s' b' E.
  pose proof (entry_total_at B _ _ True False fuel s b (call_entry B m) (parser_reach_good _ _ _ HR) (fun _ => I)
                (or_introl HS) Hf) as T.
  rewrite E in T. tauto.
Qed.

Lemma yields_settled fuel cs : forall st0 st s b, yields B fuel st0 cs st -> st0 = Some (s, b) -> parser_reach B s b ->
  settled (tokens_left s) -> (List.length (tokens_left s) + 2 < fuel)%nat ->
  exists s' b', st = Some (s', b') /\ parser_reach B s' b' /\ settled (tokens_left s') /\
    (List.length (tokens_left s') + 2 < fuel)%nat.
Proof.
  induction cs as [|c cs IH]; intros st0 st s b H E HR HS Hf; inversion H as [|? ? st1 ? ? Hn Hy]; subst.
  - eauto 6.
  - unfold parser_iter_next in Hn.
    destruct (run concrete (p_complete_command B fuel) s b) as [[o s1] b1] eqn:ER.
    destruct o as [[c'|]|e|x|]; try discriminate. injection Hn as <- <-.
    assert (HR1 : parser_reach B s1 b1) by (eapply pr_call; [apply (call_entry B ACompleteCommand)|exact HR|exact ER]).
    apply (IH _ _ s1 b1 Hy eq_refl HR1).
    + exact (settled_preserved ACompleteCommand fuel s b HR HS Hf _ _ _ ER).
    + pose proof (complete_command_progress B fuel s b c' s1 b1 HR Hf ER). lia.
Qed.

(** Iterating over a safe source never panics, here-documents or not. *)
Theorem safe_source_never_panics_partial (U : Uni) src b fuel cs st : safe_source src ->
  (List.length (lex src) + 2 < fuel)%nat ->
  yields B fuel (parser_iter_new B (lex src) b) cs st ->
  forall x st', parser_iter_next concrete B fuel st <> (Some (OPanic x), st').
Proof.
  intros [H1 H2] Hf HY x st' E.
  assert (HS : settled (lex src)).
  { pose proof (lex_lossless src) as Ht.
    assert (HB : forall w, In (TWhitespace w) (lex src) -> Forall blank w).
    { clear. pose proof (lex_Lexes src) as H.
      induction H as [|t s ts Ho _ _ IH|w s ts _ Hw _ _ IH|c w s ts _ _ _ _ IH|c w s ts _ _ _ _ _ IH| |c t s ts _ IH1 _ IH];
        intros w' Hi; cbn in Hi; try contradiction.
      - destruct Hi as [->|Hi]; [destruct Ho|auto].
      - destruct Hi as [[= <-]|Hi]; auto.
      - destruct Hi as [Hi|Hi]; [discriminate|auto].
      - destruct Hi as [Hi|Hi]; [discriminate|auto].
      - destruct Hi as [Hi|[]]; discriminate.
      - destruct Hi as [Hi|[->|Hi]]; [discriminate| |auto]. apply IH1. now left. }
    split.
    - intros a Ea.
      assert (D : forall ts a, (forall w, In (TWhitespace w) ts -> Forall blank w) -> inked ts = a ++ [TBackslash] ->
        exists x y, ts = x ++ TBackslash :: y /\ inked y = []).
      { clear. induction ts as [|t ts IH]; intros a HB E; [destruct a; discriminate|].
        destruct (blank_or t) as [[w ->]|N].
        - destruct (IH a) as (x & y & -> & Hy); [intros; apply HB; now right|exact E|]. now exists (TWhitespace w :: x), y.
        - rewrite inked_cons in E by exact N. destruct a as [|u a].
          + injection E as -> E. now exists [], ts.
          + injection E as -> E. destruct (IH a) as (x & y & -> & Hy); [intros; apply HB; now right|exact E|].
            now exists (u :: x), y. }
      destruct (D _ _ HB Ea) as (x0 & y & El & Ey). clear D Ea a.
      destruct (H2 (concat_tokens x0) (concat_tokens y)) as (c & Hc & Hb).
      { rewrite <- Ht, El. unfold concat_tokens. now rewrite flat_map_app. }
      apply Hb. unfold concat_tokens in Hc. apply in_flat_map in Hc. destruct Hc as (t & Hi & Hc).
      destruct (blank_or t) as [[w ->]|N].
      + assert (F : Forall blank w) by (apply HB; rewrite El; apply in_or_app; right; now right).
        rewrite Forall_forall in F. apply F, Hc.
      + apply in_inked in Hi; [|exact N]. rewrite Ey in Hi. contradiction.
    - left. intros Hi. apply H1. rewrite <- Ht. unfold concat_tokens. apply in_flat_map. exists TBacktick.
      split; [exact Hi|now left]. }
  destruct (yields_settled fuel cs _ st (ti_new (lex src)) b HY eq_refl (pr_new _ _ _) HS Hf)
    as (s & b' & -> & HR & HS' & Hf').
  unfold parser_iter_next in E.
  destruct (run concrete (p_complete_command B fuel) s b') as [[o s1] b1] eqn:ER.
  destruct o as [[c'|]|e|y|]; try discriminate.
  exact (settled_never_panics_partial ACompleteCommand fuel s b' HR HS' Hf' _ _ _ ER).
Qed.
End Panics.

(** A case that meets the hypotheses: here-documents with backslashes in their bodies. *)
Section Witness.
#[local] Instance some_uni : Uni := fun _ => false.
Definition safe_example : str :=
  s_of "cat <<A - <<-B \x" ++ [c_newline] ++ s_of "foo\" ++ [c_newline] ++ s_of "A" ++ [c_newline] ++
  s_of "b \\ $(c \ " ++ [c_newline] ++ s_of ")\".
Example safe_witness : settled (lex (safe_example ++ [c_newline])) /\
  exists c s, run concrete (p_complete_command default_builder 60) (ti_new (lex (safe_example ++ [c_newline]))) tt
    = (OOk (Some c), s, tt).
Proof.
  split.
  - split; [|left; vm_compute; intuition discriminate].
    intros a E. apply (f_equal (@rev token)) in E. rewrite rev_app_distr in E. vm_compute in E. discriminate E.
  - assert (X : match run concrete (p_complete_command default_builder 60) (ti_new (lex (safe_example ++ [c_newline]))) tt with
                | (OOk (Some _), _, tt) => True | _ => False end) by (vm_compute; exact I).
    destruct (run _ _ _ _) as [[[[c|]|?|?|] s] []]; try contradiction. eauto.
Qed.
(** None of the conditions can be dropped: a backslash at the end; one followed by a tab, which [<<-]
    strips; one doubled before a backquote. *)
Definition panics (src : str) : Prop :=
  exists s, run concrete (p_complete_command default_builder 60) (ti_new (lex src)) tt = (OPanic PS_interp_escaped, s, tt).
Example panics_end : panics (s_of "cat <<A" ++ [c_newline] ++ s_of "foo\").
Proof. eexists. vm_compute. reflexivity. Qed.
Example panics_blank : panics (s_of "cat <<-A" ++ [c_newline] ++ s_of "foo\" ++ [c_tab]).
Proof. eexists. vm_compute. reflexivity. Qed.
Example panics_backquote : panics (s_of "echo `cat <<A" ++ [c_newline] ++ s_of "foo\\`").
Proof. eexists. vm_compute. reflexivity. Qed.
End Witness.
