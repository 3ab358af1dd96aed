(** * The walk, for every public method *)
From Verif Require Import Base Token Pos Ast Builder Prog Iter Located IterProofs RunLemmas ParserBase BaseRun
  Balanced BalancedSpec BalancedProofs BalancedTotal Wp Arith WpArith Word WpWord
  Redirect WpRedirect Command WpCommand Entry.

Section EntryWp.
Context {B : builder} (am : ambient B).
Notation ok l := (Inv am l).
Notation wp := (wp am).

Lemma wp_brace_group_any fuel l : (forall p, TokAt am TCurlyOpen p) ->
  ok l -> (S (S (size l)) < fuel)%nat ->
  wp (p_brace_group B fuel) l (fun _ l' => dn am l l').
Proof.
  intros HT Hl Hf. unfold p_brace_group, brace_group. wstep. wstep. wstep.
  apply wp_reserved_token_any; [sz|auto|]. intros t l1 _ H1 H2.
  wstep. apply wp_dn.
  { eapply wp_command_group with (M := size l) (fuel := fuel); auto; [lia|]; intros; eapply knot_group; eauto. }
  intros g l2 H3 H4. wstep. apply wp_reserved_token_res_any; [sz|auto| |].
  - intros t' l3 _ H5 H6. wstep. split; [auto|lia].
  - intros e l3 _ _ _. apply wp_throw. split; [apply HT|]. split; [unfold opener; tauto|congruence].
Qed.

Lemma sdn_dn l l' : sdn am l l' -> dn am l l'.
Proof. intros [H1 H2]. split; auto. lia. Qed.

Lemma entry_nb_wp A P : entry_point_nb B A P -> forall fuel l,
  (keyword_entry B A P -> Direct am \/ ws_free (toks l)) -> ok l -> (S (S (size l)) < fuel)%nat -> wp (P fuel) l (fun _ l' => dn am l l').
Proof.
  intros HE fuel l Hd Hl Hf.
  pose proof (knot_group am fuel l Hf) as KG. pose proof (knot_param am fuel l Hf) as KP.
  set (M := size l) in *. assert (HM : (M + 2 < fuel)%nat) by lia.
  assert (S1 : forall X (p : prog (bst B) (b_err B) X), wp p l (fun _ l' => sdn am l l') -> wp p l (fun _ l' => dn am l l')).
  { intros X p H. eapply wp_mono; [exact H|]. intros a l'. apply sdn_dn. }
  assert (S2 : forall X (p : prog (bst B) (b_err B) (option X)), wp p l (fun r l' => some_lt am l r l') -> wp p l (fun _ l' => dn am l l')).
  { intros X p H. eapply wp_mono; [exact H|]. intros a l' [H1 _]. exact H1. }
  assert (W : forall w, wp (build (o_word B w)) l (fun _ l' => dn am l l')).
  { intros w. apply wp_build; [apply bk_word|]. intros; dnn. }
  destruct HE.
  - eapply wp_mono; [eapply wp_complete_command; eauto|]. intros a l' [[H _] _]. exact H.
  - apply S1. eapply wp_and_or_list; eauto.
  - apply S1. eapply wp_pipeline; eauto.
  - apply S1. eapply wp_command; eauto.
  - apply S1. eapply wp_simple_command; eauto.
  - eapply wp_redirect_list; eauto.
  - apply S2. eapply wp_redirect; eauto.
  - apply S1. eapply wp_redirect_heredoc; eauto.
  - eapply wp_mono; [eapply wp_word; eauto|]. intros a l' [[H _] _]. exact H.
  - apply S2. eapply wp_word_pres; eauto.
  - unfold p_backticked_command_substitution, backticked_command_substitution. wstep.
    apply wp_sdn; [eapply wp_backticked; eauto|]. intros w l1 H1 H2.
    apply wp_build; [apply bk_word|]. intros; dnn.
  - unfold p_parameter, parameter. wstep.
    apply wp_sdn; [eapply wp_parameter_raw; eauto; intros; [apply KG|apply KP]; auto; lia|]. intros w l1 H1 H2.
    apply wp_build; [apply bk_word|]. intros; dnn.
  - apply S1. eapply wp_do_group; eauto. apply Hd. constructor.
  - apply S1. eapply wp_subshell; eauto.
  - apply S1. eapply wp_compound_command; eauto.
  - apply S1. eapply wp_loop_command; eauto. apply Hd. constructor.
  - apply S1. eapply wp_if_command; eauto. apply Hd. constructor.
  - apply S1. eapply wp_for_command; eauto. apply Hd. constructor.
  - apply S1. eapply wp_case_command; eauto. apply Hd. constructor.
  - apply S2. eapply wp_maybe_function; eauto.
  - apply S1. eapply wp_function_declaration; eauto.
  - unfold p_skip_whitespace. wstep. dnn.
  - apply wp_linebreak; [sz|auto|]. intros. dnn.
  - apply wp_newline; [sz|auto| |]; intros; dnn.
  - apply wp_peek_reserved_token_any; [sz|auto|]. intros; dnn.
  - apply wp_peek_reserved_word; [sz|auto|]. intros; dnn.
  - apply wp_reserved_token_any; [sz|auto|]. intros; dnn.
  - destruct ws as [|w ws].
    + unfold p_reserved_word, reserved_word, peek_reserved_word. wstep. wstep. wstep. dnn.
    + apply wp_reserved_word; [sz|auto|discriminate| |]; intros; dnn.
  - unfold p_command_group, command_group. wstep. apply wp_dn.
    + apply wp_knot; auto; lia.
    + intros g l1 H1 H2. destruct (is_nil _); wstep. dnn.
  - eapply wp_arithmetic_substitution; [auto|lia].
Qed.

Lemma entry_wp A P : entry_point B A P -> (forall p, TokAt am TCurlyOpen p) -> Direct am -> forall fuel l,
  ok l -> (S (S (size l)) < fuel)%nat -> wp (P fuel) l (fun _ l' => dn am l l').
Proof.
  intros HE HT Hd fuel l Hl Hf. destruct HE.
  - apply entry_nb_wp; auto.
  - apply wp_brace_group_any; auto.
Qed.

Lemma wp_p_complete_command fuel l : ok l -> (S (S (size l)) < fuel)%nat ->
  wp (p_complete_command B fuel) l (fun r l' => some_lt am l r l' /\ (r = None -> toks l' = [])).
Proof.
  intros Hl Hf. eapply wp_complete_command with (M := size l); auto; [lia| |].
  - intros; eapply knot_group; eauto.
  - intros; eapply knot_param; eauto.
Qed.
End EntryWp.
