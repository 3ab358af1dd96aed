(** * C14: which inputs hold no command *)
From Coq Require Import String.
From Verif Require Import Base Token Lexer Pos Ast Builder Prog Iter Located IterProofs RunLemmas ParserBase
  BaseRun Balanced Arith Word Redirect Command Wp Entry EntryWp Total DefaultBuilder.

(** Blanks, escaped newlines, newlines, and comments, each of which ends at a newline or at the
    end of the input. *)
Inductive blank_input : list token -> Prop :=
  | bi_nil : blank_input []
  | bi_blank w ts : blank_input ts -> blank_input (TWhitespace w :: ts)
  | bi_escaped ts : blank_input ts -> blank_input (TBackslash :: TNewline :: ts)
  | bi_newline ts : blank_input ts -> blank_input (TNewline :: ts)
  | bi_comment c ts : ~ In TNewline c -> blank_input ts -> blank_input (TPound :: c ++ TNewline :: ts)
  | bi_comment_end c : ~ In TNewline c -> blank_input (TPound :: c).

Lemma blank_skip n : forall ts, (length ts <= n)%nat ->
  blank_input (map fst (skip_ws ts)) <-> blank_input (map fst ts).
Proof.
  induction n as [|n IH]; intros ts Hn.
  - destruct ts; [reflexivity|simpl in Hn; lia].
  - destruct ts as [|[t p] ts]; [reflexivity|]. simpl in Hn. rewrite skip_ws_eq.
    destruct t; try reflexivity.
    + destruct ts as [|[t2 p2] ts]; [reflexivity|].
      destruct (token_eqb_spec t2 TNewline) as [->|]; [|reflexivity].
      rewrite IH by (simpl in Hn; lia). simpl. split; intros H; [constructor; auto|inversion H; auto].
    + rewrite IH by lia. simpl. split; intros H; [constructor; auto|inversion H; auto].
Qed.

Lemma split_line_spec ts :
  (~ In TNewline (map fst ts) /\ split_line ts = (map fst ts, [])) \/
  (exists a p b, ts = a ++ (TNewline, p) :: b /\ ~ In TNewline (map fst a) /\ split_line ts = (map fst a, b)).
Proof.
  induction ts as [|[t p] ts IH]; [left; simpl; auto|]. simpl.
  destruct (token_eqb_spec t TNewline) as [->|Ht].
  - right. exists [], p, ts. simpl. auto.
  - destruct IH as [[H1 H2]|(a & q & b & -> & H1 & H2)]; rewrite H2.
    + left. split; auto. intros [H|H]; congruence.
    + right. exists ((t, p) :: a), q, b. simpl. split; auto. split; auto. intros [H|H]; congruence.
Qed.

Lemma app_newline_inj (a b c d : list token) : ~ In TNewline a -> ~ In TNewline c ->
  a ++ TNewline :: b = c ++ TNewline :: d -> a = c /\ b = d.
Proof.
  revert c; induction a as [|x a IH]; intros [|y c] Ha Hc E; simpl in *.
  - split; congruence.
  - injection E as <- _. tauto.
  - injection E as -> _. tauto.
  - injection E as <- E. destruct (IH c) as [-> ->]; auto.
Qed.

Lemma nl_blank ts x r : nl ts = Some (x, r) ->
  blank_input (map fst r) <-> blank_input (map fst ts).
Proof.
  unfold nl. rewrite <- (blank_skip _ ts (le_n _)).
  destruct (skip_ws ts) as [|[t p] u]; [discriminate|]. destruct t; try discriminate.
  - intros [= <- <-]. simpl. split; intros H; [constructor; auto|inversion H; auto].
  - cbn [split_line token_eqb]. cbn [map fst].
    replace (token_eqb TPound TNewline) with false by reflexivity.
    destruct (split_line_spec u) as [[H1 H2]|(a & q & b & -> & H1 & H2)]; rewrite H2; intros [= <- <-].
    + simpl. split; intros H; [constructor; auto|constructor].
    + rewrite map_app. simpl. split; intros H; [constructor; auto|].
      inversion H as [| | | |c ts' Hc Hb E|c Hc E]; subst.
      * destruct (app_newline_inj _ _ _ _ Hc H1 E) as [-> ->]. exact Hb.
      * exfalso. apply Hc. apply in_or_app. simpl. auto.
Qed.

Lemma linebreaks_blank ts xs r : linebreaks ts xs r -> (r = [] <-> blank_input (map fst ts)).
Proof.
  induction 1 as [ts Hn|ts x r xs r' Hn Hl IH].
  - rewrite <- (blank_skip _ ts (le_n _)). split; [intros ->; constructor|].
    intros H. unfold nl in Hn. pose proof (skip_ws_free ts) as F. unfold ws_free in F.
    destruct (skip_ws ts) as [|[t p] u]; [reflexivity|exfalso].
    pose proof (skip_ws_length u) as L. pose proof (f_equal (@length _) F) as F2.
    rewrite skip_ws_eq in F2. destruct t; try discriminate Hn; try (solve [inversion H]).
    + simpl in *. destruct (split_line u). discriminate.
    + destruct u as [|[t2 p2] u]; simpl in H; [inversion H|]. inversion H; subst.
      simpl in F2. pose proof (skip_ws_length u). lia.
    + simpl in *. lia.
  - rewrite <- (nl_blank _ _ _ Hn). exact IH.
Qed.

Section C14.
Variable B : builder.

(** C14: no command is found exactly when the input is blank, and then all of it has been read;
    if the input is blank and has comments or newlines these are given to the builder, whose
    failure, if any, is the result. *)
Theorem no_command_iff_blank fuel s b : parser_reach B s b ->
  (length (tokens_left s) + 2 < fuel)%nat ->
  forall o s' b', run concrete (p_complete_command B fuel) s b = (o, s', b') ->
  (o = OOk None -> blank_input (tokens_left s) /\ tokens_left s' = []) /\
  (blank_input (tokens_left s) -> tokens_left s' = [] /\
     (o = OOk None \/ exists xs e, o_comments B xs b = (inr e, b') /\ o = OErr (Custom e))).
Proof.
  intros HR Hf o s' b' E. pose proof (parser_reach_good _ _ _ HR) as G.
  pose proof (run_transfer (p_complete_command B fuel) s b G) as T. rewrite E in T. destruct T as [T G'].
  pose proof (wp_p_complete_command (am_total B True True) fuel (abs s) (conj (fun _ => I) (or_intror I))
                ltac:(rewrite size_left; lia) b I) as W.
  rewrite <- (tokens_left_abs s), <- (tokens_left_abs s').
  rewrite <- size_left in Hf. clear E HR G G'. revert T W Hf. generalize (abs s') as l'.
  destruct (abs s) as [ts e] eqn:El. intros l' T W Hf. unfold lrun in W. rewrite T in W.
  destruct (linebreaks_total ts) as (xs & r & Hl). pose proof (linebreaks_blank _ _ _ Hl) as Hb.
  cbn [toks] in *. fold (@lrun (bst B) (b_err B) (option (b_cmd B))) in T.
  assert (L : lrun (p_complete_command B fuel) (mkL ts e) b = (o, l', b')) by exact T. clear T.
  unfold p_complete_command, complete_command in L.
  rewrite lrun_bind, (lrun_linebreak fuel ts e b xs r ltac:(unfold size in Hf; simpl in Hf; lia) Hl), lrun_bind, lrun_peek in L.
  destruct r as [|[t p] r].
  - cbn [l_hd toks map hd_error] in L. destruct (is_nil xs) eqn:Ex.
    + rewrite lrun_ret in L. injection L as <- <- <-. cbn [toks map]. rewrite <- Hb. split; auto.
    + rewrite lrun_bind, lrun_build in L. destruct (o_comments B xs b) as [[u|e'] b2] eqn:Eo.
      * rewrite lrun_ret in L. injection L as <- <- <-. cbn [toks map]. rewrite <- Hb. split; auto.
      * injection L as <- <- <-. cbn [toks map]. split; [discriminate|]. intros _. split; auto.
        right. eauto.
  - split.
    + intros ->. exfalso. clear W. unfold l_hd in L. cbn [toks map fst hd_error] in L. rewrite lrun_bind in L.
      destruct (lrun _ _ _) as [[o2 l2] b2] in L. destruct o2; try discriminate; rewrite ?lrun_ret in L; discriminate.
    + intros H. apply Hb in H. discriminate.
Qed.
End C14.

(** A blank input with everything in it; and what the theorem says of it is not vacuous. *)
Example blank_witness : blank_input (@lex (fun _ => false)
  (s_of "  \" ++ [c_newline] ++ s_of " # it's $(a" ++ [c_newline; c_newline] ++ s_of " #x")).
Proof.
  vm_compute. repeat first [apply bi_blank|apply bi_escaped|apply bi_newline].
  match goal with |- blank_input (TPound :: ?l) =>
    match l with context C [TNewline :: ?r] => let a := context C [@nil token] in
      change l with (a ++ TNewline :: r) end end.
  apply bi_comment; [simpl; intuition discriminate|].
  repeat first [apply bi_blank|apply bi_escaped|apply bi_newline].
  apply bi_comment_end. simpl. intuition discriminate.
Qed.
