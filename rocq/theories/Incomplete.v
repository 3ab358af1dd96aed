(** * Errors for incomplete commands (C34) *)
From Coq Require Import String.
From Verif Require Import Base Token Lexer Pos Ast Builder Prog Iter Located IterProofs LexTheorems RunLemmas
  ParserBase BaseRun Balanced BalancedSpec BalancedProofs BalancedTotal Wp Arith Word Redirect Command
  Entry EntryWp Total Api Runs ErrorPos DefaultBuilder.

(** The keywords each command cannot do without. *)
Definition needs (cmd kw : str) : Prop :=
  In (cmd, kw) [(s_of "do", s_of "done"); (s_of "while", s_of "do"); (s_of "if", s_of "then"); (s_of "if", s_of "fi");
                (s_of "for", s_of "in"); (s_of "for", s_of "do"); (s_of "case", s_of "in"); (s_of "case", s_of "esac")].
(** The word [w] is written in the source at [p]. *)
Definition word_at (src : str) (w : str) (p : spos) : Prop :=
  exists before after, src = before ++ w ++ after /\ p = text_pos before.

(** C34: the error names a command and a keyword that this command needs; the command's own keyword is
    written at the first position it reports; the second is a position of the source.  Two exceptions:
    an [until] loop is named [while], and when the method of a compound command is called by itself
    before blanks, the first position is that of the blanks. *)
Theorem incomplete_names_command_partial U B src (Hhd : forall t, In t (@lex U src) -> ~ heredoc_op t)
    (Htick : plain_backticks (@lex U src)) A P fuel s b cmd p kw q s' b' :
  parser_succeeds B (@lex U src) s b -> entry_point_nb B A P ->
  (List.length (tokens_left s) + 2 < fuel)%nat ->
  run concrete (P fuel) s b = (OErr (IncompleteCmd cmd p kw q), s', b') ->
  needs cmd kw /\ position_in src q /\
  (word_at src cmd p
   \/ (cmd = s_of "while" /\ word_at src (s_of "until") p)
   \/ (keyword_entry B A P /\ skipw (tokens_left s) <> tokens_left s /\ exists t, written_at src t p /\ blank_start t)).
Proof.
  intros HS HE Hf E. pose proof (error_positions_denote U B src Hhd Htick A P fuel s b _ s' b' HS HE Hf E) as [_ Hq].
  destruct (succeeds_inv _ _ _ _ Hhd Htick HS) as [G HI].
  pose proof (entry_src B _ pos_new Hhd Htick A P fuel s b HE G HI Hf) as W. rewrite E in W.
  destruct W as [_ ((_ & t & Ht & W) & _ & Hn)]. cbn [TokAt am_src Direct] in *.
  split; [exact Hn|]. split; [exact Hq|].
  apply located_written in Ht.
  assert (SP : forall w, spells w t -> word_at src w p) by (intros w [-> | ->]; exact Ht).
  destruct W as [[[Hk Hw] Hb]|[W|[-> W]]]; auto. right. right. split; [exact Hk|].
  split; [|eauto]. rewrite <- tokens_left_abs. intros E2. apply Hw.
  destruct (skip_ws_suffix (toks (abs s))) as [pre Ep]. destruct pre as [|x pre]; [now symmetry|]. exfalso.
  apply (f_equal (@List.length token)) in E2. rewrite <- skipw_skip_ws, map_length, map_length in E2.
  apply (f_equal (@List.length _)) in Ep. rewrite app_length in Ep. simpl in Ep. lia.
Qed.

(** The command named is not always the one being parsed: an [until] loop. *)
Theorem incomplete_names_command_refuted (U : Uni) :
  exists src s' , run concrete (p_complete_command default_builder 60) (ti_new (@lex U src)) tt
      = (OErr (IncompleteCmd (s_of "while") (mkPos 0 1 1) (s_of "do") (mkPos 11 1 12)), s', tt)
    /\ src = s_of "until a; b;".
Proof. exists (s_of "until a; b;"). eexists. split; [|reflexivity]. vm_compute. reflexivity. Qed.

(** Cases: a missing [fi] inside a brace group on the second line, and a method called before blanks. *)
Definition inc_src : str := s_of "foo" ++ [c_newline] ++ s_of "{ if a; then b; }".
Example incomplete_witness (U : Uni) :
  (forall t, In t (@lex U inc_src) -> ~ heredoc_op t) /\ plain_backticks (@lex U inc_src) /\
  exists c s s', run concrete (p_complete_command default_builder 60) (ti_new (@lex U inc_src)) tt = (OOk (Some c), s, tt) /\
    run concrete (p_complete_command default_builder 60) s tt
      = (OErr (IncompleteCmd (s_of "if") (mkPos 6 2 3) (s_of "fi") (mkPos 21 2 18)), s', tt).
Proof.
  split; [|split].
  - unfold heredoc_op. intros t H. vm_compute in H. repeat (destruct H as [<-|H]; [intros [|]; discriminate|]). contradiction.
  - apply few_backticks_plain. vm_compute. lia.
  - eexists _, _, _. split; [vm_compute; reflexivity|]. vm_compute. reflexivity.
Qed.
