(** * The end of the input (C45) *)
From Coq Require Import String.
From Verif Require Import Base Token Lexer Pos Ast Builder Prog Iter Located IterProofs RunLemmas ParserBase
  BaseRun Balanced BalancedSpec BalancedProofs BalancedTotal Wp Arith Word WpWord Redirect Command
  Entry EntryWp DefaultBuilder EmptyBuilder Total Api.

(** The errors that say that the input ended too early.  ([Unmatched] of a brace is not one of
    them: it is also what a brace group reports when it meets another token than its [}].) *)
Definition says_ended {E} (e : perr E) : Prop :=
  match e with
  | UnexpectedEOF => True
  | Unmatched t _ => t <> TCurlyOpen
  | _ => False
  end.

Section Ended.
Variable B : builder.
Variable ts0 : list token.
Hypothesis no_hd : forall t, In t ts0 -> ~ heredoc_op t.
Hypothesis no_tick : ~ In TBacktick ts0.
Definition am_eof : ambient B.
Proof.
  refine (mkAmbient B (fun l => incl (map fst (toks l)) ts0) (fun _ _ => True) (fun _ => True)
    (fun l => toks l = []) False True (fun _ => True) True (fun _ => True) (fun _ _ => True) _ _ _ _ _ _ _ _ _ _ _ (builder_ok_any B)).
  - intros pre ts e HI t Ht. apply HI. cbn [toks] in *. rewrite map_app. apply in_or_app. auto.
  - auto.
  - auto.
  - intros l t p HI Ht Hh. apply (no_hd t); [|exact Hh]. apply HI. apply in_map_iff. exists (t, p). auto.
  - intros [].
  - intros [].
  - auto.
  - auto.
  - intros q0 body q rest e sub HI. destruct no_tick. apply HI. now left.
  - reflexivity.
  - intros q0 ts e HI. destruct no_tick. apply HI. now left.
Defined.
End Ended.

(** C45: on a stream without here-document operators and without backquotes, in any state of the parser
    and with any builder, a method that reports that the input ended has read all of it. *)
Theorem ended_means_end_partial B m fuel s b : parser_reach B s b ->
  (forall t, In t (tokens_left s) -> ~ heredoc_op t) -> ~ In TBacktick (tokens_left s) ->
  (List.length (tokens_left s) + 2 < fuel)%nat -> forall e s' b',
  run concrete (call B m fuel) s b = (OErr e, s', b') -> says_ended e -> tokens_left s' = [].
Proof.
  intros HR Hh Ht Hf e s' b' E He.
  pose proof (entry_wp (am_eof B (tokens_left s) Hh Ht) _ (call B m) (call_entry B m) (fun _ => I) I fuel (abs s)) as W.
  assert (Hok : incl (map fst (toks (abs s))) (tokens_left s)) by (rewrite tokens_left_abs; apply incl_refl).
  specialize (W Hok ltac:(rewrite size_left; lia) b I).
  pose proof (run_transfer (call B m fuel) s b (parser_reach_good _ _ _ HR)) as T. rewrite E in T. destruct T as [T _].
  unfold lrun in W. rewrite T in W. rewrite <- tokens_left_abs.
  assert (X : toks (abs s') = []); [|now rewrite X].
  destruct e; try contradiction; destruct W as [_ [[]|W]]; cbn in W, He; [now apply W|exact W].
Qed.

(** A case: the lists end before their last commands. *)
Example ended_witness (U : Uni) :
  let s := ti_new (@lex U (s_of "a | { b && ")) in
  (forall t, In t (tokens_left s) -> ~ heredoc_op t) /\ ~ In TBacktick (tokens_left s) /\
  match run concrete (call default_builder ACompleteCommand 60) s tt with
  | (OErr UnexpectedEOF, s', _) => tokens_left s' = []
  | _ => False
  end.
Proof.
  cbn zeta. split; [|split].
  - unfold heredoc_op. intros t H. vm_compute in H. repeat (destruct H as [<-|H]; [intros [|]; discriminate|]). contradiction.
  - intros H. vm_compute in H. repeat (destruct H as [H|H]; [discriminate|]). contradiction.
  - vm_compute. reflexivity.
Qed.

(** Refuted with backquotes: the end of the text between them is reported as the end of the input. *)
Theorem ended_means_end_backquotes_refuted (U : Uni) :
  match run concrete (call default_builder ACompleteCommand 60) (ti_new (@lex U (s_of "`a &&` b"))) tt with
  | (OErr UnexpectedEOF, s', _) => tokens_left s' = [TWhitespace (s_of " "); TName (s_of "b")]
  | _ => False
  end.
Proof. vm_compute. reflexivity. Qed.
