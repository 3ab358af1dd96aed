(** * C31: the parser with the default builder inverts a printer of the AST

    [Printer.v] writes a tree as shell source; here parsing that source gives the tree back, for all
    trees in normal form.  Nothing in the repository is a printer: this is a specification of the
    parser and the default builder together. *)
From Coq Require Import String.
From Verif Require Import Base Token Lexer Ast Builder Prog Iter Located Balanced ParserBase Arith Word Redirect Command
  DefaultBuilder Entry Total Api Pure Forms FormsTheorems Relex LexSpec LexTheorems Seams ArithTheorems Quotes Printer LexJoin
  RoundTripWord RoundTripCommand.
Local Open Scope N_scope.

Section RoundTrip.
Context {U : Uni}.

Fixpoint nf_word_sem w (H : nf_word w) {struct H} : W_sem w :=
  match H with
  | nfw x Hok Hh HO HC =>
      word_step x Hok Hh
        ((fix go l (F : Forall nf_operand l) {struct F} : Forall O_sem l :=
          match F with Forall_nil _ => Forall_nil _ | Forall_cons a Ha Fl => Forall_cons a (nf_operand_sem a Ha) (go _ Fl) end) _ HO)
        ((fix go l (F : Forall nf_cmd l) {struct F} : Forall C_sem l :=
          match F with Forall_nil _ => Forall_nil _ | Forall_cons a Ha Fl => Forall_cons a (nf_cmd_sem a Ha) (go _ Fl) end) _ HC)
  end
with nf_operand_sem w (H : nf_operand w) {struct H} : O_sem w :=
  match H with
  | nfo x Hok HO HC =>
      operand_step x Hok
        ((fix go l (F : Forall nf_operand l) {struct F} : Forall O_sem l :=
          match F with Forall_nil _ => Forall_nil _ | Forall_cons a Ha Fl => Forall_cons a (nf_operand_sem a Ha) (go _ Fl) end) _ HO)
        ((fix go l (F : Forall nf_cmd l) {struct F} : Forall C_sem l :=
          match F with Forall_nil _ => Forall_nil _ | Forall_cons a Ha Fl => Forall_cons a (nf_cmd_sem a Ha) (go _ Fl) end) _ HC)
  end
with nf_cmd_sem c (H : nf_cmd c) {struct H} : C_sem c :=
  match H with
  | nfc c Hok HW HC =>
      cmd_step c Hok
        ((fix go l (F : Forall nf_word l) {struct F} : Forall W_sem l :=
          match F with Forall_nil _ => Forall_nil _ | Forall_cons a Ha Fl => Forall_cons a (nf_word_sem a Ha) (go _ Fl) end) _ HW)
        ((fix go l (F : Forall nf_cmd l) {struct F} : Forall C_sem l :=
          match F with Forall_nil _ => Forall_nil _ | Forall_cons a Ha Fl => Forall_cons a (nf_cmd_sem a Ha) (go _ Fl) end) _ HC)
  end.

Lemma show_script_form cs : Forall nf_cmd cs -> script Bd Pd (mkCG cs []) (lex (show_script cs)).
Proof.
  intros H. assert (HC : Forall C_sem cs) by (eapply Forall_impl; [|exact H]; exact nf_cmd_sem).
  destruct (cmds_sem cs HC) as (ts & L & _ & _ & F). specialize (L [] I). unfold script, show_script.
  rewrite app_nil_r in L. rewrite L. apply F.
  - split; [|split]; cbn; easy.
  - now left.
  - split; [reflexivity|split; discriminate].
Qed.

(** C31: printing commands in normal form and parsing the source, with the iterator over
    [Parser::complete_command] and the default builder, yields exactly these commands and then the
    end of the input. *)
Theorem script_round_trip cs fuel : Forall nf_cmd cs -> (List.length (lex (show_script cs)) + 2 < fuel)%nat ->
  exists st, yields default_builder fuel (parser_iter_new default_builder (lex (show_script cs)) tt) cs st /\
    parser_iter_next concrete default_builder fuel st = (None, None).
Proof. intros H Hf. exact (script_read Bd Pd fuel (mkCG cs []) _ tt (show_script_form cs H) Hf). Qed.

(** One command; nothing is left unread. *)
Theorem command_round_trip c fuel : nf_cmd c -> (List.length (lex (show_cmd c)) + 2 < fuel)%nat ->
  exists s, run concrete (call default_builder ACompleteCommand fuel) (ti_new (lex (show_cmd c))) tt = (OOk (Some c), s, tt) /\
    tokens_left s = [].
Proof.
  intros H Hf. destruct (nf_cmd_sem c H) as (ts & L & _ & Bg & F). specialize (L [] I). rewrite app_nil_r in L. cbn in L. rewrite app_nil_r in L.
  specialize (F [] eq_refl ltac:(split; discriminate)). rewrite app_nil_r in F.
  destruct (Bg []) as (E & N & _). rewrite app_nil_r in *.
  destruct (begins_hd ts Bg) as (t & ts' & Et).
  eapply (complete_command_read Bd Pd fuel (ti_new (lex (show_cmd c))) tt (pr_new _ _ _) Hf [] c ts []); [|rewrite Et; discriminate|exact F].
  unfold tokens_left. cbn. rewrite L. apply newlines_none'. now split.
Qed.

(** A word, followed by a blank. *)
Theorem word_round_trip w fuel : nf_word w -> (List.length (lex (show_word w ++ s_of " ")) + 2 < fuel)%nat ->
  exists s, run concrete (call default_builder AWordPreserve fuel) (ti_new (lex (show_word w ++ s_of " "))) tt = (OOk (Some w), s, tt) /\
    tokens_left s = [TWhitespace (s_of " ")].
Proof.
  intros H Hf. destruct (word_sem w (nf_word_sem w H)) as (k & ts & Ed & [L T] & _ & _ & F & _).
  assert (El : lex (show_word w ++ s_of " ") = ts ++ [TWhitespace (s_of " ")]).
  { specialize (L [] I). rewrite app_nil_r in L. change (lex []) with (@nil token) in L; rewrite app_nil_r in L; exact L. }
  specialize (F [TWhitespace (s_of " ")] eq_refl).
  rewrite <- Ed, El in *.
  apply (word_read Bd Pd fuel (ti_new (ts ++ [TWhitespace (s_of " ")])) tt (pr_new _ _ _) Hf k _ _ F eq_refl).
Qed.

(** Hence two trees in normal form with the same source are equal: the printed form is unambiguous. *)
Theorem show_script_injective cs cs' : Forall nf_cmd cs -> Forall nf_cmd cs' -> show_script cs = show_script cs' -> cs = cs'.
Proof.
  intros H H' E. set (fuel := (List.length (lex (show_script cs)) + 3)%nat).
  destruct (script_round_trip cs fuel H ltac:(unfold fuel; lia)) as (st & Y & N).
  destruct (script_round_trip cs' fuel H' ltac:(rewrite <- E; unfold fuel; lia)) as (st' & Y' & N').
  rewrite <- E in Y'. clearbody fuel. clear -Y Y' N N'. remember (parser_iter_new _ _ _) as st0 eqn:E0. clear E0. revert cs' Y'. induction Y as [st|st c st1 cs st2 Hc Y IH]; intros cs' Y'; inversion Y'; subst.
  - reflexivity.
  - congruence.
  - congruence.
  - f_equal; [congruence|]. apply IH; [exact N|]. congruence.
Qed.

(** ** A tree in normal form *)
Section Example.
Local Open Scope string_scope.
Definition lit (s : string) : d_word := WSimple (WLiteral (s_of s)).
Definition w1 (f : d_word) : tlword := TLWord (WSingle f).
Definition cmd_of (vars : list (redirect_or_env_var d_redirect str tlword)) (args : list (redirect_or_cmd_word d_redirect tlword)) : d_pipeable :=
  PSimple (mkSC vars args).
Definition one (p : d_pipeable) : tlcmd := TLCmd (CList (mkAOL (LSingle p) [])).
Definition words (ws : list tlword) : d_pipeable := cmd_of [] (map DCmdWord ws).
(** [if test "${x:-a b}" ; then for i in a* ${#y} ; do x=1 2> log echo 'it is' $((1+2)) >& 2 ; done ;
    else f() { ! ls -l | wc && true & } ; fi ; case $( w ; ) in ( a | b ) ;; esac] *)
Definition example_script : list tlcmd :=
  [one (PCompound (mkCC (CIf
     [mkGB [one (words [w1 (lit "test"); w1 (WDoubleQuoted [WSubst (SDefault true (PmVar (s_of "x")) (Some (w1 (lit "a b"))))])])]
           [one (PCompound (mkCC (CFor (s_of "i") (Some [TLWord (WConcat [lit "a"; WSimple WStar]); w1 (WSimple (WSubst (SLen (PmVar (s_of "y")))))])
              [one (cmd_of [EEnvVar (s_of "x") (Some (w1 (lit "1"))); ERedirect (RWrite (Some 2) (w1 (lit "log")))]
                 [DCmdWord (w1 (lit "echo")); DCmdWord (w1 (WSingleQuoted (s_of "it is")));
                  DCmdWord (w1 (WSimple (WSubst (SArith (Some (AAdd (ALiteral 1) (ALiteral 2)))))));
                  DRedirect (RDupWrite None (w1 (lit "2")))])]) []))]]
     (Some [one (PFunctionDef (s_of "f") (mkCC (CBrace [TLCmd (CJob (mkAOL (LPipe true [words [w1 (lit "ls"); w1 (lit "-l")]; words [w1 (lit "wc")]])
        [And (LSingle (words [w1 (lit "true")]))]))]) []))])) []));
   one (PCompound (mkCC (CCase (w1 (WSimple (WSubst (SCommand [one (words [w1 (lit "w")])])))) [mkPB [w1 (lit "a"); w1 (lit "b")] []]) []))].

Lemma no_equals w : ~ In 61%N (show_word w) -> not_assignment w.
Proof. intros H v r _ E. apply H. rewrite E, in_app_iff. right. now left. Qed.
Ltac chars := repeat (apply Forall_cons || apply Forall_nil); repeat split; (reflexivity || discriminate || (cbn; intuition discriminate)).
Ltac nf :=
  repeat (cbn -[identifier not_assignment not_reserved text_of In not_before lexable awf ok_command ok_complex]; match goal with
  | |- nf_cmd _ => constructor
  | |- nf_word _ => constructor
  | |- nf_operand _ => constructor
  | |- Forall _ _ => constructor
  | |- text_of _ _ => split; [discriminate|chars]
  | |- not_assignment _ => apply no_equals; cbn; intuition discriminate
  | |- not_reserved _ => split; cbn; intuition discriminate
  | |- ~ _ => cbn; intuition (discriminate || congruence)
  | |- _ /\ _ => split
  | |- True => exact I
  | |- _ <> _ => discriminate
  | |- (_ <= _)%nat => lia
  | |- (_ < _)%N => reflexivity
  | |- lexable (TName ?v) => apply (lex_lexable v); vm_compute; now left
  | |- identifier ?v => apply (lex_lexable v); vm_compute; now left
  | |- (_ <= _)%Z => lia
  | |- (_ < _)%Z => lia
  | |- ok_pipeable _ => progress unfold ok_pipeable, words, cmd_of
  | |- ok_sc _ => split
  | |- ok_compound _ => split
  | |- awf _ => cbn [awf]
  | |- ok_command _ => unfold ok_command, cmd_pipeables, listables
  | |- ok_complex _ _ => unfold ok_complex, ok_frag
  | |- _ -> _ => intro
  end).
Example example_nf : Forall nf_cmd example_script.
Proof.
  nf. left. repeat constructor; discriminate.
Qed.
(** Its source, and the theorem applied to it. *)
Example example_source : show_script example_script = s_of
  "if test ""${x:-a b}"" ; then for i in a* ${#y} ; do x=1 2> log echo 'it is' $(( 1 + 2)) >& 2 ; done ; else f() { ! ls -l | wc && true & } ; fi ; case $( w ; ) in ( a | b ) ;; esac ; ".
Proof. vm_compute. reflexivity. Qed.
Example example_round_trip : exists st,
  yields default_builder 1000 (parser_iter_new default_builder (lex (show_script example_script)) tt) example_script st /\
  parser_iter_next concrete default_builder 1000 st = (None, None).
Proof.
  apply script_round_trip; [exact example_nf|].
  assert (E : List.length (lex (show_script example_script)) = 140%nat) by (vm_compute; reflexivity). rewrite E. lia.
Qed.
End Example.
End RoundTrip.
