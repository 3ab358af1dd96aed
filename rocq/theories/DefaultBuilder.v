(** * The default AST builder (src/ast/builder/default_builder.rs) *)
From Coq Require Import String.
From Verif Require Import Base Token Ast Builder.

(** ** [Coalesce] and [compress] *)
Section Coalesce.
Context {A : Type}.
Variable func : A -> A -> A + (A * A).   (* CoalesceResult: Ok(combined) or Err((left, right)) *)

(** default_builder.rs 739-755: the inner loop of [Coalesce::next]: the yielded item, the new
    [cur], the rest of the inner iterator. *)
Fixpoint coalesce_loop (left right : A) (iter : list A) : A * option A * list A :=
  match func left right with
  | inl combined =>
      match iter with
      | nxt :: iter' => coalesce_loop combined nxt iter'
      | [] => (combined, None, [])
      end
  | inr (l, r) => (l, Some r, iter)
  end.

(** default_builder.rs 731-756: [Coalesce::next]; the state is [(cur, iter)]. *)
Definition coalesce_next (s : option A * list A) : option A * (option A * list A) :=
  let '(cur, iter) := s in
  let '(cur, iter) :=
    match cur with
    | Some c => (Some c, iter)
    | None => match iter with x :: iter' => (Some x, iter') | [] => (None, []) end
    end in
  match cur, iter with
  | Some l, r :: iter' =>
      match coalesce_loop l r iter' with
      | (x, cur', iter'') => (Some x, (cur', iter''))
      end
  | Some l, [] => (Some l, (None, []))
  | None, l :: iter' => (Some l, (None, iter'))
  | None, [] => (None, (None, []))
  end.

(** [Coalesce::new(iter, func).collect()]: call [next] until it yields [None].  [fuel] bounds the
    number of calls; [coalesce] gives enough ([Compress.v]). *)
Fixpoint coalesce_collect (fuel : nat) (s : option A * list A) : list A :=
  match fuel with
  | O => []
  | S f =>
      match coalesce_next s with
      | (Some x, s') => x :: coalesce_collect f s'
      | (None, _) => []
      end
  end.
Definition coalesce (l : list A) : list A := coalesce_collect (S (List.length l)) (None, l).
End Coalesce.

Section Compress.
Context {C : Type}.

(** default_builder.rs 766-777: [coalesce_simple]. *)
Definition coalesce_simple (a b : swk C) : swk C + (swk C * swk C) :=
  match a, b with
  | KLiteral a, KLiteral b => inl (KLiteral (a ++ b))
  | a, b => inr (a, b)
  end.

(** default_builder.rs 779-794: [coalesce_word]. *)
Definition coalesce_word (a b : wk C) : wk C + (wk C * wk C) :=
  match a, b with
  | KSimple a, KSimple b =>
      match coalesce_simple a b with
      | inl c => inl (KSimple c)
      | inr (a, b) => inr (KSimple a, KSimple b)
      end
  | KSingleQuoted a, KSingleQuoted b => inl (KSingleQuoted (a ++ b))
  | KDoubleQuoted a, KDoubleQuoted b => inl (KDoubleQuoted (coalesce coalesce_simple (a ++ b)))
  | a, b => inr (a, b)
  end.

(** default_builder.rs 761-810: [compress]. *)
Definition compress (w : cwk C) : cwk C :=
  match w with
  | KSingle (KDoubleQuoted v) => KSingle (KDoubleQuoted (coalesce coalesce_simple v))
  | KSingle s => KSingle s
  | KConcat v =>
      match coalesce coalesce_word v with
      | [s] => KSingle s
      | body => KConcat body
      end
  end.

(** How deeply words are nested through substitutions: bounds the recursion of [word]. *)
Fixpoint swk_depth (s : swk C) : nat :=
  match s with KSubst p => psk_depth p | _ => 0 end
with wk_depth (w : wk C) : nat :=
  match w with
  | KSimple s => swk_depth s
  | KDoubleQuoted l => list_max (map swk_depth l)
  | KSingleQuoted _ => 0
  end
with cwk_depth (w : cwk C) : nat :=
  match w with
  | KConcat l => list_max (map wk_depth l)
  | KSingle w => wk_depth w
  end
with psk_depth (p : psk C) : nat :=
  match p with
  | KSCommand _ | KSLen _ | KSArith _ => 0
  | KSDefault _ _ w | KSAssign _ _ w | KSError _ _ w | KSAlternative _ _ w
  | KSRemoveSmallestSuffix _ w | KSRemoveLargestSuffix _ w
  | KSRemoveSmallestPrefix _ w | KSRemoveLargestPrefix _ w =>
      match w with Some w => S (cwk_depth w) | None => 0 end
  end.
End Compress.

(** default_builder.rs 542-686: [CoreBuilder::word], at [T = String] (all [.into()] conversions of
    strings, [map_param] and [map_arith] are identities).  [map_word]/[map_simple] are the
    closures; [rec] is the recursive [self.word]. *)
Section DWord.
Variable rec : cwk tlcmd -> tlword.

Definition d_map_subst (s : psk tlcmd) : d_subst :=
  match s with
  | KSLen p => SLen p
  | KSCommand c => SCommand (commands c)
  | KSArith a => SArith a
  | KSDefault c p w => SDefault c p (option_map rec w)
  | KSAssign c p w => SAssign c p (option_map rec w)
  | KSError c p w => SError c p (option_map rec w)
  | KSAlternative c p w => SAlternative c p (option_map rec w)
  | KSRemoveSmallestSuffix p w => SRemoveSmallestSuffix p (option_map rec w)
  | KSRemoveLargestSuffix p w => SRemoveLargestSuffix p (option_map rec w)
  | KSRemoveSmallestPrefix p w => SRemoveSmallestPrefix p (option_map rec w)
  | KSRemoveLargestPrefix p w => SRemoveLargestPrefix p (option_map rec w)
  end.

Definition d_map_simple (s : swk tlcmd) : d_simple_word :=
  match s with
  | KLiteral s => WLiteral s
  | KEscaped s => WEscaped s
  | KParam p => WParam p
  | KStar => WStar
  | KQuestion => WQuestion
  | KSquareOpen => WSquareOpen
  | KSquareClose => WSquareClose
  | KTilde => WTilde
  | KColon => WColon
  | KCommandSubst c => WSubst (SCommand (commands c))
  | KSubst s => WSubst (d_map_subst s)
  end.

Definition d_map_word (w : wk tlcmd) : d_word :=
  match w with
  | KSimple s => WSimple (d_map_simple s)
  | KSingleQuoted s => WSingleQuoted s
  | KDoubleQuoted v => WDoubleQuoted (map d_map_simple v)
  end.

Definition d_map_complex (k : cwk tlcmd) : tlword :=
  TLWord (match compress k with
          | KSingle s => WSingle (d_map_word s)
          | KConcat ws => WConcat (map d_map_word ws)
          end).
End DWord.

(** [n] bounds the nesting; [default_word] supplies enough ([Compress.v]). *)
Fixpoint d_word_n (n : nat) (k : cwk tlcmd) : tlword :=
  d_map_complex (match n with
                 | O => fun _ => TLWord (WConcat [])
                 | S n' => d_word_n n'
                 end) k.
Definition default_word (k : cwk tlcmd) : tlword := d_word_n (cwk_depth k) k.

(** [type Error = Void] in Rust.  The only way [CoreBuilder] can fail is the
    [cmds.pop().unwrap()] of [pipeline] (default_builder.rs 336) on an empty list, a panic; it is
    represented by this error. *)
Inductive default_err := PipelineUnwrap.

Definition ok {R} (r : R) (s : unit) : (R + default_err) * unit := (inl r, s).

(** default_builder.rs 290-305. *)
Definition d_complete_command (_ : list newline_) (l : d_list) (sep : sep_kind)
    (_ : option newline_) : tlcmd :=
  TLCmd (match sep with
         | SepSemi | SepOther | SepNewline => CList l
         | SepAmp => CJob l
         end).

(** default_builder.rs 308-317. *)
Definition d_and_or_list (first : d_listable) (rest : list (list newline_ * and_or d_listable))
  : d_list := mkAOL first (map snd rest).

(** default_builder.rs 321-338. *)
Definition d_pipeline (bang : bool) (cmds : list (list newline_ * d_pipeable)) (s : unit)
  : (d_listable + default_err) * unit :=
  let cmds := map snd cmds in
  if bang || (1 <? List.length cmds)%nat then ok (LPipe bang cmds) s
  else match rev cmds with
       | c :: _ => ok (LSingle c) s
       | [] => (inr PipelineUnwrap, s)
       end.

(** default_builder.rs 341-360. *)
Definition d_simple_command (vars : list (redirect_or_env_var d_redirect str tlword))
    (args : list (redirect_or_cmd_word d_redirect tlword)) : d_pipeable :=
  PSimple (mkSC vars args).

(** default_builder.rs 363-375. *)
Definition d_brace_group (g : cgroup tlcmd) (io : list d_redirect) : d_compound :=
  mkCC (CBrace (commands g)) io.
(** default_builder.rs 378-390. *)
Definition d_subshell (g : cgroup tlcmd) (io : list d_redirect) : d_compound :=
  mkCC (CSubshell (commands g)) io.
(** default_builder.rs 393-417. *)
Definition d_loop_command (k : loop_kind) (gb : gbpair tlcmd) (io : list d_redirect)
  : d_compound :=
  let gb' := mkGB (commands (gguard gb)) (commands (gbody gb)) in
  mkCC (match k with LoopWhile => CWhile gb' | LoopUntil => CUntil gb' end) io.
(** default_builder.rs 420-461. *)
Definition d_if_command (f : if_fragments tlcmd) (io : list d_redirect) : d_compound :=
  mkCC (CIf (map (fun gb => mkGB (commands (gguard gb)) (commands (gbody gb))) (conditionals f))
            (option_map commands (else_branch f))) io.
(** default_builder.rs 464-486. *)
Definition d_for_command (f : for_fragments tlword tlcmd) (io : list d_redirect) : d_compound :=
  mkCC (CFor (ff_var f) (option_map (fun t => snd (fst t)) (ff_words f)) (commands (ff_body f))) io.
(** default_builder.rs 489-516. *)
Definition d_case_command (f : case_fragments tlword tlcmd) (io : list d_redirect) : d_compound :=
  mkCC (CCase (cf_word f)
              (map (fun arm => mkPB (pattern_alternatives (arm_patterns arm))
                                    (commands (arm_body arm))) (cf_arms f))) io.
(** default_builder.rs 519-524. *)
Definition d_into_pipeable (c : d_compound) : d_pipeable := PCompound c.
(** default_builder.rs 527-534. *)
Definition d_function_declaration (name : str) (_ : list newline_) (c : d_compound) : d_pipeable :=
  PFunctionDef name c.

(** default_builder.rs 272-704: [impl Builder for CoreBuilder]. [StringBuilder], [RcBuilder] and
    [ArcBuilder] delegate to it (default_builder.rs 12-236). *)
Definition default_builder : builder :=
  mkBuilder unit tlcmd d_list d_listable d_pipeable d_compound tlword d_redirect default_err
    (fun pre l sep c => ok (d_complete_command pre l sep c))
    (fun f r => ok (d_and_or_list f r))
    d_pipeline
    (fun v a => ok (d_simple_command v a))
    (fun g io => ok (d_brace_group g io))
    (fun g io => ok (d_subshell g io))
    (fun k gb io => ok (d_loop_command k gb io))
    (fun f io => ok (d_if_command f io))
    (fun f io => ok (d_for_command f io))
    (fun f io => ok (d_case_command f io))
    (fun c => ok (d_into_pipeable c))
    (fun n cs c => ok (d_function_declaration n cs c))
    (fun _ => ok tt)
    (fun k => ok (default_word k))
    (fun r => ok r).

(** ** Display of parameters *)

(** Decimal digits of a number ([Display for u32], core library). *)
Fixpoint dec_digits (fuel : nat) (n : N) (acc : str) : str :=
  match fuel with
  | O => acc
  | S f =>
      let acc' := (48 + n mod 10)%N :: acc in
      if (n <? 10)%N then acc' else dec_digits f (n / 10)%N acc'
  end.
Definition show_N (n : N) : str := dec_digits (S (N.to_nat (N.log2 n))) n [].

(** ast.rs 602-625: [Display for Parameter<T>]. *)
Definition param_display (p : param) : str :=
  match p with
  | PmAt => s_of "$@"
  | PmStar => s_of "$*"
  | PmPound => s_of "$#"
  | PmQuestion => s_of "$?"
  | PmDash => s_of "$-"
  | PmDollar => s_of "$$"
  | PmBang => s_of "$!"
  | PmVar v => s_of "${" ++ v ++ s_of "}"
  | PmPositional n =>
      if (n <=? 9)%N then s_of "$" ++ show_N n else s_of "${" ++ show_N n ++ s_of "}"
  end.
