(** * The order of builder calls, and what becomes of their results

    [recording B] wraps any builder [B].  Every value it hands out carries, beside the value of [B], a tree:
    the method that made it, the number of that call, and the trees of all the builder values the call was
    given, from left to right.  Its state keeps the trees of all successful calls, in the order of the calls. *)
From Verif Require Import Base Token Pos Ast Builder SimWord SimCommand Api.

(** The methods of the trait (builder.rs 254-451). *)
Inductive method :=
  | MCompleteCommand | MAndOrList | MPipeline | MSimpleCommand | MBraceGroup | MSubshell | MLoopCommand
  | MIfCommand | MForCommand | MCaseCommand | MIntoPipeable | MFunction | MComments | MWord | MRedirect.

Inductive made := Made (m : method) (number : nat) (from : list made).
Definition number (x : made) : nat := match x with Made _ n _ => n end.

(** Children first, from left to right, then the node. *)
Fixpoint postorder (x : made) : list made :=
  match x with Made _ _ from => flat_map postorder from ++ [x] end.
Definition postorders (l : list made) : list made := flat_map postorder l.

(** ** The builder values inside the exchange types, from left to right *)
Section Inside.
Context {C W R T : Type}.
Variable c_ : C -> made.
Variable w_ : W -> made.
Variable r_ : R -> made.
Variable t_ : T -> made.

Definition in_option {A} (f : A -> list made) (x : option A) : list made :=
  match x with Some a => f a | None => [] end.
Definition in_group (g : cgroup C) : list made := map c_ (commands g).
Definition in_gbpair (g : gbpair C) : list made := in_group (gguard g) ++ in_group (gbody g).
Definition in_if (x : if_fragments C) : list made :=
  flat_map in_gbpair (conditionals x) ++ in_option in_group (else_branch x).
Definition in_for (x : for_fragments W C) : list made :=
  in_option (fun y => map w_ (snd (fst y))) (ff_words x) ++ in_group (ff_body x).
Definition in_arm (x : case_arm W C) : list made :=
  map w_ (pattern_alternatives (arm_patterns x)) ++ in_group (arm_body x).
Definition in_case (x : case_fragments W C) : list made := w_ (cf_word x) :: flat_map in_arm (cf_arms x).
Definition in_redirect (r : redirect_ W) : list made :=
  match r with
  | RRead _ w | RWrite _ w | RReadWrite _ w | RAppend _ w | RClobber _ w | RHeredoc _ w | RDupRead _ w
  | RDupWrite _ w => [w_ w]
  end.
Definition in_env (x : redirect_or_env_var R str W) : list made :=
  match x with ERedirect r => [r_ r] | EEnvVar _ w => in_option (fun w => [w_ w]) w end.
Definition in_arg (x : redirect_or_cmd_word R W) : list made :=
  match x with DRedirect r => [r_ r] | DCmdWord w => [w_ w] end.
Definition in_and_or (x : and_or T) : made := match x with And t => t_ t | Or t => t_ t end.
Definition in_sum (x : R + W) : list made := match x with inl r => [r_ r] | inr w => [w_ w] end.

Fixpoint in_swk (w : swk C) : list made :=
  match w with
  | KSubst s => in_psk s
  | KCommandSubst g => in_group g
  | KLiteral _ | KParam _ | KEscaped _ | KStar | KQuestion | KSquareOpen | KSquareClose | KTilde | KColon => []
  end
with in_wk (w : wk C) : list made :=
  match w with
  | KSimple s => in_swk s
  | KDoubleQuoted l => flat_map in_swk l
  | KSingleQuoted _ => []
  end
with in_cwk (w : cwk C) : list made :=
  match w with
  | KConcat l => flat_map in_wk l
  | KSingle w => in_wk w
  end
with in_psk (s : psk C) : list made :=
  match s with
  | KSCommand g => in_group g
  | KSLen _ | KSArith _ => []
  | KSDefault _ _ w | KSAssign _ _ w | KSError _ _ w | KSAlternative _ _ w
  | KSRemoveSmallestSuffix _ w | KSRemoveLargestSuffix _ w
  | KSRemoveSmallestPrefix _ w | KSRemoveLargestPrefix _ w => in_option in_cwk w
  end.
End Inside.

(** ** The wrapper *)
Section Recording.
Variable B : builder.

Definition recorded {A} (m : method) (from : list made) (f : bst B -> (A + b_err B) * bst B)
    (st : bst B * list made) : (A * made + b_err B) * (bst B * list made) :=
  let x := Made m (length (snd st)) from in
  match f (fst st) with
  | (inl a, b) => (inl (a, x), (b, snd st ++ [x]))
  | (inr e, b) => (inr e, (b, snd st))
  end.
(** [comments] returns nothing. *)
Definition recorded_unit (m : method) (f : bst B -> (unit + b_err B) * bst B)
    (st : bst B * list made) : (unit + b_err B) * (bst B * list made) :=
  match f (fst st) with
  | (inl a, b) => (inl a, (b, snd st ++ [Made m (length (snd st)) []]))
  | (inr e, b) => (inr e, (b, snd st))
  end.

Definition recording : builder :=
  mkBuilder (bst B * list made) (b_cmd B * made) (b_list B * made) (b_listable B * made) (b_pipeable B * made)
    (b_compound B * made) (b_word B * made) (b_redirect B * made) (b_err B)
    (fun cs l s c => recorded MCompleteCommand [snd l] (o_complete_command B cs (fst l) s c))
    (fun a l => recorded MAndOrList (snd a :: map (fun x => in_and_or snd (snd x)) l)
       (o_and_or_list B (fst a) (map (fun x => (fst x, map_and_or fst (snd x))) l)))
    (fun bang l => recorded MPipeline (map (fun x => snd (snd x)) l)
       (o_pipeline B bang (map (fun x => (fst x, fst (snd x))) l)))
    (fun vs l => recorded MSimpleCommand (flat_map (in_env snd snd) vs ++ flat_map (in_arg snd snd) l)
       (o_simple_command B (map (map_env fst fst) vs) (map (map_arg fst fst) l)))
    (fun g r => recorded MBraceGroup (in_group snd g ++ map snd r) (o_brace_group B (map_cg fst g) (map fst r)))
    (fun g r => recorded MSubshell (in_group snd g ++ map snd r) (o_subshell B (map_cg fst g) (map fst r)))
    (fun k g r => recorded MLoopCommand (in_gbpair snd g ++ map snd r)
       (o_loop_command B k (map_gbp fst g) (map fst r)))
    (fun x r => recorded MIfCommand (in_if snd x ++ map snd r) (o_if_command B (map_if fst x) (map fst r)))
    (fun x r => recorded MForCommand (in_for snd snd x ++ map snd r)
       (o_for_command B (map_for fst fst x) (map fst r)))
    (fun x r => recorded MCaseCommand (in_case snd snd x ++ map snd r)
       (o_case_command B (map_case fst fst x) (map fst r)))
    (fun c => recorded MIntoPipeable [snd c] (o_compound_command_into_pipeable B (fst c)))
    (fun n cs c => recorded MFunction [snd c] (o_function_declaration B n cs (fst c)))
    (fun cs => recorded_unit MComments (o_comments B cs))
    (fun w => recorded MWord (in_cwk snd w) (o_word B (map_cwk fst w)))
    (fun r => recorded MRedirect (in_redirect snd r) (o_redirect B (map_redirect fst r))).

(** The builder values inside what a public method returns. *)
Definition in_result (m : api) : api_result recording m -> list made :=
  match m return api_result recording m -> list made with
  | ACompleteCommand => in_option (fun c => [snd c])
  | AAndOrList => fun x => [snd x]
  | APipeline => fun x => [snd x]
  | ACommand => fun x => [snd x]
  | ASimpleCommand => fun x => [snd x]
  | AFunction => fun x => [snd x]
  | ARedirectList => map snd
  | ARedirect => in_option (in_sum snd snd)
  | ARedirectHeredoc _ => fun x => [snd x]
  | AWord => in_option (fun w => [snd w])
  | AWordPreserve => in_option (fun w => [snd w])
  | ABackticked => fun x => [snd x]
  | AParameter => fun x => [snd x]
  | ADoGroup => in_group snd
  | ABraceGroup => in_group snd
  | ASubshell => in_group snd
  | ACommandGroup _ => in_group snd
  | ACompoundCommand => fun x => [snd x]
  | ALoopCommand => fun x => in_gbpair snd (snd x)
  | AIfCommand => in_if snd
  | AForCommand => in_for snd snd
  | ACaseCommand => in_case snd snd
  | AMaybeFunction => in_option (fun x => [snd x])
  | ASkipWhitespace => fun _ => []
  | ALinebreak => fun _ => []
  | ANewline => fun _ => []
  | APeekReservedToken _ => fun _ => []
  | APeekReservedWord _ => fun _ => []
  | AReservedWord _ => fun _ => []
  | AReservedToken _ => fun _ => []
  | AArithmetic => fun _ => []
  end.
End Recording.
