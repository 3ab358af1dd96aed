(** * Parser programs

    Parser functions are written as programs over the operations the Rust code performs on its
    two collaborators (the token iterator and the AST builder).  [run] executes a program against
    an implementation of the token iterator ([iterops]); [Iter.v] gives the implementation that
    follows src/parse/iter.rs, [Located.v] a specification. *)
From Verif Require Import Base Token Pos Ast.

(** parse.rs 101-123: [enum ParseError<T>]. *)
Inductive perr (E : Type) :=
  | BadFd (a b : spos)
  | BadIdent (s : str) (p : spos)
  | BadSubst (t : token) (p : spos)
  | Unmatched (t : token) (p : spos)
  | IncompleteCmd (cmd : str) (p : spos) (kw : str) (q : spos)
  | Unexpected (t : token) (p : spos)
  | UnexpectedEOF
  | Custom (e : E).
Arguments BadFd {E}. Arguments BadIdent {E}. Arguments BadSubst {E}. Arguments Unmatched {E}.
Arguments IncompleteCmd {E}. Arguments Unexpected {E}. Arguments UnexpectedEOF {E}.
Arguments Custom {E}.

(** The [unwrap]/[unreachable!]/[panic!] sites of src/parse.rs and src/parse/iter.rs. *)
Inductive panic_site :=
  | PS_iter_peek            (* iter.rs 159: unreachable!("unexpected state: ...") *)
  | PS_iter_next            (* iter.rs 177: panic!("unexpected state ...") *)
  | PS_simple_command       (* parse.rs 621: unreachable!() *)
  | PS_redirect_next        (* parse.rs 750: next().unwrap() *)
  | PS_redirect_kind        (* parse.rs 808: unreachable!() *)
  | PS_heredoc_newline      (* parse.rs 989: next().unwrap() *)
  | PS_word_next            (* parse.rs 1187: next().unwrap() *)
  | PS_word_peeked          (* parse.rs 1232: unreachable!() *)
  | PS_word_delim           (* parse.rs 1238: unreachable!() *)
  | PS_interp_escaped       (* parse.rs 1326: next().unwrap() *)
  | PS_interp_sanity        (* parse.rs 1333-1334: unreachable!() *)
  | PS_subst_op             (* parse.rs 1581: unreachable!() *)
  | PS_loop_kw              (* parse.rs 1872: unreachable!() *)
  | PS_if_kw                (* parse.rs 1945: unreachable!() *)
  | PS_for_var              (* parse.rs 1978: unreachable!() *)
  | PS_for_in               (* parse.rs 1990: reserved_word(&[IN]).unwrap() *)
  | PS_fn_name              (* parse.rs 2245: unreachable!() *)
  | PS_reserved_token       (* parse.rs 2440: next().unwrap() *)
  | PS_assig_op             (* parse.rs 2604: unreachable!() *)
  | PS_assig_kind           (* parse.rs 2620: unreachable!() *)
  | PS_arith_var.           (* parse.rs 2907: unreachable!() *)

(** A look-ahead session: any number of [Multipeek::peek_next] calls, each result seen before the
    next call, then the [Multipeek] is dropped. *)
Inductive mp (B : Type) :=
  | MRet (b : B)
  | MPeekNext (k : option token -> mp B).
Arguments MRet {B}. Arguments MPeekNext {B}.

(** How the parser makes a fresh token iterator to temporarily work on:
    [TokenIter::new(tokens)], or [TokenIter::with_position(empty, pos)] followed by
    [buffer_tokens_to_yield_first] of each chunk, last chunk first. *)
Inductive new_iter :=
  | FromTokens (ts : list token)
  | FromChunks (p : spos) (chunks : list (list token * spos)).

Section Prog.
Variables BS BE : Type.    (* builder state, builder error *)

Inductive prog (A : Type) : Type :=
  | Ret (a : A)
  | Throw (e : perr BE)                                   (* return Err(e) *)
  | Panic (s : panic_site)
  | OutOfFuel                                             (* artefact of the model *)
  | NextT (k : option token -> prog A)                    (* self.iter.next() *)
  | PeekT (k : option token -> prog A)                    (* self.iter.peek() *)
  | PosT (k : spos -> prog A)                             (* self.iter.pos() *)
  | MultiPeek (B : Type) (m : mp B) (k : B -> prog A)     (* self.iter.multipeek() ... drop *)
  | BufferT (ts : list token) (p : spos) (k : prog A)     (* buffer_tokens_to_yield_first *)
  | SubIter (B : Type) (i : new_iter) (restore_on_err : bool) (q : prog B) (k : B -> prog A)
      (* run q on a fresh iterator, then put the old one back; when q fails the old one is
         put back only if restore_on_err *)
  | BuildT (B : Type) (f : BS -> (B + BE) * BS) (k : B -> prog A).  (* self.builder.f(..)? *)

Fixpoint bind {A C : Type} (p : prog A) (f : A -> prog C) : prog C :=
  match p with
  | Ret _ a => f a
  | Throw _ e => Throw _ e
  | Panic _ s => Panic _ s
  | OutOfFuel _ => OutOfFuel _
  | NextT _ k => NextT _ (fun t => bind (k t) f)
  | PeekT _ k => PeekT _ (fun t => bind (k t) f)
  | PosT _ k => PosT _ (fun t => bind (k t) f)
  | MultiPeek _ B m k => MultiPeek _ B m (fun b => bind (k b) f)
  | BufferT _ ts p k => BufferT _ ts p (bind k f)
  | SubIter _ B i r q k => SubIter _ B i r q (fun b => bind (k b) f)
  | BuildT _ B g k => BuildT _ B g (fun b => bind (k b) f)
  end.

Definition ret {A} (a : A) : prog A := Ret _ a.
Definition throw {A} (e : perr BE) : prog A := Throw _ e.
Definition panic {A} (s : panic_site) : prog A := Panic _ s.
Definition outoffuel {A} : prog A := OutOfFuel _.
Definition next : prog (option token) := NextT _ (fun t => Ret _ t).
Definition peek : prog (option token) := PeekT _ (fun t => Ret _ t).
Definition getpos : prog spos := PosT _ (fun t => Ret _ t).
Definition multipeek {B} (m : mp B) : prog B := MultiPeek _ B m (fun b => Ret _ b).
Definition buffer (ts : list token) (p : spos) : prog unit := BufferT _ ts p (Ret _ tt).
Definition sub_iter {B} (i : new_iter) (restore_on_err : bool) (q : prog B) : prog B :=
  SubIter _ B i restore_on_err q (fun b => Ret _ b).
Definition build {B} (f : BS -> (B + BE) * BS) : prog B := BuildT _ B f (fun b => Ret _ b).

(** ** Running programs *)

Inductive outcome (A : Type) :=
  | OOk (a : A)
  | OErr (e : perr BE)
  | OPanic (s : panic_site)
  | OFuel.

End Prog.

Arguments Ret {BS BE A}. Arguments Throw {BS BE A}. Arguments Panic {BS BE A}.
Arguments OutOfFuel {BS BE A}. Arguments NextT {BS BE A}. Arguments PeekT {BS BE A}.
Arguments PosT {BS BE A}. Arguments MultiPeek {BS BE A B}. Arguments BufferT {BS BE A}.
Arguments SubIter {BS BE A B}. Arguments BuildT {BS BE A B}.
Arguments bind {BS BE A C}. Arguments ret {BS BE A}. Arguments throw {BS BE A}.
Arguments panic {BS BE A}. Arguments outoffuel {BS BE A}. Arguments next {BS BE}.
Arguments peek {BS BE}. Arguments getpos {BS BE}. Arguments multipeek {BS BE B}.
Arguments buffer {BS BE}. Arguments sub_iter {BS BE B}. Arguments build {BS BE B}.
Arguments OOk {BE A}. Arguments OErr {BE A}. Arguments OPanic {BE A}. Arguments OFuel {BE A}.

Notation "x <- p ;; q" := (bind p (fun x => q))
  (at level 61, p at next level, right associativity).
Notation "' x <- p ;; q" := (bind p (fun x => q))
  (at level 61, x pattern, p at next level, right associativity).
Notation "p ;; q" := (bind p (fun _ => q)) (at level 61, right associativity).

(** A token iterator implementation.  [None] from [it_next]/[it_peek] is a panic. *)
Record iterops := mkIterops {
  it : Type;
  it_next : it -> option (option token * it);
  it_peek : it -> option (option token * it);
  it_pos : it -> spos;
  it_multipeek : forall B, mp B -> it -> B * it;
  it_buffer : list token -> spos -> it -> it;
  it_make : new_iter -> it
}.

Section Run.
Variables BS BE : Type.
Variable I : iterops.

Fixpoint run {A} (p : prog BS BE A) (s : it I) (b : BS) : outcome BE A * it I * BS :=
  match p with
  | Ret a => (OOk a, s, b)
  | Throw e => (OErr e, s, b)
  | Panic site => (OPanic site, s, b)
  | OutOfFuel => (OFuel, s, b)
  | NextT k =>
      match it_next I s with
      | Some (t, s') => run (k t) s' b
      | None => (OPanic PS_iter_next, s, b)
      end
  | PeekT k =>
      match it_peek I s with
      | Some (t, s') => run (k t) s' b
      | None => (OPanic PS_iter_peek, s, b)
      end
  | PosT k => run (k (it_pos I s)) s b
  | MultiPeek m k => let (r, s') := it_multipeek I _ m s in run (k r) s' b
  | BufferT ts p k => run k (it_buffer I ts p s) b
  | SubIter i restore q k =>
      match run q (it_make I i) b with
      | (OOk r, _, b') => run (k r) s b'
      | (OErr e, s', b') => (OErr e, if restore then s else s', b')
      | (OPanic site, s', b') => (OPanic site, s', b')
      | (OFuel, s', b') => (OFuel, s', b')
      end
  | BuildT f k =>
      match f b with
      | (inl r, b') => run (k r) s b'
      | (inr e, b') => (OErr (Custom e), s, b')
      end
  end.

End Run.
Arguments run {BS BE} I {A}.
