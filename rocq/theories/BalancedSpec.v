(** * Specification of balanced regions (independent of the iterators of iter.rs)

    A region is closed by a token [X]: a quote, a backtick, a closing parenthesis or a closing
    brace. *)
From Verif Require Import Base Token Pos.

Definition closer (X : token) : Prop :=
  X = TSingleQuote \/ X = TDoubleQuote \/ X = TBacktick \/ X = TParenClose \/ X = TCurlyClose.

(** The token closing the region opened by [o] inside a region closed by [X].  Single quotes mean
    nothing inside double quotes. *)
Definition opens (X o : token) : option token :=
  match o with
  | TBacktick => Some TBacktick
  | TDoubleQuote => Some TDoubleQuote
  | TSingleQuote => match X with TDoubleQuote => None | _ => Some TSingleQuote end
  | TParenOpen => Some TParenClose
  | _ => None
  end.

(** [content X ts]: [ts] can stand between the opener and the closer of a region closed by [X]. *)
Inductive content : token -> list token -> Prop :=
  | c_nil X : content X []
  | c_quoted t ts : t <> TSingleQuote -> content TSingleQuote ts -> content TSingleQuote (t :: ts)
  | c_escape X t ts : X <> TSingleQuote -> content X ts -> content X (TBackslash :: t :: ts)
  | c_plain X t ts :
      X <> TSingleQuote -> t <> X -> t <> TBackslash -> opens X t = None ->
      (t = TDollar -> hd_error ts <> Some TCurlyOpen) ->
      content X ts -> content X (t :: ts)
  | c_nested X o c inner ts :
      X <> TSingleQuote -> o <> X -> opens X o = Some c ->
      content c inner -> content X ts -> content X (o :: inner ++ c :: ts)
  | c_braces X inner ts :
      X <> TSingleQuote ->
      content TCurlyClose inner -> content X ts ->
      content X (TDollar :: TCurlyOpen :: inner ++ TCurlyClose :: ts).

(** [unclosed (X, p) ts e]: in the region closed by [X] whose opener is at [p], the input ends
    after [ts] without the region being closed, and [e] is the innermost region open at the end. *)
Inductive unclosed : token * spos -> list (token * spos) -> token * spos -> Prop :=
  | u_end X p : unclosed (X, p) [] (X, p)
  | u_backslash X p q : X <> TSingleQuote -> unclosed (X, p) [(TBackslash, q)] (X, p)
  | u_quoted p t q ts e :
      t <> TSingleQuote -> unclosed (TSingleQuote, p) ts e ->
      unclosed (TSingleQuote, p) ((t, q) :: ts) e
  | u_escape X p q t q' ts e :
      X <> TSingleQuote -> unclosed (X, p) ts e ->
      unclosed (X, p) ((TBackslash, q) :: (t, q') :: ts) e
  | u_plain X p t q ts e :
      X <> TSingleQuote -> t <> X -> t <> TBackslash -> opens X t = None ->
      (t = TDollar -> hd_error (map fst ts) <> Some TCurlyOpen) ->
      unclosed (X, p) ts e -> unclosed (X, p) ((t, q) :: ts) e
  | u_nested_closed X p o q c inner q' ts e :
      X <> TSingleQuote -> o <> X -> opens X o = Some c ->
      content c (map fst inner) -> unclosed (X, p) ts e ->
      unclosed (X, p) ((o, q) :: inner ++ (c, q') :: ts) e
  | u_nested_open X p o q c inner e :
      X <> TSingleQuote -> o <> X -> opens X o = Some c ->
      unclosed (c, q) inner e -> unclosed (X, p) ((o, q) :: inner) e
  | u_braces_closed X p q q1 inner q2 ts e :
      X <> TSingleQuote ->
      content TCurlyClose (map fst inner) -> unclosed (X, p) ts e ->
      unclosed (X, p) ((TDollar, q) :: (TCurlyOpen, q1) :: inner ++ (TCurlyClose, q2) :: ts) e
  | u_braces_open X p q q1 inner e :
      X <> TSingleQuote ->
      unclosed (TCurlyClose, q1) inner e ->
      unclosed (X, p) ((TDollar, q) :: (TCurlyOpen, q1) :: inner) e.

(** The opening token of a region, as reported by errors. *)
Definition opener_of (X : token) : token :=
  match X with TParenClose => TParenOpen | TCurlyClose => TCurlyOpen | _ => X end.

(** The smallest balanced piece at the start of an input [ts ++ rest]. *)
Inductive piece : list token -> list token -> Prop :=
  | p_plain t rest :
      t <> TBackslash -> t <> TDollar -> opens TNewline t = None -> piece [t] rest
  | p_escape t rest : piece [TBackslash; t] rest
  | p_backslash : piece [TBackslash] []
  | p_region o c inner rest :
      opens TNewline o = Some c -> content c inner -> piece (o :: inner ++ [c]) rest
  | p_braces inner rest :
      content TCurlyClose inner -> piece (TDollar :: TCurlyOpen :: inner ++ [TCurlyClose]) rest
  | p_dollar rest :
      hd_error rest <> Some TCurlyOpen -> hd_error rest <> Some TParenOpen ->
      piece [TDollar] rest
  | p_dollar_paren inner rest :
      content TParenClose inner ->
      piece (TDollar :: TParenOpen :: inner ++ [TParenClose]) rest.

(** Backticks: a backslash is removed when followed by a backslash, a dollar or a backtick. *)
Fixpoint unescape (ts : list token) : list token :=
  match ts with
  | TBackslash :: t :: r =>
      match t with
      | TBackslash | TDollar | TBacktick => t :: unescape r
      | _ => TBackslash :: t :: unescape r
      end
  | t :: r => t :: unescape r
  | [] => []
  end.

(** The same, keeping the position of every token. *)
Fixpoint unescape_located (ts : list (token * spos)) : list (token * spos) :=
  match ts with
  | (TBackslash, p) :: (t, q) :: r =>
      match t with
      | TBackslash | TDollar | TBacktick => (t, q) :: unescape_located r
      | _ => (TBackslash, p) :: (t, q) :: unescape_located r
      end
  | x :: r => x :: unescape_located r
  | [] => []
  end.
