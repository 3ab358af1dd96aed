(** * Specification of here-documents (independent of the parser)

    A here-document operator is followed by a delimiter word, the rest of the command line, the
    lines of the body and the closing line.  Everything here is about lists of tokens and the text
    they stand for. *)
From Coq Require Import String.
From Verif Require Import Base Token Relex BalancedSpec.

(** Text between double quotes: a backslash is removed when it quotes the next token. *)
Definition dq_quotable (t : token) : bool :=
  match t with TDollar | TBacktick | TDoubleQuote | TBackslash | TNewline => true | _ => false end.
Fixpoint dq_unquote (ts : list token) : str :=
  match ts with
  | TBackslash :: t :: r =>
      (if dq_quotable t then as_str t else as_str TBackslash ++ as_str t) ++ dq_unquote r
  | t :: r => as_str t ++ dq_unquote r
  | [] => []
  end.

(** [delimiter d s q]: the delimiter written [d] is the text [s]; [q]: part of it is quoted. *)
Inductive delimiter : list token -> str -> bool -> Prop :=
  | dl_nil : delimiter [] [] false
  | dl_plain t d s q : t <> TBackslash -> t <> TSingleQuote -> t <> TDoubleQuote -> t <> TBacktick ->
      delimiter d s q -> delimiter (t :: d) (as_str t ++ s) q
  | dl_escape t d s q : delimiter d s q -> delimiter (TBackslash :: t :: d) (as_str t ++ s) true
  | dl_backslash : delimiter [TBackslash] [] true
  | dl_single inner d s q : ~ In TSingleQuote inner -> delimiter d s q ->
      delimiter (TSingleQuote :: inner ++ TSingleQuote :: d) (text inner ++ s) true
  | dl_double inner d s q : content TDoubleQuote inner -> delimiter d s q ->
      delimiter (TDoubleQuote :: inner ++ TDoubleQuote :: d) (dq_unquote inner ++ s) true
  | dl_backtick inner d s q : content TBacktick inner -> delimiter d s q ->
      delimiter (TBacktick :: inner ++ TBacktick :: d) (s_of "`" ++ text (unescape inner) ++ s_of "`" ++ s) true.

(** The tokens [d], followed by [rest], are the whole delimiter word: it ends at the end of the
    input or before a token that ends words (parentheses may be part of it). *)
Definition ends_delimiter (t : token) : bool := is_word_delimiter t && negb (token_eqb t TParenOpen).
Inductive delimiter_extent : list token -> list token -> Prop :=
  | de_end rest : match rest with [] => True | t :: _ => ends_delimiter t = true end -> delimiter_extent [] rest
  | de_piece t p d rest : ends_delimiter t = false -> piece (t :: p) (d ++ rest) -> delimiter_extent d rest ->
      delimiter_extent (t :: p ++ d) rest.

(** The rest of the command line, with the newline that ends it: quoted and nested newlines do not
    end it. *)
Inductive line_rest : list token -> list token -> Prop :=
  | lr_newline rest : line_rest [TNewline] rest
  | lr_end : line_rest [] []
  | lr_piece t p l rest : t <> TNewline -> piece (t :: p) (l ++ rest) -> line_rest l rest -> line_rest (t :: p ++ l) rest.

(** What the parser removes from a line of a [<<-] here-document: the tabs a blank token starts
    with, except right after another blank token it has just treated. *)
Definition untab (w : str) : list token :=
  match trim_start_matches c_tab w with [] => [] | w' => [TWhitespace w'] end.
Fixpoint strip_line (l : list token) : list token :=
  match l with
  | TWhitespace w :: l' => untab w ++ match l' with t :: l'' => t :: strip_line l'' | [] => [] end
  | t :: l' => t :: strip_line l'
  | [] => []
  end.
Definition body_line (strip : bool) (l : list token) : list token := if strip then strip_line l else l.

(** A line closing the here-document: the delimiter, maybe with a carriage return. *)
Definition closes (s : str) (l : list token) : Prop := text l = s \/ text l = s ++ [c_cr].

(** [here_lines strip s body ts rest]: [ts] is the body [body], line by line, the closing line,
    and [rest].  At the end of the input the closing line may be missing. *)
Inductive here_lines (strip : bool) (s : str) : list token -> list token -> list token -> Prop :=
  | hl_close l rest : ~ In TNewline l -> closes s (body_line strip l) ->
      here_lines strip s [] (l ++ TNewline :: rest) rest
  | hl_close_end l : ~ In TNewline l -> closes s (body_line strip l) \/ body_line strip l = [] ->
      here_lines strip s [] l []
  | hl_line l body ts rest : ~ In TNewline l -> ~ closes s (body_line strip l) ->
      here_lines strip s body ts rest ->
      here_lines strip s (body_line strip l ++ TNewline :: body) (l ++ TNewline :: ts) rest
  | hl_last l : ~ In TNewline l -> ~ closes s (body_line strip l) -> body_line strip l <> [] ->
      here_lines strip s (body_line strip l) l [].

(** [here_document strip quoted body ts after]: [ts] (after the operator and blanks) starts with a
    delimiter, quoted or not; further down are the body and its closing line.  Without them, what
    follows the delimiter is [after]. *)
Inductive here_document (strip quoted : bool) (body : list token) : list token -> list token -> Prop :=
  | here_doc d s line lines rest :
      delimiter d s quoted -> s <> [] -> delimiter_extent d (line ++ lines) ->
      line_rest line lines -> here_lines strip s body lines rest ->
      here_document strip quoted body (d ++ line ++ lines) (line ++ rest).

Inductive here_op : token -> bool -> Prop :=
  | ho_plain : here_op TDLess false
  | ho_strip : here_op TDLessDash true.
