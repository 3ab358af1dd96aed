# Design: a Rocq (Coq 8.16.1) model of conch-parser and its proofs

## 1. What is modelled and how

All sources live in `rocq/theories`; only the Coq standard library is used. Every definition of the
model cites the file and lines of `/repo` it follows.

| Rust source | Coq file | how |
|---|---|---|
| `str`, `char`, `u16/u32/isize::from_str_radix`, `char::{is_whitespace,is_digit}`, UTF-8 length | `Base.v` | characters are code points (`N`), strings lists of code points |
| `token.rs` | `Token.v` | one constructor per token; `as_str`, `len`, `is_word_delimiter`, `Positional` |
| `lexer.rs` | `Lexer.v` | the state machine (`inner`, `peeked`), `next_internal`, `next`, `size_hint` |
| `parse.rs` 45-97 (`SourcePos`) | `Pos.v` | |
| `parse.rs` 99-190 (`ParseError`, `cause`, `Display`) | `Prog.v` (`perr`), `Display.v` | |
| `ast.rs`, `ast/builder.rs` (data types, `Builder` trait) | `Ast.v`, `Builder.v` | the trait is a record of types and fallible, state-threading operations |
| `ast.rs` 603-625 (`Display for Parameter`) | `DefaultBuilder.v` (`param_display`) | |
| `ast/builder/default_builder.rs` | `DefaultBuilder.v` (at `T = String` and the types of `ast.rs`), `CoreBuilder.v` (generic `T, W, C, F`, and the delegating builders) | `Coalesce`, `compress`, `word`, ... |
| `ast/builder.rs` 453-589 (`&mut T`, `Box<T>`) | `CoreBuilder.v` (`delegating`) | |
| `ast/builder/empty_builder.rs` | `EmptyBuilder.v` | |
| `parse/iter.rs` 15-437 (`TokenIter`, `Multipeek`, `TokenIterWrapper`) | `Iter.v` | explicit `prev_buffered` stack with `Pos` markers, `peek` by multipeek-and-rewind |
| `parse/iter.rs` 438-730 (`Balanced`, `BacktickBackslashRemover`, `create_token_iter`) | `Balanced.v` | |
| `parse.rs` (`Parser`, `ParserIterator`) | `ParserBase.v` (blanks, newlines, reserved words), `Word.v`, `Redirect.v`, `Arith.v`, `Command.v` | one definition per Rust function |

**Parser programs.** Parser functions are written in a free monad `prog A` (`Prog.v`) whose
operations are exactly the calls the Rust code makes on its two collaborators: the token
iterator (`next`, `peek`, `pos`, `multipeek`, `buffer_tokens_to_yield_first`, temporarily
replacing `self.iter`) and the `Builder`; plus returning an `Err`, panicking at a named site,
and running out of fuel. A program is run against an iterator implementation. Two
implementations are given: the concrete one (`Iter.v`, follows `iter.rs` line by line) and a
simple located-list one (`Located.v`, the specification of the iterator). That they agree for
*every* program is a theorem (`run_transfer`, C09).

**Public methods.** `Api.v` lists all the public methods of `Parser` as data (`api`), `call B m fuel`
is the method `m` over the builder `B`; `parser_reach` (`Entry.v`) are the states any sequence of calls
can lead to, failed calls included. `p_<method>` are the same methods by name. The iterator is
`parser_iter_new` / `parser_iter_next` (`Command.v`), and `yields`/`parses_to`/`ends` say what it yields.

**Recursion.** Rust loops and recursion that are not structurally recursive take a fuel
parameter. Running out of fuel is a distinct outcome, never a result; it is proved that with
fuel exceeding the number of remaining tokens by 3 it never occurs (`parser_terminates`), and that
the amount of fuel above that never changes anything (`parser_fuel_irrelevant`). So fuel is an
artefact of the model with no semantic content.

**Panics.** Every `unwrap`, `unreachable!`, `panic!` site of the modelled code is an explicit
`Panic site` outcome (`Prog.v`, `panic_site`), except the `unwrap` in `CoreBuilder::pipeline`, which
is an error of the model's default builder (proved unreachable, C36).

**Errors.** A parser error keeps the iterator state (as `&mut self` does in Rust).

## 2. What is not modelled

* Stack overflow on deep recursion, allocation failure, `usize` overflow of positions;
  infinite iterators (token/char sources are finite lists).
* `char::is_alphabetic` outside ASCII is an arbitrary predicate (the class `Uni`, a parameter every theorem
  quantifies over). ASCII letters are exact. `char::is_whitespace` is the exact Unicode list.
* `isize` is 64 bit.
* `Debug`, `Clone`, `PartialEq` derives; `shrink_to_fit`, capacities. The nine `debug_assert!`s are not
  modelled: each restates what the lines just before it did (lexer.rs 213, 227, 234: `peeked` was just taken;
  iter.rs 532, 703: `escaped`/`peeked` was just taken; parse.rs 2091, 2520: assigned only here, right
  before leaving the loop; default_builder.rs 752: `cur` was just taken), except default_builder.rs 326, which is part of C36.
* `Iterator::size_hint` of `TokenIter`, `Balanced`, `BacktickBackslashRemover`: the module is private and
  `TokenIterWrapper` does not forward it, so nothing outside can see it.
* Builders, and the conversions of the generic builder, are modelled as functions (builders: possibly
  failing state transformers); one that panics or diverges itself is outside the model.

## 3. Specifications the theorems are stated with

These are independent of the model's functions: they do not mention parser programs.

| file | what it specifies |
|---|---|
| `LexSpec.v` | `Lexes`: tokenisation by a table of operators and longest match |
| `Located.v` | positions of tokens, computed from the text (`text_pos` in `IterProofs.v`) |
| `BalancedSpec.v` | the extent of quoted and bracketed regions (`content`), removal of escapes in backquotes |
| `ArithSpec.v` | the written forms of arithmetic expressions, by level of precedence |
| `HeredocSpec.v` | the lines of here-documents, delimiters, stripping, several documents on a line |
| `Forms.v` | the written forms of every other construct: words, parameters, redirections, commands, scripts |
| `Printer.v` | a printer of ASTs as source text, and which ASTs are in normal form |
| `WellFormed.v` (first part) | well-formed ASTs |
| `CoreConvert.v` (first part) | conversion of an AST to other string, word and command types |
| `Display.v` (`report`) | what an error message must tell |
| `Trace.v` | what any source of an AST must contain, in order |
| `Written.v` | the builder that writes down all it is told, and the ways to write that |
| `Protocol.v` | the builder that records every call, and the trees of calls in order (`made`, `postorder`) |

The proofs relate both directions: `*Runs.v` show that the parser reads every written form
(completeness), `Sound*.v` that whatever it accepts is a written form with that meaning (soundness),
`Exact.v`/`ExactMethods.v` put the two together for every method.

## 4. Properties: what is proved and how

`MANIFEST.json` has the exact theorem names. P = proved, R = the claim as stated is false at the pinned
commit: a witness refutes it, and the strongest correct statement found is proved (named `_partial`).

| id | status | files | proof |
|---|---|---|---|
| C01, C02 | P | `LexProofs`, `LexTheorems` | induction over the remaining characters with the invariant text(peeked)+rest = source |
| C03 | P | same | equivalence of the lexer with `Lexes`, both directions; determinism |
| C04 | P | `LexTheorems` | corollary of C03 |
| C05 | R | `LexTheorems` | upper bound of `size_hint` too small by up to 2; lower bound and hi + 2 proved |
| C06-C09 | P | `IterProofs` | simulation between `Iter.v` and `Located.v`; extends to every program |
| C10 | P | `Wp*`, `EntryWp`, `Total`, `SameParse` | weakest-precondition walk over all parser code with a size measure; fuel by a binary relation on programs |
| C11 | R | same, `Panics` | witness `cat <<EOF` newline `foo\`; no other panic site is reachable, nor that one without a here-document operator, nor that one in a source without backquotes whose last non-blank character is not a backslash |
| C12-C14 | P | `Total`, `Blank` | from the walk; C14 from `BaseRun` |
| C15, C16 | P | `Sim*`, `Api`, `SameParse`, `Spy` | two builders related by a binary relation on programs; a builder that records its calls |
| C17 | P | `ErrorPos` | walk with the invariant: the remaining located tokens are part of the located source |
| C18, C19, C40 | P | `Arith*` | `ArithRuns` (complete), `ArithSound` (sound), `ArithTheorems` (printer), `ArithLiterals` |
| C20-C23, C26 | P | `Quotes`, `Comments` | lexer lemmas + `Runs` |
| C24 | P | `HeredocRuns`, `Heredocs` | induction over lines |
| C25 | R | `Heredocs` | interior tabs are stripped too; proved for leading tabs, and exactly at token level |
| C27, C36 | P | `Compress`, `SameParse` | induction over the fragments |
| C28 | R | `Descriptors` | a sign `+` is accepted; everything else proved |
| C29 | P | `Reserved` | direct |
| C30 | R | `Lookahead` | leading blanks are consumed; nothing else is |
| C31 | P | `Printer`, `LexJoin`, `RoundTrip*` | induction over the AST |
| C32, C33 | P | `Balanced*` | specification on lists, proved equal |
| C34 | R | `Incomplete` | an `until` loop is called `while` |
| C35 | P | `PositionalNum` | direct |
| C37-C39 | P | `*Runs`, `Sound*`, `Exact`, `ExactMethods` | completeness and soundness of the parser for the grammar, for every method |
| C41 | P | `WellFormed` | induction over the grammar, then C37 |
| C42 | P | `Join` | induction over the grammar (every form can be followed by a newline), then C37 |
| C43 | P | `CoreBuilder`, `CoreConvert` | the conversion is a morphism of builders, then the relation of C15 |
| C44 | R | `Display` | reading messages back; the walk with the invariant that tokens come from the input |
| C46 | P | `Stable`, `StableWord`, `StableCommand`, `Final` | a walk over all parser code with a relation between the runs on a stream and on the stream with more behind it, which are the same until the first notices the end |
| C47 | P | `Lazy`, `LazyWord`, `LazyCommand`, `LazyLine`, `LexDemand` | a walk over all parser code, on the iterator of iter.rs itself, with an invariant on its buffer (a newline only in last place, or in first place after a failed look for a reserved word); a frame lemma for what is left in the source; for characters, a second model of the lexer with the slot of its `Peekable`, shown to agree with the first |
| C48 | P | `Nest` | the grammar of `Forms`: a derivation of a script under no delimiters becomes one under the delimiters of the group, by induction on the list of commands with the joining lemma of C42; no command starts with `)` |
| C49 | P | `Trace` (spec), `TraceSound` | the trace of an AST (what any source of it must contain) is below the text of the tokens read, by induction on the grammar of `Forms` for any order on strings closed under concatenation; taken at subsequence (without bodies of here-documents) and at inclusion of multisets (with them) |
| C50 | P | `Backquote` | escaping backquotes commutes with lexing and is undone by the unescaping of the grammar; then as in C48 |
| C51 | partial | `Written` (spec), `WrittenSound` | by induction on the grammar of `Forms`, instantiated with the tracing builder: reading [ts] up to [rest], any way to go on with [rest] gives a way to go on with [ts]; false for comments before the semicolon of a `for` without words |
| C52 | proved | `Protocol` (spec: `made`, `postorder`, `recording`), `ProtocolSound`, `ProtocolTheorems` | wrap any builder by one that numbers its calls and remembers what each was given; a judgement `adds` (what a program appends to the log, related to its result) proved function by function; programs without builder calls are recognised by the free theorem of `sim` |
| C53 | proved | `Front` (spec: `part`, `no_heredoc`, `history`) | a judgement `front` (what a program leaves, for values and for errors) closed under sequencing; every operation but `buffer` and the unrestored sub-iterator of a here-document body satisfies it by itself; `redirect_heredoc` by the `wp` lemmas on saved lines and body lines; transfer to `TokenIter` with `run_transfer` |
| C54 | proved | `Work` (spec: `work`, `script_work`) | accounts: every token left is worth `5000+100N` operations, `N` bounding the length of all streams; a rule for each operation, a law for each loop and method, by the induction of C01; `work_transfer` carries it to `TokenIter`. Counted: `next`, `peek`, `pos`, `peek_next`, builder calls, one per token put back or given to a new iterator. Not counted: string concatenation, the inside of builder methods, lexing, drops |
| C55 | proved | `Names`, `NamesArith`, `NamesWord`, `NamesCommand`, `NamesApi` (spec: `renamed`, `ordinary`, `shape`, `end_alike`) | a relation between the two runs of every method (same branch, related streams, results equal for a builder blind to such texts), by the induction of C01; the default builder's trees then by C43. Token level: one name for one name, one run of blanks for one. Scope: no `<<`/`<<-`; an ordinary name is no reserved word and has a character other than a digit or `+`; literals are kept; `shape` replaces every text that is not numeric, so it also forgets literals |
| C56 | proved | `JoinSep`, `Join` (spec: `bar`, `ended_by`, `background`, `comments_ended`, `joinable`, `stands_alone`) | the grammar of C31 is shown stable under appending `t :: ts2` for every separator `t`; no production starts with `;` or `&`, so a separator is eaten only as the end of a complete command; then by C31 back to the runs. On sources the separator must stand alone (`;;`, `&&` and `2>&` are other tokens: `stands_alone`). Scope: no `<<`/`<<-`, the first script not ending in a backslash and every `#` in it followed by a newline (`separator_needs_comment_end` shows why) |
| C57 | proved | `OneLine` (spec: `may_end`, `on_one_line`, `without`, `ended_by`) | from C56: a command that may be followed by a separator is an unended one, so in the grammar of C31 the separator completes it and the next word ends the group; a closing parenthesis needs no separator since no command starts with one; then the productions of C48. Scope as C56; `without k s`: no token of `s` reads `k`; the keywords are followed by one space |
| C58 | proved | `Prefix` (spec: `plain_name`, `pipeline_of`, `listed`, `accepts`) | by C31 the script is in the grammar; inverting the productions of command, list, pipeline and pipe leaves the form of the first element, which is replaced, with the same tokens left after it; the tokens of the prefix by the lexer. No restriction on here-documents: nothing is appended |
| C59 | proved | `NestFor` (spec: `name_word`, `spaced`, `arm_lines`, `arm_body_of`, `lines`, `accepts`) | as C48: `nest_clear` puts the script before the words or tokens that end it; the header by the lexer and the productions of `for` and `case`; arms by induction on their list |
| C45 | R | `Eof` | the walk of C10 with the remaining stream in the post-condition of errors |

Beside each group of theorems there are `Example`s with concrete inputs that meet the hypotheses.
`Conformance.v` replays 384 assertions of the project's own test-suite on the model (accepted, or which
error where). `ConformanceAst.v` replays 236 of its 259 parser tests (740 runs) with the results they expect,
ASTs, comments and error positions included, and the 61 tests of the lexer; it is generated from `/repo/tests` by
`tools/conformance.py`, a small interpreter of the test functions. These are tests of the transcription, not proofs.

## 5. Trusted base

* Coq 8.16.1's kernel (and `coqchk`).
* The faithfulness of the hand-written model to the Rust source: every definition cites the
  file and lines it models; `Conformance.v` and `ConformanceAst.v` are checks of the transcription.
* Axioms: none. `Print Assumptions` prints "Closed under the global context" for each of the theorems
  listed in `MANIFEST.json` (`tools/assumptions.py` regenerates the list). The library axioms
  `coqchk` reports for the whole context (`Coq.ssr.ssrunder.Under_rel.*`) belong to a module of the
  standard library that is loaded with the tactics and used by no theorem.

## 6. Testing the theorems

`seeded/LOG.jsonl` records edits of the model as a realistic bug would make them, the claim each
breaks, the theorems that then failed, and the theorems tightened when one did not.

## 7. Findings

Behaviour of the pinned commit found while proving (each is a theorem, an example, or follows from
the grammar of `Forms.v`).

1. `parse.rs` panics (`unwrap` on `None`) on an unquoted here-document whose body ends in a backslash (C11). It also does with `<<-` when only a tab follows the backslash, and for a here-document inside backquotes whose body ends in two backslashes (`Panics.v`: `panics_end`, `panics_blank`, `panics_backquote`); sources excluding these shapes are proved never to panic.
2. `Lexer::size_hint`'s upper bound is too small when a token is peeked (C05).
3. `<<-` strips tabs inside lines, not only at their start, and positions on such lines are shifted (C25, C17).
4. `+5>file` redirects descriptor 5 (C28).
5. `maybe_function_declaration` consumes leading blanks although it reports no function (C30).
6. An `until` loop without `do` is reported as `while` (C34).
7. A newline in `${...}` gives an error message of two lines (C44).
8. `compress` leaves a double-quoted word inside a concatenation uncompressed and is not idempotent (C27).
9. `function f (` newline `# comment` newline `)` gives a function with an empty subshell (C41).
10. `0x` and `0X` alone are the literal 0 in arithmetic (C19). `-++v` is -(+(+v)), `1++v` is 1 + (+v), `$((1<<-1))` is rejected (the lexer reads `<<-`).
11. A here-document operator followed by a comment with an apostrophe on the same line is rejected; so is a here-document inside `"$( )"` whose body follows the closing quote.
12. `(a) (b)` and `a (b)` are two commands without a separator; `function foo (cmds) | cat` is rejected; `${x:}` is `$x`; a trailing `\` is dropped; `! ! a` runs the command `!`; `a | ! d` is rejected; `!foo` is `! foo`; `a\` newline `b` is two words; `5\` newline `>f` redirects descriptor 5; `a=#foo` is an empty assignment and a comment.
13. An unterminated here-document, and a trailing backslash, swallow the beginning of what follows (C42).
14. `brace_group` called before blanks reports `Unmatched({)` at the blank; the other compound methods called before blanks report the blank's position (hypotheses of C17 and C34).
15. Tokens not from the lexer: a newline inside a word resets the column to 1; a backslash before a positional parameter inside double quotes is literal.
16. In backquotes the end of the quoted text is reported as the end of the input (`` `a &&` b ``: `UnexpectedEOF` with ` b` unread); `{ a )` is reported as an unmatched `{` with tokens left (C45).
17. A keyword at the very end of the input is a keyword: `if then` is an error at `then`, `if thenx` is not (C46 needs whole lines).
18. Looking for a reserved word at a newline takes one token beyond the newline (`reserved_word_reaches_past`, C47).
19. At the top level a stray `}`, `done`, `fi`, `then`, … where a command may start is not an error: it is the name of an ordinary command (`stray_brace`, C48). POSIX shells report a syntax error.
20. Between backquotes a quoted parenthesis, as in `` `f "("` ``, is an unmatched `(` (`backquote_unbalanced`), and `\\` before an operator escapes all of it: `` `a \\&& b` `` is one command with the word `&&`, though `a \&& b` is a job and a command (`backquote_backslash`, C50).
21. A comment between the variable of a `for` command and a semicolon (`for x` newline `# c` newline `; do`) is handed to no builder (`comment_is_lost`, C51; `parse.rs` 2013-2016 drops `post_var_comments`).
22. A method that fails inside the body of an unquoted here-document does not put the old token iterator back (`parse.rs` 1082-1090: `?` before `self.iter` is restored): later calls read the rest of the body and never the rest of the script (`heredoc_error_loses_script`, C53).
23. Here-document operators on one line cost quadratic work: each one copies the rest of the line aside and puts it back, the next one does so again (`work_grows_quadratically`, C54). No input costs more than that order.
