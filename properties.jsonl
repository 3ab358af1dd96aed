{"id": "C01", "title": "Lexing is lossless", "statement": "For every source string, concatenating the text (Token::as_str) of all tokens yielded by Lexer::new(src.chars()) gives back exactly the source: no character is dropped, duplicated or reordered.", "quantifier": "every finite sequence of Unicode scalar values and every classification of non-ASCII characters as alphabetic or not", "why_tests_cant": "the input space is infinite and tests sample a handful of sources", "anchors": ["src/lexer.rs: Lexer::next, Lexer::next_internal", "src/token.rs: Token::as_str"]}
{"id": "C02", "title": "Lexer yields non-empty tokens, never more than characters", "statement": "Every token the Lexer yields has non-empty text, and the number of tokens never exceeds the number of characters of the source.", "quantifier": "every source string", "why_tests_cant": "the input space is infinite and tests sample a handful of sources", "anchors": ["src/lexer.rs: Lexer::next, size_hint comment", "src/token.rs: Token::len, is_empty"]}
{"id": "C03", "title": "Lexer output is the unique maximal-munch tokenisation", "statement": "The token list produced for a source is exactly the one prescribed by: longest matching operator from the operator table; maximal runs of blanks; maximal identifier runs as Name; maximal runs of other ordinary characters as Literal; and a backslash makes the next single character its own token. The prescription is deterministic, so it pins down every token of every source.", "quantifier": "every source string", "why_tests_cant": "the input space is infinite and tests sample a handful of sources", "anchors": ["src/lexer.rs"]}
{"id": "C04", "title": "Token display/lex round-trip", "statement": "Lexing the display text of any operator/parameter token, of any identifier Name, of any blank Whitespace or of any ordinary Literal gives back exactly that one token.", "quantifier": "every token, with arbitrary strings in Name/Literal/Whitespace", "why_tests_cant": "tests/lexer.rs checks one string per token kind", "anchors": ["src/token.rs: Display, as_str", "src/lexer.rs", "tests/lexer.rs: check_tok!"]}
{"id": "C05", "title": "Lexer::size_hint is a correct bound", "statement": "At every point of the iteration size_hint() = (lo, Some(hi)) with lo <= remaining tokens <= hi.", "quantifier": "every source, every prefix of the iteration", "why_tests_cant": "only specific states (a token peeked while the character stream has run dry) violate it", "anchors": ["src/lexer.rs: Lexer::size_hint"]}
{"id": "C06", "title": "Source positions track the text consumed", "statement": "After the parser has consumed any prefix of the tokens of a lexed source, its position is: byte = number of UTF-8 bytes of that prefix, line = 1 + number of newlines in it, col = 1 + number of bytes since the last newline.", "quantifier": "every source and every prefix of its token stream", "why_tests_cant": "the input space is infinite and tests sample a handful of sources", "anchors": ["src/parse.rs: SourcePos::advance, SourcePos::new", "src/parse/iter.rs: TokenIter::next"]}
{"id": "C07", "title": "Arbitrary look-ahead is side-effect free", "statement": "Peeking any number of tokens ahead (peek, multipeek) never changes which tokens, in which order and at which positions, the stream yields afterwards.", "quantifier": "every reachable iterator state, every number of look-ahead steps", "why_tests_cant": "depends on every combination of buffered tokens, position markers and underlying stream", "anchors": ["src/parse/iter.rs: TokenIter::peek, Multipeek::peek_next, Multipeek::drop"]}
{"id": "C08", "title": "Buffering tokens replays them first and restores positions", "statement": "After buffering tokens with a start position, the iterator yields exactly these tokens located contiguously from the start position, then everything it would have yielded before, each at its unchanged position.", "quantifier": "every reachable iterator state, every buffered list (including empty), any nesting of bufferings", "why_tests_cant": "arbitrary nesting", "anchors": ["src/parse/iter.rs: buffer_tokens_to_yield_first, buffer_tokens_and_positions_to_yield_first, updated_buffered_pos"]}
{"id": "C09", "title": "The token iterator never reaches its panic states", "statement": "No sequence of new / with_position / next / peek / multipeek / buffer operations makes TokenIter panic with 'unexpected state'.", "quantifier": "every history of iterator operations", "why_tests_cant": "needs all operation histories", "anchors": ["src/parse/iter.rs: TokenIter::next, TokenIter::peek"]}
{"id": "C10", "title": "Parser terminates on every token stream", "statement": "Every parser entry point returns (a result or an error, or the panic of C11) after finitely many steps for every finite token stream, including streams no lexer would produce; it never loops forever.", "quantifier": "every finite token list, every public parsing method, every builder", "why_tests_cant": "non-termination cannot be observed by tests", "anchors": ["src/parse.rs: Parser"]}
{"id": "C11", "title": "Parsing never panics", "statement": "No source makes any parsing method panic: every unwrap/unreachable!/panic! site is unreachable.", "quantifier": "every token stream, every public parsing method", "why_tests_cant": "each panic site needs an argument for all inputs", "anchors": ["src/parse.rs: unwrap, unreachable!", "src/parse/iter.rs: panic!"]}
{"id": "C12", "title": "Command iterator is fused and complete", "statement": "Once the parser iterator has returned None or an error it returns None forever; and if it ends without an error then every token of the source was consumed.", "quantifier": "every token stream and every number of further next() calls", "why_tests_cant": "needs all histories of next() calls", "anchors": ["src/parse.rs: ParserIterator::next, Parser::complete_command"]}
{"id": "C13", "title": "Every command makes progress", "statement": "Each successfully parsed complete command consumes at least one token, so a source of n tokens yields at most n commands.", "quantifier": "every token stream", "why_tests_cant": "the input space is infinite and tests sample a handful of sources", "anchors": ["src/parse.rs: complete_command, command_group_internal"]}
{"id": "C14", "title": "Only blank input yields no command", "statement": "complete_command returns Ok(None) exactly when the remaining input consists only of blanks, escaped newlines, newlines and comments; it then has consumed all of it.", "quantifier": "every token stream", "why_tests_cant": "the input space is infinite and tests sample a handful of sources", "anchors": ["src/parse.rs: complete_command, linebreak, newline, skip_whitespace"]}
{"id": "C15", "title": "Accept/reject does not depend on the builder", "statement": "Two builders that never fail make the parser accept the same inputs, reject with the same error, and leave the same remaining input; in particular validating with EmptyBuilder agrees with parsing with DefaultBuilder.", "quantifier": "every token stream, every pair of infallible builders, every public parsing method", "why_tests_cant": "quantifies over all builders", "anchors": ["src/ast/builder.rs: Builder", "src/ast/builder/empty_builder.rs", "src/parse.rs"]}
{"id": "C16", "title": "A builder error stops the parse at once", "statement": "If a builder method returns an error, the parser calls no further builder method and returns exactly that error as ParseError::Custom; conversely a Custom error is always the error of the last builder call.", "quantifier": "every builder, every token stream", "why_tests_cant": "quantifies over all builders and failure points", "anchors": ["src/parse.rs: ParseError::Custom, From<T> for ParseError<T>"]}
{"id": "C17", "title": "Error positions denote the offending token", "statement": "When parsing a source without here-documents and without escapes inside backticks fails with Unexpected(t,pos), BadSubst(t,pos), BadIdent(s,pos) or Unmatched(t,pos), then the source text at byte offset pos.byte starts with the text of that token and line/col are those of that offset.", "quantifier": "every source and every error", "why_tests_cant": "the input space is infinite and tests sample a handful of sources", "anchors": ["src/parse.rs: make_unexpected_err, ParseError", "src/parse/iter.rs"]}
{"id": "C18", "title": "Arithmetic: precedence and associativity", "statement": "For every arithmetic expression tree, writing it with the minimal parentheses required by the documented operator precedences and associativities and parsing it inside $(( )) gives back exactly that tree.", "quantifier": "every arithmetic AST of any depth", "why_tests_cant": "infinitely many expression shapes and operator interactions", "anchors": ["src/parse.rs: arithmetic_substitution, arith_*"]}
{"id": "C19", "title": "Arithmetic integer literals", "statement": "Decimal, octal (leading 0) and hexadecimal (0x) literals denote their value when it fits a machine integer; literals that do not fit are rejected, never wrapped.", "quantifier": "every natural number and every radix form", "why_tests_cant": "overflow boundaries", "anchors": ["src/parse.rs: arith_post_incr"]}
{"id": "C20", "title": "Single quotes preserve text verbatim", "statement": "For every string s without a single quote, the source 's' parses to the single-quoted word s, with no character interpreted.", "quantifier": "every string without a single quote", "why_tests_cant": "the input space is infinite and tests sample a handful of sources", "anchors": ["src/parse.rs: word_preserve_trailing_whitespace_raw_with_delim", "src/parse/iter.rs: Balanced"]}
{"id": "C21", "title": "Double quotes preserve ordinary text", "statement": "For every string s without $, backtick, backslash and double quote, the source \"s\" parses to the double-quoted word whose only fragment is the literal s.", "quantifier": "every such string", "why_tests_cant": "the input space is infinite and tests sample a handful of sources", "anchors": ["src/parse.rs: word_interpolated_raw"]}
{"id": "C22", "title": "Backslash quotes any single character", "statement": "For every character c other than newline, \\c parses to the escaped word c; a backslash-newline is removed and delimits the word.", "quantifier": "every character", "why_tests_cant": "the input space is infinite and tests sample a handful of sources", "anchors": ["src/parse.rs: word_preserve_trailing_whitespace_raw_with_delim", "src/lexer.rs"]}
{"id": "C23", "title": "Parameter display/parse round-trip", "statement": "For every parameter (special, positional with any u32 index, or variable with any identifier name) parsing its Display text as a word gives back exactly that parameter.", "quantifier": "every parameter", "why_tests_cant": "the unit test test_display_parameter samples 11 values", "anchors": ["src/ast.rs: Display for Parameter", "src/parse.rs: parameter_raw, parameter_substitution_raw, parameter_inner"]}
{"id": "C24", "title": "Quoted here-document bodies are literal", "statement": "For every list of body lines none of which equals the delimiter, a here-document with a quoted delimiter yields exactly the body text as one literal; the rest of the command line is parsed as if the here-document were absent.", "quantifier": "every body text", "why_tests_cant": "infinitely many bodies and delimiter clashes", "anchors": ["src/parse.rs: redirect_heredoc"]}
{"id": "C25", "title": "<<- strips only leading tabs", "statement": "In a <<- here-document every line of the body loses exactly its leading tab characters and nothing else.", "quantifier": "every body text", "why_tests_cant": "the input space is infinite and tests sample a handful of sources", "anchors": ["src/parse.rs: redirect_heredoc"]}
{"id": "C26", "title": "Comments are captured verbatim and end at the newline", "statement": "For every text s without a newline, '#s' where a command may start is captured as exactly that comment and parsing resumes right after the newline.", "quantifier": "every comment text", "why_tests_cant": "the input space is infinite and tests sample a handful of sources", "anchors": ["src/parse.rs: newline, linebreak"]}
{"id": "C27", "title": "Word compression preserves content and normalises", "statement": "The default builder's merging of adjacent fragments preserves the text and all non-literal fragments in order, never leaves two adjacent unquoted literals or two adjacent single-quoted strings, and never yields a one-element concatenation.", "quantifier": "every word, any length", "why_tests_cant": "the input space is infinite and tests sample a handful of sources", "anchors": ["src/ast/builder/default_builder.rs: compress, Coalesce"]}
{"id": "C28", "title": "Redirect source descriptors are numeric and in range", "statement": "A word directly before a redirect operator is taken as the file descriptor only if it consists of decimal digits and its value fits in 16 bits; otherwise it is an ordinary word.", "quantifier": "every word before a redirect", "why_tests_cant": "the input space is infinite and tests sample a handful of sources", "anchors": ["src/parse.rs: redirect, as_num"]}
{"id": "C29", "title": "Reserved words are recognised only as complete words", "statement": "A keyword is recognised by the reserved-word checks only when it is one unquoted Name/Literal token immediately followed by a word delimiter or end of input; the checks consume nothing but leading blanks.", "quantifier": "every token stream and keyword list", "why_tests_cant": "the input space is infinite and tests sample a handful of sources", "anchors": ["src/parse.rs: peek_reserved_word, peek_reserved_token, reserved_word, reserved_token"]}
{"id": "C30", "title": "Function look-ahead consumes nothing when there is no function", "statement": "If maybe_function_declaration reports that no function is present, nothing was consumed from the token stream.", "quantifier": "every token stream", "why_tests_cant": "the input space is infinite and tests sample a handful of sources", "anchors": ["src/parse.rs: maybe_function_declaration"]}
{"id": "C31", "title": "Commands round-trip through their source form", "statement": "For every command AST (simple commands with assignments, arguments and redirections; pipelines; and/or lists; if/while/until/for/case/brace/subshell; functions; nested command and parameter substitutions) in normal form, printing it as source and parsing the result gives back exactly that AST and consumes the whole text.", "quantifier": "every command AST of any depth and width", "why_tests_cant": "infinitely many programs", "anchors": ["src/parse.rs: Parser", "src/ast.rs", "src/ast/builder/default_builder.rs"]}
{"id": "C32", "title": "Balanced iteration yields balanced regions", "statement": "The balanced iterator yields the longest prefix up to and including (or excluding, when a delimiter was given) the token matching its opener, consumes nothing beyond it, and reports the innermost unmatched opener with its position when input ends early.", "quantifier": "every token stream", "why_tests_cant": "the input space is infinite and tests sample a handful of sources", "anchors": ["src/parse/iter.rs: Balanced"]}
{"id": "C33", "title": "Backtick unescaping", "statement": "Inside backticks exactly the backslashes followed by backslash, dollar or backtick are removed; all other tokens are passed on unchanged, in order and at their source positions; the streaming and the buffering implementation agree.", "quantifier": "every token stream", "why_tests_cant": "the input space is infinite and tests sample a handful of sources", "anchors": ["src/parse/iter.rs: BacktickBackslashRemover"]}
{"id": "C34", "title": "Incomplete-command errors name the command", "statement": "When a compound command is missing a keyword, IncompleteCmd names the keyword of the command being parsed.", "quantifier": "every token stream", "why_tests_cant": "needs all compound commands", "anchors": ["src/parse.rs: loop_command, if_command, for_command, case_command, do_group"]}
{"id": "C35", "title": "Positional parameter number conversion", "statement": "Positional::from_num and as_num are inverse on 0..=9 and from_num rejects every other u8.", "quantifier": "every u8", "why_tests_cant": "tests/positional.rs covers it partially", "anchors": ["src/token.rs: Positional"]}
{"id": "C36", "title": "DefaultBuilder never fails", "statement": "Parsing with DefaultBuilder (or any builder whose methods never return an error) never returns ParseError::Custom; in particular the unwrap in DefaultBuilder::pipeline is never reached because the parser never builds an empty pipeline.", "quantifier": "every token stream, every reachable parser state, every public method", "why_tests_cant": "The builder call arguments range over all inputs; a test only shows the pipelines of its own sources are non-empty.", "anchors": ["src/ast/builder/default_builder.rs: pipeline", "src/parse.rs: Parser::pipeline"]}
{"id": "C37", "title": "The parser accepts exactly the shell grammar", "statement": "Iterating a parser over a token sequence yields the commands cs and ends without an error if and only if the tokens are a script of the documented grammar (words, quoting, expansions, redirections, here-documents, simple and compound commands, functions, pipelines, and/or lists, separators, comments) whose commands, in order, are cs. The same equivalence holds for each public parsing method and the construct it reads.", "quantifier": "every token sequence, every command list, every builder without failures or side effects", "why_tests_cant": "both directions range over all inputs: a test can neither show that every sentence of the grammar is accepted nor that nothing else is", "anchors": ["src/parse.rs: Parser, ParserIterator", "src/ast/builder.rs: Builder"]}
{"id": "C38", "title": "The grammar is unambiguous", "statement": "A token sequence has at most one reading: if it can be derived as a script with the commands cs and with the commands cs', then cs = cs'; likewise an arithmetic expression's tokens determine its tree.", "quantifier": "every token sequence", "why_tests_cant": "quantifies over pairs of derivations", "anchors": ["src/parse.rs: Parser"]}
{"id": "C39", "title": "Everything outside the grammar is reported", "statement": "If a token sequence is not a script of the grammar, then after finitely many commands the iterator yields an error (never a silent end), or meets the one known panic of C11.", "quantifier": "every token sequence outside the grammar", "why_tests_cant": "quantifies over all invalid inputs", "anchors": ["src/parse.rs: ParserIterator::next"]}
{"id": "C40", "title": "The arithmetic language is exact", "statement": "Parser::arithmetic_substitution returns e and consumes the whole input if and only if the input is a way to write e (with C's precedences, right-associative ** and assignment, optional $ before variables, longest-match ++ and --), followed by blanks only.", "quantifier": "every token sequence and every expression", "why_tests_cant": "both directions range over all inputs", "anchors": ["src/parse.rs: arithmetic_substitution, arith_assig ... arith_var"]}
{"id": "C41", "title": "Every returned AST is well formed", "statement": "Every tree the parser returns with the default builder is well formed: simple commands are not empty and keep what precedes the command name in the first list; brace groups, subshells, loop guards and bodies, conditionals, else branches and for bodies contain at least one command; case arms have patterns; a pipeline that is a LSingle/Pipe has at least two commands unless negated; file descriptors fit in 16 bits, positional parameters in 32 and integer literals in 64; operands of <& and >& are a dash or may be a number; double quotes and here-documents contain no globs; concatenations have at least two parts and no adjacent parts that could be one; arithmetic sequences have at least two parts. The one exception is the body of `function f (<newline># comment<newline>)`, an empty subshell.", "quantifier": "every token sequence (from the lexer or not), every command yielded by the iterator, every method of the parser that returns a tree", "why_tests_cant": "the guarantee is about every tree at any depth from any input", "anchors": ["src/parse.rs: Parser methods", "src/ast/builder/default_builder.rs: CoreBuilder, compress", "src/ast.rs"]}
{"id": "C42", "title": "Scripts can be concatenated with a newline", "statement": "If a source s1 (without here-document operators and not ending in a backslash) parses with the default builder, then s1, a newline and s2 parse as a whole exactly if s2 parses, and the commands yielded are those of s1 followed by those of s2. In particular the parse of a complete script never depends on the lines that follow it.", "quantifier": "all sources s1, s2 and all token sequences ts1, ts2", "why_tests_cant": "it relates the parses of all pairs of inputs", "anchors": ["src/parse.rs: Parser::complete_command, ParserIterator::next, linebreak, newline", "src/lexer.rs: Lexer"]}
{"id": "C43", "title": "Every instance of the generic builder gives the same parse", "statement": "For every choice of string, word, command and function-body types with their conversions, a parser over CoreBuilder<T, W, C, F> accepts and rejects exactly what a parser over DefaultBuilder does, with the same errors at the same positions and the same tokens consumed, for every public method and for the iterator; and the tree it returns is DefaultBuilder's tree with every string converted and every word, command and function body wrapped, nothing added, dropped or reordered. Builders that delegate (&mut B, Box<B>, DefaultBuilder, RcBuilder, ArcBuilder) are observably the builder they contain.", "quantifier": "all types T, W, C, F and conversion functions, all reachable parser states, all token sequences, all public methods", "why_tests_cant": "it quantifies over all instantiations of four type parameters and all inputs", "anchors": ["src/ast/builder/default_builder.rs: CoreBuilder, default_builder!", "src/ast/builder.rs: impl_builder_body!"]}
{"id": "C44", "title": "Error messages identify the error on one line", "statement": "The message of an error of the parser tells its kind, the line and column of every position it carries, and the text of the token, identifier, command and keyword it names: two errors with the same message differ only in byte offsets and token classification. An error of any method names a token that was still to be read when the method was called. The message is a single line (an unexpected newline is printed as \\n). The last claim is false at the pinned commit for a newline inside ${...}, whose message contains the newline.", "quantifier": "all pairs of errors; all token sequences without here-document operators, all builders, all methods, all reachable states", "why_tests_cant": "it ranges over all positions, tokens and inputs", "anchors": ["src/parse.rs: Display for ParseError, Display for SourcePos, ParseError::cause", "src/token.rs: Display for Token"]}
{"id": "C45", "title": "\"Unexpected end of input\" means the end was reached", "statement": "An error that says that the input ended too early (UnexpectedEOF, or Unmatched of a quote, parenthesis, backquote or double quote) is only reported when every token has been read, so that a caller reading interactively can take it as the request for more input. At the pinned commit this is false inside backquotes and here-documents, whose text is parsed by an inner parser and whose end is reported as the end of the input; it is also false of Unmatched for a brace, which a brace group reports when it meets another token than its closing brace.", "quantifier": "all token sequences, all builders, all methods, all reachable states", "why_tests_cant": "it ranges over all inputs that fail and all states they fail in", "anchors": ["src/parse.rs: make_unexpected_err, unexpected, command_group_internal, brace_group", "src/parse/iter.rs: Balanced::next"]}
{"id": "C46", "title": "An error that names an offending token is final", "statement": "A shell reading line by line can act on what it has so far: if the lines read (complete lines without here-document operators) give an Unexpected, BadSubst or BadIdent error, then however the source goes on, the parser yields the same commands and then the same error, at the same position. Conversely the first lines of a script that parses never give such an error. For every single method: any error reported, and any result returned, before the last token was read is unchanged, with the same tokens left, when there is more input.", "quantifier": "all token sequences (sources) of whole lines without here-document operators, all continuations, all builders, all methods, all reachable states", "why_tests_cant": "it ranges over all inputs and all their continuations", "anchors": ["src/parse.rs: Parser (all methods), ParserIterator::next, make_unexpected_err", "src/parse/iter.rs: TokenIter, Balanced, Multipeek", "src/lexer.rs: Lexer"]}
{"id": "C47", "title": "The parser takes no more of its source than the line it needs", "statement": "The token source may block until more has been typed. As long as its methods succeed (and the input has no here-document operators), the tokens a parser has taken from its source without having consumed them contain a newline only in last place: it asks for nothing beyond the end of the current line unless that end is consumed. Likewise for characters: when the lexer yields a newline it has taken the characters of the tokens it yielded and no other. When complete_command returns a command that ends with its line, it has taken exactly that line, newline included, and nothing of the next; and what it has not taken does not matter: the same line followed by anything else, or by the end of the input, gives the same command. The methods that look for a reserved word are excepted: at a newline they look one token further.", "quantifier": "all token sequences (sources) without here-document operators, all sequences of method calls, all builders; for the irrelevance of what was not taken: all sources, all states, all methods", "why_tests_cant": "it ranges over all inputs and histories of calls, and over what the parser does not do", "anchors": ["src/parse/iter.rs: TokenIter::next, TokenIter::peek, Multipeek, rewind", "src/parse.rs: Parser::complete_command, Parser::newline, Parser::linebreak, Parser::peek_reserved_word, ParserIterator::next", "src/lexer.rs: Lexer::next, next_internal, next_is"]}
{"id": "C48", "title": "Scripts nest", "statement": "A non-empty script that parses on its own as some commands, when put on the lines between `(` and `)`, `{` and `}`, `while`/`until`, `do` and `done`, `if`, `then`, `else` and `fi`, or `$(` and `)`, parses as that one compound command (or command substitution) with exactly the same commands inside. The script must contain no here-document operator and not end with a backslash, and, except between parentheses, must not contain the closing token as a token of its own: outside a group a stray `}`, `done` or `fi` is an ordinary command name.", "quantifier": "all source texts that the parser accepts, without `<<`, not ending in a backslash (and for braces and reserved words without the closing token)", "why_tests_cant": "it ranges over all accepted scripts and arbitrary depth of nesting", "anchors": ["src/parse.rs: Parser::command_group_internal, Parser::subshell_internal, Parser::brace_group, Parser::do_group, Parser::loop_command, Parser::if_command, Parser::complete_command, Parser::parameter_raw"]}
{"id": "C49", "title": "Nothing in the AST is made up", "statement": "Everything that an accepted script's AST says was written in the source, and in that order: the names, literal texts, quotes, escapes, descriptors, parameters, operators of expansions and of arithmetic, reserved words, redirection operators, pipes, `!`, `&&`, `||` and `&` of the commands returned, read from left to right, form a subsequence of the source text. With the bodies of here-documents, which stand further down, put in as well, every character occurs in the source at least as often, so an AST is never larger than its source (no macro expansion, no quadratic growth).", "quantifier": "all source texts that the parser accepts, including here-documents and nested substitutions", "why_tests_cant": "a test can compare the AST of one source; that no text is invented, duplicated or moved holds of all sources only by induction over the grammar", "anchors": ["src/parse.rs: Parser::complete_command, Parser::word_interpolated_raw, Parser::parameter_raw, Parser::redirect, Parser::redirect_heredoc, Parser::arithmetic_substitution", "src/ast/builder/default_builder.rs: CoreBuilder", "src/lexer.rs: Lexer"]}
{"id": "C50", "title": "Backquotes and $( ) read a script alike", "statement": "A script that parses on its own, without backslashes, whose quotes and brackets are balanced once its backquotes are escaped, parses between backquotes (each of its own backquotes preceded by a backslash, on lines of its own) as a command substitution with exactly the same commands, the same AST that `$(` and `)` give. The balance condition and the exclusion of backslashes cannot be dropped: a quoted parenthesis is rejected between backquotes, and a doubled backslash there escapes a whole token (`a \\\\&& b`) where on its own it escapes one character.", "quantifier": "all accepted source texts without `<<` and backslashes that are balanced in the sense of the region specification", "why_tests_cant": "it ranges over all accepted scripts; it combines re-lexing of escaped text, region finding and unescaping with the whole grammar", "anchors": ["src/parse.rs: Parser::backticked_command_substitution, Parser::backticked_raw", "src/parse/iter.rs: Balanced, BacktickBackslashRemover, TokenIterWrapper::token_iter_from_backticked_with_removed_backslashes", "src/lexer.rs: Lexer::next_internal"]}
{"id": "C51", "title": "Nothing of the source is kept from the builder", "statement": "Whatever stands in an accepted source is handed to the builder, once and in the order of the source: every word with its quotes and escapes, every parameter, substitution, redirection, here-document body, reserved word, operator, separator, newline and comment (comments at the end of the input by Builder::comments). Only these are not: blanks, escaped newlines, a backslash at the very end, the way a number, parameter, arithmetic expression or command substitution is written (07 for 7, ${x} for $x, backquotes for $( )), optional tokens (`function`, the parentheses of a function, `(` before a case pattern, the last `;;`, `;` before `do`), and delimiters and stripped tabs of here-documents. So a builder can reconstruct the source up to layout, and no comment is lost.", "quantifier": "all token sequences and source texts that the parser accepts", "why_tests_cant": "a test can look at one source; that no fragment of any source is dropped or told twice needs induction over the grammar", "anchors": ["src/parse.rs: Parser::complete_command, Parser::linebreak, Parser::newline, Parser::for_command, Parser::case_command, Parser::command_group_internal, Parser::word_interpolated_raw, Parser::redirect_heredoc", "src/ast/builder.rs: Builder, Newline"]}
{"id": "C52", "title": "Builder values are used once, bottom-up and in order", "statement": "The parser is linear in its builder: whenever a public method succeeds, every value the builder returned during the call has been handed back to the builder, or is part of the method's result, exactly once; never twice, never dropped. Calls are made bottom-up and from left to right: everything to the left of a value, and everything it is made of, is built before it, so the sequence of calls is the post-order of the history of the result. The one exception is Builder::comments at the end of the input, which returns nothing. After an error the calls made so far stay made; recording the calls changes neither the result nor the calls.", "quantifier": "all builders (with any state, any value types, failing or not), all public methods, all parser states, all token streams", "why_tests_cant": "a test builder sees one parse; a value that some branch of the parser parses and then discards, or uses twice, shows only on the input that takes that branch", "anchors": ["src/ast/builder.rs: Builder", "src/parse.rs: Parser::complete_command, Parser::and_or_list, Parser::pipeline, Parser::command, Parser::simple_command, Parser::redirect, Parser::redirect_heredoc, Parser::word_preserve_trailing_whitespace, Parser::function_declaration, Parser::for_command, Parser::case_command, Parser::if_command, Parser::command_group_internal"]}
{"id": "C53", "title": "A call only takes tokens from the front, even when it fails", "statement": "Whatever parsing method is called, in whatever state and whether it succeeds or returns an error: if no here-document operator is left to be read, the tokens left afterwards are a suffix of those left before; look-ahead, backquoted sub-parsers and failed calls never drop, duplicate, reorder or invent a token further on. Over any history of calls on a source, failed calls included, the source is the text read so far followed by the text left, and the parser's position is that of the end of the text read. With here-documents, a successful call leaves a subsequence of the tokens in their order, and a failed one too, blanks aside.", "quantifier": "all builders, all public methods, all reachable parser states, all sequences of calls, all sources", "why_tests_cant": "a test sees one history of calls; a token dropped or put back twice on some error path shows only on that path", "anchors": ["src/parse.rs: Parser (all public methods), Parser::redirect_heredoc, Parser::backticked_raw", "src/parse/iter.rs: TokenIter, TokenIterWrapper, BacktickBackslashRemover::create_token_iter, Multipeek"]}
{"id": "C54", "title": "Parsing does at most quadratic work", "statement": "Whatever parsing method is called, in whatever state and however it ends, the number of operations it makes on the token stream and the builder (reading, looking at, looking ahead, asking the position, putting back or re-giving a token, calling a builder method) is at most quadratic in the number of tokens left; and reading all the commands of a source, one call after another, makes at most quadratically many operations in the length of the source. No input, however nested or malformed, makes the parser take exponential or cubic work. (Quadratic is reached: a line of n here-document operators is set aside and handed back n times.)", "quantifier": "all builders, all public methods, all reachable parser states, all sources, any number of commands", "why_tests_cant": "a benchmark times chosen inputs; re-parsing that doubles at each level of nesting, or look-ahead repeated per token, shows only on an adversarial input of the right shape and size", "anchors": ["src/parse.rs: Parser (all public methods)", "src/parse/iter.rs: TokenIter, TokenIterWrapper, Multipeek, BacktickBackslashRemover::create_token_iter"]}
{"id": "C55", "title": "Names and layout do not change the structure", "statement": "Replace, in a script without here-documents, any names that are neither reserved words nor numbers by other such names, and any runs of blanks by other non-empty runs (one token for one token). The commands parsed from the new script have exactly the same shape as before (the same tree, differing only in such texts), and after them parsing ends, fails with the same kind of error, or panics alike. So one script is accepted exactly when the other is, and a builder that does not tell such texts apart is given the same things. No name but a reserved word is special to the parser, and no amount of indentation changes a meaning.", "quantifier": "all token sequences without here-document operators, all replacements of ordinary names and blanks, any number of commands; all core builders over any types", "why_tests_cant": "tests use a handful of names and one layout; a comparison with a prefix of a reserved word, a test on the first letter, or a dependence on the width of a blank shows only for names and layouts nobody tried", "anchors": ["src/parse.rs: Parser (all grammar methods), DefaultParser", "src/token.rs: Token", "src/ast/builder/default_builder.rs: CoreBuilder"]}
{"id": "C56", "title": "Semicolons and ampersands separate commands as newlines do", "statement": "Take a script without here-documents that does not end in a backslash and whose comments are all ended by newlines, parsed to its end. If a semicolon (or an ampersand) may follow it at all, then it may be followed by the semicolon and any other script: the commands parsed are those of the first script followed by those of the second, whatever the second is (including when it fails or is empty); with an ampersand, the last command of the first script becomes a job and nothing else changes. And whenever the two scripts with the separator between them parse, they arise in this way: so a semicolon between two scripts can always be replaced by a newline without changing what is parsed, and an ampersand by a newline up to the one command being a job.", "quantifier": "all pairs of token sequences, and all pairs of source texts, of any length; both separators; the default builder, any number of commands", "why_tests_cant": "tests parse a few lists written with a semicolon; that nothing in the first script leaks past the separator, and that exactly one command is put in the background, concerns every pair of scripts", "anchors": ["src/parse.rs: Parser::complete_command, Parser::linebreak, Parser::command_group_internal", "src/ast/builder/default_builder.rs: complete_command"]}
{"id": "C57", "title": "Compound commands can be written on one line", "statement": "Take scripts without here-documents that do not end in a backslash or an operator character, whose comments are all ended by newlines, and which may be followed by a semicolon (or ampersand). Then `{ s; }`, `while s1; do s2; done`, `until s1; do s2; done`, `if s1; then s2; fi` and `if s1; then s2; else s3; fi` on one line parse to exactly one compound command holding the commands of the scripts (the last one of a script being put in the background where an ampersand was written), provided the word that ends each script does not occur in it; `(s)` and `$( s)` parse to the subshell or substitution holding the commands of s, with no condition on words or separators. So the one-line forms read as the forms over many lines.", "quantifier": "all source scripts of any length, any number of commands, both separators before each word independently", "why_tests_cant": "tests write a handful of one-line commands with one simple command each; that the word after the separator is recognised after every possible script, and nothing of the script leaks into what follows, concerns every script", "anchors": ["src/parse.rs: Parser::command_group_internal, brace_group, subshell, loop_command, if_command, do_group, complete_command, subst_command", "src/ast/builder/default_builder.rs: complete_command, brace_group, subshell, loop_command, if_command"]}
{"id": "C58", "title": "A function definition or a negation in front of a script applies to what comes first only", "statement": "If a script starts with a compound command (as the first element of a pipeline, a list, a job, with redirections, followed by anything, here-documents included), then the same script with `f() ` in front of it, f being a name other than for, case, if, while, until and function, parses to the same commands except that this compound command, with its redirections, has become the body of a function named f. If a script starts with a pipeline (no newline or comment first), then the script with `! ` in front parses to the same commands except that this pipeline is negated.", "quantifier": "all scripts of any length, all names, all compound commands, pipelines, lists and following commands; here-documents included", "why_tests_cant": "tests define a few functions with a group as body and nothing after; where the body ends, and that the rest of the pipeline, list and script keeps its structure, concerns every script", "anchors": ["src/parse.rs: Parser::pipeline, maybe_function_declaration, function_declaration, compound_command, complete_command", "src/ast/builder/default_builder.rs: pipeline, function_declaration"]}
{"id": "C59", "title": "Scripts nest in for and case commands", "statement": "If a script parses, then the same script put on its own lines between `do` and `done` of `for v` or of `for v in w1 ... wn` is the body of that for command, with the given variable and words (none, if `in` was not written); and scripts put after `p)` and before `;;` in `case w in ... esac` are the bodies of the arms with the patterns p, in order and including empty ones. The commands inside are those the script gives on its own. Conditions: the script has no here-document operator, does not end with a backslash, and does not contain the words that end it (done; esac and ;;); variables, words and patterns are names.", "quantifier": "all scripts of any length and nesting, all names, word lists and numbers of arms", "why_tests_cant": "tests put one fixed simple command in a loop or an arm; that every script is read inside as it is outside ranges over all programs", "anchors": ["src/parse.rs: Parser::for_command, case_command, do_group, command_group, command_group_internal, word, reserved_word", "src/ast/builder/default_builder.rs: for_command, case_command"]}
