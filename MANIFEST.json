{
 "claims": [
  {
   "property": "C01",
   "status": "proved",
   "theorems": [
    "lex_lossless"
   ],
   "note": ""
  },
  {
   "property": "C02",
   "status": "proved",
   "theorems": [
    "lex_tokens_nonempty",
    "lex_length"
   ],
   "note": ""
  },
  {
   "property": "C03",
   "status": "proved",
   "theorems": [
    "lex_maximal_munch",
    "Lexes_deterministic",
    "lex_Lexes"
   ],
   "note": ""
  },
  {
   "property": "C04",
   "status": "proved",
   "theorems": [
    "lex_display",
    "lex_lexable"
   ],
   "note": ""
  },
  {
   "property": "C05",
   "status": "partial",
   "theorems": [
    "lexer_size_hint_partial",
    "lexer_size_hint_fresh",
    "lexer_size_hint_upper_refuted"
   ],
   "note": "the claimed upper bound is false at the pinned commit: refuted by a witness; the lower bound and the upper bound hi + 2 are proved"
  },
  {
   "property": "C06",
   "status": "proved",
   "theorems": [
    "position_tracks_text"
   ],
   "note": ""
  },
  {
   "property": "C07",
   "status": "proved",
   "theorems": [
    "multipeek_pure",
    "peek_pure"
   ],
   "note": ""
  },
  {
   "property": "C08",
   "status": "proved",
   "theorems": [
    "buffering"
   ],
   "note": ""
  },
  {
   "property": "C09",
   "status": "proved",
   "theorems": [
    "token_iter_never_panics",
    "token_iter_refines",
    "run_transfer"
   ],
   "note": "run_transfer extends the refinement to every parser program"
  },
  {
   "property": "C10",
   "status": "proved",
   "theorems": [
    "parser_terminates",
    "parser_fuel_irrelevant"
   ],
   "note": ""
  },
  {
   "property": "C11",
   "status": "partial",
   "theorems": [
    "parser_never_panics_partial",
    "settled_never_panics_partial",
    "safe_source_never_panics_partial",
    "parser_panics_refuted"
   ],
   "note": "false at the pinned commit: a here-document body ending in a backslash panics (witness); every other panic site is proved unreachable, and that one too when there is no here-document operator, or when the input has no backquote and its last non-blank character is not a backslash (here-documents allowed); Panics.v has a witness for each excluded shape"
  },
  {
   "property": "C12",
   "status": "proved",
   "theorems": [
    "iterator_complete",
    "iterator_fused"
   ],
   "note": ""
  },
  {
   "property": "C13",
   "status": "proved",
   "theorems": [
    "complete_command_progress",
    "iterator_at_most_tokens"
   ],
   "note": ""
  },
  {
   "property": "C14",
   "status": "proved",
   "theorems": [
    "no_command_iff_blank"
   ],
   "note": ""
  },
  {
   "property": "C15",
   "status": "proved",
   "theorems": [
    "builder_independence",
    "validation_agrees"
   ],
   "note": ""
  },
  {
   "property": "C16",
   "status": "proved",
   "theorems": [
    "builder_error_stops_parse",
    "spy_transparent"
   ],
   "note": ""
  },
  {
   "property": "C17",
   "status": "proved",
   "theorems": [
    "error_positions_denote",
    "few_backticks_plain",
    "error_positions_heredoc_refuted"
   ],
   "note": "outside the stated condition the claim is false: witness with a <<- here-document"
  },
  {
   "property": "C18",
   "status": "proved",
   "theorems": [
    "arithmetic_round_trip",
    "arith_runs",
    "arithmetic_sound"
   ],
   "note": ""
  },
  {
   "property": "C19",
   "status": "proved",
   "theorems": [
    "arithmetic_literal",
    "arithmetic_literal_rejected",
    "arithmetic_literals_exact",
    "arithmetic_literals_fit",
    "arithmetic_decimal",
    "arithmetic_decimal_rejected"
   ],
   "note": "the bare prefixes 0x and 0X are accepted as 0"
  },
  {
   "property": "C20",
   "status": "proved",
   "theorems": [
    "single_quotes_verbatim"
   ],
   "note": ""
  },
  {
   "property": "C21",
   "status": "proved",
   "theorems": [
    "double_quotes_literal"
   ],
   "note": ""
  },
  {
   "property": "C22",
   "status": "proved",
   "theorems": [
    "backslash_quotes",
    "continuation_delimits"
   ],
   "note": ""
  },
  {
   "property": "C23",
   "status": "proved",
   "theorems": [
    "parameter_round_trip"
   ],
   "note": ""
  },
  {
   "property": "C24",
   "status": "proved",
   "theorems": [
    "quoted_heredoc_literal",
    "quoted_heredoc_literal_end",
    "plain_heredoc_literal",
    "redirect_heredoc_run",
    "redirect_read"
   ],
   "note": "source level for delimiters in single quotes and for plain delimiters with plain bodies; every other way of writing the delimiter and the body is covered at token level by redirect_heredoc_run / redirect_read"
  },
  {
   "property": "C25",
   "status": "partial",
   "theorems": [
    "dash_heredoc_strips_partial",
    "dash_strips_only_leading_tabs_refuted",
    "redirect_heredoc_run"
   ],
   "note": "false at the pinned commit: a tab inside a line is removed too (witness); proved for lines whose tabs are all leading; what is removed in general is proved exactly at token level"
  },
  {
   "property": "C26",
   "status": "proved",
   "theorems": [
    "comment_captured",
    "comment_captured_end",
    "comment_before_command"
   ],
   "note": ""
  },
  {
   "property": "C27",
   "status": "proved",
   "theorems": [
    "compress_concat",
    "compress_single",
    "compress_no_singleton",
    "compress_content",
    "default_word_eq",
    "compress_idempotent_refuted"
   ],
   "note": "idempotence of the coalescing is false (witness): a double-quoted word inside a concatenation is left uncompressed"
  },
  {
   "property": "C28",
   "status": "partial",
   "theorems": [
    "redirect_descriptor_partial",
    "descriptor_recognised",
    "redirect_descriptor_refuted"
   ],
   "note": "false at the pinned commit: a sign + in front of the digits is accepted (witness +5>f); everything else of the property is proved, for every builder"
  },
  {
   "property": "C29",
   "status": "proved",
   "theorems": [
    "peek_word_exact",
    "peek_no_word",
    "take_word_exact",
    "peek_token_exact",
    "take_token_exact",
    "word_delimiters"
   ],
   "note": ""
  },
  {
   "property": "C30",
   "status": "partial",
   "theorems": [
    "no_function_consumes_blanks_partial",
    "no_function_consumes_nothing_refuted"
   ],
   "note": "false at the pinned commit: leading blanks are consumed (witness); that nothing else is consumed, and exactly when no function is reported, is proved"
  },
  {
   "property": "C34",
   "status": "partial",
   "theorems": [
    "incomplete_names_command_partial",
    "incomplete_names_command_refuted"
   ],
   "note": "false at the pinned commit: an until loop is named while (witness); otherwise the named command's keyword is at the reported position"
  },
  {
   "property": "C31",
   "status": "proved",
   "theorems": [
    "script_round_trip",
    "command_round_trip",
    "word_round_trip",
    "show_script_injective"
   ],
   "note": "normal forms are those of Printer.v: every construct except here-documents, which C24 covers"
  },
  {
   "property": "C32",
   "status": "proved",
   "theorems": [
    "balanced_region",
    "balanced_unclosed",
    "balanced_cases",
    "balanced_unique",
    "balanced_piece",
    "balanced_piece_none",
    "balanced_piece_unclosed"
   ],
   "note": ""
  },
  {
   "property": "C33",
   "status": "proved",
   "theorems": [
    "backtick_chunks",
    "backtick_chunks_unclosed",
    "backtick_stream",
    "backtick_stream_unclosed",
    "unescape_located_tokens"
   ],
   "note": ""
  },
  {
   "property": "C35",
   "status": "proved",
   "theorems": [
    "from_num_as_num",
    "as_num_from_num"
   ],
   "note": ""
  },
  {
   "property": "C36",
   "status": "proved",
   "theorems": [
    "no_builder_error",
    "default_pipeline_unwrap_unreachable"
   ],
   "note": ""
  },
  {
   "property": "C37",
   "status": "proved",
   "theorems": [
    "script_exact",
    "complete_command_exact",
    "and_or_list_exact",
    "pipeline_exact",
    "command_exact",
    "compound_command_exact",
    "simple_command_exact",
    "redirect_exact",
    "word_exact",
    "word_skipping_exact",
    "no_word_exact",
    "parameter_exact",
    "backticked_exact",
    "redirect_word_exact",
    "no_redirect_exact",
    "redirect_list_exact",
    "redirect_heredoc_exact",
    "do_group_exact",
    "brace_group_exact",
    "subshell_exact",
    "loop_command_exact",
    "if_command_exact",
    "for_command_exact",
    "case_command_exact",
    "command_group_exact",
    "function_exact",
    "maybe_function_exact",
    "linebreak_exact",
    "newline_exact",
    "skip_whitespace_exact",
    "end_exact",
    "script_read",
    "script_sound"
   ],
   "note": "the grammar is Forms.v, HeredocSpec.v and ArithSpec.v"
  },
  {
   "property": "C38",
   "status": "proved",
   "theorems": [
    "script_unambiguous",
    "arithmetic_unambiguous"
   ],
   "note": ""
  },
  {
   "property": "C39",
   "status": "proved",
   "theorems": [
    "script_rejected"
   ],
   "note": ""
  },
  {
   "property": "C40",
   "status": "proved",
   "theorems": [
    "arithmetic_exact"
   ],
   "note": ""
  },
  {
   "property": "C41",
   "status": "proved",
   "theorems": [
    "iterator_wf",
    "method_wf",
    "empty_function_body"
   ],
   "note": "method_wf covers every public method; redirect_heredoc for descriptors of 16 bits, command_group_internal for delimiters other than blanks, newlines, # and backslashes (the only ones the parser itself uses)."
  },
  {
   "property": "C42",
   "status": "proved",
   "theorems": [
    "script_join",
    "script_join_source",
    "forms_join"
   ],
   "note": "the two conditions on the first source are necessary: join_needs_no_heredoc, join_needs_no_backslash"
  },
  {
   "property": "C43",
   "status": "proved",
   "theorems": [
    "core_builder_same",
    "core_iterator_same",
    "core_word_eq",
    "delegating_same"
   ],
   "note": "the conversions are taken to be total functions without effects; the conversion of a tree is specified in CoreConvert.v"
  },
  {
   "property": "C44",
   "status": "partial",
   "theorems": [
    "message_identifies",
    "message_tells",
    "error_names_input",
    "message_one_line_partial",
    "message_one_line_refuted"
   ],
   "note": "single-line messages are false at the pinned commit for a newline inside ${...} (witness); proved otherwise for inputs without here-document operators"
  },
  {
   "property": "C45",
   "status": "partial",
   "theorems": [
    "ended_means_end_partial",
    "ended_means_end_backquotes_refuted"
   ],
   "note": "false inside backquotes (witness) and here-documents, proved for every other input; Unmatched of a brace is not claimed"
  },
  {
   "property": "C46",
   "status": "proved",
   "theorems": [
    "more_input",
    "error_final",
    "prefix_no_final_error",
    "error_final_source",
    "prefix_no_final_error_source"
   ],
   "note": "both conditions are necessary: final_needs_lines, final_needs_no_heredoc; the methods that look for tokens of the caller's choice must not be asked for a newline"
  },
  {
   "property": "C47",
   "status": "proved",
   "theorems": [
    "session_lookahead",
    "iterator_lookahead",
    "newline_nothing_ahead",
    "untaken_irrelevant",
    "line_read",
    "line_suffices",
    "lexer2_next_same",
    "newline_token_last",
    "line_of_characters"
   ],
   "note": "here-document operators are excluded: the body comes after the line; reserved_word_reaches_past shows why the methods that look for a reserved word are excepted"
  },
  {
   "property": "C48",
   "status": "proved",
   "theorems": [
    "nest_subshell",
    "nest_brace",
    "nest_loop",
    "nest_if",
    "nest_substitution"
   ],
   "note": "stray_brace shows that the condition on the closing token cannot be dropped; here-documents are excluded"
  },
  {
   "property": "C49",
   "status": "proved",
   "theorems": [
    "ast_in_source",
    "ast_text_in_source",
    "ast_not_larger"
   ],
   "note": "the trace leaves out blanks, comments, separators, delimiters of command substitutions and here-documents, and numbers and parentheses in arithmetic; trace_witness shows a traced script"
  },
  {
   "property": "C50",
   "status": "proved",
   "theorems": [
    "nest_backquotes",
    "nest_substitution"
   ],
   "note": "backquote_witness meets the hypotheses; backquote_unbalanced and backquote_backslash show they cannot be dropped"
  },
  {
   "property": "C51",
   "status": "partial",
   "theorems": [
    "source_reaches_builder_partial",
    "source_told",
    "command_told",
    "end_told",
    "only_blanks_missing"
   ],
   "note": "false at the pinned commit for comments and newlines between the variable of a for command and a semicolon (comment_is_lost): they are told to no builder; everything else is proved, with here-documents, arithmetic and nested substitutions"
  },
  {
   "property": "C52",
   "status": "proved",
   "theorems": [
    "builder_results_used_once",
    "builder_results_used_once_each",
    "builder_log_grows",
    "recording_transparent"
   ],
   "note": "protocol_witness shows a recorded parse"
  },
  {
   "property": "C53",
   "status": "proved",
   "theorems": [
    "calls_take_from_the_front",
    "calls_never_invent_tokens",
    "history_reads_a_prefix"
   ],
   "note": "front_witness and heredoc_witness are cases; heredoc_error_loses_script shows why a failed call in a here-document is treated apart"
  },
  {
   "property": "C54",
   "status": "proved",
   "theorems": [
    "calls_do_quadratic_work",
    "scripts_do_quadratic_work"
   ],
   "note": "work_witness is a case; work_grows_quadratically shows that the order of the bound is reached; string concatenation, lexing and what a builder method does inside are not counted"
  },
  {
   "property": "C55",
   "status": "proved",
   "theorems": [
    "names_do_not_change_structure",
    "names_do_not_change_conversions",
    "names_do_not_change_acceptance"
   ],
   "note": "token for token; literals, quoting and here-documents are kept as they are; names_witness and names_witness_error meet the hypotheses"
  },
  {
   "property": "C56",
   "status": "proved",
   "theorems": [
    "separator_join",
    "separator_splits",
    "semicolon_is_newline",
    "ampersand_is_newline",
    "separator_join_source",
    "semicolon_is_newline_source"
   ],
   "note": "separator_witness meets the hypotheses; separator_needs_comment_end shows that a comment must be ended; here-documents are excluded"
  },
  {
   "property": "C57",
   "status": "proved",
   "theorems": [
    "oneline_brace",
    "oneline_subshell",
    "oneline_substitution",
    "oneline_loop",
    "oneline_if",
    "oneline_if_else",
    "oneline_as_lines"
   ],
   "note": "oneline_witness meets the hypotheses; oneline_needs_comment_end shows that a comment must be ended, stray_brace (C48) that the words must not occur; here-documents are excluded"
  },
  {
   "property": "C58",
   "status": "proved",
   "theorems": [
    "function_prefix",
    "bang_prefix"
   ],
   "note": "prefix_witness meets the hypotheses; prefix_needs shows that the condition on the name and the one on newlines cannot be dropped"
  },
  {
   "property": "C59",
   "status": "proved",
   "theorems": [
    "nest_for",
    "nest_case"
   ],
   "note": "nest_for_witness meets the hypotheses, with an empty arm among them; here-documents are excluded"
  }
 ]
}