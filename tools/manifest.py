import json
C=[
("C01","proved",["lex_lossless"],""),
("C02","proved",["lex_tokens_nonempty","lex_length"],""),
("C03","proved",["lex_maximal_munch","Lexes_deterministic","lex_Lexes"],""),
("C04","proved",["lex_display","lex_lexable"],""),
("C05","partial",["lexer_size_hint_partial","lexer_size_hint_fresh","lexer_size_hint_upper_refuted"],"the claimed upper bound is false at the pinned commit: refuted by a witness; the lower bound and the upper bound hi + 2 are proved"),
("C06","proved",["position_tracks_text"],""),
("C07","proved",["multipeek_pure","peek_pure"],""),
("C08","proved",["buffering"],""),
("C09","proved",["token_iter_never_panics","token_iter_refines","run_transfer"],"run_transfer extends the refinement to every parser program"),
("C10","proved",["parser_terminates","parser_fuel_irrelevant"],""),
("C11","partial",["parser_never_panics_partial","settled_never_panics_partial","safe_source_never_panics_partial","parser_panics_refuted"],"false at the pinned commit: a here-document body ending in a backslash panics (witness); every other panic site is proved unreachable, and that one too when there is no here-document operator, or when the input has no backquote and its last non-blank character is not a backslash (here-documents allowed); Panics.v has a witness for each excluded shape"),
("C12","proved",["iterator_complete","iterator_fused"],""),
("C13","proved",["complete_command_progress","iterator_at_most_tokens"],""),
("C14","proved",["no_command_iff_blank"],""),
("C15","proved",["builder_independence","validation_agrees"],""),
("C16","proved",["builder_error_stops_parse","spy_transparent"],""),
("C17","proved",["error_positions_denote","few_backticks_plain","error_positions_heredoc_refuted"],"outside the stated condition the claim is false: witness with a <<- here-document"),
("C18","proved",["arithmetic_round_trip","arith_runs","arithmetic_sound"],""),
("C19","proved",["arithmetic_literal","arithmetic_literal_rejected","arithmetic_literals_exact","arithmetic_literals_fit","arithmetic_decimal","arithmetic_decimal_rejected"],"the bare prefixes 0x and 0X are accepted as 0"),
("C20","proved",["single_quotes_verbatim"],""),
("C21","proved",["double_quotes_literal"],""),
("C22","proved",["backslash_quotes","continuation_delimits"],""),
("C23","proved",["parameter_round_trip"],""),
("C24","proved",["quoted_heredoc_literal","quoted_heredoc_literal_end","plain_heredoc_literal","redirect_heredoc_run","redirect_read"],"source level for delimiters in single quotes and for plain delimiters with plain bodies; every other way of writing the delimiter and the body is covered at token level by redirect_heredoc_run / redirect_read"),
("C25","partial",["dash_heredoc_strips_partial","dash_strips_only_leading_tabs_refuted","redirect_heredoc_run"],"false at the pinned commit: a tab inside a line is removed too (witness); proved for lines whose tabs are all leading; what is removed in general is proved exactly at token level"),
("C26","proved",["comment_captured","comment_captured_end","comment_before_command"],""),
("C27","proved",["compress_concat","compress_single","compress_no_singleton","compress_content","default_word_eq","compress_idempotent_refuted"],"idempotence of the coalescing is false (witness): a double-quoted word inside a concatenation is left uncompressed"),
("C28","partial",["redirect_descriptor_partial","descriptor_recognised","redirect_descriptor_refuted"],"false at the pinned commit: a sign + in front of the digits is accepted (witness +5>f); everything else of the property is proved, for every builder"),
("C29","proved",["peek_word_exact","peek_no_word","take_word_exact","peek_token_exact","take_token_exact","word_delimiters"],""),
("C30","partial",["no_function_consumes_blanks_partial","no_function_consumes_nothing_refuted"],"false at the pinned commit: leading blanks are consumed (witness); that nothing else is consumed, and exactly when no function is reported, is proved"),
("C34","partial",["incomplete_names_command_partial","incomplete_names_command_refuted"],"false at the pinned commit: an until loop is named while (witness); otherwise the named command's keyword is at the reported position"),
("C31","proved",["script_round_trip","command_round_trip","word_round_trip","show_script_injective"],"normal forms are those of Printer.v: every construct except here-documents, which C24 covers"),
("C32","proved",["balanced_region","balanced_unclosed","balanced_cases","balanced_unique","balanced_piece","balanced_piece_none","balanced_piece_unclosed"],""),
("C33","proved",["backtick_chunks","backtick_chunks_unclosed","backtick_stream","backtick_stream_unclosed","unescape_located_tokens"],""),
("C35","proved",["from_num_as_num","as_num_from_num"],""),
("C36","proved",["no_builder_error","default_pipeline_unwrap_unreachable"],""),
("C37","proved",["script_exact","complete_command_exact","and_or_list_exact","pipeline_exact","command_exact","compound_command_exact","simple_command_exact","redirect_exact","word_exact","word_skipping_exact","no_word_exact","parameter_exact","backticked_exact","redirect_word_exact","no_redirect_exact","redirect_list_exact","redirect_heredoc_exact","do_group_exact","brace_group_exact","subshell_exact","loop_command_exact","if_command_exact","for_command_exact","case_command_exact","command_group_exact","function_exact","maybe_function_exact","linebreak_exact","newline_exact","skip_whitespace_exact","end_exact","script_read","script_sound"],"the grammar is Forms.v, HeredocSpec.v and ArithSpec.v"),
("C38","proved",["script_unambiguous","arithmetic_unambiguous"],""),
("C39","proved",["script_rejected"],""),
("C40","proved",["arithmetic_exact"],""),
("C41","proved",["iterator_wf","method_wf","empty_function_body"],"method_wf covers every public method; redirect_heredoc for descriptors of 16 bits, command_group_internal for delimiters other than blanks, newlines, # and backslashes (the only ones the parser itself uses)."),
("C42","proved",["script_join","script_join_source","forms_join"],"the two conditions on the first source are necessary: join_needs_no_heredoc, join_needs_no_backslash"),
("C43","proved",["core_builder_same","core_iterator_same","core_word_eq","delegating_same"],"the conversions are taken to be total functions without effects; the conversion of a tree is specified in CoreConvert.v"),
("C44","partial",["message_identifies","message_tells","error_names_input","message_one_line_partial","message_one_line_refuted"],"single-line messages are false at the pinned commit for a newline inside ${...} (witness); proved otherwise for inputs without here-document operators"),
("C45","partial",["ended_means_end_partial","ended_means_end_backquotes_refuted"],"false inside backquotes (witness) and here-documents, proved for every other input; Unmatched of a brace is not claimed"),
("C46","proved",["more_input","error_final","prefix_no_final_error","error_final_source","prefix_no_final_error_source"],"both conditions are necessary: final_needs_lines, final_needs_no_heredoc; the methods that look for tokens of the caller's choice must not be asked for a newline"),
("C47","proved",["session_lookahead","iterator_lookahead","newline_nothing_ahead","untaken_irrelevant","line_read","line_suffices","lexer2_next_same","newline_token_last","line_of_characters"],"here-document operators are excluded: the body comes after the line; reserved_word_reaches_past shows why the methods that look for a reserved word are excepted"),
("C48","proved",["nest_subshell","nest_brace","nest_loop","nest_if","nest_substitution"],"stray_brace shows that the condition on the closing token cannot be dropped; here-documents are excluded"),
("C49","proved",["ast_in_source","ast_text_in_source","ast_not_larger"],"the trace leaves out blanks, comments, separators, delimiters of command substitutions and here-documents, and numbers and parentheses in arithmetic; trace_witness shows a traced script"),
("C50","proved",["nest_backquotes","nest_substitution"],"backquote_witness meets the hypotheses; backquote_unbalanced and backquote_backslash show they cannot be dropped"),
("C51","partial",["source_reaches_builder_partial","source_told","command_told","end_told","only_blanks_missing"],"false at the pinned commit for comments and newlines between the variable of a for command and a semicolon (comment_is_lost): they are told to no builder; everything else is proved, with here-documents, arithmetic and nested substitutions"),
("C52","proved",["builder_results_used_once","builder_results_used_once_each","builder_log_grows","recording_transparent"],"protocol_witness shows a recorded parse"),
("C53","proved",["calls_take_from_the_front","calls_never_invent_tokens","history_reads_a_prefix"],"front_witness and heredoc_witness are cases; heredoc_error_loses_script shows why a failed call in a here-document is treated apart"),
("C54","proved",["calls_do_quadratic_work","scripts_do_quadratic_work"],"work_witness is a case; work_grows_quadratically shows that the order of the bound is reached; string concatenation, lexing and what a builder method does inside are not counted"),
("C55","proved",["names_do_not_change_structure","names_do_not_change_conversions","names_do_not_change_acceptance"],"token for token; literals, quoting and here-documents are kept as they are; names_witness and names_witness_error meet the hypotheses"),
("C56","proved",["separator_join","separator_splits","semicolon_is_newline","ampersand_is_newline","separator_join_source","semicolon_is_newline_source"],"separator_witness meets the hypotheses; separator_needs_comment_end shows that a comment must be ended; here-documents are excluded"),
("C57","proved",["oneline_brace","oneline_subshell","oneline_substitution","oneline_loop","oneline_if","oneline_if_else","oneline_as_lines"],"oneline_witness meets the hypotheses; oneline_needs_comment_end shows that a comment must be ended, stray_brace (C48) that the words must not occur; here-documents are excluded"),
("C58","proved",["function_prefix","bang_prefix"],"prefix_witness meets the hypotheses; prefix_needs shows that the condition on the name and the one on newlines cannot be dropped"),
("C59","proved",["nest_for","nest_case"],"nest_for_witness meets the hypotheses, with an empty arm among them; here-documents are excluded"),
]
json.dump({"claims":[dict(property=a,status=b,theorems=c,note=d) for a,b,c,d in C]},open('/verif/MANIFEST.json','w'),indent=1)
