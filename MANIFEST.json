{
 "claims": [
  {
   "property": "C01",
   "status": "proved",
   "theorems": [
    "C01_tokenize_terminates",
    "C01_every_iteration_consumes",
    "C01_tokenize_result"
   ],
   "note": "C01_tokenize_result is the complete functional specification of tokenize against LexSpec.v."
  },
  {
   "property": "C02",
   "status": "proved",
   "theorems": [
    "C02_ascii_never_panics"
   ],
   "note": ""
  },
  {
   "property": "C03",
   "status": "proved",
   "theorems": [
    "C03_never_panics_refuted",
    "C03_panics_iff",
    "C03_panic_site",
    "C03_nonascii_at_token_position_panics"
   ],
   "note": "Exact characterisation of the panics; the panic-freedom a user expects is refuted."
  },
  {
   "property": "C04",
   "status": "proved",
   "theorems": [
    "C04_lossless"
   ],
   "note": ""
  },
  {
   "property": "C05",
   "status": "proved",
   "theorems": [
    "C05_token_text",
    "C05_string_text_refuted"
   ],
   "note": "The closing quote of strings needs an ASCII source; refuted otherwise."
  },
  {
   "property": "C06",
   "status": "proved",
   "theorems": [
    "C06_byte_and_char_offsets"
   ],
   "note": ""
  },
  {
   "property": "C07",
   "status": "proved",
   "theorems": [
    "C07_line_counts_line_breaks",
    "C07_line_without_multiline_tokens",
    "C07_lines_refuted"
   ],
   "note": "The plain newline count is refuted; exact with line breaks outside tokens."
  },
  {
   "property": "C08",
   "status": "proved",
   "theorems": [
    "C08_positions",
    "C08_columns_in_chars_refuted"
   ],
   "note": "In bytes; in characters refuted."
  },
  {
   "property": "C09",
   "status": "proved",
   "theorems": [
    "C09_boundaries_ordered",
    "C09_arbitrary_positions_refuted"
   ],
   "note": "For positions of one source; refuted for arbitrary Position values."
  },
  {
   "property": "C10",
   "status": "proved",
   "theorems": [
    "C10_loop_positions_fit",
    "C10_token_positions_fit"
   ],
   "note": ""
  },
  {
   "property": "C11",
   "status": "proved",
   "theorems": [
    "C11_unclosed_comment_iff",
    "C11_unclosed_comment_range"
   ],
   "note": ""
  },
  {
   "property": "C12",
   "status": "proved",
   "theorems": [
    "C12_int_tokens",
    "C12_float_tokens",
    "C12_float_rounding"
   ],
   "note": "Float theorems use the axioms of the standard library's real numbers."
  },
  {
   "property": "C13",
   "status": "proved",
   "theorems": [
    "C13_integer_recognised",
    "C13_integer_at_end_refuted"
   ],
   "note": "C13_integer_at_end_refuted is the universal form of the failure at the end of the source."
  },
  {
   "property": "C14",
   "status": "proved",
   "theorems": [
    "C14_keyword_recognised",
    "C14_keywords_never_produced",
    "C14_all_keywords_refuted"
   ],
   "note": "All keywords: refuted (ANY OF)."
  },
  {
   "property": "C15",
   "status": "proved",
   "theorems": [
    "C15_identifier_tokens",
    "C15_identifier_recognised",
    "C15_words_are_identifiers_refuted"
   ],
   "note": ""
  },
  {
   "property": "C16",
   "status": "proved",
   "theorems": [
    "C16_string_tokens"
   ],
   "note": ""
  },
  {
   "property": "C17",
   "status": "proved",
   "theorems": [
    "C17_single_line_comments",
    "C17_multi_line_comments"
   ],
   "note": ""
  },
  {
   "property": "C18",
   "status": "proved",
   "theorems": [
    "C18_question_mark_never_produced",
    "C18_question_mark_is_symbol"
   ],
   "note": ""
  },
  {
   "property": "C19",
   "status": "proved",
   "theorems": [
    "C19_print_tokenize",
    "C19_space_separated_refuted"
   ],
   "note": "Space-separated printing is refuted."
  },
  {
   "property": "C20",
   "status": "proved",
   "theorems": [
    "C20_compositional",
    "C20_space_refuted"
   ],
   "note": "Space as the separator is refuted."
  },
  {
   "property": "C21",
   "status": "proved",
   "theorems": [
    "C21_statements_are_logical_lines",
    "C21_parse_sees_only_lines",
    "C21_chunks_partition",
    "C21_separators"
   ],
   "note": "Lines.v defines logical lines without the iterator."
  },
  {
   "property": "C22",
   "status": "proved",
   "theorems": [
    "C22_peek_is_transparent",
    "C22_collect_is_next_loop"
   ],
   "note": ""
  },
  {
   "property": "C23",
   "status": "proved",
   "theorems": [
    "C23_parse_terminates"
   ],
   "note": "The model's fuel bound length+4 always suffices; more fuel gives the same result."
  },
  {
   "property": "C24",
   "status": "proved",
   "theorems": [
    "C24_panics_only_in_two_situations",
    "C24_no_panic",
    "C24_parse_never_panics_refuted",
    "C24_maek_never_panics_refuted"
   ],
   "note": "Panic-freedom is refuted."
  },
  {
   "property": "C25",
   "status": "proved",
   "theorems": [
    "C25_ast_tokens_are_source_tokens_in_order"
   ],
   "note": ""
  },
  {
   "property": "C26",
   "status": "proved",
   "theorems": [
    "C26_expression_stores_its_tokens"
   ],
   "note": ""
  },
  {
   "property": "C27",
   "status": "proved",
   "theorems": [
    "C27_identifier_tokens",
    "C27_variable_access_tokens",
    "C27_expression_tokens",
    "C27_assignment_tokens"
   ],
   "note": ""
  },
  {
   "property": "C28",
   "status": "proved",
   "theorems": [
    "C28_identifier_range",
    "C28_variable_access_range",
    "C28_expression_range",
    "C28_assignment_range"
   ],
   "note": ""
  },
  {
   "property": "C29",
   "status": "proved",
   "theorems": [
    "C29_expressions_sound"
   ],
   "note": ""
  },
  {
   "property": "C30",
   "status": "proved",
   "theorems": [
    "C30_expressions_complete"
   ],
   "note": ""
  },
  {
   "property": "C31",
   "status": "proved",
   "theorems": [
    "C31_expressions_unambiguous",
    "C31_one_tree_per_sequence",
    "C31_one_node_per_line",
    "C31_one_ast_per_program"
   ],
   "note": ""
  },
  {
   "property": "C32",
   "status": "proved",
   "theorems": [
    "C32_single_line_statements"
   ],
   "note": ""
  },
  {
   "property": "C33",
   "status": "proved",
   "theorems": [
    "C33_error_free_means_grammatical"
   ],
   "note": "With C34 an if-and-only-if against Grammar.v, at any nesting depth."
  },
  {
   "property": "C34",
   "status": "proved",
   "theorems": [
    "C34_grammatical_programs_accepted"
   ],
   "note": "The empty line after HAI, HOW IZ I and WTF? is forced by the code (C35 to C37)."
  },
  {
   "property": "C35",
   "status": "proved",
   "theorems": [
    "C35_hai_swallows_next_line_refuted"
   ],
   "note": "Refuted in universal form."
  },
  {
   "property": "C36",
   "status": "proved",
   "theorems": [
    "C36_function_swallows_next_line_refuted"
   ],
   "note": "Refuted in universal form."
  },
  {
   "property": "C37",
   "status": "proved",
   "theorems": [
    "C37_wtf_swallows_next_line_refuted"
   ],
   "note": "Refuted in universal form."
  },
  {
   "property": "C38",
   "status": "proved",
   "theorems": [
    "C38_empty_loop_refuted",
    "C38_empty_function_refuted",
    "C38_blocks_not_empty",
    "C38_closing_keyword_is_an_error"
   ],
   "note": "Refuted in universal form for loops and functions; for branches through C38_closing_keyword_is_an_error."
  },
  {
   "property": "C39",
   "status": "proved",
   "theorems": [
    "C39_comments_spoil_lines_refuted"
   ],
   "note": "Refuted in universal form."
  },
  {
   "property": "C40",
   "status": "proved",
   "theorems": [
    "C40_lines_are_independent",
    "C40_first_line_is_independent"
   ],
   "note": ""
  },
  {
   "property": "C41",
   "status": "proved",
   "theorems": [
    "C41_parse_reads_everything",
    "C41_holds_without_ellipsis",
    "C41_parse_reads_everything_refuted"
   ],
   "note": "Refuted in general, proved when no later logical line is empty."
  },
  {
   "property": "C42",
   "status": "proved",
   "theorems": [
    "C42_too_many_tokens_is_the_end_of_a_line"
   ],
   "note": ""
  },
  {
   "property": "C43",
   "status": "proved",
   "theorems": [
    "C43_first_token_announces_the_node"
   ],
   "note": ""
  },
  {
   "property": "C44",
   "status": "proved",
   "theorems": [
    "C44_loop_labels_are_identifiers",
    "C44_loop_labels_match_refuted"
   ],
   "note": "Refuted by a witness; the true part is proved."
  },
  {
   "property": "C45",
   "status": "proved",
   "theorems": [
    "C45_tokenize_and_parse",
    "C45_terminates",
    "C45_error_iff"
   ],
   "note": ""
  },
  {
   "property": "C46",
   "status": "proved",
   "theorems": [
    "C46_errors_enumerated_refuted",
    "C46_inner_blocks",
    "C46_search"
   ],
   "note": "Refuted: the code ends in todo!()."
  },
  {
   "property": "C47",
   "status": "proved",
   "theorems": [
    "C47_spelling_injective",
    "C47_spelling_shape"
   ],
   "note": ""
  },
  {
   "property": "C48",
   "status": "proved",
   "theorems": [
    "C48_printed_source_parses",
    "C48_round_trip"
   ],
   "note": "ANY OF, NOOB as keyword and QuestionMark tokens have no spelling the lexer accepts and are not writable."
  },
  {
   "property": "C49",
   "status": "proved",
   "theorems": [
    "C49_positions_only_cut_lines",
    "C49_names_and_values_do_not_matter",
    "C49_parse_commutes_with_relabelling",
    "C49_layout_does_not_matter"
   ],
   "note": ""
  },
  {
   "property": "C50",
   "status": "proved",
   "theorems": [
    "C50_lines_one_after_the_other",
    "C50_every_line_has_a_result",
    "C50_results_are_unique"
   ],
   "note": "If and only if, against Failure.v."
  },
  {
   "property": "C51",
   "status": "proved",
   "theorems": [
    "C51_results_of_programs",
    "C51_panics_of_programs",
    "C51_blocks_have_one_outcome",
    "C51_statements_have_one_outcome"
   ],
   "note": "If and only if, against Recovery.v; the specification is total and deterministic."
  },
  {
   "property": "C52",
   "status": "proved",
   "theorems": [
    "C52_tokens",
    "C52_asts",
    "C52_nodes",
    "C52_lexer_errors",
    "C52_symmetric",
    "C52_transitive",
    "C52_reflexive_refuted",
    "C52_reflexive_on_results",
    "C52_identity_on_tokens_of_a_source",
    "C52_identity_on_nodes_of_a_source",
    "C52_equal_asts_are_identical_refuted",
    "C52_parse_respects_equality"
   ],
   "note": "Reflexivity and identity across sources are refuted."
  },
  {
   "property": "C53",
   "status": "proved",
   "theorems": [
    "C53_position_text",
    "C53_display_iff_equal",
    "C53_debug_iff_equal",
    "C53_range_text",
    "C53_range_debug_iff_equal",
    "C53_display_identifies_tokens"
   ],
   "note": "Debug of tokens and ASTs is C69."
  },
  {
   "property": "C54",
   "status": "proved",
   "theorems": [
    "C54_result_of_every_source",
    "C54_total_and_unique",
    "C54_statements_of_a_source",
    "C54_lines_of_a_source"
   ],
   "note": "If and only if, against LexSpec.v, SourceLines.v and Recovery.v."
  },
  {
   "property": "C55",
   "status": "proved",
   "theorems": [
    "C55_one_source_after_another",
    "C55_empty_statement_refuted"
   ],
   "note": "The swallowing statements are C35 to C37; malformed single lines before other lines are C40."
  },
  {
   "property": "C56",
   "status": "proved",
   "theorems": [
    "C56_linear_number_of_calls",
    "C56_counting_changes_nothing",
    "C56_linear_in_the_source",
    "C56_later_calls_do_not_happen"
   ],
   "note": "For runs that end in a panic there is no final counter: the theorem says that the answers of the iterator after 7n+3 calls do not matter."
  },
  {
   "property": "C57",
   "status": "proved",
   "theorems": [
    "C57_ranges_nest",
    "C57_siblings_in_order",
    "C57_outermost_in_order",
    "C57_ranges_cover_text"
   ],
   "note": "Only the node types with a range method; C28 says which tokens the range spans."
  },
  {
   "property": "C58",
   "status": "proved",
   "theorems": [
    "C58_every_ast_has_its_shape",
    "C58_grammatical_asts",
    "C58_expression_asts"
   ],
   "note": "What error nodes hold is C50 and C51."
  },
  {
   "property": "C59",
   "status": "proved",
   "theorems": [
    "C59_format_keeps_the_ast",
    "C59_lines_of_an_ast"
   ],
   "note": "The formatter is part of the specification (Unparse.v, Format.v), not of the code: the property says that an AST and its number texts determine the program."
  },
  {
   "property": "C60",
   "status": "proved",
   "theorems": [
    "C60_counting_changes_nothing",
    "C60_at_most_quadratic",
    "C60_linear_without_long_numbers",
    "C60_digits_at_the_end_are_quadratic",
    "C60_large_numbers_are_quadratic",
    "C60_linear_refuted"
   ],
   "note": "Counts characters on a copy of the lexer with a counter (LexCost.v), proved to give the lexer's result; str::find and str::parse count as linear scans, slicing and vector operations as free."
  },
  {
   "property": "C61",
   "status": "proved",
   "theorems": [
    "C61_depth_within_tokens",
    "C61_depth_within_source",
    "C61_deep_expressions",
    "C61_deep_blocks",
    "C61_bounded_depth_refuted"
   ],
   "note": "Depth of results; the recursion of the parser itself, also on sources that give errors, is bounded by the number of tokens plus 3 (fuel in C23)."
  },
  {
   "property": "C62",
   "status": "proved",
   "theorems": [
    "C62_errors_have_their_shape",
    "C62_errors_that_occur",
    "C62_every_variant_occurs_refuted",
    "C62_lines_that_occur",
    "C62_error_free_asts_that_occur",
    "C62_errors_of_sources",
    "C62_error_free_asts_of_sources"
   ],
   "note": "Image of parse for single errors and for error-free ASTs; the image for whole ASTs with errors is given by the specification of C51, not in closed form. The statements on sources leave out single-line comments, which only end a line."
  },
  {
   "property": "C63",
   "status": "proved",
   "theorems": [
    "C63_same_ast",
    "C63_same_ast_of_tokens",
    "C63_everything_refuted"
   ],
   "note": "For programs without errors; the AST of a program with errors drops parts of lines."
  },
  {
   "property": "C64",
   "status": "proved",
   "theorems": [
    "C64_nodes_by_line",
    "C64_errors_by_line",
    "C64_number_of_nodes",
    "C64_one_error_per_line_refuted"
   ],
   "note": "For inputs on which parse does not panic."
  },
  {
   "property": "C65",
   "status": "proved",
   "theorems": [
    "C65_effect_of_a_line",
    "C65_every_line_gives_something",
    "C65_editing_an_error_free_program"
   ],
   "note": "The place of the nodes is given by the inductive predicate context; lines that start or end blocks are outside the property."
  },
  {
   "property": "C66",
   "status": "proved",
   "theorems": [
    "C66_effect_of_a_source_line",
    "C66_editing_a_source_line"
   ],
   "note": "The line has no commas, ellipses or tokens over several lines; equality up to offsets is the crate's own equality of positions, which compares only line and column."
  },
  {
   "property": "C67",
   "status": "proved",
   "theorems": [
    "C67_replacing_statements",
    "C67_deleting_and_swapping",
    "C67_replacing_lines_of_a_source"
   ],
   "note": "HAI, HOW IZ I and WTF? count with the empty logical line that must follow them (C35-C37); a run may not be replaced by nothing, because an empty block is an error (C38)."
  },
  {
   "property": "C68",
   "status": "proved",
   "theorems": [
    "C68_errors_say_where",
    "C68_too_many_tokens",
    "C68_valid_without_them_refuted",
    "C68_documented_examples_refuted",
    "C68_call_without_name",
    "C68_call_without_argument",
    "C68_assignment_without_r",
    "C68_other_operation",
    "C68_function_without_name"
   ],
   "note": "The lines of the documented examples are taken as the only line of the program."
  },
  {
   "property": "C69",
   "status": "proved",
   "theorems": [
    "C69_strings",
    "C69_tokens",
    "C69_vectors",
    "C69_nodes",
    "C69_asts",
    "C69_streams_of_tokens",
    "C69_results",
    "C69_same_text_is_equal",
    "C69_equal_is_same_text",
    "C69_equal_is_same_text_with_zeros_refuted",
    "C69_line_feeds"
   ],
   "note": "The formatter of the Rust standard library is part of the model (plain format; {:#?} is C71). Which characters are escaped is an arbitrary parameter; that the text of an f32 identifies it is a hypothesis, met by an example."
  },
  {
   "property": "C70",
   "status": "proved",
   "theorems": [
    "C70_closed_ended_or_open",
    "C70_one_line_decides",
    "C70_any_line_decides",
    "C70_only_the_last_node_changes",
    "C70_panics_stay",
    "C70_closed_after_closed",
    "C70_error_free_programs_are_closed",
    "C70_sources",
    "C70_panics_of_sources_stay"
   ],
   "note": "Generalises C55 to first sources with errors. That the first source's last token does not reach over the newline and is not an ellipsis remains a hypothesis."
  },
  {
   "property": "C71",
   "status": "proved",
   "theorems": [
    "C71_tokens",
    "C71_vectors",
    "C71_nodes",
    "C71_asts",
    "C71_results",
    "C71_lines_of_vectors",
    "C71_lines_of_nodes",
    "C71_lines_of_asts"
   ],
   "note": "The formatter of the Rust standard library (PadAdapter) is part of the model."
  },
  {
   "property": "C72",
   "status": "proved",
   "theorems": [
    "C72_types",
    "C72_values",
    "C72_deques",
    "C72_inner_deques_are_statements_refuted",
    "C72_nodes",
    "C72_errors",
    "C72_results",
    "C72_blocks",
    "C72_ranges",
    "C72_accesses",
    "C72_value_tokens",
    "C72_loop_operations",
    "C72_swapped"
   ],
   "note": "Model of the From, Into, TryFrom and IntoIterator implementations."
  },
  {
   "property": "C73",
   "status": "proved",
   "theorems": [
    "C73_library_example",
    "C73_assignment",
    "C73_set_slot",
    "C73_found_yr",
    "C73_gimmeh",
    "C73_gtfo",
    "C73_hai",
    "C73_i_has_a",
    "C73_function",
    "C73_o_rly",
    "C73_wtf",
    "C73_loop",
    "C73_call_refuted",
    "C73_call_with_mkay",
    "C73_call_usages",
    "C73_loop_usage_refuted",
    "C73_function_with_comment_refuted",
    "C73_loop_with_comment_refuted",
    "C73_gtfo_with_comment_refuted",
    "C73_function_example_refuted",
    "C73_numbered_parameter_refuted",
    "C73_found_yr_example_refuted",
    "C73_gtfo_example_refuted"
   ],
   "note": "Refuted for: the call without MKAY, the function whose parameters end in digits, comments in blocks and after GTFO, the FOUND YR example (MOD for MOD OF panics) and the usage IM IN var (panics)."
  },
  {
   "property": "C74",
   "status": "proved",
   "theorems": [
    "C74_counting",
    "C74_counting_assignments",
    "C74_variable_access_stack",
    "C74_expression_stack",
    "C74_assignment_stack",
    "C74_bounded_stack_refuted",
    "C74_variable_access_calls",
    "C74_expression_calls",
    "C74_assignment_calls",
    "C74_total",
    "C74_nots",
    "C74_linear_refuted"
   ],
   "note": "Refuted: a bound on the recursion for all expressions, and a linear number of calls."
  },
  {
   "property": "C75",
   "status": "proved",
   "theorems": [
    "C75_next",
    "C75_peek",
    "C75_next_statement",
    "C75_collecting",
    "C75_metering_changes_nothing",
    "C75_linear_work",
    "C75_more_work_does_not_happen",
    "C75_stack",
    "C75_deeper_calls_do_not_happen",
    "C75_ellipses",
    "C75_bounded_stack_refuted"
   ],
   "note": "Refuted: a bound on the recursion of next for all sources."
  },
  {
   "property": "C76",
   "status": "proved",
   "theorems": [
    "C76_nothing_is_lost",
    "C76_identifiers_and_literals",
    "C76_the_other_types_can_be_lost",
    "C76_with_errors_refuted"
   ],
   "note": "Refuted: the same for ASTs with errors."
  },
  {
   "property": "C77",
   "status": "proved",
   "theorems": [
    "C77_before_an_edit",
    "C77_ten_characters",
    "C77_eight_characters_refuted",
    "C77_bounded_refuted",
    "C77_after_an_edit",
    "C77_edit"
   ],
   "note": "Refuted: eight characters are enough; any fixed number of characters is enough for digits."
  },
  {
   "property": "C78",
   "status": "proved",
   "theorems": [
    "C78_tokens",
    "C78_ast",
    "C78_nothing_else",
    "C78_capitals_refuted",
    "C78_other_strings_refuted"
   ],
   "note": "Refuted: new names that start with a capital letter (ANT is AN and T); strings that are not ASCII."
  },
  {
   "property": "C79",
   "status": "proved",
   "theorems": [
    "C79_vocabulary",
    "C79_all_of_it",
    "C79_characters",
    "C79_windows_line_endings",
    "C79_line_endings_do_not_matter_refuted"
   ],
   "note": "Refuted: line endings (CR LF) do not matter. Casts (MAEK, IS NOW) and ITZ A are never accepted."
  },
  {
   "property": "C80",
   "status": "proved",
   "theorems": [
    "C80_as_i32",
    "C80_same_below_the_bound",
    "C80_bound_is_sharp",
    "C80_release_builds",
    "C80_release_builds_all_sizes_refuted",
    "C80_debug_builds"
   ],
   "note": "Refuted: release builds wrap positions only, whatever the size (C80_release_builds_all_sizes_refuted). This removes the unbounded-position simplification of Token.v and Lexer.v for sources below 2^31 - 1 bytes."
  },
  {
   "property": "C81",
   "status": "proved",
   "theorems": [
    "C81_tokens",
    "C81_accepted",
    "C81_only_carriage_returns",
    "C81_line_ends",
    "C81_no_continued_lines",
    "C81_all_sources_refuted"
   ],
   "note": "Refuted for sources with other than ASCII characters (C81_all_sources_refuted)."
  },
  {
   "property": "C82",
   "status": "proved",
   "theorems": [
    "C82_typing_on",
    "C82_closing",
    "C82_cut_error",
    "C82_cut",
    "C82_all_sources_refuted"
   ],
   "note": "The converse of C82_cut_error is refuted for sources with other than ASCII characters (C82_all_sources_refuted), proved for ASCII ones (C82_cut)."
  },
  {
   "property": "C83",
   "status": "proved",
   "theorems": [
    "C83_encoding",
    "C83_encoding_is_a_bijection",
    "C83_bytes",
    "C83_len",
    "C83_slice_to",
    "C83_slice_from",
    "C83_slice",
    "C83_starts_with",
    "C83_find",
    "C83_tokens",
    "C83_error"
   ],
   "note": "The operations of str are modelled from the documentation of Rust's standard library, on bytes."
  },
  {
   "property": "C84",
   "status": "proved",
   "theorems": [
    "C84_sequences",
    "C84_types",
    "C84_any_order_refuted",
    "C84_floats",
    "C84_results"
   ],
   "note": "Sources in ASCII; on others the code cuts strings at wrong places (C16). Uses the axioms of the real numbers, through C12."
  },
  {
   "property": "C85",
   "status": "proved",
   "theorems": [
    "C85_encoding",
    "C85_chars",
    "C85_tokenize",
    "C85_tokenize_and_parse",
    "C85_same_below_the_bound",
    "C85_texts_are_strings",
    "C85_terminates"
   ],
   "note": "Sources that are valid UTF-8, as every Rust String is."
  },
  {
   "property": "C86",
   "status": "proved",
   "theorems": [
    "C86_read_back",
    "C86_shortest",
    "C86_shortest_unique",
    "C86_forms",
    "C86_float_texts",
    "C86_vectors",
    "C86_asts",
    "C86_pretty_asts",
    "C86_literals",
    "C86_tokenize",
    "C86_no_number"
   ],
   "note": "Debug for f32 is code of Rust's standard library, not of /repo; its model follows the library's documented algorithm. Uses the axioms of the real numbers."
  },
  {
   "property": "C87",
   "status": "proved",
   "theorems": [
    "C87_integers",
    "C87_floats",
    "C87_print_keeps_the_ast",
    "C87_same_text_iff",
    "C87_any_ast",
    "C87_sources_that_end_in_a_colon_refuted"
   ],
   "note": "Stronger than C59, where the texts of numbers were copied from the source. Uses the axioms of the real numbers (for floats)."
  },
  {
   "property": "C88",
   "status": "proved",
   "theorems": [
    "C88_normal_form",
    "C88_canonical",
    "C88_ascii",
    "C88_digits_refuted"
   ],
   "note": "Unlike C59 and C87 it is about all programs, not only those without errors. Uses the axioms of the real numbers (for floats), except C88_ascii and C88_digits_refuted."
  },
  {
   "property": "C89",
   "status": "proved",
   "theorems": [
    "C89_checker",
    "C89_deterministic",
    "C89_bad_line",
    "C89_beginnings",
    "C89_closing"
   ],
   "note": "The checker is a relation over the states Fresh, Begun, NeedEmpty, SwitchHead, IfHead and Ended; lines inside blocks use the grammar of C33 and C34."
  },
  {
   "property": "C90",
   "status": "proved",
   "theorems": [
    "C90_lines",
    "C90_deterministic",
    "C90_next_token",
    "C90_beginnings",
    "C90_finish"
   ],
   "note": "C90_lines and C90_next_token are about the lines of C89, which C89_checker relates to parse; C90_beginnings is about parse itself."
  },
  {
   "property": "C91",
   "status": "proved",
   "theorems": [
    "C91_tracked",
    "C91_one_each",
    "C91_no_false_alarms",
    "C91_no_false_panics",
    "C91_unclosed",
    "C91_bad_line",
    "C91_sources",
    "C91_inner_bad_line_refuted"
   ],
   "note": "C91_tracked and C91_one_each relate the bookkeeping of open statements to the checker of C89. C91_inner_bad_line_refuted shows why C91_bad_line is about lines outside statements: IM IN YR a / OIC has one error, about the loop."
  },
  {
   "property": "C92",
   "status": "proved",
   "theorems": [
    "C92_reader",
    "C92_accepts",
    "C92_sources",
    "C92_earliest",
    "C92_memory"
   ],
   "note": "accepts, reads and run are computable and do not use the functions of the model of the parser. C92_earliest adds the tokens of C90 (the rest of the line) and C89 (the open blocks), separated by commas, with an ellipsis for an empty line."
  },
  {
   "property": "C93",
   "status": "proved",
   "theorems": [
    "C93_errors",
    "C93_panics",
    "C93_unique",
    "C93_headers",
    "C93_blocks_refuted"
   ],
   "note": "C93_headers is about headers outside of other blocks, and does not cover panics. C93_blocks_refuted shows why the claim is not about all lines: in O RLY x the error is about O RLY, not about x. C93_unique says that a line has at most one first wrong token."
  },
  {
   "property": "C94",
   "status": "proved",
   "theorems": [
    "C94_distinct",
    "C94_states",
    "C94_not_finite",
    "C94_sources",
    "C94_sources_not_finite",
    "C94_automaton"
   ],
   "note": "C94_automaton shows that the hypothesis can be met; C92_memory bounds its stacks from above by the number of tokens."
  }
 ]
}