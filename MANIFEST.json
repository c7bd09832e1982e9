{
 "claims": [
  {
   "property": "C01",
   "status": "partial",
   "theorems": [
    "C01_ident",
    "C01_function",
    "C01_atkeyword",
    "C01_hash",
    "C01_string_partial",
    "C01_string_quote_refuted",
    "C01_whitespace",
    "C01_comment",
    "C01_bad_string",
    "C01_bad_url",
    "C01_number",
    "C01_dimension",
    "C01_url",
    "C01_delim",
    "C01_number_zero_refuted"
   ],
   "note": "All constructors. Partial only for the single quote of an unclosed string (reported as None) and the NUMBER_ZERO constant, both refuted with witnesses."
  },
  {
   "property": "C02",
   "status": "partial",
   "theorems": [
    "C02_kind_roundtrip",
    "C02_kind_codes_distinct",
    "C02_token_is_kind",
    "C02_delim_like",
    "C02_cdc",
    "C02_empty",
    "C02_ident_like_partial",
    "C02_ident_like_refuted",
    "C02_numeric_partial",
    "C02_numeric_refuted",
    "C02_trivia_partial",
    "C02_trivia_refuted",
    "C02_bad_partial",
    "C02_bad_refuted"
   ],
   "note": "Kind coding and delim/cdc/empty classes as documented. is_ident_like, is_int/float/has_sign, is_trivia, is_bad accept more kinds than documented: exact lists proved, documentation refuted."
  },
  {
   "property": "C03",
   "status": "proved",
   "theorems": [
    "C03_new",
    "C03_add",
    "C03_any",
    "C03_token"
   ],
   "note": ""
  },
  {
   "property": "C04",
   "status": "partial",
   "theorems": [
    "C04_unit_roundtrip",
    "C04_unit_len",
    "C04_unit_text_partial",
    "C04_unit_text_refuted",
    "C04_every_unit_named"
   ],
   "note": "All units except svmin/svmax whose texts are swapped in the code (refuted)."
  },
  {
   "property": "C05",
   "status": "partial",
   "theorems": [
    "C05_progress_partial",
    "C05_eof_stays",
    "C05_exhausted_within_byte_count_partial",
    "C05_documented_limit_refuted"
   ],
   "note": "For every source outside the listed defects (well_behaved); refuted at exactly the documented 16,777,216 limit, where the packed length wraps to 0."
  },
  {
   "property": "C06",
   "status": "partial",
   "theorems": [
    "C06_tokens_tile_partial",
    "C06_slices_concatenate_partial",
    "C06_always_on_a_boundary_partial",
    "C06_escaped_non_ascii_refuted",
    "C06_line_comment_non_ascii_refuted"
   ],
   "note": "Contiguity, character boundaries, coverage and no panic for every well_behaved source and every reachable lexer; panics on a backslash before a non-ASCII character and on non-ASCII single-line comments are proved."
  },
  {
   "property": "C07",
   "status": "proved",
   "theorems": [
    "C07_rewind_restores",
    "C07_replay",
    "C07_depends_on_source_features_offset"
   ],
   "note": "Unconditional."
  },
  {
   "property": "C08",
   "status": "proved",
   "theorems": [
    "C08_maximal_run_and_style",
    "C08_only_whitespace",
    "C08_never_adjacent"
   ],
   "note": ""
  },
  {
   "property": "C09",
   "status": "proved",
   "theorems": [
    "C09_homogeneous_maximal"
   ],
   "note": ""
  },
  {
   "property": "C10",
   "status": "proved",
   "theorems": [
    "C10_ends_at_first_terminator",
    "C10_slash_alone",
    "C10_comments_start_so"
   ],
   "note": ""
  },
  {
   "property": "C11",
   "status": "partial",
   "theorems": [
    "C11_ends_at_line_end_partial",
    "C11_nul_refuted"
   ],
   "note": "ASCII comments; NUL and non-ASCII refuted."
  },
  {
   "property": "C12",
   "status": "partial",
   "theorems": [
    "C12_string_extent_and_flags_partial",
    "C12_strings_start_with_a_quote",
    "C12_body_is_unique",
    "C12_escaped_nul_refuted"
   ],
   "note": "NUL-free strings, escapes ASCII; escaped NUL refuted. Quote style of an unclosed single-quoted string is refuted in C01."
  },
  {
   "property": "C13",
   "status": "partial",
   "theorems": [
    "C13_ident_partial",
    "C13_at_keyword_partial",
    "C13_hash_partial",
    "C13_only_so",
    "C13_pieces_are_unique",
    "C13_lower_case_refuted",
    "C13_nul_refuted"
   ],
   "note": "NUL-free text, ASCII after backslash. is_lower_case differs from the statement for dashes/digits in ident and function tokens (refuted)."
  },
  {
   "property": "C14",
   "status": "partial",
   "theorems": [
    "C14_longest_number_and_flags_partial",
    "C14_numbers_start_so",
    "C14_longest_is_unique"
   ],
   "note": "Within the documented limits (strictly below)."
  },
  {
   "property": "C15",
   "status": "proved",
   "theorems": [
    "C15_nearest_ties_to_even",
    "C15_integers_exact",
    "C15_decimal_is_unique",
    "C15_nearest_is_unique"
   ],
   "note": "Rust's str::parse::<f32> is external; its documented behaviour is computed exactly in F32.v and proved to be round-to-nearest-even."
  },
  {
   "property": "C16",
   "status": "partial",
   "theorems": [
    "C16_units_partial",
    "C16_capital_d_refuted",
    "C16_sv_refuted"
   ],
   "note": "Sound for every spelling; complete except units spelt with a capital D (refuted) and sv, svm, svma, svmi (refuted)."
  },
  {
   "property": "C17",
   "status": "partial",
   "theorems": [
    "C17_url_partial",
    "C17_other_functions_partial",
    "C17_other_names_refuted",
    "C17_five_spaces_refuted",
    "C17_long_escape_refuted"
   ],
   "note": "Plain spelling of url in any case, any body; functions whose first three characters differ from url. Over-recognition, five spaces and long escapes refuted."
  },
  {
   "property": "C18",
   "status": "partial",
   "theorems": [
    "C18_lexed_constants_partial",
    "C18_char_and_length",
    "C18_period_plus_refuted",
    "C18_constants"
   ],
   "note": "Constants and lexed punctuation; '.' and '+' refuted."
  },
  {
   "property": "C19",
   "status": "partial",
   "theorems": [
    "C19_decodes_the_escape",
    "C19_value_is_unique",
    "C19_always_a_scalar_value",
    "C19_scanners_agree_partial",
    "C19_scanners_agree_refuted"
   ],
   "note": "Decoding and consumed length proved for every escape; agreement with the lexer's scanner except before non-ASCII characters (refuted there)."
  },
  {
   "property": "C20",
   "status": "partial",
   "theorems": [
    "C20_value_is_unique",
    "C20_parse_str_is_the_value_partial",
    "C20_unterminated_comment_refuted"
   ],
   "note": "All lexed ident/function/at-keyword/hash/string/url tokens of NUL-free sources; value specified independently and unique."
  },
  {
   "property": "C21",
   "status": "partial",
   "theorems": [
    "C21_lower_follows_the_flag",
    "C21_parse_str_lower_partial",
    "C21_escaped_capital_refuted",
    "C21_unclosed_url_refuted"
   ],
   "note": "Exact result proved; equals lower-casing unless the token is flagged lower-case and has escapes or is an unclosed url (both refuted)."
  },
  {
   "property": "C22",
   "status": "partial",
   "theorems": [
    "C22_eq_ignore_ascii_case_partial",
    "C22_escaped_tokens_compare_exactly",
    "C22_escaped_capital_refuted",
    "C22_escaped_newline_refuted"
   ],
   "note": "Proved for tokens without escapes; for escaped non-string tokens it is shown to be a case-sensitive comparison (claim refuted)."
  },
  {
   "property": "C23",
   "status": "partial",
   "theorems": [
    "C23_boundaries_kept_partial",
    "C23_sequence_kept_partial",
    "C23_write_and_lex_partial",
    "C23_missed_separators_refuted",
    "C23_missed_separators_line_comments_refuted",
    "C23_missed_separator_bad_string_refuted",
    "C23_separator_swallowed_refuted",
    "C23_sign_dropped_refuted"
   ],
   "note": "Proved for every pair of tokens and texts outside the exclusions listed field by field in SpecWrite.apart (open escape, unclosed string/url/comment, bad string, dash after a name, exponent, -->, <!--, //, url( without its quote, adjacent whitespace), for whole sequences, and end to end through the sink; every exclusion is a real merge, proved in the _refuted theorems, so the full statement is false of the code. Hypotheses: well_behaved (C01 notes), no NUL."
  },
  {
   "property": "C24",
   "status": "proved",
   "theorems": [
    "C24_contains_is_inclusion_of_positions",
    "C24_contains_is_a_partial_order",
    "C24_sum_is_least_upper_bound",
    "C24_sum_laws",
    "C24_len_and_is_empty",
    "C24_with_end",
    "C24_cursor_spans",
    "C24_cursor_text",
    "C24_dummy_is_not_neutral_refuted"
   ],
   "note": "The extra _refuted theorem records that Span::DUMMY is not neutral for +."
  },
  {
   "property": "C25",
   "status": "proved",
   "theorems": [
    "C25_line_and_column",
    "C25_last_line_exists",
    "C25_inside_a_character_refuted"
   ],
   "note": "For spans starting on a character boundary; the extra _refuted theorem shows the boundary is needed."
  },
  {
   "property": "C26",
   "status": "partial",
   "theorems": [
    "C26_peek_next_predicts",
    "C26_peek_n_predicts",
    "C26_next_is_stop_predicts",
    "C26_peek_including_whitespace",
    "C26_consume_trivia_keeps_next",
    "C26_peek_n_zero_refuted",
    "C26_next_is_stop_hangs_refuted"
   ],
   "note": "peek_next, peek_n (n>=1), next_is_stop, peek_next_including_whitespace and consume_trivia predict next on every reached parser; peek_n(0) panics and next_is_stop loops for ever with Eof in the skip set (refuted theorems)."
  },
  {
   "property": "C27",
   "status": "proved",
   "theorems": [
    "C27_next_step",
    "C27_history_partitions_the_tokens",
    "C27_default_trivia",
    "C27_stands_on_a_token_boundary"
   ],
   "note": "Per step and for every history of next / consume_trivia / set_skip: outputs merged with trivia are the lexed tokens up to the current position; with the default skip set trivia are exactly whitespace and comments; every reached parser stands on a token boundary."
  },
  {
   "property": "C28",
   "status": "partial",
   "theorems": [
    "C28_rewind_restores",
    "C28_rewind_restores_short_sources",
    "C28_try_parse_is_transparent",
    "C28_many_trivia_refuted",
    "C28_settings_not_restored_refuted"
   ],
   "note": "Rewind restores lexer, errors and trivia exactly when the counts fit (always for sources below 65536 tokens); refuted for 65536 or more trivia (u16 counter) and for skip / stop / state, which a checkpoint does not hold."
  },
  {
   "property": "C29",
   "status": "partial",
   "theorems": [
    "C29_parse_entirely",
    "C29_clean_result",
    "C29_trailing_trivia_refuted"
   ],
   "note": "Exact result of parse_entirely for any parse function; trailing trivia alone are not recorded (refuted theorem)."
  },
  {
   "property": "C30",
   "status": "proved",
   "theorems": [
    "C30_values_preserved",
    "C30_one_value_preserved",
    "C30_same_tokens",
    "C30_bracket_offsets_refuted"
   ],
   "note": "C30_values_preserved and C30_one_value_preserved: for every parser reached over a well-behaved source, the tokens consumed and not put in the trivia list are the cursors emitted, in order; C30_same_tokens: the tokens are the same, only the offset of a simple block's brackets may differ. C30_bracket_offsets_refuted shows those offsets are indeed not the source's."
  },
  {
   "property": "C31",
   "status": "partial",
   "theorems": [
    "C31_always_returns",
    "C31_block_shape",
    "C31_function_shape",
    "C31_block_accepted",
    "C31_function_accepted",
    "C31_values_accepted",
    "C31_own_closer_refuted",
    "C31_unclosed_before_closer_refuted",
    "C31_unclosed_function_refuted"
   ],
   "note": "C31_always_returns: every input returns. C31_block_shape/function_shape: what was consumed is a bracketed sequence up to a closing bracket, or, unclosed, up to the end of input or a token no component value starts with. C31_*_accepted: properly bracketed text is accepted up to its own closer. Refuted parts of the English claim: a block closes on any closing bracket, '-->' ends a block, and an unclosed function followed by a comment is an error."
  },
  {
   "property": "C32",
   "status": "partial",
   "theorems": [
    "C32_reproduces_the_source_partial",
    "C32_token_verbatim_partial",
    "C32_number_respelled",
    "C32_dimension_respelled_partial",
    "C32_svmin_becomes_svmax_refuted",
    "C32_overflowing_number_refuted",
    "C32_dimension_sign_lost_refuted",
    "C32_integer_flag_changes_refuted"
   ],
   "note": "Whole-source theorem for well_behaved sources below 4 GB: writing never panics, the token texts concatenate to the source, and every token except numbers and known-unit dimensions is written as its own text. Finite numbers keep their value (C32_number_respelled, full); dimensions keep value and unit except svmin/svmax. Refuted parts: svmin is written svmax, 1e39 is written 'inf', +1px loses its sign, 1.0 becomes the integer 1."
  },
  {
   "property": "C33",
   "status": "proved",
   "theorems": [
    "C33_every_cursor_in_order",
    "C33_text",
    "C33_vec_sink",
    "C33_vec_separator_panics_refuted",
    "C33_vec_sink_output_panics_refuted"
   ],
   "note": "For every cursor list whose cursors can be written and every writer (including one that fails at any point). CursorVecSink puts separators in the same places, but its SEPARATOR cursor cannot be written back: refuted."
  },
  {
   "property": "C34",
   "status": "proved",
   "theorems": [
    "C34_json_texts_are_read",
    "C34_only_json_is_read",
    "C34_one_value",
    "C34_messages_in_any_layout",
    "C34_strings_are_read",
    "C34_one_string",
    "C34_bodies_round_trip",
    "C34_messages_round_trip",
    "C34_header_variants_accepted",
    "C34_no_leak",
    "C34_cut_stream",
    "C34_cut_headers_look_like_the_end_refuted",
    "C34_empty_body_refuted",
    "C34_three_headers_refuted",
    "C34_two_lengths_refuted",
    "C34_other_header_refuted"
   ],
   "note": "Framing and message text both ways, for all sequences of bodies/messages; headers in any case/order, no leak, prefix stability, streams cut anywhere. httparse, serde_json and BufRead are modelled from their documentation. Refuted edge cases: EOF inside headers reported as a clean end, empty body, three headers, unknown header, two lengths. Strings are read as RFC 8259 spells them (escapes, surrogate pairs), and only those (C34_strings_are_read); values and messages in any JSON layout, floats apart and nothing else (C34_json_texts_are_read, C34_only_json_is_read, C34_messages_in_any_layout)."
  },
  {
   "property": "C35",
   "status": "proved",
   "theorems": [
    "C35_codes_survive",
    "C35_named_codes_survive",
    "C35_unnamed_codes_survive",
    "C35_shared_code_refuted",
    "C35_messages_survive",
    "C35_ids_survive",
    "C35_null_result_refuted",
    "C35_large_id_is_a_notification_refuted",
    "C35_array_message_refuted"
   ],
   "note": "All i32 codes, all ids and messages that Message can hold. Refuted: -32800 has two names; Ok(null) cannot be read back; ids outside i32 turn a request into a notification; arrays accepted as messages."
  },
  {
   "property": "C36",
   "status": "partial",
   "theorems": [
    "C36_requests_answered_once_partial",
    "C36_stuck_after_answers",
    "C36_never_stuck",
    "C36_nothing_before_initialize",
    "C36_nothing_after_exit",
    "C36_responses_ignored",
    "C36_notifications_unanswered",
    "C36_service_requests_answered_once_partial",
    "C36_request_with_a_notification_method_refuted",
    "C36_notification_answered_refuted",
    "C36_early_request_dropped_refuted",
    "C36_shutdown_not_found_refuted"
   ],
   "note": "For every Handler implementation and every history of disciplined messages (requests do not use notification methods and conversely). Without that hypothesis the claim is false of the code: the refuted theorems show an unanswered request and an answered notification; requests before initialize are dropped without an error response."
  },
  {
   "property": "C37",
   "status": "partial",
   "theorems": [
    "C37_documents_follow_the_client_partial",
    "C37_changes_applied_partial",
    "C37_whole_text",
    "C37_open",
    "C37_positions_are_places",
    "C37_astral_column_refuted",
    "C37_form_feed_refuted",
    "C37_long_column_refuted",
    "C37_out_of_range_lines_refuted",
    "C37_reversed_range_refuted"
   ],
   "note": "End to end from didOpen/didChange JSON to the stored text, for all histories over several documents, for BMP texts without VT/FF/NEL/LS/PS. Outside that set the code is wrong (refuted theorems), as for out-of-range positions."
  },
  {
   "property": "C38",
   "status": "partial",
   "theorems": [
    "C38_deltas_decode_partial",
    "C38_places_are_positions_partial",
    "C38_reply_is_about_the_document",
    "C38_ascii_length_partial",
    "C38_length_in_bytes_refuted",
    "C38_lone_cr_refuted",
    "C38_astral_column_refuted"
   ],
   "note": "Deltas decode to line/character column for all texts and highlight sets on character boundaries, no underflow; these are LSP positions for BMP texts without lone CR. Lengths are bytes: right for ASCII only. The highlighter itself is a parameter."
  },
  {
   "property": "C39",
   "status": "partial",
   "theorems": [
    "C39_replies_are_for_the_latest_commit",
    "C39_no_deadlock_partial",
    "C39_schedules_end",
    "C39_no_output_hangs_refuted"
   ],
   "note": "Transition system of the handler thread and one thread per opened document over rendezvous channels; safety in every schedule, termination of every schedule, no deadlock if every document has output. The deadlock for documents without output is a refuted theorem. A panic of the parser is not modelled."
  },
  {
   "property": "C40",
   "status": "partial",
   "theorems": [
    "C40_anb_partial",
    "C40_integer_partial",
    "C40_keywords_partial",
    "C40_detached_minus_refuted",
    "C40_dash_n_dash_refuted",
    "C40_large_integer_refuted",
    "C40_invalid_accepted_refuted"
   ],
   "note": "Full An+B grammar of CSS Syntax 6 for unescaped spellings, any signs, spacing, letter case, in any source, with the parser left right after B; integers of magnitude up to 2^24; even/odd and plain integers likewise. Missing: the two misread spellings (whitespace before an attached minus: 2n -1 gives +1; -n- 1 is rejected), integers above 2^24 (read through f32, off by one), escaped spellings, NUL, inputs outside well_behaved; all but the last three are refuted by theorems. The code also accepts n5, 2n 5, 2n-, +-n (C40_invalid_accepted_refuted)."
  },
  {
   "property": "C41",
   "status": "proved",
   "theorems": [
    "C41_parses_to_the_operator_written",
    "C41_accepts",
    "C41_spaced_equals_refuted"
   ],
   "note": "Sound and complete description of Comparison::parse; `> =` is rejected (refuted theorem)."
  },
  {
   "property": "C42",
   "status": "proved",
   "theorems": [
    "C42_pair_of_token",
    "C42_start_end",
    "C42_total"
   ],
   "note": ""
  },
  {
   "property": "C43",
   "status": "partial",
   "theorems": [
    "C43_always_returns",
    "C43_new_parser",
    "C43_declaration_trait",
    "C43_block_trait",
    "C43_at_rule_trait",
    "C43_qualified_rule_trait",
    "C43_list_traits",
    "C43_no_block_no_prelude",
    "C43_prelude_list_traits_partial",
    "C43_prelude_list_hangs_refuted"
   ],
   "note": "All sources that are well_behaved, NUL-free and below 4 GB; trait methods for any implementor. Missing: the two prelude-list traits with an item that can succeed without consuming (they run for ever at the end of the input: C43_prelude_list_hangs_refuted); depth of the Rust stack."
  },
  {
   "property": "C44",
   "status": "partial",
   "theorems": [
    "C44_normal_parsers",
    "C44_stylesheet",
    "C44_rule",
    "C44_block",
    "C44_declaration",
    "C44_tokens",
    "C44_lasting_means",
    "C44_declaration_trait",
    "C44_block_trait",
    "C44_at_rule_trait",
    "C44_qualified_rule_trait",
    "C44_list_traits",
    "C44_order_refuted",
    "C44_semicolons_dropped_refuted",
    "C44_brace_offset_refuted"
   ],
   "note": "Stated for trees of any shape: in order when no block mixes declarations and rules, up to permutation otherwise. Missing (refuted by theorems): order in mixed blocks, semicolons, offsets of braces after trivia. Says nothing when parsing returns an error."
  },
  {
   "property": "C45",
   "status": "partial",
   "theorems": [
    "C45_usual_states",
    "C45_sets_read_their_words",
    "C45_sets_peek_their_words",
    "C45_any_case_partial",
    "C45_escaped_capital_refuted",
    "C45_pseudo_classes",
    "C45_pseudo_elements",
    "C45_pseudo_class_peek",
    "C45_pseudo_element_peek",
    "C45_peek_then_parse_refuted",
    "C45_always_returns"
   ],
   "note": "C45_any_case_partial excludes tokens with escapes (C45_escaped_capital_refuted: \\46oo is not recognised as foo). C45_pseudo_class_peek/C45_pseudo_element_peek say exactly what the peeks answer; C45_peek_then_parse_refuted: ': foo' is peeked but does not parse."
  },
  {
   "property": "C46",
   "status": "proved",
   "theorems": [
    "C46_discrete_features",
    "C46_boolean_features",
    "C46_ranged_features_sound",
    "C46_ranged_features",
    "C46_comparisons",
    "C46_plain_features_return",
    "C46_ranged_features_return"
   ],
   "note": "C46_ranged_features needs names and values that do not begin with '=' and that are told apart by how they begin; C46_case shows an implementor for which this holds."
  },
  {
   "property": "C47",
   "status": "partial",
   "theorems": [
    "C47_conditions_read_partial",
    "C47_accepted_is_documented",
    "C47_not_refuted",
    "C47_long_and_refuted",
    "C47_long_or_refuted",
    "C47_dropped_feature_refuted",
    "C47_always_returns"
   ],
   "note": "C47_conditions_read_partial: exact, for what the code reads (single features and chains of two). The rest of the documented grammar is refuted, for every feature parser: a leading 'not' is never accepted, chains of three or more 'and' are rejected, 'or' chains stop after the second feature, and 'f not g' is accepted with the tokens of f dropped."
  },
  {
   "property": "C48",
   "status": "proved",
   "theorems": [
    "C48_ready_states",
    "C48_selector_lists_return",
    "C48_compounds_return",
    "C48_components_return",
    "C48_settings_after_an_error_refuted"
   ],
   "note": "The statement is proved in full; its limit: _refuted: after an error the skip set may be changed (`a: b`, `a|=b`)."
  },
  {
   "property": "C49",
   "status": "proved",
   "theorems": [
    "C49_selector_lists_lose_nothing",
    "C49_compounds_lose_nothing",
    "C49_components_lose_nothing",
    "C49_only_selectors_refuted",
    "C49_one_combinator_refuted"
   ],
   "note": "The statement is proved in full; its limits: _refuted: non-selectors are accepted (`,`, `a,`, `> > a`, `[a`, `:is(a`, `*| a`); `a > b` has descendant combinators around its child combinator."
  },
  {
   "property": "C50",
   "status": "proved",
   "theorems": [
    "C50_tags",
    "C50_parsed_tags",
    "C50_custom_elements"
   ],
   "note": ""
  },
  {
   "property": "C51",
   "status": "partial",
   "theorems": [
    "C51_integers_say_their_digits",
    "C51_integers_are_digits",
    "C51_factors_say_their_digits",
    "C51_selectors_are_read_partial",
    "C51_one_reading",
    "C51_selectors_refused_refuted",
    "C51_nth_child_of_refuted",
    "C51_standard_words",
    "C51_standard_words_missing_refuted"
   ],
   "note": "_partial: the spellings of An+B that C40 refutes, comments between the simple selectors of one compound, and unclosed forms are not layouts. _refuted: `|a`, `[|a]`, `a||b`, `a/**/::before`, `a/**/:is(b)`, `a/**/` are refused although valid; `:nth-child(2n+1 of a)` is not read as one selector. The numbers of an An+B are tied to the characters of their tokens: an integer token is digits with or without a sign, and says what they say (up to 2^24)."
  },
  {
   "property": "C52",
   "status": "partial",
   "theorems": [
    "C52_stylesheets_return_partial",
    "C52_whole_stylesheets_return_partial",
    "C52_rules_return_partial",
    "C52_page_refuted",
    "C52_unfinished_refuted",
    "C52_page_after_error_refuted"
   ],
   "note": "_partial: [acceptable] leaves out @page rules with anything but names, colons and commas (whitespace, say) between `@page` and '{', font-tech( / font-format( functions, functions between @container and '{', unclosed comments, NUL, and the lexer's own limits (well_behaved, url_limits). Each of the first three is shown to be needed: _refuted theorems give texts on which the parser never returns or panics."
  },
  {
   "property": "C53",
   "status": "partial",
   "theorems": [
    "C53_stylesheet_written_partial",
    "C53_no_token_lost_partial",
    "C53_rule_written_partial",
    "C53_not_refuted",
    "C53_charset_refuted",
    "C53_order_refuted"
   ],
   "note": "_partial: trees with a condition containing `not` and an @charset without semicolon are excluded ([whole]); _refuted theorems show that those lose tokens. The parsers of property values (css_ast/src/values, generated) are a parameter assumed faithful."
  },
  {
   "property": "C54",
   "status": "partial",
   "theorems": [
    "C54_every_definition_compiles",
    "C54_values_return",
    "C54_stylesheets_return_partial"
   ],
   "note": "C54_stylesheets_return_partial inherits C52's conditions on the text (acceptable). calc-size()'s todo!() is shown unreachable: the alternative fit-content( comes first and takes every function."
  },
  {
   "property": "C55",
   "status": "partial",
   "theorems": [
    "C55_value_written_partial",
    "C55_stylesheet_written_partial",
    "C55_no_token_lost_partial",
    "C55_order_refuted",
    "C55_gradient_refuted"
   ],
   "note": "Partial: nothing is said of border-image-source and list-style-image beyond reading forwards; the order is not claimed for the 31 properties in REORDERED; and C53's exceptions (not-conditions, @charset). The exceptions are shown real by C55_order_refuted and C55_gradient_refuted."
  },
  {
   "property": "C56",
   "status": "partial",
   "theorems": [
    "C56_definitions_read",
    "C56_value_conforms_partial",
    "C56_declared_value_conforms_partial",
    "C56_ranges_refuted",
    "C56_operators_bind",
    "C56_precedence_refuted",
    "C56_unclosed_refuted"
   ],
   "note": "Partial: in 19 properties (UNENFORCED) numeric ranges are not enforced (C56_ranges_refuted); hdx's own notions of <percentage>, <number> and <string> (token_of) and of the hand-written types (HAND_WRITTEN), and a missing closing parenthesis (C56_unclosed_refuted), are part of the specification. The macro reads other definitions wrongly (C56_precedence_refuted)."
  },
  {
   "property": "C57",
   "status": "partial",
   "theorems": [
    "C57_value_accepted_partial",
    "C57_accepts_exactly_partial",
    "C57_declared_value_accepted_partial",
    "C57_any_order_refuted",
    "C57_any_order_conforms",
    "C57_list_after_keyword_refuted",
    "C57_css_values_refuted",
    "C57_functions_refuted"
   ],
   "note": "Missing: values with functions or escapes, and the 36 properties of UNREACHED: for a || b the claim is false (C57_any_order_refuted: flex-flow: wrap row), as for lists after a keyword (C57_list_after_keyword_refuted). The tokens of the types are hdx's, not those of CSS (C57_css_values_refuted: flex-grow: 1, zoom: 50%, strings and dotted are refused). C57_functions_refuted: <image-1D> after <color> and positions in repeating-radial-gradient() are never read."
  },
  {
   "property": "C58",
   "status": "partial",
   "theorems": [
    "C58_minified_partial",
    "C58_no_token_lost_partial",
    "C58_minify_returns_partial",
    "C58_build_is_minify",
    "C58_damage_refuted",
    "C58_merged_refuted"
   ],
   "note": "Missing: texts with a backslash; the damages above, shown real by C58_damage_refuted (margin:1px -0px becomes one dimension 1px-0px, 1px +2px becomes 1px2px, 1e30 gets longer) and C58_merged_refuted; that the minified text has the same tree."
  },
  {
   "property": "C59",
   "status": "partial",
   "theorems": [
    "C59_marks_are_true",
    "C59_marks_are_disjoint",
    "C59_highlights",
    "C59_panics",
    "C59_document",
    "C59_document_returns_partial",
    "C59_reply",
    "C59_served",
    "C59_unfinished_refuted",
    "C59_not_shown_refuted"
   ],
   "note": "C59_document_returns_partial needs the texts of C52 (acceptable). Refuted: @media and @-webkit-keyframes panic (C59_unfinished_refuted); nothing is shown in @-moz-document, in functional pseudo-classes, for namespaced tags, classes, ids, attributes, pseudo-elements, at-keywords (C59_not_shown_refuted)."
  },
  {
   "property": "C60",
   "status": "proved",
   "theorems": [
    "C60_declaration",
    "C60_value_decided",
    "C60_free_value_extent",
    "C60_importance_found",
    "C60_modes_kept",
    "C60_important_refuted",
    "C60_keyword_alone_refuted",
    "C60_value_at_end_refuted",
    "C60_computed_refuted"
   ],
   "note": "The statement is proved in full (numeric ranges as in C56). Limits, as theorems: Refuted: `!important` of a custom property, an unknown value or a computed value is swallowed by the value (C60_important_refuted); a CSS-wide keyword need not be the whole value (C60_keyword_alone_refuted); a known value before trailing whitespace at the end of the text is unknown (C60_value_at_end_refuted); a computed function that is not first does not always make the value computed (C60_computed_refuted)."
  },
  {
   "property": "C61",
   "status": "partial",
   "theorems": [
    "C61_stylesheet",
    "C61_rule",
    "C61_nested_rule",
    "C61_comma_refuted",
    "C61_media_list_refuted",
    "C61_not_refuted",
    "C61_document_refuted",
    "C61_bracket_refuted",
    "C61_wildcard_refuted",
    "C61_container_refuted",
    "C61_names_refuted",
    "C61_feature_refuted"
   ],
   "note": "Selectors are described when no comment stands right before a `*` (C61_wildcard_refuted: after `a|=b{}` such a comment is the universal selector, for the skip set is left changed). Refuted: commas of lists may be left out (C61_comma_refuted); `@media print, screen` is not read (C61_media_list_refuted); `(grid) not (hover)` loses `grid` (C61_not_refuted); domain(), regexp() and media-document() become url-prefix() (C61_document_refuted); a bracket may be closed by another kind (C61_bracket_refuted). A container's name and its condition are two conditions (C61_container_refuted); `@keyframes revert`, `@keyframes None`, `@container inherit` are accepted (C61_names_refuted); some features of the table are never read (C61_feature_refuted)."
  },
  {
   "property": "C62",
   "status": "partial",
   "theorems": [
    "C62_sheet_read_partial",
    "C62_one_sheet",
    "C62_declaration_read_partial",
    "C62_media_queries_refuted",
    "C62_conditions_refuted",
    "C62_nested_rule_refuted",
    "C62_semicolons_refuted",
    "C62_registered_refuted",
    "C62_supports_refuted",
    "C62_document_refuted",
    "C62_page_refuted"
   ],
   "note": "Partial: covered are @charset, @layer in its three forms, @media with a type, with features (one, or two joined by and/or), or with both, @container with a name or with features, @supports selector(), (selector()) and declarations whose value is not one of a known property, @document and @-moz-document, @property with inherits and syntax, @keyframes and @-webkit-keyframes, @font-face, @page with selectors, declarations and margin boxes, style rules with nesting, and declarations with !important, with the values of C57, CSS-wide words, and any values for custom, unknown and computed ones. The values themselves are compared by kind only (C53, C55 and C57 say what they are). Left out: the initial value of @property. Refuted: media query lists and features without a value (C62_media_queries_refuted), longer and negated conditions, a container's name before its condition, features of ratios and resolutions (C62_conditions_refuted), nested selectors such as `b:hover` (C62_nested_rule_refuted), a second semicolon before a rule (C62_semicolons_refuted), descriptors after an initial value (C62_registered_refuted), @supports with a known value, with not, and, or, or nested parentheses (C62_supports_refuted), domain(), media-document() and regexp() in @document (C62_document_refuted), a semicolon of its own in @page (C62_page_refuted)."
  },
  {
   "property": "C63",
   "status": "partial",
   "theorems": [
    "C63_page_selectors_read",
    "C63_one_reading",
    "C63_specificity_partial",
    "C63_order_partial",
    "C63_specificity_bits",
    "C63_type_decides",
    "C63_order_refuted",
    "C63_accepted_refuted"
   ],
   "note": "_partial: the specificity and the order hold for selectors with at most one of :first/:blank and at most one of :left/:right; beyond that the addition is a bitwise or, and C63_order_refuted shows :first:blank ordered before :first:left, and :first as specific as :blank:first. Reading is proved in full (C63_page_selectors_read); C63_accepted_refuted: whitespace before a pseudo-class and the name `auto` are accepted. The Rust fields are u8: as they never exceed 1, nothing overflows."
  }
 ]
}