T.update({
 'C34': ('proved', ['C34_read_from_stripped_text'], ''),
 'C35': ('proved', ['C35_instant'], ''),
 'C36': ('proved', ['C36_round_trip'], ''),
 'C37': ('proved', ['C37_two_digit_years'], 'C37_fails_in_2100 shows the bound on the current year is needed'),
 'C38': ('proved', ['C38_numeric_zones'], ''),
 'C39': ('proved', ['C39_zone_names'], ''),
 'C42': ('proved', ['C42_defaults'], ''),
 'C43': ('proved', ['C43_out_of_range_carried'], 'the expected property (only valid dates accepted) is false of the code; this proves what happens instead'),
 'C40': ('proved', ['C40_case_irrelevant'], ''),
 'C41': ('proved', ['C41_day_name_ignored'], ''),
 'C46': ('proved', ['C46_current_year'], ''),
 'C21': ('proved', ['C21_address_shape', 'C21_exact_shape', 'C21_valid_utf8'], 'C21_address_shape holds of every list of numbers as input; the other two of every list of bytes.'),
 'C22': ('proved', ['C22_nothing_invented'], ''),
 'C23': ('proved', ['C23_count_bound', 'C23_own_marks'], ''),
 'C24': ('proved', ['C24_no_silent_empty_result'], ''),
 'C31': ('proved', ['C31_no_control_characters', 'C31_line_break_in_quoted_name', 'C31_line_break_in_domain_literal'], 'control characters are the ASCII ones; U+0080..U+009F are passed through'),
 'C32': ('proved', ['C32_invalid_utf8'], ''),
 'C33': ('proved', ['C33_high_characters', 'C33_never_returned'], ''),
 'C45': ('proved', ['C45_reader_only_for_parts_of_the_input', 'C45_reader_lower_case_names_only', 'C45_reader_irrelevant'], ''),
 'C47': ('proved', ['C47_addresses_are_what_the_scanner_reports', 'C47_without_encoded_words', 'C47_fails_with_blank_lines', 'C47_fails_with_special_characters'], 'hypotheses, as in the property: double quotes pair up in one way; if there are encoded words they have atom characters only and no line of white space is folded twice; the last two are needed'),
 'C09': ('proved', ['C09_gaps_ignored'], 'dot-atoms not containing "=?"; C15 has the same for every mailbox form'),
 'C10': ('proved', ['C10_words_joined'], 'atoms not containing "=?"'),
 'C11': ('proved', ['C11_quoted_name_round_trip'], ''),
 'C12': ('proved', ['C12_blanks_at_the_end_are_dropped', 'C12_round_trip_fails'], ''),
 'C13': ('proved', ['C13_escaped_controls_vanish'], ''),
 'C14': ('proved', ['C14_signs_join'], 'atoms not containing "=?"'),
 'C15': ('proved', ['C15_mailbox_list'], ''),
 'C16': ('proved', ['C16_empty_entries'], 'hypothesis paired: double quotes pair up in one way; needed, see C17_fails_with_colons_in_quotes'),
 'C17': ('proved', ['C17_groups_and_mailboxes', 'C17_fails_with_colons_in_quotes'], 'hypothesis paired: double quotes pair up in one way; the second theorem shows it is needed'),
 'C18': ('proved', ['C18_empty_group'], 'hypothesis paired: double quotes pair up in one way; needed, see C17_fails_with_colons_in_quotes'),
 'C19': ('proved', ['C19_route_ignored'], 'All of obs-route, with empty entries.'),
 'C20': ('proved', ['C20_null_address'], ''),
 'C25': ('proved', ['C25_domain_verbatim'], ''),
 'C26': ('proved', ['C26_quoted_local_part', 'C26_address_need_not_be_accepted'], ''),
 'C08': ('proved', ['C08_addr_spec_round_trip'], ''),
 'C27': ('proved', ['C27_encoded_words_joined'], ''),
 'C28': ('proved', ['C28_kept_verbatim', 'C28_undecodable'], ''),
 'C29': ('proved', ['C29_encoded_name_round_trip'], ''),
 'C30': ('proved', ['C30_local_parts', 'C30_fails', 'C30_not_in_general', 'C08_addr_spec_round_trip'], 'the general claim is refuted; dot-atoms and quoted strings are never decoded'),
 'C44': ('proved', ['C44_mailbox_lists', 'C44_accepted', 'C44_fails_with_lookalikes', 'C44_fails_with_mixed_separators', 'C44_not_in_general'], 'the general claim is refuted'),
 'C48': ('proved', ['C48_all_replies', 'C48_generated_parser', 'C48_exported_functions_on_generated_code'], 'for every ANTLR runtime meeting GenRun.runtime_ok'),
 'C49': ('proved', ['C49_generated_lexer', 'C49_every_character_is_a_token', 'C49_token_stream'], ''),
 'C50': ('proved', ['C50_encoded_words_decoded', 'C50_one_value'], ''),
 'C51': ('proved', ['C51_encoded_words_any_text', 'C51_marks'], 'addresses are local@domain without inner gaps, ports or routes; C51_marks shows why names with periods or at-signs outside quotes are left out'),
 'C52': ('proved', ['C52_format_parse_round_trip', 'C52_fails_for_blanks_at_the_end', 'C52_fails_for_the_empty_address', 'C52_fails_beyond_the_plane'], 'mail.Address.String and mime.WordEncoder are modelled in NetMail.v'),
 'C53': ('proved', ['C53_results_survive_formatting', 'C53_plain_inputs', 'C53_fails_for_an_at_sign_in_a_literal', 'C53_fails_for_an_empty_local_part', 'C53_fails_for_an_escaped_blank'], 'mail.Address.String and mime.WordEncoder are modelled in NetMail.v'),
 'C54': ('proved', ['C54_results_are_short', 'C54_plain_results_are_no_longer', 'C54_few_results'], 'The bound of three is approached by bytes that are not UTF-8 (C54_met); the second and third bounds are reached exactly (C54_plain_met).'),
 'C55': ('proved', ['C55_dates_survive_formatting', 'C55_fails_for_long_offsets', 'C55_fails_for_the_year_10000', 'C55_fails_before_the_year_0'], 'Time.Format is a transcription of the Go standard library (GoFormat.v) with layouts given as lists of elements. The C55_fails theorems show that the conditions on year and offset are needed.'),
 'C56': ('proved', ['C56_accepted_address_lists'], 'The set of texts is defined in AcceptText.v on characters, without the grammar, the lexer or the parser.'),
 'C57': ('proved', ['C57_accepted_dates'], 'The set of texts is defined in AcceptText.v on characters, without the grammar, the lexer or the parser.'),
 'C58': ('proved', ['C58_where_the_domain_starts', 'C58_fails_for_literals'], ''),
 'C59': ('proved', ['C59_read_off'], 'The relation read_off is defined in PropMade.v on characters; word_decode is the model of mime.WordDecoder.Decode.'),
 'C60': ('proved', ['C60_join_by_comma', 'C60_join_by_semicolon', 'C60_joined_addresses', 'C60_fails_with_empty_entries'], 'Proved from C56 and C44.'),
 'C61': ('proved', ['C61_answers', 'C61_answers_are_right', 'C61_all_star_is_enough', 'C61_exported_functions_with_all_star', 'C61_prediction_is_not_observable'], 'ALL(*) is modelled as a relation: every answer it may give at any stopping point; its cache of decisions is the subject of C62.'),
 'C62': ('proved', ['C62_calls_do_not_interfere', 'C62_cached_answers', 'C62_calls_end', 'C62_calls_need_no_other', 'C62_always_served', 'C62_both_caches_calls_do_not_interfere', 'C62_lexer_tokens', 'C62_lexer_cached', 'C62_both_caches_need_no_other', 'C62_both_caches_always_served', 'C62_recovering_calls_do_not_interfere', 'C62_recovering_calls_need_no_other', 'C62_recovering_always_served', 'C62_tokens_on_demand', 'C62_interleaved_calls_do_not_interfere', 'C62_interleaved_calls_need_no_other', 'C62_interleaved_always_served', 'C62_tables_made_once', 'C62_first_calls_do_not_crash', 'C62_first_calls_do_not_interfere', 'C62_first_calls_need_no_other', 'C62_later_calls_never_wait', 'C62_first_calls_end'], 'The first theorems let a call stop at its first syntax error, the C62_recovering theorems have the whole of it. The C62_interleaved theorems let the lexer and the parser of a call take turns in any order, the last six also have the one-time initialisation (sync.Once) and are the strongest. The tables of the parser and of the lexer (decisionToDFA) are modelled, each access as one atomic step, as the runtime has locks around them. Not modelled: predictionContextCache, which shares stacks of configurations to save memory.'),
 'C63': ('proved', ['C63_requests', 'C63_linear', 'C63_steps', 'C63_both_caches_steps', 'C63_recovering_requests', 'C63_recovering_steps', 'C63_interleaved_steps', 'C63_first_call_steps'], 'C63_requests, C63_linear, C63_steps and C63_both_caches_steps count up to the first syntax error, the C63_recovering theorems to the end of the call. Not bounded here: the work of the runtime inside one step, that is computing one set of configurations or one second stage of a prediction.'),
 'C64': ('proved', ['C64_leading_gap', 'C64_not_before_a_quote', 'C64_leading_gap_dates', 'C64_trailing_gap', 'C64_not_after_a_port', 'C64_trailing_gap_dates', 'C64_trailing_gap_same_addresses'], 'After a list acceptance is claimed in general, and the same addresses under the side conditions of C47 for gaps without double quotes and colons.'),
 'C65': ('proved', ['C65_every_run_ends', 'C65_exported_functions_with_recovery'], 'The error handler of the runtime (DefaultErrorStrategy) is modelled from memory, as a relation: all replies that its code can give are allowed, and more. Error nodes of the tree are left out, they are not used after an error.'),
 'C66': ('proved', ['C66_address_list_syntax', 'C66_standard_address_lists_accepted', 'C66_limits', 'C66_extensions'], 'Rfc5322.v is the ABNF of RFC 5322 (sections 3 and 4) and RFC 6532, transcribed rule by rule (from memory, no network), with the extensions as named forms. Both lists are shown to be needed: each limit has a text of the standard that is rejected, each extension an accepted text that is not in the standard.'),
 'C67': ('proved', ['C67_date_time_syntax', 'C67_standard_dates_accepted', 'C67_limits', 'C67_extensions', 'C67_two_digit_years'], 'As C66. The values of the other fields are the subject of C34-C43.'),
 'C68': ('proved', ['C68_reads_address_lists', 'C68_reads_mailbox_lists', 'C68_meaning_exists', 'C68_places'], 'RfcMeaning.v gives the meaning along the rules of Rfc5322.v.'),
 'C69': ('proved', ['C69_reads_dates', 'C69_reads_fields', 'C69_reads_two_digit_years', 'C69_meaning_exists', 'C69_meaning_unique'], 'RfcDates.v gives the meaning along the rules of Rfc5322.v. Second 60 is covered by C69_reads_dates, not by C69_reads_fields.'),
 'C70': ('proved', ['C70_ParseAddressList', 'C70_ParseDateTime'], 'For all worlds (runs of lexer and parser with their messages) that agree with C65 (world_of; some_world is one). A slice is a value in GoRun.v: sharing of the underlying arrays is left out, each slice of the code has one holder.'),
 'C71': ('proved', ['C71_new_addresses', 'C71_objects_are_kept', 'C71_second_call'], 'Objects of the library (lexer, token stream) are values. The array behind the returned slice is not an object of the model; it is made by append in this call.'),
 'C72': ('proved', ['C72_prints_lexer_messages', 'C72_prints_nothing'], 'Assumed of the runtime: the default listener of a new parser and lexer is the console listener, RemoveErrorListeners removes it, the lexer reports only characters that are no token.'),
 'C73': ('proved', ['C73_tables', 'C73_tables_only_grow'], 'Counts states, not bytes. The model of the caches (C62, C63) does not make the runtime look for an equal state before it adds one, so the real tables are smaller.'),
 'C74': ('proved', ['C74_address_depth', 'C74_date_depth', 'C74_depth_grows', 'C74_address_stack', 'C74_date_stack'], 'The depth theorems are about the parse tree of an accepted input, whose nodes are the contexts of the calls of rule functions. The stack theorems are about every run of the translated parser functions, with recovery and any replies of the runtime, on accepted and rejected inputs alike: the run on a stack with that much room is the run on an unbounded one. The lexer, the prediction and the calls inside the ANTLR runtime are not counted.'),
 'C75': ('proved', ['C75_no_text_is_both', 'C75_try_both'], 'From the texts of C56 and the stripped texts of C34. About ANTLR recovery nothing is assumed beyond C65.'),
 'C76': ('proved', ['C76_comments_are_complete', 'C76_incomplete_is_rejected'], 'About the characters the lexer knows (up to U+FFFF): the others are dropped or make the input rejected (C33).'),
 'C77': ('proved', ['C77_acceptance', 'C77_results', 'C77_lowered'], 'Results: for texts in which quotes pair up in only one way (paired, ScanSpec.v) and no encoded word begins; C77_encoded_words_differ shows the latter is needed.'),
 'C78': ('proved', ['C78_dates', 'C78_lists', 'C78_lists_stay'], 'reworded (PropInside.v) relates the texts of the characters the lexer knows; lexes: the second text has no character above U+FFFF if the lexer reports those (C33).'),
 'C79': ('proved', ['C79_dates', 'C79_lists_accepted', 'C79_lists', 'C79_results'], 'lexes: no character above U+FFFF if the lexer reports those (C33).'),
 'C80': ('proved', ['C80_stays_accepted', 'C80_dates'], 'lexes: no character above U+FFFF if the lexer reports those (C33). The converse is not claimed.'),
})
