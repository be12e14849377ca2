{
 "claims": [
  {
   "property": "C01",
   "status": "proved",
   "theorems": [
    "C01_address_list_contract"
   ],
   "note": ""
  },
  {
   "property": "C02",
   "status": "proved",
   "theorems": [
    "C02_date_time_contract"
   ],
   "note": ""
  },
  {
   "property": "C03",
   "status": "proved",
   "theorems": [
    "C03_empty_input"
   ],
   "note": ""
  },
  {
   "property": "C04",
   "status": "proved",
   "theorems": [
    "C04_accepts_grammar"
   ],
   "note": "about the .g4 grammar as transcribed in Grammar.v"
  },
  {
   "property": "C05",
   "status": "proved",
   "theorems": [
    "C05_accepts_grammar"
   ],
   "note": "about the .g4 grammar as transcribed in Grammar.v"
  },
  {
   "property": "C06",
   "status": "proved",
   "theorems": [
    "C06_reading_is_selected_tree"
   ],
   "note": ""
  },
  {
   "property": "C07",
   "status": "proved",
   "theorems": [
    "C07_only_syntax_errors"
   ],
   "note": ""
  },
  {
   "property": "C08",
   "status": "proved",
   "theorems": [
    "C08_addr_spec_round_trip"
   ],
   "note": ""
  },
  {
   "property": "C09",
   "status": "proved",
   "theorems": [
    "C09_gaps_ignored"
   ],
   "note": "dot-atoms not containing \"=?\"; C15 has the same for every mailbox form"
  },
  {
   "property": "C10",
   "status": "proved",
   "theorems": [
    "C10_words_joined"
   ],
   "note": "atoms not containing \"=?\""
  },
  {
   "property": "C11",
   "status": "proved",
   "theorems": [
    "C11_quoted_name_round_trip"
   ],
   "note": ""
  },
  {
   "property": "C12",
   "status": "proved",
   "theorems": [
    "C12_blanks_at_the_end_are_dropped",
    "C12_round_trip_fails"
   ],
   "note": ""
  },
  {
   "property": "C13",
   "status": "proved",
   "theorems": [
    "C13_escaped_controls_vanish"
   ],
   "note": ""
  },
  {
   "property": "C14",
   "status": "proved",
   "theorems": [
    "C14_signs_join"
   ],
   "note": "atoms not containing \"=?\""
  },
  {
   "property": "C15",
   "status": "proved",
   "theorems": [
    "C15_mailbox_list"
   ],
   "note": ""
  },
  {
   "property": "C16",
   "status": "proved",
   "theorems": [
    "C16_empty_entries"
   ],
   "note": "hypothesis paired: double quotes pair up in one way; needed, see C17_fails_with_colons_in_quotes"
  },
  {
   "property": "C17",
   "status": "proved",
   "theorems": [
    "C17_groups_and_mailboxes",
    "C17_fails_with_colons_in_quotes"
   ],
   "note": "hypothesis paired: double quotes pair up in one way; the second theorem shows it is needed"
  },
  {
   "property": "C18",
   "status": "proved",
   "theorems": [
    "C18_empty_group"
   ],
   "note": "hypothesis paired: double quotes pair up in one way; needed, see C17_fails_with_colons_in_quotes"
  },
  {
   "property": "C19",
   "status": "proved",
   "theorems": [
    "C19_route_ignored"
   ],
   "note": "All of obs-route, with empty entries."
  },
  {
   "property": "C20",
   "status": "proved",
   "theorems": [
    "C20_null_address"
   ],
   "note": ""
  },
  {
   "property": "C21",
   "status": "proved",
   "theorems": [
    "C21_address_shape",
    "C21_exact_shape",
    "C21_valid_utf8"
   ],
   "note": "C21_address_shape holds of every list of numbers as input; the other two of every list of bytes."
  },
  {
   "property": "C22",
   "status": "proved",
   "theorems": [
    "C22_nothing_invented"
   ],
   "note": ""
  },
  {
   "property": "C23",
   "status": "proved",
   "theorems": [
    "C23_count_bound",
    "C23_own_marks"
   ],
   "note": ""
  },
  {
   "property": "C24",
   "status": "proved",
   "theorems": [
    "C24_no_silent_empty_result"
   ],
   "note": ""
  },
  {
   "property": "C25",
   "status": "proved",
   "theorems": [
    "C25_domain_verbatim"
   ],
   "note": ""
  },
  {
   "property": "C26",
   "status": "proved",
   "theorems": [
    "C26_quoted_local_part",
    "C26_address_need_not_be_accepted"
   ],
   "note": ""
  },
  {
   "property": "C27",
   "status": "proved",
   "theorems": [
    "C27_encoded_words_joined"
   ],
   "note": ""
  },
  {
   "property": "C28",
   "status": "proved",
   "theorems": [
    "C28_kept_verbatim",
    "C28_undecodable"
   ],
   "note": ""
  },
  {
   "property": "C29",
   "status": "proved",
   "theorems": [
    "C29_encoded_name_round_trip"
   ],
   "note": ""
  },
  {
   "property": "C30",
   "status": "proved",
   "theorems": [
    "C30_local_parts",
    "C30_fails",
    "C30_not_in_general",
    "C08_addr_spec_round_trip"
   ],
   "note": "the general claim is refuted; dot-atoms and quoted strings are never decoded"
  },
  {
   "property": "C31",
   "status": "proved",
   "theorems": [
    "C31_no_control_characters",
    "C31_line_break_in_quoted_name",
    "C31_line_break_in_domain_literal"
   ],
   "note": "control characters are the ASCII ones; U+0080..U+009F are passed through"
  },
  {
   "property": "C32",
   "status": "proved",
   "theorems": [
    "C32_invalid_utf8"
   ],
   "note": ""
  },
  {
   "property": "C33",
   "status": "proved",
   "theorems": [
    "C33_high_characters",
    "C33_never_returned"
   ],
   "note": ""
  },
  {
   "property": "C34",
   "status": "proved",
   "theorems": [
    "C34_read_from_stripped_text"
   ],
   "note": ""
  },
  {
   "property": "C35",
   "status": "proved",
   "theorems": [
    "C35_instant"
   ],
   "note": ""
  },
  {
   "property": "C36",
   "status": "proved",
   "theorems": [
    "C36_round_trip"
   ],
   "note": ""
  },
  {
   "property": "C37",
   "status": "proved",
   "theorems": [
    "C37_two_digit_years"
   ],
   "note": "C37_fails_in_2100 shows the bound on the current year is needed"
  },
  {
   "property": "C38",
   "status": "proved",
   "theorems": [
    "C38_numeric_zones"
   ],
   "note": ""
  },
  {
   "property": "C39",
   "status": "proved",
   "theorems": [
    "C39_zone_names"
   ],
   "note": ""
  },
  {
   "property": "C40",
   "status": "proved",
   "theorems": [
    "C40_case_irrelevant"
   ],
   "note": ""
  },
  {
   "property": "C41",
   "status": "proved",
   "theorems": [
    "C41_day_name_ignored"
   ],
   "note": ""
  },
  {
   "property": "C42",
   "status": "proved",
   "theorems": [
    "C42_defaults"
   ],
   "note": ""
  },
  {
   "property": "C43",
   "status": "proved",
   "theorems": [
    "C43_out_of_range_carried"
   ],
   "note": "the expected property (only valid dates accepted) is false of the code; this proves what happens instead"
  },
  {
   "property": "C44",
   "status": "proved",
   "theorems": [
    "C44_mailbox_lists",
    "C44_accepted",
    "C44_fails_with_lookalikes",
    "C44_fails_with_mixed_separators",
    "C44_not_in_general"
   ],
   "note": "the general claim is refuted"
  },
  {
   "property": "C45",
   "status": "proved",
   "theorems": [
    "C45_reader_only_for_parts_of_the_input",
    "C45_reader_lower_case_names_only",
    "C45_reader_irrelevant"
   ],
   "note": ""
  },
  {
   "property": "C46",
   "status": "proved",
   "theorems": [
    "C46_current_year"
   ],
   "note": ""
  },
  {
   "property": "C47",
   "status": "proved",
   "theorems": [
    "C47_addresses_are_what_the_scanner_reports",
    "C47_without_encoded_words",
    "C47_fails_with_blank_lines",
    "C47_fails_with_special_characters"
   ],
   "note": "hypotheses, as in the property: double quotes pair up in one way; if there are encoded words they have atom characters only and no line of white space is folded twice; the last two are needed"
  },
  {
   "property": "C48",
   "status": "proved",
   "theorems": [
    "C48_all_replies",
    "C48_generated_parser",
    "C48_exported_functions_on_generated_code"
   ],
   "note": "for every ANTLR runtime meeting GenRun.runtime_ok"
  },
  {
   "property": "C49",
   "status": "proved",
   "theorems": [
    "C49_generated_lexer",
    "C49_every_character_is_a_token",
    "C49_token_stream"
   ],
   "note": ""
  },
  {
   "property": "C50",
   "status": "proved",
   "theorems": [
    "C50_encoded_words_decoded",
    "C50_one_value"
   ],
   "note": ""
  },
  {
   "property": "C51",
   "status": "proved",
   "theorems": [
    "C51_encoded_words_any_text",
    "C51_marks"
   ],
   "note": "addresses are local@domain without inner gaps, ports or routes; C51_marks shows why names with periods or at-signs outside quotes are left out"
  },
  {
   "property": "C52",
   "status": "proved",
   "theorems": [
    "C52_format_parse_round_trip",
    "C52_fails_for_blanks_at_the_end",
    "C52_fails_for_the_empty_address",
    "C52_fails_beyond_the_plane"
   ],
   "note": "mail.Address.String and mime.WordEncoder are modelled in NetMail.v"
  },
  {
   "property": "C53",
   "status": "proved",
   "theorems": [
    "C53_results_survive_formatting",
    "C53_plain_inputs",
    "C53_fails_for_an_at_sign_in_a_literal",
    "C53_fails_for_an_empty_local_part",
    "C53_fails_for_an_escaped_blank"
   ],
   "note": "mail.Address.String and mime.WordEncoder are modelled in NetMail.v"
  },
  {
   "property": "C54",
   "status": "proved",
   "theorems": [
    "C54_results_are_short",
    "C54_plain_results_are_no_longer",
    "C54_few_results"
   ],
   "note": "The bound of three is approached by bytes that are not UTF-8 (C54_met); the second and third bounds are reached exactly (C54_plain_met)."
  },
  {
   "property": "C55",
   "status": "proved",
   "theorems": [
    "C55_dates_survive_formatting",
    "C55_fails_for_long_offsets",
    "C55_fails_for_the_year_10000",
    "C55_fails_before_the_year_0"
   ],
   "note": "Time.Format is a transcription of the Go standard library (GoFormat.v) with layouts given as lists of elements. The C55_fails theorems show that the conditions on year and offset are needed."
  },
  {
   "property": "C56",
   "status": "proved",
   "theorems": [
    "C56_accepted_address_lists"
   ],
   "note": "The set of texts is defined in AcceptText.v on characters, without the grammar, the lexer or the parser."
  },
  {
   "property": "C57",
   "status": "proved",
   "theorems": [
    "C57_accepted_dates"
   ],
   "note": "The set of texts is defined in AcceptText.v on characters, without the grammar, the lexer or the parser."
  },
  {
   "property": "C58",
   "status": "proved",
   "theorems": [
    "C58_where_the_domain_starts",
    "C58_fails_for_literals"
   ],
   "note": ""
  },
  {
   "property": "C59",
   "status": "proved",
   "theorems": [
    "C59_read_off"
   ],
   "note": "The relation read_off is defined in PropMade.v on characters; word_decode is the model of mime.WordDecoder.Decode."
  },
  {
   "property": "C60",
   "status": "proved",
   "theorems": [
    "C60_join_by_comma",
    "C60_join_by_semicolon",
    "C60_joined_addresses",
    "C60_fails_with_empty_entries"
   ],
   "note": "Proved from C56 and C44."
  },
  {
   "property": "C61",
   "status": "proved",
   "theorems": [
    "C61_answers",
    "C61_answers_are_right",
    "C61_all_star_is_enough",
    "C61_exported_functions_with_all_star",
    "C61_prediction_is_not_observable"
   ],
   "note": "ALL(*) is modelled as a relation: every answer it may give at any stopping point; its cache of decisions is the subject of C62."
  },
  {
   "property": "C62",
   "status": "proved",
   "theorems": [
    "C62_calls_do_not_interfere",
    "C62_cached_answers",
    "C62_calls_end",
    "C62_calls_need_no_other",
    "C62_always_served",
    "C62_both_caches_calls_do_not_interfere",
    "C62_lexer_tokens",
    "C62_lexer_cached",
    "C62_both_caches_need_no_other",
    "C62_both_caches_always_served",
    "C62_recovering_calls_do_not_interfere",
    "C62_recovering_calls_need_no_other",
    "C62_recovering_always_served",
    "C62_tokens_on_demand",
    "C62_interleaved_calls_do_not_interfere",
    "C62_interleaved_calls_need_no_other",
    "C62_interleaved_always_served",
    "C62_tables_made_once",
    "C62_first_calls_do_not_crash",
    "C62_first_calls_do_not_interfere",
    "C62_first_calls_need_no_other",
    "C62_later_calls_never_wait",
    "C62_first_calls_end"
   ],
   "note": "The first theorems let a call stop at its first syntax error, the C62_recovering theorems have the whole of it. The C62_interleaved theorems let the lexer and the parser of a call take turns in any order, the last six also have the one-time initialisation (sync.Once) and are the strongest. The tables of the parser and of the lexer (decisionToDFA) are modelled, each access as one atomic step, as the runtime has locks around them. Not modelled: predictionContextCache, which shares stacks of configurations to save memory."
  },
  {
   "property": "C63",
   "status": "proved",
   "theorems": [
    "C63_requests",
    "C63_linear",
    "C63_steps",
    "C63_both_caches_steps",
    "C63_recovering_requests",
    "C63_recovering_steps",
    "C63_interleaved_steps",
    "C63_first_call_steps"
   ],
   "note": "C63_requests, C63_linear, C63_steps and C63_both_caches_steps count up to the first syntax error, the C63_recovering theorems to the end of the call. Not bounded here: the work of the runtime inside one step, that is computing one set of configurations or one second stage of a prediction."
  },
  {
   "property": "C64",
   "status": "proved",
   "theorems": [
    "C64_leading_gap",
    "C64_not_before_a_quote",
    "C64_leading_gap_dates",
    "C64_trailing_gap",
    "C64_not_after_a_port",
    "C64_trailing_gap_dates",
    "C64_trailing_gap_same_addresses"
   ],
   "note": "After a list acceptance is claimed in general, and the same addresses under the side conditions of C47 for gaps without double quotes and colons."
  },
  {
   "property": "C65",
   "status": "proved",
   "theorems": [
    "C65_every_run_ends",
    "C65_exported_functions_with_recovery"
   ],
   "note": "The error handler of the runtime (DefaultErrorStrategy) is modelled from memory, as a relation: all replies that its code can give are allowed, and more. Error nodes of the tree are left out, they are not used after an error."
  },
  {
   "property": "C66",
   "status": "proved",
   "theorems": [
    "C66_address_list_syntax",
    "C66_standard_address_lists_accepted",
    "C66_limits",
    "C66_extensions"
   ],
   "note": "Rfc5322.v is the ABNF of RFC 5322 (sections 3 and 4) and RFC 6532, transcribed rule by rule (from memory, no network), with the extensions as named forms. Both lists are shown to be needed: each limit has a text of the standard that is rejected, each extension an accepted text that is not in the standard."
  },
  {
   "property": "C67",
   "status": "proved",
   "theorems": [
    "C67_date_time_syntax",
    "C67_standard_dates_accepted",
    "C67_limits",
    "C67_extensions",
    "C67_two_digit_years"
   ],
   "note": "As C66. The values of the other fields are the subject of C34-C43."
  },
  {
   "property": "C68",
   "status": "proved",
   "theorems": [
    "C68_reads_address_lists",
    "C68_reads_mailbox_lists",
    "C68_meaning_exists",
    "C68_places"
   ],
   "note": "RfcMeaning.v gives the meaning along the rules of Rfc5322.v."
  },
  {
   "property": "C69",
   "status": "proved",
   "theorems": [
    "C69_reads_dates",
    "C69_reads_fields",
    "C69_reads_two_digit_years",
    "C69_meaning_exists",
    "C69_meaning_unique"
   ],
   "note": "RfcDates.v gives the meaning along the rules of Rfc5322.v. Second 60 is covered by C69_reads_dates, not by C69_reads_fields."
  },
  {
   "property": "C70",
   "status": "proved",
   "theorems": [
    "C70_ParseAddressList",
    "C70_ParseDateTime"
   ],
   "note": "For all worlds (runs of lexer and parser with their messages) that agree with C65 (world_of; some_world is one). A slice is a value in GoRun.v: sharing of the underlying arrays is left out, each slice of the code has one holder."
  },
  {
   "property": "C71",
   "status": "proved",
   "theorems": [
    "C71_new_addresses",
    "C71_objects_are_kept",
    "C71_second_call"
   ],
   "note": "Objects of the library (lexer, token stream) are values. The array behind the returned slice is not an object of the model; it is made by append in this call."
  },
  {
   "property": "C72",
   "status": "proved",
   "theorems": [
    "C72_prints_lexer_messages",
    "C72_prints_nothing"
   ],
   "note": "Assumed of the runtime: the default listener of a new parser and lexer is the console listener, RemoveErrorListeners removes it, the lexer reports only characters that are no token."
  },
  {
   "property": "C73",
   "status": "proved",
   "theorems": [
    "C73_tables",
    "C73_tables_only_grow"
   ],
   "note": "Counts states, not bytes. The model of the caches (C62, C63) does not make the runtime look for an equal state before it adds one, so the real tables are smaller."
  },
  {
   "property": "C74",
   "status": "proved",
   "theorems": [
    "C74_address_depth",
    "C74_date_depth",
    "C74_depth_grows",
    "C74_address_stack",
    "C74_date_stack"
   ],
   "note": "The depth theorems are about the parse tree of an accepted input, whose nodes are the contexts of the calls of rule functions. The stack theorems are about every run of the translated parser functions, with recovery and any replies of the runtime, on accepted and rejected inputs alike: the run on a stack with that much room is the run on an unbounded one. The lexer, the prediction and the calls inside the ANTLR runtime are not counted."
  },
  {
   "property": "C75",
   "status": "proved",
   "theorems": [
    "C75_no_text_is_both",
    "C75_try_both"
   ],
   "note": "From the texts of C56 and the stripped texts of C34. About ANTLR recovery nothing is assumed beyond C65."
  },
  {
   "property": "C76",
   "status": "proved",
   "theorems": [
    "C76_comments_are_complete",
    "C76_incomplete_is_rejected"
   ],
   "note": "About the characters the lexer knows (up to U+FFFF): the others are dropped or make the input rejected (C33)."
  },
  {
   "property": "C77",
   "status": "proved",
   "theorems": [
    "C77_acceptance",
    "C77_results",
    "C77_lowered"
   ],
   "note": "Results: for texts in which quotes pair up in only one way (paired, ScanSpec.v) and no encoded word begins; C77_encoded_words_differ shows the latter is needed."
  },
  {
   "property": "C78",
   "status": "proved",
   "theorems": [
    "C78_dates",
    "C78_lists",
    "C78_lists_stay"
   ],
   "note": "reworded (PropInside.v) relates the texts of the characters the lexer knows; lexes: the second text has no character above U+FFFF if the lexer reports those (C33)."
  },
  {
   "property": "C79",
   "status": "proved",
   "theorems": [
    "C79_dates",
    "C79_lists_accepted",
    "C79_lists",
    "C79_results"
   ],
   "note": "lexes: no character above U+FFFF if the lexer reports those (C33)."
  },
  {
   "property": "C80",
   "status": "proved",
   "theorems": [
    "C80_stays_accepted",
    "C80_dates"
   ],
   "note": "lexes: no character above U+FFFF if the lexer reports those (C33). The converse is not claimed."
  }
 ]
}