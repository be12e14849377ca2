# Formal model of ProtonMail/go-rfc5322 in Rocq (Coq 8.16.1)

## 1. What is modelled

| Coq file | Code | Notes |
|---|---|---|
| `Lexer.v` | `RFC5322Lexer.g4`, token constants of `parser/rfc5322_lexer.go` | one token per character; both known recoveries for code points above U+FFFF |
| `Utf8.v` | Go `[]rune(string)` / `string([]rune)` | used by antlr.NewInputStream / GetText |
| `Grammar.v` | `RFC5322Parser.g4`, all 67 rules, as data | generated rule functions cited |
| `Parser.v` | generated recursive-descent functions + ALL(*) prediction of the ANTLR runtime | executable; stops at the first error |
| `Strs.v` | the parts of `strings`, `strconv` used | ASCII only where the grammar guarantees ASCII |
| `Mime.v` | `mime.WordDecoder.Decode`, base64 | Go stdlib, transcribed from memory |
| `GoTime.v` | `time.Date`, `FixedZone`, `ParseDuration`, accessors | Go stdlib, with 64-bit wrap-around |
| `Walker.v` | `walker.go` and all 40 node files | stack machine; Go panics are explicit (`None`) |
| `GenSyntax.v`, `GenCode.v`, `GenRun.v` | `parser/rfc5322_parser.go`: the 67 rule functions | statements as data and their execution |
| `GenPredict.v` | AdaptivePredict of the ANTLR runtime (ALL(*)) on the network of the generated parser | a relation: all answers it may give |
| `GenRecover.v` | the recover blocks of the rule functions, DefaultErrorStrategy of the ANTLR runtime | a relation: all ways to go on after an error |
| `GenCache.v` | the shared prediction tables (`decisionToDFA`), calls that use them at the same time | every access is one atomic step (the runtime has locks) |
| `GenCacheRec.v` | the same tables used by calls that recover from syntax errors | second predictions after an error included |
| `GenLexCache.v` | the lexer's shared cache (`decisionToDFA` of the lexer), calls that use it at the same time | atomic steps as above |
| `PropProcess.v` | a process: any number of calls of both functions over both caches | each call lexes, then parses |
| `PropLazy.v` | the same, with lexer and parser of a call taking turns (CommonTokenStream) | for every order of turns |
| `PropOnce.v` | the same, with `RFC5322LexerInit`, `RFC5322ParserInit` and Go's sync.Once | names of rules and tokens left out |
| `GenCost.v`, `GenRecCost.v` | what a run asks of the runtime, counted | requests, not seconds |
| `GenAtnData.v`, `GenAtn.v`, `GenLex.v` | the serialized networks of parser and lexer, their deserializer, the lexer's reading | runtime behaviour as assumed in section 4 |
| `GoFormat.v` | Go `time.Time.Format` | Go stdlib, applied by users to the results (C55) |
| `NetMail.v` | Go `mail.Address.String`, `mime.WordEncoder` | Go stdlib, applied by users to the results (C52, C53) |
| `GoSyntax.v`, `GoCode.v`, `GoRun.v` | `parser.go`, `walker.go`, all 40 node files, the base listener and the callbacks of the contexts, as statements; their execution on a heap | from the Go files by `tools/gen_go.py`; slices are values, the lexer and the parser are a parameter (`world`) |
| `Api.v` | `parser.go` | `ParseAddressList`, `ParseDateTime` with `Panic` / `Ret value error` |
| `Rfc5322.v`, `RfcMeaning.v`, `RfcDates.v` | RFC 5322, RFC 6532 | not code: the standard the README names, as specification (C66-C69) |
| `RfcDecide.v` | the same syntax as regular expressions, with a matcher | not code: to show that texts are outside the standard |
| `UnitTests.v` | the repository's unit tests run on the model | tests, not properties |

A Go string is a list of bytes. A nil slice and an empty slice are different (`None` / `Some []`).
What a call depends on besides its argument is the record `env`: current year, `CharsetReader`,
lexer recovery. Theorems quantify over all of them.

## 2. Not modelled

Token positions, the texts of the lexer's and the parser's messages (any text, C70), sharing of arrays behind slices,
memory use and running time in seconds and bytes (C63 bounds requests and steps, C73 stored states, C74 nested calls; a goroutine whose stack overflows ends the process, which needs millions of nested comments), the
runtime's cache of merged stacks (predictionContextCache), panics inside a user-supplied CharsetReader, a
CharsetReader that is replaced while calls are running. Concurrency is modelled for what calls share: the
prediction tables of the parser, the cache of the lexer, and the sync.Once of each (C62); each access to them is one atomic step.

## 3. How properties are stated and proved

* `Spec.v` (independent of the engine): parse forests `derives`, languages `lang`, and the
  selection relation `sel` ("first listed alternative from which the whole rest parses").
* `ParserFacts.v`: `parse r w = Some t` iff `sel`; `parse` succeeds iff `w` is in the language
  (fuel adequacy from a checked rank table of the grammar).
* `WalkerFacts.v`: the stack machine equals a compositional denotation on every well-formed tree;
  hence no panic.
* Properties over all accepted inputs (C01-C07, C21-C24, C31-C33, C34-C43, C45, C46) by induction on parse
  trees. Properties of input families (C08-C20, C25-C29, C44) by constructing the `sel` derivation
  and refuting earlier alternatives with scanners that skip comments and quoted strings.
* The scanner development (`ScanSpec.v`, the other `Scan*.v`, `PropScan.v`) shows that every parse
  tree of an input gives the addresses a one-pass scanner reports; `AddrText.v`, `MboxList.v`, `TextLang.v`,
  `TextScan.v` apply it to families of texts.
* `Gen*.v` model the generated Go files themselves and tie them to `Grammar.v` and `Lexer.v` (C48, C49), so
  that every theorem stated with `parse` and `tokens` also holds of the generated code.
* Claims found false are kept, with a theorem that refutes them (`..._fails...`, `..._not_in_general`) and
  the strongest true part.
* Property theorems live in `Prop*.v`, `DateCase.v` and `DateMore.v`. Beside each theorem an `Example`
  (`C.._met`, `C.._example`) shows a non-trivial input that meets its hypotheses.

## 4. Trusted base

* Coq's kernel, including `vm_compute`; the check is repeated by `coqchk`.
* Axioms: `Print Assumptions` prints "Closed under the global context" for every theorem of MANIFEST.json.
  `coqchk` lists seven library axioms, `Coq.ssr.ssrunder.Under_rel.*` (standard library, loaded with the
  plug-in files that `lia`/`zify` require); no theorem uses them.
* The transcription of the Go code: `Walker.v`, `Api.v` by hand with citations; `GenCode.v`,
  `GenAtnData.v` by `tools/gen_code.py`; `Grammar.v`, `Lexer.v` from the .g4 files (and proved to agree with
  the generated files). `UnitTests.v` runs the repository's unit tests on the model at build time.
* The ANTLR runtime, which is not in the repository: `GenRun.runtime_ok` says what is assumed of
  AdaptivePredict (a prediction is one of the alternatives; if some alternative can lead to the end of
  the input given the pending rules, the least such one is predicted) and of Sync (no error if the
  network can go on with the next token or can end the rule). C61 derives the first from a model of the
  ALL(*) algorithm (`GenPredict.v`). Further: `GenAtn.v` the format of the serialized
  network (version 4); `GenLex.lexeme` the lexer's longest match, first rule; Match, Consume, the building
  of the tree, `ParseTreeWalkerDefault` and GetText as in `GenRun.run` and `Walker.v`. After a reported error
  C65 models the error handler (`GenRecover.v`); what is read then is not used: parser.go returns the error.
* The Go standard library functions in `Mime.v`, `GoTime.v`, `Strs.v`, `Utf8.v`, (for C52 and C53 only) `NetMail.v` and (for C55 only) `GoFormat.v`.
* For C66-C69: the ABNF and the prose of RFC 5322 and RFC 6532 as written down in `Rfc5322.v`, `RfcMeaning.v`
  and `RfcDates.v` (without a copy of the RFCs at hand).

## 5. Properties: what is modelled and how it is proved

* **C01** ParseAddressList never panics and has a two-way result contract. Walk model with explicit panics (`Walker.v`); stack-machine = compositional denotation on every parse tree (`WalkerFacts.v`, `Total.v`), so no panic; case analysis of `parser.go`. Theorems: `C01_address_list_contract` (PropApi.v).
* **C02** ParseDateTime never panics and has a two-way result contract. As C01; `offset_value`'s slice bounds follow from the grammar of `offset`. Theorems: `C02_date_time_contract` (PropApi.v).
* **C03** Empty input is not an error. First branch of both functions; the rest from C05. Theorems: `C03_empty_input` (PropApi.v).
* **C04** ParseAddressList accepts exactly the published address-list grammar. `parse` succeeds exactly on sentences (`ParserFacts.parse_none`), for the grammar transcribed in `Grammar.v` (which C48 ties to the generated code). Theorems: `C04_accepts_grammar` (PropApi.v).
* **C05** ParseDateTime accepts exactly the published date-time grammar. As C04. Theorems: `C05_accepts_grammar` (PropApi.v).
* **C06** Ambiguous input is read by one fixed rule: the lowest-numbered viable alternative. `parse r w = Some t` iff `selected r w t` (`Spec.v`), and `selected` is deterministic. Theorems: `C06_reading_is_selected_tree` (PropApi.v).
* **C07** An accepted date never reports a late error. Induction over the subtrees of a date: month, zone, digits and offset texts lie in the sets the value functions handle. Theorems: `C07_only_syntax_errors` (PropApi.v).
* **C08** addr-spec round trip. Derivation of the selected tree for `l@d`, earlier alternatives refuted. Theorems: `C08_addr_spec_round_trip` (PropSpec.v).
* **C09** Comments and folding white space around the parts of an address are ignored. Gaps (`ogap`: comments nested to any depth, folding) around the parts of a bare or angle address; instance of the mailbox theorem behind C15. Theorems: `C09_gaps_ignored` (PropAddr.v).
* **C10** An unquoted display name is its words joined by single spaces. Names as item lists (`AddrText.v`), value by induction on the list. Theorems: `C10_words_joined` (PropAddr.v).
* **C11** A quoted display name is returned exactly unescaped. Quoting function in the statement; unescaping by induction on the text. Theorems: `C11_quoted_name_round_trip` (PropAddr.v).
* **C12** White space inside quotes: kept, except at the end where it is dropped. Blanks before the closing quote are read by the `fws?` of `quotedString`; `C12_round_trip_fails` is the loss a caller sees. Theorems: `C12_blanks_at_the_end_are_dropped` (PropAddr.v), `C12_round_trip_fails` (PropAddr.v).
* **C13** Backslash-escaped control characters in quoted strings disappear. `quotedPair` over `obsQP` pushes an empty value. Theorems: `C13_escaped_controls_vanish` (PropAddr.v).
* **C14** Period and at-sign in an unquoted display name join without spaces. Item lists with marks `.` and `@`. Theorems: `C14_signs_join` (PropAddr.v).
* **C15** A separated list of mailboxes returns each mailbox once, in order. Every tree of the text gives the same addresses: `ScanSpec.v` scanner agrees with every tree (`Scan*.v`), `TextLang.v`/`TextScan.v` run it on the text. Theorems: `C15_mailbox_list` (PropText.v).
* **C16** Empty list elements are skipped. As C15 with empty entries; hypothesis `paired` (shown needed by `C17_fails_with_colons_in_quotes`). Theorems: `C16_empty_entries` (PropText.v).
* **C17** Groups are flattened. As C16 with groups. Theorems: `C17_groups_and_mailboxes` (PropText.v), `C17_fails_with_colons_in_quotes` (PropAddr.v).
* **C18** Empty group: success with no addresses. As C17. Theorems: `C18_empty_group` (PropAddr.v).
* **C19** Source routes are ignored. Route read by `obsAngleAddr`, dropped by the walk. Theorems: `C19_route_ignored` (PropAddr.v).
* **C20** A null angle address gives an empty Address. `angleAddr` without `addrSpec`. Theorems: `C20_null_address` (PropAddr.v).
* **C21** Every returned Address has a fixed shape. Invariant over all parse trees; validity of the text follows from C59. Theorems: `C21_address_shape` (PropInv.v), `C21_exact_shape` (PropMade.v), `C21_valid_utf8` (PropMade.v).
* **C22** Nothing is invented: returned text comes from the input, in order. Subsequence invariant over all trees. Theorems: `C22_nothing_invented` (PropInv.v).
* **C23** The number of addresses is bounded by the separators. Counting invariant over all trees, also for the addresses with a given property and the tokens each of them needs. Theorems: `C23_count_bound` (PropInv.v), `C23_own_marks` (PropMarks.v).
* **C24** No silent empty result. As C23: a tree without addresses contains a colon. Theorems: `C24_no_silent_empty_result` (PropInv.v).
* **C25** Domain forms are preserved verbatim. Domain literal, trailing period, port: selected tree as in C08. Theorems: `C25_domain_verbatim` (PropAddr.v).
* **C26** A quoted local part is returned unquoted. Quoted local part; second theorem: the returned address is rejected when parsed again. Theorems: `C26_quoted_local_part` (PropAddr.v), `C26_address_need_not_be_accepted` (PropAddr.v).
* **C27** Encoded words in display names are decoded and adjacent ones joined. Encoded words grouped by the parser as the gaps allow; that gaps next to each other can be merged uses `TextFold.v` (no blank folded lines in a text of `AddrText.v` that may hold encoded words; without encoded words gaps in names and routes may have blank lines). Theorems: `C27_encoded_words_joined` (PropEnc.v).
* **C28** An undecodable encoded word is kept verbatim and is not an error. Reasons for failure listed in `hopeless`; value is the word's own text. Theorems: `C28_kept_verbatim` (PropEnc.v), `C28_undecodable` (PropEnc.v).
* **C29** Names survive RFC 2047 encoding. Encoder (Q and base64) in the statement, decoding is its inverse. Theorems: `C29_encoded_name_round_trip` (PropEnc.v).
* **C30** Encoded words inside the local part of an address. Refuted in general by a computed example; dot-atom and quoted local parts proved. Theorems: `C30_local_parts` (PropJoin.v), `C30_fails` (PropJoin.v), `C30_not_in_general` (PropJoin.v), `C08_addr_spec_round_trip` (PropSpec.v).
* **C31** Control characters in results. Invariant over all trees; two examples for the line breaks. Theorems: `C31_no_control_characters` (PropInv.v), `C31_line_break_in_quoted_name` (PropInv.v), `C31_line_break_in_domain_literal` (PropInv.v).
* **C32** Invalid UTF-8 is read as U+FFFD. `decode` of the repaired string is the same list of runes. Theorems: `C32_invalid_utf8` (PropLex.v).
* **C33** Characters above U+FFFF never reach a result unencoded. Both recoveries of the lexer; second theorem: invariant over trees. Theorems: `C33_high_characters` (PropLex.v), `C33_never_returned` (PropReader.v).
* **C34** A date-time is read from its text with comments and white space removed. `DateSpec.v`: reading of the stripped text; every tree agrees. Theorems: `C34_read_from_stripped_text` (PropDate.v).
* **C35** The instant is the calendar reading of the fields. `Calendar.v`: `time.Date` with 64-bit wrap-around equals the proleptic Gregorian day count. Theorems: `C35_instant` (PropDate.v).
* **C36** Date-time round trip. Inverse direction: `t_date`, `t_clock` of the instant. Theorems: `C36_round_trip` (PropDate.v).
* **C37** Two-digit years. Arithmetic on the current year in 2000..2099; `C37_fails_in_2100` shows the bound is needed. Theorems: `C37_two_digit_years` (PropDate.v).
* **C38** Zone offsets. All digit strings; duration parsing evaluated symbolically. Theorems: `C38_numeric_zones` (PropDate.v).
* **C39** Obsolete zone names. Finite table of names, any letter case, by the tree of `obsZone`. Theorems: `C39_zone_names` (PropDate.v).
* **C40** Letter case is irrelevant in dates. Lower-casing keeps token types; values computed from types or lower-cased text. Theorems: `C40_case_irrelevant` (DateCase.v).
* **C41** The day of week is not checked. Stripped text with another day name. Theorems: `C41_day_name_ignored` (DateMore.v).
* **C42** Missing seconds and zone default to 0 and UTC. Stripped text without the field. Theorems: `C42_defaults` (PropDate.v).
* **C43** Out-of-range fields are normalised, not rejected. Carry described by the day count of C35; the expectation that dates are checked is false. Theorems: `C43_out_of_range_carried` (PropDate.v).
* **C44** Joining two inputs with a comma. Mailbox lists by C15; accepted inputs by C47; three counterexamples for the general claim. Theorems: `C44_mailbox_lists` (PropJoin.v), `C44_accepted` (PropJoin.v), `C44_fails_with_lookalikes` (PropJoin.v), `C44_fails_with_mixed_separators` (PropJoin.v), `C44_not_in_general` (PropJoin.v).
* **C45** CharsetReader is used only when needed, with a lower-case name. Two readers that agree on the listed arguments give equal results, by induction over the tree. Theorems: `C45_reader_only_for_parts_of_the_input` (PropReader.v), `C45_reader_lower_case_names_only` (PropReader.v), `C45_reader_irrelevant` (PropReader.v).
* **C46** The current year matters only for two-digit years. Same, for the year. Theorems: `C46_current_year` (DateMore.v).
* **C47** The addresses of an accepted list are those a simple scanner finds. Scanner of `ScanSpec.v` against every parse tree of every accepted input; the parser's choice matters where an encoded word is also the beginning of an atom or the middle of one (`AddrSem.v`: `apart`, `unenc`, `no_join`), and the scanner cuts leading encoded words off (`enc_split`). `C47_fails_with_blank_lines` and `C47_fails_with_special_characters` show that the conditions on line breaks and on the characters of encoded words are needed. Theorems: `C47_addresses_are_what_the_scanner_reports` (PropScan.v), `C47_without_encoded_words` (PropScan.v), `C47_fails_with_blank_lines` (PropScan.v), `C47_fails_with_special_characters` (PropScan.v).
* **C48** The generated parser reads exactly the language of the grammar. `GenCode.v`: the 67 generated rule functions as data (statements of `GenSyntax.v`), written by `tools/gen_code.py` from the Go file; `GenAtnData.v`/`GenAtn.v`: the serialized network and its deserializer; `GenRun.v`: how the functions run on a runtime; `GenShape.v`, `GenNet.v`: code and network denote the grammar; `GenCheck.v`: lookahead tests are decisive; `GenFacts.v`: a run follows the selected reading and terminates; `GenWit.v`: a runtime meeting the assumptions. Theorems: `C48_all_replies` (PropGen.v), `C48_generated_parser` (PropGen.v), `C48_exported_functions_on_generated_code` (PropGen.v).
* **C49** The generated lexer makes one token of each character. `GenLex.v`: the lexer's network read by longest match, first rule; equal to the table of `Lexer.v` for every code point. Theorems: `C49_generated_lexer` (PropGen.v), `C49_every_character_is_a_token` (PropGen.v), `C49_token_stream` (PropGen.v).
* **C50** What an encoded word stands for. Relations for Q and base64 texts and charsets in `PropCharset.v`, shown equal to `Mime.v` and lifted through C27. Theorems: `C50_encoded_words_decoded` (PropCharset.v), `C50_one_value` (PropCharset.v).
* **C51** Encoded words may contain any printable character. Texts and values in `EncText.v`. The scanner of C47 does not cover these texts, so the readings of the grammar are aligned with the text directly: comments, quoted strings, literals and encoded words are prefix codes (`EncAlign.v`), the first viable reading of a name takes exactly its words (`EncSel.v`), an address has only one extent (`EncBox.v`), and elements end at their separators (`EncList.v`). Theorems: `C51_encoded_words_any_text` (PropFull.v), `C51_marks` (PropFull.v).
* **C52** Formatting with mail.Address.String and parsing gives the addresses back. `NetMail.v` transcribes mail.Address.String, quoteString, and the B and Q encoders of mime with their splitting into words of at most 75 characters; this is standard-library code, not the repository's, and is part of the trusted base of C52 only. `PropNet.v`: quoteString writes a quoted string of `AddrText.v`, the encoders write encoded words of `EncText.v` whose values are the pieces of the name, so the formatted list is a text of C51. Theorems: `C52_format_parse_round_trip` (PropNet.v), `C52_fails_for_blanks_at_the_end` (PropNet.v), `C52_fails_for_the_empty_address` (PropNet.v), `C52_fails_beyond_the_plane` (PropNet.v).
* **C53** Results survive formatting and parsing again. `PropStable.v`: induction on the reading of the input gives the shape of every returned address, with the exact form of domain literals; cutting at the last at-sign then gives the conditions of C52. For inputs without quotes, brackets and '=?' the conditions follow from the reading and from C31. Theorems: `C53_results_survive_formatting` (PropStable.v), `C53_plain_inputs` (PropStable.v), `C53_fails_for_an_at_sign_in_a_literal` (PropStable.v), `C53_fails_for_an_empty_local_part` (PropStable.v), `C53_fails_for_an_escaped_blank` (PropStable.v).
* **C54** Results are not much longer than the input. `PropSize.v`: a weight for every token (three, or the bytes of its text) and induction on the reading relations: every value weighs no more than the tokens it was read from. A space between two words of a display name is paid for by quotes, surrounding white space or a comment, which the selection rule guarantees for two atoms; a decoded encoded word by the ASCII bytes of its text. Theorems: `C54_results_are_short` (PropSize.v), `C54_plain_results_are_no_longer` (PropSize.v), `C54_few_results` (PropSize.v).
* **C55** Date results survive formatting and parsing again. `PropDateFormat.v`: every day from 0000-01-01 on has a date (induction on days), so by the calendar facts of C35 and C36 a returned time is time.Date of its own fields; these are printed with the usual number of digits and the text is well formed (C34). `GoFormat.v` transcribes Time.Format. Theorems: `C55_dates_survive_formatting` (PropDateFormat.v), `C55_fails_for_long_offsets` (PropDateFormat.v), `C55_fails_for_the_year_10000` (PropDateFormat.v), `C55_fails_before_the_year_0` (PropDateFormat.v).
* **C56** Exactly which texts are accepted as address lists. `AcceptText.v` defines the texts with a few set operations on characters and much less redundantly than the grammar (e.g. a display name is one word start followed by pieces in any order). `AcceptFacts.v`: each operator of the grammar is the corresponding operation on texts; the rules are then equal to the sets of `AcceptText.v` one by one, comments by induction on their length. Theorems: `C56_accepted_address_lists` (PropAccept.v).
* **C57** Exactly which texts are accepted as date-times. As C56, with the names of days, months and zones spelled out letter by letter. Theorems: `C57_accepted_dates` (PropAccept.v).
* **C58** How to find the domain in a returned Address. From the exact shape of addresses (C21): a dot-atom and a port contain no at-sign and no bracket, the body of a literal contains no bracket. Theorems: `C58_where_the_domain_starts` (PropSplit.v), `C58_fails_for_literals` (PropSplit.v).
* **C59** Every result is read off its own stretch of the input. Induction over the relations of AddrSem.v, which give the value of every parse tree. Theorems: `C59_read_off` (PropMade.v).
* **C60** Which accepted lists can be joined. From C56 by splitting and joining texts; the addresses from C44_accepted. Theorems: `C60_join_by_comma` (PropJoin2.v), `C60_join_by_semicolon` (PropJoin2.v), `C60_joined_addresses` (PropJoin2.v), `C60_fails_with_empty_entries` (PropJoin2.v).
* **C61** How far the parser reads ahead cannot be observed. `GenPredict.v`: configurations, closure and the two stages of ALL(*) on the deserialized network, as a relation `answer`. A path through the network splits at any prefix, so an alternative that can finish keeps a configuration (second stage); every real configuration is covered by one with the upper part of the stack, because the network never leaves a rule but by its stop state (computed check `edges_kept`) and pending functions are `linked` (`GenCheck.decides`, `GenFacts.cx_linked`). Theorems: `C61_answers` (GenPredict.v), `C61_answers_are_right` (GenPredict.v), `C61_all_star_is_enough` (GenPredict.v), `C61_exported_functions_with_all_star` (PropPredict.v), `C61_prediction_is_not_observable` (PropPredict.v).
* **C62** Calls do not influence each other. `GenCache.v`: the cache of a decision as a graph (nodes with configurations, roots, edges), threads that read and add to it in single steps; `sound` is kept by every step and a thread at a node is where the tokens read so far lead (`step_keeps`), so every reply is `right`; with `C48_all_replies` (the rule functions as programs over requests to the runtime, right for all replies) every interleaving of calls gives the results of the calls alone. Ends by well-foundedness of a thread's own steps. `GenLexCache.v`, `PropLexCache.v`: the lexer's cache in the same way (nodes with configurations and the rule they accept, edges for ASCII characters), `lstep_keeps`; the process has both caches, a call first makes its tokens, then runs its rule function. `GenCacheRec.v`, `PropProcess.v`: the same with the runs of `GenRecover.v` as threads, so that calls go on after syntax errors and use the cache meanwhile (`rstep_keeps`: every reply from the cache is one of those assumed in C65). `PropLazy.v`: the lexer and the parser of each call take turns under any policy that never stops both. `PropOnce.v`: in front of that the sync.Once of lexer and parser, step by step (load, lock, second look, each assignment of the init function, store, unlock); the invariant `oinv` says who is inside and what is assigned by then; a table that is made anew would throw away the cache, and use of an unmade table is a crash, so both are shown not to happen. Theorems: `C62_calls_do_not_interfere` (PropCache.v), `C62_cached_answers` (PropCache.v), `C62_calls_end` (PropCache.v), `C62_calls_need_no_other` (PropCache.v), `C62_always_served` (PropCache.v), `C62_both_caches_calls_do_not_interfere` (PropLexCache.v), `C62_lexer_tokens` (PropLexCache.v), `C62_lexer_cached` (PropLexCache.v), `C62_both_caches_need_no_other` (PropLexCache.v), `C62_both_caches_always_served` (PropLexCache.v), `C62_recovering_calls_do_not_interfere` (PropProcess.v), `C62_recovering_calls_need_no_other` (PropProcess.v), `C62_recovering_always_served` (PropProcess.v), `C62_tokens_on_demand` (PropLazy.v), `C62_interleaved_calls_do_not_interfere` (PropLazy.v), `C62_interleaved_calls_need_no_other` (PropLazy.v), `C62_interleaved_always_served` (PropLazy.v), `C62_tables_made_once` (PropOnce.v), `C62_first_calls_do_not_crash` (PropOnce.v), `C62_first_calls_do_not_interfere` (PropOnce.v), `C62_first_calls_need_no_other` (PropOnce.v), `C62_later_calls_never_wait` (PropOnce.v), `C62_first_calls_end` (PropOnce.v).
* **C63** The work of a call is bounded by the length of its input. `GenCost.v`: prices of statements (requests and nodes before the first token) and change (what is left of the price of a token), computed from the code of the rule functions and checked (`code_paid_checked`): a token pays for what follows it in its rule, an iteration pays for itself; induction over runs (`run_bill`). With a counter in each call of C62, steps are bounded by a potential (`step_within`), in the lexer by `lmost`. With recovery (`GenRecCost.v`): prices of statements where the next token fits and where it need not, paid in units of the measure `phi` of C65 (500 requests for a unit), checked for the code (`code_dues_checked`), induction over runs (`runs_paid`). Theorems: `C63_requests` (GenCost.v), `C63_linear` (PropCost.v), `C63_steps` (PropCost.v), `C63_both_caches_steps` (PropLexCache.v), `C63_recovering_requests` (PropProcess.v), `C63_recovering_steps` (PropProcess.v), `C63_interleaved_steps` (PropLazy.v), `C63_first_call_steps` (PropOnce.v).
* **C64** White space and comments around the whole input. `Lead.v`: after a first token that is firm (not white space, `(` or `"`), every rule that can begin the list begins with an optional cfws, so the choice made by ALL(*) is the same with and without the gap (`lead_selected`), and the walker skips it. Refuted before a quote. Dates and the trailing gaps go through the texts of C56 and C57 (`grows`, `lead_gap`); that the addresses stay the same goes through the scanner of C47 (`PropTrail.v`, `scan_trail`). Theorems: `C64_leading_gap` (PropLead.v), `C64_not_before_a_quote` (PropLead.v), `C64_leading_gap_dates` (PropLead.v), `C64_trailing_gap` (PropLead.v), `C64_not_after_a_port` (PropLead.v), `C64_trailing_gap_dates` (PropLead.v), `C64_trailing_gap_same_addresses` (PropTrail.v).
* **C65** After a syntax error the call ends, with that error. `GenRecover.v`: the rule functions with their deferred recover blocks and the error handler (Sync, RecoverInline, Recover with lastErrorIndex and lastErrorStates), a tree of requests and replies. `GenRecLike.v`: until the first report the run is one of GenRun.v, after it the error stays. `GenRecEnd.v`: the measure `phi` (tokens left, then parser states not yet recorded by Recover at this token) never grows, and every loop body makes it smaller, because a body is entered only if the next token can begin it (checked for all bodies, `code_grds`). `GenRecAsk.v`: predictions are only asked for before a token. `PropRecover.v`: the replies of ALL(*), including those after an error, meet what is assumed (`reply_ok`). Theorems: `C65_every_run_ends` (PropRecover.v), `C65_exported_functions_with_recovery` (PropRecover.v).
* **C66** Which address lists of RFC 5322 are accepted. `Rfc5322.v`: the ABNF as sets of texts, each obsolete rule and each extension guarded by a form name. `RfcFacts.v`: every rule is within the set of `AcceptText.v` for it, whatever forms are on, the excluded ones apart. `RfcBack.v`: and the other way round with all other forms on. With C56. The limits by texts derived in `Rfc5322.v` with one form on, rejected by computation in one environment and by C56 in all. The extensions by `RfcDecide.v`: the rules as regular expressions, from above (a comment is anything that begins with a parenthesis) and from below (no comments), related to the rules once for any relation kept by the operations; a matcher on sets of positions, sound in both directions; then texts are shown to be outside the standard by computation. Theorems: `C66_address_list_syntax` (PropRfc.v), `C66_standard_address_lists_accepted` (PropRfc.v), `C66_limits` (PropRfc.v), `C66_extensions` (PropRfcMore.v).
* **C67** Which date-times of RFC 5322 are accepted. As C66, with C57. Years: from C37. Theorems: `C67_date_time_syntax` (PropRfc.v), `C67_standard_dates_accepted` (PropRfc.v), `C67_limits` (PropRfc.v), `C67_extensions` (PropRfcMore.v), `C67_two_digit_years` (PropRfc.v).
* **C68** Address lists of RFC 5322 are read with the meaning RFC 5322 gives them. `RfcMeaning.v`: what a text means, by rules that follow the ABNF. `RfcSyntax.v`: texts with a meaning are those of the syntax (touching atoms have to be taken as one word). `RfcRead.v`: a text with a meaning in RFC 5322 has the same one in `AddrText.v` (gaps that touch make one long gap), then C15, C16. Theorems: `C68_reads_address_lists` (PropRfc.v), `C68_reads_mailbox_lists` (PropRfc.v), `C68_meaning_exists` (PropRfc.v), `C68_places` (PropRfc.v).
* **C69** Date-times of RFC 5322 are read with the meaning RFC 5322 gives them. `RfcDates.v`: what a date-time means, by rules that follow the ABNF. `PropRfcDates.v`: each part is some characters with comments and white space around them, so the text without comments and white space is the parts in a row; C34 says what is returned for those, and the calendar facts of C36 give the fields. Theorems: `C69_reads_dates` (PropRfcDates.v), `C69_reads_fields` (PropRfcDates.v), `C69_reads_two_digit_years` (PropRfcDates.v), `C69_meaning_exists` (PropRfcDates.v), `C69_meaning_unique` (PropRfcDates.v).
* **C70** The Go files, statement by statement, return what the model returns. `GoCode.v` is made from the Go files by `tools/gen_go.py` (statements as data); `GoRun.v` executes them on a heap: method sets with embedding, type assertions to interfaces by the methods a struct has, panics explicit. `GoGive.v`, `GoEnterDate.v`, `GoEnterText.v`, `GoEnter.v`: each callback does to the heap what `Walker.v` says for the values. `GoWalk.v`: the relation `paired` between heap and stack of values is kept by the walk of any tree (induction on the tree). `PropGo.v`: the two functions; that only ESyntax comes out is `Total.v`. Theorems: `C70_ParseAddressList` (PropGo.v), `C70_ParseDateTime` (PropGo.v).
* **C71** Results are new objects. `paired` keeps that the addresses held by the nodes on the stack and by the result are pairwise distinct objects made after the call began, and that the objects from before are as they were. Theorems: `C71_new_addresses` (PropGo.v), `C71_objects_are_kept` (PropGo.v), `C71_second_call` (PropGo.v).
* **C72** What is printed. `GoRun.v` keeps the printed texts: only notify with a console listener and the lexer's reports add to them. In `PropGo.v` the listeners at the time of the call of AddressList are exactly the walker. Theorems: `C72_prints_lexer_messages` (PropGo.v), `C72_prints_nothing` (PropGo.v).
* **C73** The shared tables grow only with what is parsed. Every step of a call (C62, C63) adds at most one state to the two tables; the sum of the steps is bounded by C63. Theorems: `C73_tables` (PropMemory.v), `C73_tables_only_grow` (PropMemory.v).
* **C74** How deep the calls nest. A table of heights of the rules without comments, found by iteration and checked; a comment is paid for by its own parenthesis; induction on the height. The other direction: a text without quotes and brackets is balanced, and the parentheses open at a place are comments around it, each of which is two levels (`all_deep`); C64 for acceptance. The tree is the one of any run of the generated functions (C65). For all runs, also after syntax errors, the functions are executed on a stack of bounded size (`srun`); a table of what each statement needs is found by iteration and checked, a call of Comment after a look at '(' costs two less because the parenthesis is then consumed; the runs on the two stacks are alike for all replies. Theorems: `C74_address_depth` (PropDepth.v), `C74_date_depth` (PropDepth.v), `C74_depth_grows` (PropDepth.v), `C74_address_stack` (PropStack.v), `C74_date_stack` (PropStack.v).
* **C75** No text is both an address list and a date. Texts of C56 followed by any text, with gaps and comments stripped: either a character no date contains is seen (every mailbox has '@' or '<'), or what is left ends in ':', ';' or ','. A stripped date (C34) has only letters, digits, and ',:+-', and ends in a letter or digit. Theorems: `C75_no_text_is_both` (PropApart.v), `C75_try_both` (PropApart.v).
* **C76** Comments are complete. Texts of C56 and C57: reading any text after one of their parts is reading it at the same depth; induction on comments, and the parts with other parentheses need a character that is excluded. Theorems: `C76_comments_are_complete` (PropClosed.v), `C76_incomplete_is_rejected` (PropClosed.v).
* **C77** Letter case in address lists. Acceptance depends on the token types only, and these do not change with letter case. The independent scanner of C47 commutes with lowering letters, step by step, and so do its elements, names and addresses where no encoded word begins; C47 carries this to the parser. Theorems: `C77_acceptance` (PropCase.v), `C77_results` (PropCase.v), `C77_lowered` (PropCase.v).
* **C78** What comments say does not matter. Texts of C56 and C57: a changed text splits as the text did, part by part, each part again one of its kind; bodies of comments by induction on the length of both texts. Results: the stripped texts (C34) and what the scanner of C47 reports are equal. Theorems: `C78_dates` (PropInside.v), `C78_lists` (PropInside.v), `C78_lists_stay` (PropInside.v).
* **C79** Tabs and spaces. Each part of the texts of C56 and C57 is closed under exchanging tabs and spaces. Results: the stripped texts (C34) and what the scanner of C47 reports are equal; with quoted strings and literals the scanner commutes with making tabs spaces, as in C77. Theorems: `C79_dates` (PropBlank.v), `C79_lists_accepted` (PropBlank.v), `C79_lists` (PropBlank.v), `C79_results` (PropTabs.v).
* **C80** Unfolding. Each part of the texts of C56 and C57 is closed under taking line breaks out, and none begins with a line feed, so a line break is never split between parts. Results: the stripped texts (C34) are equal. Theorems: `C80_stays_accepted` (PropUnfold.v), `C80_dates` (PropUnfold.v).
