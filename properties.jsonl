{"id": "C01", "title": "ParseAddressList never panics and has a two-way result contract", "statement": "For every input string, ParseAddressList returns normally (no stack underflow, failed type assertion, slice-out-of-range or nil-interface panic while the syntax tree is walked), and it returns either a list with a nil error or a nil list with a non-nil error; never both, never neither.", "quantifier": "every byte string (valid UTF-8 or not), every CharsetReader, every current year", "why_tests_cant": "tests only sample inputs; a panic in a header parser is a remote crash and depends on every reachable tree shape", "anchors": ["parser.go:ParseAddressList", "walker.go:enter,exit,parent", "address_list.go:ExitAddressList", "offset.go:EnterOffset"]}
{"id": "C02", "title": "ParseDateTime never panics and has a two-way result contract", "statement": "For every input string ParseDateTime returns normally, and it returns either a time with a nil error or the zero time with a non-nil error.", "quantifier": "every byte string, every current year", "why_tests_cant": "same as C01", "anchors": ["parser.go:ParseDateTime", "walker.go", "date_time.go:ExitDateTime", "offset.go:EnterOffset"]}
{"id": "C03", "title": "Empty input is not an error", "statement": "ParseAddressList(\"\") returns a non-nil empty list and nil error; ParseDateTime(\"\") returns the zero time and nil error; and the empty string is the only accepted date-time input that does not go through the date grammar.", "quantifier": "the empty string; all environments", "why_tests_cant": "the interesting half is that no other input takes the shortcut", "anchors": ["parser.go:ParseAddressList", "parser.go:ParseDateTime"]}
{"id": "C04", "title": "ParseAddressList accepts exactly the published address-list grammar", "statement": "A non-empty input is accepted (nil error) if and only if its characters, tokenised by the lexer grammar, form a sentence of rule addressList of the published grammar.", "quantifier": "every byte string", "why_tests_cant": "the language is infinite in both directions: nothing outside may be accepted and nothing inside rejected", "anchors": ["parser.go:ParseAddressList", "RFC5322Parser.g4:addressList", "RFC5322Lexer.g4", "parser/rfc5322_parser.go:AddressList"]}
{"id": "C05", "title": "ParseDateTime accepts exactly the published date-time grammar", "statement": "A non-empty input is accepted if and only if its tokens form a sentence of rule dateTime.", "quantifier": "every byte string", "why_tests_cant": "as C04", "anchors": ["parser.go:ParseDateTime", "RFC5322Parser.g4:dateTime", "parser/rfc5322_parser.go:DateTime"]}
{"id": "C06", "title": "Ambiguous input is read by one fixed rule: the lowest-numbered viable alternative", "statement": "The grammar is ambiguous. For every accepted input the result is the one read off the unique parse tree obtained by taking, at every decision, the first listed alternative (for optional items and loops: entering before skipping) from which the whole remaining input can still be parsed.", "quantifier": "every accepted input of either function", "why_tests_cant": "every input with several parse trees is a potential inconsistency; tests see one tree each", "anchors": ["parser/rfc5322_parser.go:AdaptivePredict call sites", "RFC5322Parser.g4"]}
{"id": "C07", "title": "An accepted date never reports a late error", "statement": "Once the syntax is accepted no value-conversion error (bad month, bad zone, number or duration conversion) can occur: every syntactically accepted date-time yields a nil error.", "quantifier": "every accepted date-time input", "why_tests_cant": "requires all month, zone and digit shapes the grammar admits", "anchors": ["month.go:EnterMonth", "obs_zone.go:EnterObsZone", "day.go", "year.go", "hour.go", "minute.go", "second.go", "offset.go"]}
{"id": "C08", "title": "addr-spec round trip", "statement": "For every dot-atom local part l and dot-atom domain d (non-empty runs of atext separated by single periods, a trailing period allowed), ParseAddressList(l@d) returns exactly one address with empty name and address l@d.", "quantifier": "all local parts and domains of any length over ASCII and BMP non-ASCII atext", "why_tests_cant": "unbounded strings; also local parts that look like RFC 2047 encoded words", "anchors": ["parser.go:ParseAddressList", "addr_spec.go", "local_part.go", "domain.go", "dot_atom.go", "mailbox.go"]}
{"id": "C09", "title": "Comments and folding white space around the parts of an address are ignored", "statement": "Inserting any comments and folding white space before and after the local part and before and after the domain of a bare address l@d, or around the angle brackets and inside them, does not change the returned name and address.", "quantifier": "all dot-atoms l,d not containing '=?' (C08 has no such restriction) and all CFWS strings (nested comments, quoted pairs, folds) in every position", "why_tests_cant": "nesting depth and content of comments are unbounded", "anchors": ["RFC5322Parser.g4:cfws,comment", "addr_spec.go", "angle_addr.go"]}
{"id": "C10", "title": "An unquoted display name is its words joined by single spaces", "statement": "For words w1..wn (atoms) separated by arbitrary non-empty CFWS before an angle address <l@d>, the returned Name is w1..wn joined by exactly one space and the Address is l@d.", "quantifier": "all n>=1, all atoms (not containing '=?'), all separators, also with blank lines; all dot-atoms l and d not containing '=?', with any CFWS around the parts", "why_tests_cant": "all lengths and separators", "anchors": ["display_name.go", "word.go", "atom.go", "name_addr.go"]}
{"id": "C11", "title": "A quoted display name is returned exactly unescaped", "statement": "For every text t, quoting it (backslash before each quote, backslash, space and tab) and writing it before <l@d> makes ParseAddressList return Name = t.", "quantifier": "all texts of printable ASCII, space, tab and BMP non-ASCII characters, of any length, including empty and ending in white space; all dot-atoms l and d not containing '=?', with any CFWS around the parts", "why_tests_cant": "unbounded round trip", "anchors": ["quoted_string.go", "quoted_value.go", "quoted_content.go", "quoted_pair.go", "quoted_char.go", "qtext.go"]}
{"id": "C12", "title": "White space inside quotes: kept, except at the end where it is dropped", "statement": "For a quoted display name written with plain (unescaped) spaces and tabs, the returned Name is the unescaped text with exactly the trailing run of unescaped white space removed; in particular formatting a name that ends in a space and parsing it back loses that space.", "quantifier": "all texts as in C11; all dot-atoms l and d not containing '=?', with any CFWS around the parts", "why_tests_cant": "needs all texts; the trailing case is a data loss tests do not cover", "anchors": ["quoted_value.go:withFws", "quoted_string.go", "RFC5322Parser.g4:quotedString"]}
{"id": "C13", "title": "Backslash-escaped control characters in quoted strings disappear", "statement": "An obsolete quoted pair (backslash followed by NUL, a control character, CR, LF or DEL) inside a quoted display name contributes nothing to the returned Name; everything around it is kept.", "quantifier": "all quoted strings containing such pairs; all dot-atoms l and d not containing '=?', with any CFWS around the parts", "why_tests_cant": "unbounded content", "anchors": ["quoted_pair.go", "RFC5322Parser.g4:obsQP"]}
{"id": "C14", "title": "Period and at-sign in an unquoted display name join without spaces", "statement": "For atoms separated by '.' or '@' with any CFWS around the separators, before <l@d>, the Name is the atoms and separators concatenated without spaces.", "quantifier": "all chains of atoms (not containing '=?') and separators, also with blank lines between them; all dot-atoms l and d not containing '=?', with any CFWS around the parts", "why_tests_cant": "all lengths", "anchors": ["display_name.go:withUnspaced", "unspaced.go"]}
{"id": "C15", "title": "A separated list of mailboxes returns each mailbox once, in order", "statement": "A list of mailboxes (bare l@d or name <l@d>) separated by commas or semicolons with optional CFWS parses to exactly the corresponding addresses in order.", "quantifier": "all list lengths, all mailboxes (bare or angle address, any display name, comments, quoted strings, encoded words, domain literals, ports, routes) whose atoms do not contain '=?'", "why_tests_cant": "unbounded lists", "anchors": ["address_list.go:withAddress", "address.go:withMailbox"]}
{"id": "C16", "title": "Empty list elements are skipped", "statement": "Leading, doubled and trailing commas (with CFWS between them) around mailboxes in a comma-separated list do not add, remove or reorder addresses. Double quotes must pair up in one way: the text has no quotes, or no colons, or no quoted string holds a colon, escaped quote, '=?', unclosed parenthesis or bracket or ends with a separator, or no quote stands first or last in the text or next to a separator. (Otherwise it is false: \"a: b@c,\"d: e@f is one group by RFC 5322 but is read as two.)", "quantifier": "all numbers of empty elements at all positions", "why_tests_cant": "unbounded", "anchors": ["RFC5322Parser.g4:obsAddrList", "address_list.go"]}
{"id": "C17", "title": "Groups are flattened", "statement": "name: m1, ..., mn; parses to exactly the addresses of m1..mn in order; the group name does not appear; the final semicolon may be missing. Double quotes must pair up in one way: the text has no quotes, or no colons, or no quoted string holds a colon, escaped quote, '=?', unclosed parenthesis or bracket or ends with a separator, or no quote stands first or last in the text or next to a separator. (Otherwise it is false: \"a: b@c,\"d: e@f is one group by RFC 5322 but is read as two.)", "quantifier": "all group names, all member lists (n>=1)", "why_tests_cant": "unbounded", "anchors": ["group.go", "group_list.go", "mailbox_list.go", "address.go:withGroup"]}
{"id": "C18", "title": "Empty group: success with no addresses", "statement": "name:; and name: (with any CFWS after the colon) are accepted and return no addresses. Double quotes must pair up in one way: the text has no quotes, or no colons, or no quoted string holds a colon, escaped quote, '=?', unclosed parenthesis or bracket or ends with a separator, or no quote stands first or last in the text or next to a separator. (Otherwise it is false: \"a: b@c,\"d: e@f is one group by RFC 5322 but is read as two.)", "quantifier": "all group names and CFWS", "why_tests_cant": "unbounded", "anchors": ["group.go", "RFC5322Parser.g4:group"]}
{"id": "C19", "title": "Source routes are ignored", "statement": "name <@d1,...,@dn:l@d> returns Address l@d, independent of the route.", "quantifier": "all non-empty routes of dot-atom domains; all dot-atoms l and d not containing '=?', with any CFWS around the parts", "why_tests_cant": "unbounded", "anchors": ["obs_angle_addr.go", "RFC5322Parser.g4:obsRoute,obsDomainList"]}
{"id": "C20", "title": "A null angle address gives an empty Address", "statement": "name <> returns one address with that name and empty Address.", "quantifier": "all display names as in C10, C11", "why_tests_cant": "unbounded", "anchors": ["angle_addr.go"]}
{"id": "C21", "title": "Every returned Address has a fixed shape", "statement": "For every accepted input, every returned Address is either empty or of the form local@domain where domain is a non-empty dot-atom with optional trailing period, or a bracketed literal, optionally followed by :digits; the text is valid UTF-8 apart from what an encoded word decodes to.", "quantifier": "every accepted input", "why_tests_cant": "universally quantified over inputs", "anchors": ["addr_spec.go", "domain.go", "port.go"]}
{"id": "C22", "title": "Nothing is invented: returned text comes from the input, in order", "statement": "If no RFC 2047 encoded word decodes, then the names and addresses returned, concatenated in order and with spaces removed, form a subsequence of the input with spaces removed: no character is invented, duplicated or reordered.", "quantifier": "every accepted input", "why_tests_cant": "universal over inputs", "anchors": ["walker.go", "display_name.go", "mailbox.go"]}
{"id": "C23", "title": "The number of addresses is bounded by the separators", "statement": "For every accepted input, the number of returned addresses is at most one plus the number of commas and semicolons in the input, whatever the quoting. Moreover the number of returned addresses with a non-empty Address is at most the number of at-signs, and the number of those with a Name, or with an empty Address, is at most the number of '<' characters in the input.", "quantifier": "every accepted input", "why_tests_cant": "universal", "anchors": ["address_list.go", "group_list.go"]}
{"id": "C24", "title": "No silent empty result", "statement": "If a non-empty input is accepted with no addresses, the input contains a colon (it is a group); input without a colon yields at least one address or an error. In particular blank input is rejected.", "quantifier": "every input", "why_tests_cant": "universal", "anchors": ["group.go", "address_list.go"]}
{"id": "C25", "title": "Domain forms are preserved verbatim", "statement": "For a dot-atom local part, a bracketed domain literal is returned verbatim, a trailing period is kept, and :port is kept, in bare and angle addresses.", "quantifier": "all dot-atom local parts and dot-atom domains not containing '=?' (see C08 for those), all literals and ports", "why_tests_cant": "unbounded", "anchors": ["domain.go", "domain_literal.go", "port.go", "addr_spec.go:withPort"]}
{"id": "C26", "title": "A quoted local part is returned unquoted", "statement": "\"t\"@d returns Address t@d with t the unescaped content; hence distinct inputs may return the same Address and the Address need not be re-parseable.", "quantifier": "all quoted local parts with any CFWS around them, all dot-atom domains not containing '=?'", "why_tests_cant": "unbounded", "anchors": ["local_part.go:withQuotedString"]}
{"id": "C27", "title": "Encoded words in display names are decoded and adjacent ones joined", "statement": "For n>=1 encoded words separated by optional CFWS before <l@d>, Name is the concatenation of their decoded values with nothing in between.", "quantifier": "all n, all encoded words, all CharsetReaders; all dot-atoms l and d not containing '=?', with any CFWS around the parts", "why_tests_cant": "unbounded", "anchors": ["encoded_word.go", "word.go:withEncodedWord"]}
{"id": "C28", "title": "An undecodable encoded word is kept verbatim and is not an error", "statement": "If an encoded word cannot be decoded (unknown charset without CharsetReader, bad encoding, reader error) it contributes its own text unchanged and parsing still succeeds.", "quantifier": "all encoded words that fail to decode; all dot-atoms l and d not containing '=?', with any CFWS around the parts", "why_tests_cant": "unbounded", "anchors": ["encoded_word.go:EnterEncodedWord"]}
{"id": "C29", "title": "Names survive RFC 2047 encoding", "statement": "For every non-empty UTF-8 byte string n, writing it as a base64 or Q encoded word with charset utf-8 before <l@d> makes ParseAddressList return Name = n.", "quantifier": "all byte strings n; all dot-atoms l and d not containing '=?', with any CFWS around the parts", "why_tests_cant": "unbounded", "anchors": ["encoded_word.go", "mime.WordDecoder (stdlib)"]}
{"id": "C30", "title": "Encoded words inside the local part of an address", "statement": "RFC 2047 forbids encoded words in addr-spec. A caller expects the Address never to contain decoded encoded-word content. This holds for local parts that are dot-atoms but is false in general: there are inputs whose returned Address contains characters (such as '@' or CR LF) that only come from decoding.", "quantifier": "all inputs", "why_tests_cant": "the violating inputs are rare", "anchors": ["obs_local_part.go", "word.go", "encoded_word.go"]}
{"id": "C31", "title": "Control characters in results", "statement": "For every accepted input with no quoted string, no domain literal and no encoded word, the returned names and addresses contain no control characters and no white space except the single separating spaces; with quoted strings or literals a CR LF of the input can reach the result.", "quantifier": "every accepted input", "why_tests_cant": "universal; injection-relevant", "anchors": ["fws.go", "quoted_value.go", "domain_literal.go"]}
{"id": "C32", "title": "Invalid UTF-8 is read as U+FFFD", "statement": "Parsing an arbitrary byte string gives the same result as parsing the string with every invalid byte replaced by U+FFFD.", "quantifier": "all byte strings", "why_tests_cant": "unbounded", "anchors": ["parser.go (antlr.NewInputStream)"]}
{"id": "C33", "title": "Characters above U+FFFF never reach a result unencoded", "statement": "An input containing a character above U+FFFF is treated exactly as if the character were absent (or the whole input is rejected, depending on the ANTLR runtime's recovery): it is never returned in a name or address unless it is inside an encoded word's decoded value.", "quantifier": "all inputs", "why_tests_cant": "universal", "anchors": ["RFC5322Lexer.g4:UTF8NonAscii", "parser.go"]}
{"id": "C34", "title": "A date-time is read from its text with comments and white space removed", "statement": "For every accepted date-time the returned time is determined by the text left after deleting comments and white space: [dayname,]D[D]Mon YY|YYYY H[H]:MM[:SS][zone]; every parse tree of the input gives the same time.", "quantifier": "every accepted date-time input", "why_tests_cant": "universal; ambiguity", "anchors": ["date_time.go", "day.go", "month.go", "year.go", "hour.go", "minute.go", "second.go", "zone.go"]}
{"id": "C35", "title": "The instant is the calendar reading of the fields", "statement": "For every accepted date-time, the returned instant is the proleptic Gregorian day number of the given year, month and day times 86400 plus the clock fields minus the zone offset, and the returned location has that offset.", "quantifier": "every accepted date-time", "why_tests_cant": "all dates", "anchors": ["date_time.go:ExitDateTime", "offset.go", "obs_zone.go"]}
{"id": "C36", "title": "Date-time round trip", "statement": "For every valid calendar date in years 0000-9999, time of day and offset within +-99:59, formatting it as an RFC 5322 date-time and parsing gives a time whose year, month, day, hour, minute, second and zone offset are those given.", "quantifier": "all valid date-times (infinitely impractical to enumerate)", "why_tests_cant": "size of the domain; leap years, month lengths", "anchors": ["date_time.go", "parser.go:ParseDateTime"]}
{"id": "C37", "title": "Two-digit years", "statement": "A two-digit year is read as the unique year with these last two digits in the hundred years ending with the current year, whenever the current year is in 2000-2099.", "quantifier": "all two-digit years, all current years", "why_tests_cant": "depends on the clock", "anchors": ["year.go:EnterYear"]}
{"id": "C38", "title": "Zone offsets", "statement": "A numeric zone [+-]hhmm gives an offset of +-(hh*3600+mm*60) seconds; a missing sign means plus; the location name is the offset with its sign.", "quantifier": "all offsets", "why_tests_cant": "boundary cases of sign and digits", "anchors": ["offset.go:EnterOffset", "zone.go"]}
{"id": "C39", "title": "Obsolete zone names", "statement": "UT, UTC, GMT, EST, EDT, CST, CDT, MST, MDT, PST, PDT in any letter case give the RFC 5322 offsets; no other alphabetic zone is accepted.", "quantifier": "all zone strings", "why_tests_cant": "all casings and all non-members", "anchors": ["obs_zone.go:EnterObsZone"]}
{"id": "C40", "title": "Letter case is irrelevant in dates", "statement": "Changing the case of ASCII letters anywhere in a date-time input changes neither acceptance nor the instant nor the offset.", "quantifier": "all inputs and all case changes", "why_tests_cant": "unbounded", "anchors": ["month.go", "obs_zone.go", "RFC5322Lexer.g4"]}
{"id": "C41", "title": "The day of week is not checked", "statement": "Removing or replacing the day name in front of the comma does not change the result.", "quantifier": "all accepted date-times with a day name", "why_tests_cant": "universal", "anchors": ["RFC5322Parser.g4:dayOfweek", "date_time.go"]}
{"id": "C42", "title": "Missing seconds and zone default to 0 and UTC", "statement": "An accepted date-time without seconds (zone) returns second 0 (UTC).", "quantifier": "all accepted date-times", "why_tests_cant": "universal", "anchors": ["date_time.go:EnterDateTime"]}
{"id": "C43", "title": "Out-of-range fields are normalised, not rejected", "statement": "A caller may expect only valid calendar dates to be accepted; this is false: any two-digit day, hour, minute and second is accepted and overflow is carried into the larger units.", "quantifier": "all accepted date-times", "why_tests_cant": "universal", "anchors": ["day.go", "hour.go", "date_time.go:ExitDateTime"]}
{"id": "C44", "title": "Joining two inputs with a comma", "statement": "A caller may expect ParseAddressList(a+\",\"+b) to be ParseAddressList(a) followed by ParseAddressList(b). It is false in general (encoded-word look-alikes and obsolete lists) and true for lists of plain mailboxes; and where a, b and the joined text are all accepted and meet the conditions of C47 on quotes and encoded words, the addresses are those of a followed by those of b.", "quantifier": "all pairs of inputs", "why_tests_cant": "universal", "anchors": ["RFC5322Parser.g4:addressList"]}
{"id": "C45", "title": "CharsetReader is used only when needed, with a lower-case name", "statement": "The result depends on CharsetReader only through its value on lower-case charset names other than utf-8, iso-8859-1 and us-ascii and the decoded content; inputs without encoded words never consult it.", "quantifier": "all inputs and pairs of readers", "why_tests_cant": "quantifies over functions", "anchors": ["parser.go:CharsetReader", "encoded_word.go"]}
{"id": "C46", "title": "The current year matters only for two-digit years", "statement": "Address parsing never depends on the current year, and a date-time with a four-digit year gives the same result in every year.", "quantifier": "all inputs, all pairs of years", "why_tests_cant": "universal", "anchors": ["year.go"]}
{"id": "C47", "title": "The addresses of an accepted list are those a simple scanner finds", "statement": "Whenever ParseAddressList accepts, the addresses it returns are exactly those reported by a one-pass scanner (comments and quotes skipped or unescaped, elements cut at commas and semicolons outside brackets, quotes and comments, group names and empty elements ignored, name before the angle bracket, address inside), for every input whose double quotes pair up in one way (no quotes, or no colons, or no quoted string holds a colon, escaped quote, '=?', unclosed parenthesis or bracket or ends with a separator, or no quote first or last in the text or next to a separator) and in which the encoded words outside comments, quotes and brackets, if there are any, consist of atom characters and no two line breaks are separated by blanks only. An encoded word ends a word of atom characters only if the word begins with encoded words: what follows them is a word of its own.", "quantifier": "all accepted inputs meeting the side condition, all charset readers", "why_tests_cant": "universal over unbounded inputs: the grammar is ambiguous and the parser's choice among readings must never show in the result", "anchors": ["parser.go:ParseAddressList", "RFC5322Parser.g4:addressList", "walker.go"]}
{"id": "C48", "title": "The generated parser reads exactly the language of the grammar", "statement": "On every token stream, the generated rule functions AddressList and DateTime build the parse tree that the grammar selects (at each choice the first listed alternative from which the rest of the input can still be parsed) if the stream is a sentence of the rule, and report an error otherwise; they always terminate; so ParseAddressList and ParseDateTime return on the generated lexer and parser what they return by the grammar.", "quantifier": "all token streams, all inputs, all ANTLR runtimes that predict the least alternative that can finish and whose Sync accepts what the network accepts", "why_tests_cant": "universal over unbounded inputs and over the 67 rule functions, their lookahead masks and switch labels, and the serialized network", "anchors": ["parser/rfc5322_parser.go:AddressList", "parser/rfc5322_parser.go:DateTime", "parser/rfc5322_parser.go:parserATN", "RFC5322Parser.g4"]}
{"id": "C49", "title": "The generated lexer makes one token of each character", "statement": "The network of the generated lexer reads every input as a sequence of single characters: each code point up to U+FFFF is one token of the type the lexer grammar gives it, a code point above U+FFFF starts no token, and there is no other way to read the input.", "quantifier": "all inputs, both treatments of unreadable characters", "why_tests_cant": "universal over unbounded inputs and all code points", "anchors": ["parser/rfc5322_lexer.go:serializedLexerAtn", "RFC5322Lexer.g4"]}
{"id": "C50", "title": "What an encoded word stands for", "statement": "A display name made of encoded words =?charset?encoding?text?= is the concatenation of what each stands for: the bytes of the Q text (_ is a space, =XX a byte, hexadecimal digits in either case) or of the base64 text, converted from utf-8 (kept), iso-8859-1 (each byte a code point), us-ascii (bytes above 127 become U+FFFD) or by CharsetReader for any other charset; and the word itself, verbatim, if its encoding letter, its text or its charset cannot be handled. Charset names and encoding letters are compared without regard to case, and every word stands for exactly one text.", "quantifier": "all charset names, encoding letters and texts, all charset readers, any number of words; all dot-atoms l and d not containing '=?', with any CFWS around the parts", "why_tests_cant": "universal over unbounded texts and arbitrary charset readers", "anchors": ["encoded_word.go", "parser.go:CharsetReader"]}
{"id": "C51", "title": "Encoded words may contain any printable character", "statement": "In a list of mailboxes separated by commas or semicolons, each an address l@d or l@d:port, an address in angle brackets, or a name (atoms, quoted strings and encoded words, in any order) followed by an address in angle brackets, the text of an encoded word may contain every printable ASCII character except the question mark, in particular commas, semicolons, colons, angle brackets, quotes, parentheses and at-signs: the list is accepted, the separators inside encoded words do not separate, and each name is its decoded words, joined to each other and separated from the other words by one space. This needs names without periods and at-signs outside quoted strings and encoded words: with one, an encoded word can be cut in two.", "quantifier": "all list lengths, names, gaps and comments, charsets, encodings and texts, all charset readers", "why_tests_cant": "universal over unbounded texts, where the grammar is ambiguous and the reading depends on what follows", "anchors": ["RFC5322Parser.g4:encodedWord", "RFC5322Parser.g4:displayName", "RFC5322Parser.g4:word", "encoded_word.go", "display_name.go"]}
{"id": "C52", "title": "Formatting with mail.Address.String and parsing gives the addresses back", "statement": "Formatting *mail.Address values with their String method, joining the results with \", \" and calling ParseAddressList returns the same addresses in the same order. This holds for every Name of any bytes, including characters beyond U+FFFF and invalid UTF-8 (String writes those as encoded words, several if they are long), except that a Name of printable ASCII characters must not end in a blank; and for every Address local@domain whose local part has no control characters and no characters beyond U+FFFF and does not end in a blank (String quotes it if necessary) and whose domain is a dot-atom or a literal, possibly with a port. It fails for the exceptions, and ParseAddressList itself returns such addresses: a name ending in a space comes back without it, and the empty address of <> is formatted as <@>, which is rejected.", "quantifier": "all lists of addresses, all names as byte strings of any length, all local parts and domains, all charset readers", "why_tests_cant": "universal over unbounded byte strings through two inverse algorithms with line-length splitting", "anchors": ["parser.go:ParseAddressList", "display_name.go", "encoded_word.go", "quoted_string.go", "local_part.go"]}
{"id": "C53", "title": "Results survive formatting and parsing again", "statement": "If ParseAddressList accepts an input (any bytes) and returns a non-empty list, then formatting the returned addresses with mail.Address.String, joining them with \", \" and parsing again returns the same list, provided that in each Address the local part (before the last at-sign) is not empty, has no control characters or invalid UTF-8, does not end in a blank and contains \"=?\" only if it must be quoted, that the domain is not a literal with an at-sign in it and contains \"=?\" only if it is a literal, and that a Name of printable ASCII does not end in a blank. In particular this holds of every accepted input that has no double quote, no opening square bracket and no \"=?\", if no returned Address is empty. Each condition is needed: inputs are given whose results do not come back without it.", "quantifier": "all inputs as byte strings, all charset readers and years of both calls", "why_tests_cant": "universal over unbounded inputs; relates the results of two calls through a formatter", "anchors": ["parser.go:ParseAddressList", "addr_spec.go", "local_part.go", "domain.go", "port.go", "display_name.go"]}
{"id": "C54", "title": "Results are not much longer than the input", "statement": "When ParseAddressList succeeds, all returned names and addresses together have at most three times as many bytes as the input, if CharsetReader (when set) at most triples what it converts; for valid UTF-8 without \"=?\" they have at most as many bytes as the input; and n returned addresses need at least 3n-1 bytes of input.", "quantifier": "every input string of any length, every CharsetReader that at most triples its input, every year, every success", "why_tests_cant": "a bound on output size over all inputs is about the worst input of each length; a fuzz run only shows that the inputs tried stay below it", "anchors": ["parser.go: ParseAddressList", "display_name.go: withWord, withUnspaced", "encoded_word.go", "word.go", "atom.go", "quoted_string.go", "mailbox.go", "address_list.go"]}
{"id": "C55", "title": "Date results survive formatting and parsing again", "statement": "When ParseDateTime returns a time whose year (in its own zone) is between 0000 and 9999, formatting it with time.RFC1123, and, if its offset is less than 100 hours, with time.RFC1123Z or \"Mon, 2 Jan 2006 15:04:05 -0700\", gives a text that ParseDateTime accepts, in any year and with any CharsetReader, and reads as the same instant with the same offset; after time.RFC1123 the zone name is the same too and the result is identical unless the zone was missing. Without these conditions on year and offset it is false.", "quantifier": "every input accepted by ParseDateTime, including out-of-range fields that are carried, every current year of either call, three layouts", "why_tests_cant": "it ranges over every accepted text and every instant and offset such a text can stand for; calendar arithmetic (leap years, carries, negative offsets) has rare corner cases", "anchors": ["parser.go: ParseDateTime", "date_time.go: ExitDateTime", "zone.go", "obs_zone.go", "offset.go", "year.go"]}
{"id": "C56", "title": "Exactly which texts are accepted as address lists", "statement": "ParseAddressList accepts a non-empty input if and only if its characters (those up to U+FFFF; if the lexer emits a token for the others there must be none) are one of: addresses separated by commas or semicolons; or addresses and empty entries separated by commas, with at least one address. An address is a mailbox or a group; every part down to quoted strings, comments, folding white space, encoded words, routes, domain literals and ports is a stated set of character strings. Everything else is a syntax error.", "quantifier": "every non-empty byte string, every environment", "why_tests_cant": "both directions range over infinitely many texts, with comments nested without bound; a test can only accept or reject single texts", "anchors": ["parser.go: ParseAddressList", "RFC5322Parser.g4: addressList and below", "RFC5322Lexer.g4"]}
{"id": "C57", "title": "Exactly which texts are accepted as date-times", "statement": "ParseDateTime accepts a non-empty input if and only if its characters (those up to U+FFFF; if the lexer emits a token for the others there must be none) are: optionally a day name and a comma; one or two digits; a month name; four digits with folding white space on both sides, or two digits; one or two digits, a colon, two digits, optionally a colon and two digits; optionally a zone, which is folding white space, an optional sign and four digits, or one of eleven names; with comments and folding white space allowed between all these except inside the numbers, and before a zone only as stated. Everything else is a syntax error; ranges of fields are not checked.", "quantifier": "every non-empty byte string, every environment", "why_tests_cant": "both directions range over infinitely many texts; a test can only accept or reject single texts", "anchors": ["parser.go: ParseDateTime", "RFC5322Parser.g4: dateTime and below", "RFC5322Lexer.g4"]}
{"id": "C58", "title": "How to find the domain in a returned Address", "statement": "A non-empty returned Address is x@y where y is a dot-atom or a domain literal, possibly with a port. If the text after the last at-sign contains no \"]\", that text is y; otherwise y starts at the last \"[\". The last at-sign alone is not enough: a@[b@c] is accepted and its domain is [b@c].", "quantifier": "every accepted input, every returned address, every way to split the returned text", "why_tests_cant": "local parts may contain at-signs and brackets through quoting and encoded words, and domain literals may contain at-signs; a test covers single strings", "anchors": ["addr_spec.go", "local_part.go", "domain.go", "RFC5322Parser.g4: addrSpec, domainLiteral, dtext"]}
{"id": "C59", "title": "Every result is read off its own stretch of the input", "statement": "For every accepted input the returned names and addresses, in order, are read off disjoint consecutive stretches of the input: each is its stretch with characters copied in order or left out, single spaces put in, and encoded words replaced by what they stand for; nothing else occurs in a result and nothing is used twice. (C22 without the assumption that no encoded word can be decoded.)", "quantifier": "every accepted input, every CharsetReader", "why_tests_cant": "it ranges over every accepted text with any nesting of groups, comments and quoting", "anchors": ["parser.go: ParseAddressList", "display_name.go", "word.go", "encoded_word.go", "addr_spec.go", "group.go"]}
{"id": "C60", "title": "Which accepted lists can be joined", "statement": "Two accepted inputs without semicolons, not both empty, joined with a comma are accepted, and under the conditions of C47 on quotes and encoded words the addresses are those of the first followed by those of the second. Two accepted non-empty inputs without commas are accepted when joined with a semicolon or a comma. An input ending in a comma cannot be joined with a semicolon.", "quantifier": "every pair of accepted inputs, every environment", "why_tests_cant": "it ranges over all pairs of accepted inputs", "anchors": ["parser.go: ParseAddressList", "RFC5322Parser.g4: addressList, obsAddrList"]}
{"id": "C61", "title": "How far the parser reads ahead cannot be observed", "statement": "With a runtime that predicts as ANTLR's ALL(*) does - first without regard to the pending rules, then with them, and stopping at any point where only one alternative, or one as good as all others, is left - every prediction that the generated parser asks for is the first listed alternative from which the rest of the input can be parsed, if there is one. So ParseAddressList and ParseDateTime return what they return by the grammar, wherever the runtime stops reading ahead and whatever it does after an error.", "quantifier": "all inputs, all decisions of the generated parser, all stacks of pending rule functions that can arise, all points at which prediction may stop, all choices after an error", "why_tests_cant": "it ranges over unbounded lookahead, unbounded stacks of pending rules and every stopping point of the prediction", "anchors": ["parser/rfc5322_parser.go:AdaptivePredict calls", "parser/rfc5322_parser.go:parserATN", "parser/rfc5322_parser.go:EnterRule"]}
{"id": "C62", "title": "Calls do not influence each other", "statement": "ParseAddressList and ParseDateTime may be called any number of times, one after the other or at the same time from several goroutines. Each call returns what it returns when it is the only call the process ever makes: what earlier calls have stored in the shared tables of the lexer and of the parser, and what calls at the same time add to them, cannot change a result, also when calls are recovering from syntax errors. This holds in whatever order the lexer and the parser of each call take turns, and also for the first calls of a process when several of them race to make the shared tables: the tables are made exactly once, and no call uses them before they are complete. A call ends after finitely many of its own steps whatever the others do. It never has to wait for another call, except that while the tables are being made for the first time it waits for the call that makes them; a call that begins after that never waits.", "quantifier": "all histories of calls and inputs, any number of concurrent calls, every interleaving of their accesses to the shared tables and to the locks of the one-time initialisation", "why_tests_cant": "it ranges over every history of earlier calls and every schedule of concurrent ones", "anchors": ["parser/rfc5322_parser.go:decisionToDFA", "parser/rfc5322_parser.go:NewRFC5322Parser", "parser.go:ParseAddressList", "parser.go:ParseDateTime", "parser/rfc5322_lexer.go:decisionToDFA", "parser/rfc5322_lexer.go:RFC5322LexerInit", "parser/rfc5322_parser.go:RFC5322ParserInit"]}
{"id": "C63", "title": "The work of a call is bounded by the length of its input", "statement": "On an input of n bytes, up to its end or to the first syntax error, a call of ParseAddressList or ParseDateTime asks the ANTLR runtime for at most 600 + 320 n predictions and tests of the next token, and builds a parse tree of at most that many rule nodes, whatever the (correct) answers are: the parser never tries one alternative and then another. If there are syntax errors, the requests made while recovering from them included, there are at most 600500 (n + 2), however the error handler deletes, makes up and skips tokens: hostile input cannot make recovery take more than linearly many requests. On the shared tables a call takes at most 4 n + 4 steps in the lexer and then at most (n + 3) per request in the parser, and at most 151 for making the tables if it is one of the first, in every history and every schedule of other calls.", "quantifier": "all inputs, with and without syntax errors, all answers of the runtime and of its error handler, all histories and schedules of other calls", "why_tests_cant": "a bound for all inputs, including nested comments of any depth and hostile ones, and for every schedule", "anchors": ["parser/rfc5322_parser.go:rule functions", "parser.go:ParseAddressList", "parser.go:ParseDateTime"]}
{"id": "C64", "title": "White space and comments around the whole input", "statement": "Writing white space (folded or not) and comments in front of an input does not change what ParseAddressList answers, error included, if the input begins with a character that is not white space, a parenthesis or a double quote (before a double quote it may change the answer, as a group may be written in quotes only at the very beginning), and does not change what ParseDateTime answers if the input begins with a character that is not white space or a parenthesis. An accepted list that does not end in white space or a digit stays accepted when white space and comments are written after it (after a port they are not accepted), and gives the same addresses under the conditions of C47 on quotes and encoded words if what is added contains no double quote and no colon, and an accepted date that does not end in white space gives the same time.", "quantifier": "all inputs, all gaps made of folding white space and comments nested to any depth", "why_tests_cant": "ranges over all inputs, accepted or not, and all gaps", "anchors": ["parser.go:ParseAddressList", "parser.go:ParseDateTime", "parser/rfc5322_parser.go:Cfws"]}
{"id": "C65", "title": "After a syntax error the call ends, with that error", "statement": "When an input is not a list of addresses (or not a date), the generated parser does not stop at the first error: it reports it, deletes, makes up or skips tokens, and goes on. Whatever it deletes, makes up or skips, and whatever it predicts from then on, the call ends, no panic leaves the parser, and the call returns the syntax error, even if all that was read after the recovery fits the grammar. When the input is a list of addresses (or a date) none of this ever starts, and the result is the one without recovery.", "quantifier": "all inputs, all replies of the runtime's error handler (delete, insert, skip any number of tokens, give up the rule) and of its prediction, at every point of the run", "why_tests_cant": "ranges over all rejected inputs and all ways to go on after an error; that recovery cannot loop is a statement about every state of the parser", "anchors": ["parser.go:ParseAddressList", "parser.go:ParseDateTime", "walker.go:SyntaxError", "parser/rfc5322_parser.go:AddressList"]}
{"id": "C66", "title": "Which address lists of RFC 5322 are accepted", "statement": "ParseAddressList accepts exactly the address lists of RFC 5322 with the characters of RFC 6532, obsolete forms of section 4 included, without four forms and with eight extensions. Not accepted: several line breaks in a row in folding white space (obs-FWS), white space or comments around the periods of a domain (obs-domain), control characters and escapes in a domain literal (obs-dtext), characters from U+10000. Accepted beyond the standard: encoded words of RFC 2047 with any text in place of a word, a period after a dot-atom, at-signs in names, ports, <>, double quotes around a group, a group without its semicolon, semicolons between addresses. In particular every address list of the standard that uses none of the four forms is accepted, and each of the four is a real limit: there is a text that uses only it beyond the standard syntax and is rejected in every environment. Each of the eight extensions is real too: there is a text that uses only it beyond the standard, is accepted in every environment, and has no derivation in the standard, obsolete forms included.", "quantifier": "all inputs; all derivations of the grammar of RFC 5322 and RFC 6532", "why_tests_cant": "compares two infinite languages; tests of conformance are finite samples", "anchors": ["README.md", "RFC5322Parser.g4:addressList", "RFC5322Lexer.g4", "parser.go:ParseAddressList"]}
{"id": "C67", "title": "Which date-times of RFC 5322 are accepted", "statement": "ParseDateTime accepts exactly the date-times of RFC 5322, obsolete forms included, without five forms and with four extensions. Not accepted: several line breaks in a row in folding white space, characters from U+10000 in comments, years of five or more digits, two-digit years written with three or more digits (obs-year), military zones. Accepted beyond the standard: hours of one digit, numeric zones without a sign, the zone UTC, no zone at all. Each of the five is needed and each of the four is outside the standard. A two-digit year is not read as the standard says (00 to 49 are 20xx, the others 19xx) but as the latest such year that is not in the future; the two agree exactly if both or neither put the year before 2000, so for all years only in 2049.", "quantifier": "all inputs; all derivations of the grammar of RFC 5322; all current years 2000-2099", "why_tests_cant": "compares two infinite languages; depends on the clock", "anchors": ["README.md", "RFC5322Parser.g4:dateTime", "year.go:EnterYear", "parser.go:ParseDateTime"]}
{"id": "C68", "title": "Address lists of RFC 5322 are read with the meaning RFC 5322 gives them", "statement": "For an address list of RFC 5322 (with RFC 6532, obsolete forms included; names with periods outside quotes have no meaning in the standard), ParseAddressList returns the mailboxes of the list and of its groups in order, each with the words of its display name separated by single spaces, quoted strings without quotes and backslashes, and Address local@domain without comments, white space and routes. Needed: none of the forms C66 excludes, no \"=?\" (see C27-C29, C50, C51), double quotes that pair up in one way (C16; not needed for mailboxes without empty entries), and none of five places where the package differs from the standard: a folded line in a quoted string (the CR LF is kept), white space before the closing quote (dropped), an escaped control character (dropped), a name of several words of which the first is \"\" (its space is dropped), a folded line in a domain literal (the CR LF is kept). At each of the five the result is not the meaning. The meaning exists for every address list of the standard without obs-phrase, and only for those.", "quantifier": "all texts with a derivation in RFC 5322, all environments; all five places", "why_tests_cant": "ranges over all texts of an unbounded grammar and compares with a second definition of their meaning", "anchors": ["parser.go:ParseAddressList", "walker.go", "quoted_value.go", "display_name.go", "domain_literal.go", "obs_angle_addr.go"]}
{"id": "C69", "title": "Date-times of RFC 5322 are read with the meaning RFC 5322 gives them", "statement": "For a date-time of RFC 5322 that uses none of the forms C67 excludes and has a year of four digits, ParseDateTime succeeds and returns the instant the text means (year, month, day, hour, minute, second, minus the offset of the zone; a missing second is 0; the alphabetic zones have the offsets of section 4.3) with the zone offset it names; if the date exists in the calendar and the time of day is below 24:00:00, Date(), Clock() and the zone offset of the result are the numbers that were written. With a year of two digits the same holds but for the century, which is the one of the last hundred years; in 2049 this is the standard's. Every date-time of the syntax has a meaning, and (without the excluded forms) only one.", "quantifier": "all texts with a derivation in RFC 5322, all environments (current year 2000-2099 for two-digit years)", "why_tests_cant": "ranges over all texts of an unbounded grammar (comments nest, white space repeats) and compares with a second definition of their meaning", "anchors": ["parser.go:ParseDateTime", "walker.go", "date_time.go", "day.go", "month.go", "year.go", "hour.go", "minute.go", "second.go", "zone.go", "offset.go", "obs_zone.go"]}
{"id": "C70", "title": "The Go files, statement by statement, return what the model returns", "statement": "Executing the statements of parser.go, walker.go and the 40 node files one by one (structs on a heap, the stack of interface{} values, the type assertions and type switches on interfaces like withWord, field updates, the calls of the embedded and overridden listener methods) on any input and any existing heap ends with a return, without a panic, and the returned list or time is the one of the value-level model (ParseAddressList, ParseDateTime), to which the other properties refer. After a syntax error the list is nil (the time is the zero time) and the error reads \"error parsing rfc5322 input: \" followed by the last message of the parser.", "quantifier": "all inputs, all environments, all heaps, all runs of the parser that C65 allows", "why_tests_cant": "ranges over all parse trees; which callbacks reach which structs depends on every combination of child and parent nodes", "anchors": ["parser.go", "walker.go", "address.go", "addr_spec.go", "mailbox.go", "date_time.go", "offset.go", "parser/rfc5322_parser.go", "parser/rfc5322parser_base_listener.go"]}
{"id": "C71", "title": "Results are new objects", "statement": "The *mail.Address pointers that ParseAddressList returns point to objects made by this call, no two of them are equal, and a call changes no object that existed before it. So a caller can change a returned address without changing another one, and results of earlier calls stay as they are (or as the caller changed them) whatever is parsed later.", "quantifier": "all inputs, all heaps (whatever earlier calls and the caller did), all pairs of calls", "why_tests_cant": "aliasing of pointers for every nesting of lists, groups and mailboxes and every history of calls", "anchors": ["parser.go:ParseAddressList", "address.go", "mailbox.go", "mailbox_list.go", "group.go", "group_list.go", "address_list.go"]}
{"id": "C72", "title": "What is printed", "statement": "The only thing a call prints (on the console, through ANTLR's default error listener) are the lexer's messages; messages of the parser go to the walker only. A call prints nothing if the input has no character above U+FFFF, whether or not the input is accepted.", "quantifier": "all inputs, all heaps, all runs of the parser that C65 allows", "why_tests_cant": "a statement that something never happens, for all inputs", "anchors": ["parser.go:ParseAddressList", "parser.go:ParseDateTime", "walker.go:SyntaxError"]}
{"id": "C73", "title": "The shared tables grow only with what is parsed", "statement": "The prediction tables that all calls of a process share (one for lexers, one for parsers) only grow: a state that is stored stays, unchanged, and calls refer to it. At every moment, whatever calls have been made and are running, on accepted and rejected inputs, the number of stored states is at most the number of steps of the calls so far, so at most the sum over the calls of a fixed polynomial in the length of the input.", "quantifier": "all histories and schedules of concurrent calls, all inputs", "why_tests_cant": "ranges over all histories of a process and all interleavings", "anchors": ["parser/rfc5322_lexer.go:staticData", "parser/rfc5322_parser.go:staticData", "parser.go"]}
{"id": "C74", "title": "How deep the calls nest", "statement": "Parsing (and walking) an accepted address list needs at most 22 nested calls of rule functions plus two for each '(' in the input, a date at most 7 plus two for each '('. On any input, accepted or rejected and however errors are recovered from, the parser never needs more than 22 (for a date 9) nested calls of rule functions plus two for each '('. No other construct adds depth: length, number of addresses, groups and routes do not. The bound is of the right order: for every k an address after a comment nested k times is accepted and takes at least 2k nested calls, so the stack that a call needs is not bounded by a constant.", "quantifier": "all inputs, all environments, all runs of the parser that C65 allows, all k", "why_tests_cant": "a bound for all inputs; a fixed input shows one depth only", "anchors": ["parser/rfc5322_parser.go:Comment", "parser/rfc5322_parser.go:Ccontent", "parser.go", "RFC5322Parser.g4"]}
{"id": "C75", "title": "No text is both an address list and a date", "statement": "Apart from the empty input, no input is accepted by both ParseAddressList and ParseDateTime, whatever the environments (CharsetReader, current year, treatment of characters above U+FFFF) of the two calls: if one succeeds, the other returns an error. So a caller that does not know what a header field contains may try both in any order. (The empty input is accepted by both, see C03.)", "quantifier": "all inputs, all pairs of environments", "why_tests_cant": "the two grammars overlap in prefixes of any length (display names and group names can be dates up to the minutes, comments can hide anything); a disjointness claim is about all inputs", "anchors": ["RFC5322Parser.g4:addressList", "RFC5322Parser.g4:dateTime", "parser.go:ParseAddressList", "parser.go:ParseDateTime"]}
{"id": "C76", "title": "Comments are complete", "statement": "In an accepted date the parentheses pair up: every ')' closes a '(' and none is open at the end, where within parentheses a backslash takes the next character with it. The same holds of an accepted address list that has no double quote, no '[' and no '='. So an input cut off inside a comment, or with a stray parenthesis, is rejected and never read as if the comment were complete. In quoted strings, domain literals and encoded words parentheses are characters like others, and need not pair up.", "quantifier": "all inputs, all environments", "why_tests_cant": "comments nest to any depth and may stand in any of the places where the grammar allows white space; rejection of every incomplete text is a claim about all of them", "anchors": ["RFC5322Parser.g4:comment", "RFC5322Parser.g4:ccontent", "RFC5322Parser.g4:cfws", "parser.go:ParseAddressList", "parser.go:ParseDateTime"]}
{"id": "C77", "title": "Letter case in address lists", "statement": "Two inputs that differ only in the case of ASCII letters are both accepted as address lists or both rejected as syntax errors. If they are accepted and no '=?' begins an encoded word, they yield as many addresses in the same order, and corresponding names and addresses differ only in the case of ASCII letters: the parser itself never changes, and nothing in the result depends on, the case of a letter (case within encoded words does matter, as base64 is sensitive to it). Parsing a lowered text gives the lowered addresses.", "quantifier": "all pairs of inputs differing in ASCII letter case, all environments; for the results, texts whose double quotes pair up in only one way (as in C47)", "why_tests_cant": "every letter at every place may change its case, and tokens that hold letters (months, zones, days, atoms) are the lexer's own for some cases only", "anchors": ["RFC5322Lexer.g4:A", "RFC5322Parser.g4:atext", "parser.go:ParseAddressList", "address_list.go", "local_part.go", "domain.go"]}
{"id": "C78", "title": "What comments say does not matter", "statement": "Take an accepted date and say other things in its comments: replace a character of a comment by another one that may stand there, put such a character or a blank before anything but white space, take one away from there, replace the character after a backslash. The date is still accepted and gives the same instant. An accepted address list without double quote, '[' and '=' stays accepted, and gives the same addresses if the new comments have none of these characters either. In quoted strings a parenthesis opens no comment, so there the same change does show.", "quantifier": "all pairs of inputs that differ in comments in this way (any number of such changes at any depth of nesting), all environments", "why_tests_cant": "comments may stand at any of the grammar's gaps, nest to any depth and say anything; that no other reading of the text arises is a claim about all of them", "anchors": ["RFC5322Parser.g4:comment", "RFC5322Parser.g4:ccontent", "RFC5322Parser.g4:ctext", "parser.go:ParseAddressList", "parser.go:ParseDateTime"]}
{"id": "C79", "title": "Tabs and spaces", "statement": "Two inputs that differ only in that one has tabs where the other has spaces are both accepted or both rejected, as dates and as address lists. As dates they give the same instant. As address lists without double quote, '[' and '=' they give the same addresses; with quoted strings and literals, where a tab is returned as a tab, the same but for tabs and spaces, if no '=?' begins an encoded word.", "quantifier": "all pairs of inputs that differ in this way, all environments (inputs with characters above U+FFFF are set aside where the lexer reports them)", "why_tests_cant": "white space may stand at any gap of the grammar, in comments, in quoted strings, in literals and after backslashes; every choice at every place is one more input", "anchors": ["RFC5322Parser.g4:wsp", "RFC5322Parser.g4:fws", "RFC5322Lexer.g4:TAB", "parser.go:ParseAddressList", "parser.go:ParseDateTime"]}
{"id": "C80", "title": "Unfolding", "statement": "Taking any of its line breaks (CRLF) out of an accepted address list or date leaves it accepted: a caller may unfold a header before parsing, or not. A date without backslash gives the same instant either way. (In a quoted string a line break is returned as it is, so the results of address lists may differ.)", "quantifier": "all accepted inputs, all choices of line breaks to take out, all environments (inputs with characters above U+FFFF are set aside where the lexer reports them)", "why_tests_cant": "a header may be folded at any of its gaps, in comments, quoted strings and literals; every choice of places is one more input", "anchors": ["RFC5322Parser.g4:fws", "RFC5322Parser.g4:crlf", "parser.go:ParseAddressList", "parser.go:ParseDateTime"]}
