import json
P=[]
def add(id,title,statement,quant,why,anchors):
    P.append(dict(id=id,title=title,statement=statement,quantifier=quant,why_tests_cant=why,anchors=anchors))
A=["parser.go:ParseAddressList"]
D=["parser.go:ParseDateTime"]
add("C01","ParseAddressList never panics and has a two-way result contract",
 "For every input string, ParseAddressList returns normally (no stack underflow, failed type assertion, slice-out-of-range or nil-interface panic while the syntax tree is walked), and it returns either a list with a nil error or a nil list with a non-nil error; never both, never neither.",
 "every byte string (valid UTF-8 or not), every CharsetReader, every current year",
 "tests only sample inputs; a panic in a header parser is a remote crash and depends on every reachable tree shape",
 A+["walker.go:enter,exit,parent","address_list.go:ExitAddressList","offset.go:EnterOffset"])
add("C02","ParseDateTime never panics and has a two-way result contract",
 "For every input string ParseDateTime returns normally, and it returns either a time with a nil error or the zero time with a non-nil error.",
 "every byte string, every current year","same as C01",D+["walker.go","date_time.go:ExitDateTime","offset.go:EnterOffset"])
add("C03","Empty input is not an error",
 "ParseAddressList(\"\") returns a non-nil empty list and nil error; ParseDateTime(\"\") returns the zero time and nil error; and the empty string is the only accepted date-time input that does not go through the date grammar.",
 "the empty string; all environments","the interesting half is that no other input takes the shortcut",A+D)
add("C04","ParseAddressList accepts exactly the published address-list grammar",
 "A non-empty input is accepted (nil error) if and only if its characters, tokenised by the lexer grammar, form a sentence of rule addressList of the published grammar.",
 "every byte string","the language is infinite in both directions: nothing outside may be accepted and nothing inside rejected",
 A+["RFC5322Parser.g4:addressList","RFC5322Lexer.g4","parser/rfc5322_parser.go:AddressList"])
add("C05","ParseDateTime accepts exactly the published date-time grammar",
 "A non-empty input is accepted if and only if its tokens form a sentence of rule dateTime.",
 "every byte string","as C04",D+["RFC5322Parser.g4:dateTime","parser/rfc5322_parser.go:DateTime"])
add("C06","Ambiguous input is read by one fixed rule: the lowest-numbered viable alternative",
 "The grammar is ambiguous. For every accepted input the result is the one read off the unique parse tree obtained by taking, at every decision, the first listed alternative (for optional items and loops: entering before skipping) from which the whole remaining input can still be parsed.",
 "every accepted input of either function","every input with several parse trees is a potential inconsistency; tests see one tree each",
 ["parser/rfc5322_parser.go:AdaptivePredict call sites","RFC5322Parser.g4"])
add("C07","An accepted date never reports a late error",
 "Once the syntax is accepted no value-conversion error (bad month, bad zone, number or duration conversion) can occur: every syntactically accepted date-time yields a nil error.",
 "every accepted date-time input","requires all month, zone and digit shapes the grammar admits",
 ["month.go:EnterMonth","obs_zone.go:EnterObsZone","day.go","year.go","hour.go","minute.go","second.go","offset.go"])
add("C08","addr-spec round trip",
 "For every dot-atom local part l and dot-atom domain d (non-empty runs of atext separated by single periods, a trailing period allowed), ParseAddressList(l@d) returns exactly one address with empty name and address l@d.",
 "all local parts and domains of any length over ASCII and BMP non-ASCII atext","unbounded strings; also local parts that look like RFC 2047 encoded words",
 A+["addr_spec.go","local_part.go","domain.go","dot_atom.go","mailbox.go"])
add("C09","Comments and folding white space around the parts of an address are ignored",
 "Inserting any comments and folding white space before and after the local part and before and after the domain of a bare address l@d, or around the angle brackets and inside them, does not change the returned name and address.",
 "all dot-atom l,d and all CFWS strings (nested comments, quoted pairs, folds) in every position","nesting depth and content of comments are unbounded",
 ["RFC5322Parser.g4:cfws,comment","addr_spec.go","angle_addr.go"])
add("C10","An unquoted display name is its words joined by single spaces",
 "For words w1..wn (atoms) separated by arbitrary non-empty CFWS before an angle address <l@d>, the returned Name is w1..wn joined by exactly one space and the Address is l@d.",
 "all n>=1, all atoms (free of '='), all separators","all lengths and separators",["display_name.go","word.go","atom.go","name_addr.go"])
add("C11","A quoted display name is returned exactly unescaped",
 "For every text t, quoting it (backslash before each quote, backslash, space and tab) and writing it before <l@d> makes ParseAddressList return Name = t.",
 "all texts of printable ASCII, space, tab and BMP non-ASCII characters, of any length, including empty and ending in white space","unbounded round trip",
 ["quoted_string.go","quoted_value.go","quoted_content.go","quoted_pair.go","quoted_char.go","qtext.go"])
add("C12","White space inside quotes: kept, except at the end where it is dropped",
 "For a quoted display name written with plain (unescaped) spaces and tabs, the returned Name is the unescaped text with exactly the trailing run of unescaped white space removed; in particular formatting a name that ends in a space and parsing it back loses that space.",
 "all texts as in C11","needs all texts; the trailing case is a data loss tests do not cover",
 ["quoted_value.go:withFws","quoted_string.go","RFC5322Parser.g4:quotedString"])
add("C13","Backslash-escaped control characters in quoted strings disappear",
 "An obsolete quoted pair (backslash followed by NUL, a control character, CR, LF or DEL) inside a quoted display name contributes nothing to the returned Name; everything around it is kept.",
 "all quoted strings containing such pairs","unbounded content",["quoted_pair.go","RFC5322Parser.g4:obsQP"])
add("C14","Period and at-sign in an unquoted display name join without spaces",
 "For atoms separated by '.' or '@' with any CFWS around the separators, before <l@d>, the Name is the atoms and separators concatenated without spaces.",
 "all chains of atoms (free of '=') and separators","all lengths",["display_name.go:withUnspaced","unspaced.go"])
add("C15","A separated list of mailboxes returns each mailbox once, in order",
 "A list of mailboxes (bare l@d or name <l@d>) separated by commas or semicolons with optional CFWS parses to exactly the corresponding addresses in order.",
 "all list lengths, all mailboxes whose atoms are free of '='","unbounded lists",["address_list.go:withAddress","address.go:withMailbox"])
add("C16","Empty list elements are skipped",
 "Leading, doubled and trailing commas (with CFWS between them) around mailboxes in a comma-separated list do not add, remove or reorder addresses.",
 "all numbers of empty elements at all positions","unbounded",["RFC5322Parser.g4:obsAddrList","address_list.go"])
add("C17","Groups are flattened",
 "name: m1, ..., mn; parses to exactly the addresses of m1..mn in order; the group name does not appear; the final semicolon may be missing.",
 "all group names, all member lists (n>=1)","unbounded",["group.go","group_list.go","mailbox_list.go","address.go:withGroup"])
add("C18","Empty group: success with no addresses",
 "name:; and name: (with any CFWS after the colon) are accepted and return no addresses.",
 "all group names and CFWS","unbounded",["group.go","RFC5322Parser.g4:group"])
add("C19","Source routes are ignored",
 "name <@d1,...,@dn:l@d> returns Address l@d, independent of the route.",
 "all non-empty routes of dot-atom domains","unbounded",["obs_angle_addr.go","RFC5322Parser.g4:obsRoute,obsDomainList"])
add("C20","A null angle address gives an empty Address",
 "name <> returns one address with that name and empty Address.",
 "all display names as in C10, C11","unbounded",["angle_addr.go"])
add("C21","Every returned Address has a fixed shape",
 "For every accepted input, every returned Address is either empty or of the form local@domain where domain is a non-empty dot-atom with optional trailing period, or a bracketed literal, optionally followed by :digits; the text is valid UTF-8 apart from what an encoded word decodes to.",
 "every accepted input","universally quantified over inputs",["addr_spec.go","domain.go","port.go"])
add("C22","Nothing is invented: returned text comes from the input, in order",
 "If no RFC 2047 encoded word decodes, then the names and addresses returned, concatenated in order and with spaces removed, form a subsequence of the input with spaces removed: no character is invented, duplicated or reordered.",
 "every accepted input","universal over inputs",["walker.go","display_name.go","mailbox.go"])
add("C23","The number of addresses is bounded by the separators",
 "For every accepted input, the number of returned addresses is at most one plus the number of commas and semicolons in the input, whatever the quoting.",
 "every accepted input","universal",["address_list.go","group_list.go"])
add("C24","No silent empty result",
 "If a non-empty input is accepted with no addresses, the input contains a colon (it is a group); input without a colon yields at least one address or an error. In particular blank input is rejected.",
 "every input","universal",["group.go","address_list.go"])
add("C25","Domain forms are preserved verbatim",
 "For a dot-atom local part, a bracketed domain literal is returned verbatim, a trailing period is kept, and :port is kept, in bare and angle addresses.",
 "all literals, ports, domains","unbounded",["domain.go","domain_literal.go","port.go","addr_spec.go:withPort"])
add("C26","A quoted local part is returned unquoted",
 "\"t\"@d returns Address t@d with t the unescaped content; hence distinct inputs may return the same Address and the Address need not be re-parseable.",
 "all quoted local parts","unbounded",["local_part.go:withQuotedString"])
add("C27","Encoded words in display names are decoded and adjacent ones joined",
 "For n>=1 encoded words separated by optional CFWS before <l@d>, Name is the concatenation of their decoded values with nothing in between.",
 "all n, all encoded words, all CharsetReaders","unbounded",["encoded_word.go","word.go:withEncodedWord"])
add("C28","An undecodable encoded word is kept verbatim and is not an error",
 "If an encoded word cannot be decoded (unknown charset without CharsetReader, bad encoding, reader error) it contributes its own text unchanged and parsing still succeeds.",
 "all encoded words that fail to decode","unbounded",["encoded_word.go:EnterEncodedWord"])
add("C29","Names survive RFC 2047 encoding",
 "For every non-empty UTF-8 byte string n, writing it as a base64 or Q encoded word with charset utf-8 before <l@d> makes ParseAddressList return Name = n.",
 "all byte strings n","unbounded",["encoded_word.go","mime.WordDecoder (stdlib)"])
add("C30","Encoded words inside the local part of an address",
 "RFC 2047 forbids encoded words in addr-spec. A caller expects the Address never to contain decoded encoded-word content. This holds for local parts that are dot-atoms but is false in general: there are inputs whose returned Address contains characters (such as '@' or CR LF) that only come from decoding.",
 "all inputs","the violating inputs are rare",["obs_local_part.go","word.go","encoded_word.go"])
add("C31","Control characters in results",
 "For every accepted input with no quoted string, no domain literal and no encoded word, the returned names and addresses contain no control characters and no white space except the single separating spaces; with quoted strings or literals a CR LF of the input can reach the result.",
 "every accepted input","universal; injection-relevant",["fws.go","quoted_value.go","domain_literal.go"])
add("C32","Invalid UTF-8 is read as U+FFFD",
 "Parsing an arbitrary byte string gives the same result as parsing the string with every invalid byte replaced by U+FFFD.",
 "all byte strings","unbounded",["parser.go (antlr.NewInputStream)"])
add("C33","Characters above U+FFFF never reach a result unencoded",
 "An input containing a character above U+FFFF is treated exactly as if the character were absent (or the whole input is rejected, depending on the ANTLR runtime's recovery): it is never returned in a name or address unless it is inside an encoded word's decoded value.",
 "all inputs","universal",["RFC5322Lexer.g4:UTF8NonAscii","parser.go"])
add("C34","A date-time is read from its text with comments and white space removed",
 "For every accepted date-time the returned time is determined by the text left after deleting comments and white space: [dayname,]D[D]Mon YY|YYYY H[H]:MM[:SS][zone]; every parse tree of the input gives the same time.",
 "every accepted date-time input","universal; ambiguity",["date_time.go","day.go","month.go","year.go","hour.go","minute.go","second.go","zone.go"])
add("C35","The instant is the calendar reading of the fields",
 "For every accepted date-time, the returned instant is the proleptic Gregorian day number of the given year, month and day times 86400 plus the clock fields minus the zone offset, and the returned location has that offset.",
 "every accepted date-time","all dates",["date_time.go:ExitDateTime","offset.go","obs_zone.go"])
add("C36","Date-time round trip",
 "For every valid calendar date in years 0000-9999, time of day and offset within +-99:59, formatting it as an RFC 5322 date-time and parsing gives a time whose year, month, day, hour, minute, second and zone offset are those given.",
 "all valid date-times (infinitely impractical to enumerate)","size of the domain; leap years, month lengths",["date_time.go","parser.go:ParseDateTime"])
add("C37","Two-digit years",
 "A two-digit year is read as the unique year with these last two digits in the hundred years ending with the current year, whenever the current year is in 2000-2099.",
 "all two-digit years, all current years","depends on the clock",["year.go:EnterYear"])
add("C38","Zone offsets",
 "A numeric zone [+-]hhmm gives an offset of +-(hh*3600+mm*60) seconds; a missing sign means plus; the location name is the offset with its sign.",
 "all offsets","boundary cases of sign and digits",["offset.go:EnterOffset","zone.go"])
add("C39","Obsolete zone names",
 "UT, UTC, GMT, EST, EDT, CST, CDT, MST, MDT, PST, PDT in any letter case give the RFC 5322 offsets; no other alphabetic zone is accepted.",
 "all zone strings","all casings and all non-members",["obs_zone.go:EnterObsZone"])
add("C40","Letter case is irrelevant in dates",
 "Changing the case of ASCII letters anywhere in a date-time input changes neither acceptance nor the instant nor the offset.",
 "all inputs and all case changes","unbounded",["month.go","obs_zone.go","RFC5322Lexer.g4"])
add("C41","The day of week is not checked",
 "Removing or replacing the day name in front of the comma does not change the result.",
 "all accepted date-times with a day name","universal",["RFC5322Parser.g4:dayOfweek","date_time.go"])
add("C42","Missing seconds and zone default to 0 and UTC",
 "An accepted date-time without seconds (zone) returns second 0 (UTC).",
 "all accepted date-times","universal",["date_time.go:EnterDateTime"])
add("C43","Out-of-range fields are normalised, not rejected",
 "A caller may expect only valid calendar dates to be accepted; this is false: any two-digit day, hour, minute and second is accepted and overflow is carried into the larger units.",
 "all accepted date-times","universal",["day.go","hour.go","date_time.go:ExitDateTime"])
add("C44","Joining two inputs with a comma",
 "A caller may expect ParseAddressList(a+\",\"+b) to be ParseAddressList(a) followed by ParseAddressList(b). It is false in general (encoded-word look-alikes and obsolete lists) and true for lists of plain mailboxes.",
 "all pairs of inputs","universal",["RFC5322Parser.g4:addressList"])
add("C45","CharsetReader is used only when needed, with a lower-case name",
 "The result depends on CharsetReader only through its value on lower-case charset names other than utf-8, iso-8859-1 and us-ascii and the decoded content; inputs without encoded words never consult it.",
 "all inputs and pairs of readers","quantifies over functions",["parser.go:CharsetReader","encoded_word.go"])
add("C46","The current year matters only for two-digit years",
 "Address parsing never depends on the current year, and a date-time with a four-digit year gives the same result in every year.",
 "all inputs, all pairs of years","universal",["year.go"])
with open('/verif/properties.jsonl','w') as f:
    for p in P: f.write(json.dumps(p)+"\n")
print(len(P))
