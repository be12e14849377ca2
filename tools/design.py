import json
S5={
'C01':"Walk model with explicit panics (`Walker.v`); stack-machine = compositional denotation on every parse tree (`WalkerFacts.v`, `Total.v`), so no panic; case analysis of `parser.go`.",
'C02':"As C01; `offset_value`'s slice bounds follow from the grammar of `offset`.",
'C03':"First branch of both functions; the rest from C05.",
'C04':"`parse` succeeds exactly on sentences (`ParserFacts.parse_none`), for the grammar transcribed in `Grammar.v` (which C48 ties to the generated code).",
'C05':"As C04.",
'C06':"`parse r w = Some t` iff `selected r w t` (`Spec.v`), and `selected` is deterministic.",
'C07':"Induction over the subtrees of a date: month, zone, digits and offset texts lie in the sets the value functions handle.",
'C08':"Derivation of the selected tree for `l@d`, earlier alternatives refuted.",
'C09':"Gaps (`ogap`: comments nested to any depth, folding) around the parts of a bare or angle address; instance of the mailbox theorem behind C15.",
'C10':"Names as item lists (`AddrText.v`), value by induction on the list.",
'C11':"Quoting function in the statement; unescaping by induction on the text.",
'C12':"Blanks before the closing quote are read by the `fws?` of `quotedString`; `C12_round_trip_fails` is the loss a caller sees.",
'C13':"`quotedPair` over `obsQP` pushes an empty value.",
'C14':"Item lists with marks `.` and `@`.",
'C15':"Every tree of the text gives the same addresses: `ScanSpec.v` scanner agrees with every tree (`Scan*.v`), `TextLang.v`/`TextScan.v` run it on the text.",
'C16':"As C15 with empty entries; hypothesis `paired` (shown needed by `C17_fails_with_colons_in_quotes`).",
'C17':"As C16 with groups.",
'C18':"As C17.",
'C19':"Route read by `obsAngleAddr`, dropped by the walk.",
'C20':"`angleAddr` without `addrSpec`.",
'C21':"Invariant over all parse trees; validity of the text follows from C59.",
'C22':"Subsequence invariant over all trees.",
'C23':"Counting invariant over all trees, also for the addresses with a given property and the tokens each of them needs.",
'C24':"As C23: a tree without addresses contains a colon.",
'C25':"Domain literal, trailing period, port: selected tree as in C08.",
'C26':"Quoted local part; second theorem: the returned address is rejected when parsed again.",
'C27':"Encoded words grouped by the parser as the gaps allow; that gaps next to each other can be merged uses `TextFold.v` (no blank folded lines in a text of `AddrText.v` that may hold encoded words; without encoded words gaps in names and routes may have blank lines).",
'C28':"Reasons for failure listed in `hopeless`; value is the word's own text.",
'C29':"Encoder (Q and base64) in the statement, decoding is its inverse.",
'C30':"Refuted in general by a computed example; dot-atom and quoted local parts proved.",
'C31':"Invariant over all trees; two examples for the line breaks.",
'C32':"`decode` of the repaired string is the same list of runes.",
'C33':"Both recoveries of the lexer; second theorem: invariant over trees.",
'C34':"`DateSpec.v`: reading of the stripped text; every tree agrees.",
'C35':"`Calendar.v`: `time.Date` with 64-bit wrap-around equals the proleptic Gregorian day count.",
'C36':"Inverse direction: `t_date`, `t_clock` of the instant.",
'C37':"Arithmetic on the current year in 2000..2099; `C37_fails_in_2100` shows the bound is needed.",
'C38':"All digit strings; duration parsing evaluated symbolically.",
'C39':"Finite table of names, any letter case, by the tree of `obsZone`.",
'C40':"Lower-casing keeps token types; values computed from types or lower-cased text.",
'C41':"Stripped text with another day name.",
'C42':"Stripped text without the field.",
'C43':"Carry described by the day count of C35; the expectation that dates are checked is false.",
'C44':"Mailbox lists by C15; accepted inputs by C47; three counterexamples for the general claim.",
'C45':"Two readers that agree on the listed arguments give equal results, by induction over the tree.",
'C46':"Same, for the year.",
'C47':"Scanner of `ScanSpec.v` against every parse tree of every accepted input; the parser's choice matters where an encoded word is also the beginning of an atom or the middle of one (`AddrSem.v`: `apart`, `unenc`, `no_join`), and the scanner cuts leading encoded words off (`enc_split`). `C47_fails_with_blank_lines` and `C47_fails_with_special_characters` show that the conditions on line breaks and on the characters of encoded words are needed.",
'C48':"`GenCode.v`: the 67 generated rule functions as data (statements of `GenSyntax.v`), written by `tools/gen_code.py` from the Go file; `GenAtnData.v`/`GenAtn.v`: the serialized network and its deserializer; `GenRun.v`: how the functions run on a runtime; `GenShape.v`, `GenNet.v`: code and network denote the grammar; `GenCheck.v`: lookahead tests are decisive; `GenFacts.v`: a run follows the selected reading and terminates; `GenWit.v`: a runtime meeting the assumptions.",
'C49':"`GenLex.v`: the lexer's network read by longest match, first rule; equal to the table of `Lexer.v` for every code point.",
'C50':"Relations for Q and base64 texts and charsets in `PropCharset.v`, shown equal to `Mime.v` and lifted through C27.",
'C51':"Texts and values in `EncText.v`. The scanner of C47 does not cover these texts, so the readings of the grammar are aligned with the text directly: comments, quoted strings, literals and encoded words are prefix codes (`EncAlign.v`), the first viable reading of a name takes exactly its words (`EncSel.v`), an address has only one extent (`EncBox.v`), and elements end at their separators (`EncList.v`).",
'C52':"`NetMail.v` transcribes mail.Address.String, quoteString, and the B and Q encoders of mime with their splitting into words of at most 75 characters; this is standard-library code, not the repository's, and is part of the trusted base of C52 only. `PropNet.v`: quoteString writes a quoted string of `AddrText.v`, the encoders write encoded words of `EncText.v` whose values are the pieces of the name, so the formatted list is a text of C51.",
'C53':"`PropStable.v`: induction on the reading of the input gives the shape of every returned address, with the exact form of domain literals; cutting at the last at-sign then gives the conditions of C52. For inputs without quotes, brackets and '=?' the conditions follow from the reading and from C31.",
'C54':"`PropSize.v`: a weight for every token (three, or the bytes of its text) and induction on the reading relations: every value weighs no more than the tokens it was read from. A space between two words of a display name is paid for by quotes, surrounding white space or a comment, which the selection rule guarantees for two atoms; a decoded encoded word by the ASCII bytes of its text.",
'C55':"`PropDateFormat.v`: every day from 0000-01-01 on has a date (induction on days), so by the calendar facts of C35 and C36 a returned time is time.Date of its own fields; these are printed with the usual number of digits and the text is well formed (C34). `GoFormat.v` transcribes Time.Format.",
'C56':"`AcceptText.v` defines the texts with a few set operations on characters and much less redundantly than the grammar (e.g. a display name is one word start followed by pieces in any order). `AcceptFacts.v`: each operator of the grammar is the corresponding operation on texts; the rules are then equal to the sets of `AcceptText.v` one by one, comments by induction on their length.",
'C57':"As C56, with the names of days, months and zones spelled out letter by letter.",
'C58':"From the exact shape of addresses (C21): a dot-atom and a port contain no at-sign and no bracket, the body of a literal contains no bracket.",
'C59':"Induction over the relations of AddrSem.v, which give the value of every parse tree.",
'C60':"From C56 by splitting and joining texts; the addresses from C44_accepted.",
'C61':"`GenPredict.v`: configurations, closure and the two stages of ALL(*) on the deserialized network, as a relation `answer`. A path through the network splits at any prefix, so an alternative that can finish keeps a configuration (second stage); every real configuration is covered by one with the upper part of the stack, because the network never leaves a rule but by its stop state (computed check `edges_kept`) and pending functions are `linked` (`GenCheck.decides`, `GenFacts.cx_linked`).",
'C62':"`GenCache.v`: the cache of a decision as a graph (nodes with configurations, roots, edges), threads that read and add to it in single steps; `sound` is kept by every step and a thread at a node is where the tokens read so far lead (`step_keeps`), so every reply is `right`; with `C48_all_replies` (the rule functions as programs over requests to the runtime, right for all replies) every interleaving of calls gives the results of the calls alone. Ends by well-foundedness of a thread's own steps. `GenLexCache.v`, `PropLexCache.v`: the lexer's cache in the same way (nodes with configurations and the rule they accept, edges for ASCII characters), `lstep_keeps`; the process has both caches, a call first makes its tokens, then runs its rule function. `GenCacheRec.v`, `PropProcess.v`: the same with the runs of `GenRecover.v` as threads, so that calls go on after syntax errors and use the cache meanwhile (`rstep_keeps`: every reply from the cache is one of those assumed in C65). `PropLazy.v`: the lexer and the parser of each call take turns under any policy that never stops both. `PropOnce.v`: in front of that the sync.Once of lexer and parser, step by step (load, lock, second look, each assignment of the init function, store, unlock); the invariant `oinv` says who is inside and what is assigned by then; a table that is made anew would throw away the cache, and use of an unmade table is a crash, so both are shown not to happen.",
'C63':"`GenCost.v`: prices of statements (requests and nodes before the first token) and change (what is left of the price of a token), computed from the code of the rule functions and checked (`code_paid_checked`): a token pays for what follows it in its rule, an iteration pays for itself; induction over runs (`run_bill`). With a counter in each call of C62, steps are bounded by a potential (`step_within`), in the lexer by `lmost`. With recovery (`GenRecCost.v`): prices of statements where the next token fits and where it need not, paid in units of the measure `phi` of C65 (500 requests for a unit), checked for the code (`code_dues_checked`), induction over runs (`runs_paid`).",
'C64':"`Lead.v`: after a first token that is firm (not white space, `(` or `\"`), every rule that can begin the list begins with an optional cfws, so the choice made by ALL(*) is the same with and without the gap (`lead_selected`), and the walker skips it. Refuted before a quote. Dates and the trailing gaps go through the texts of C56 and C57 (`grows`, `lead_gap`); that the addresses stay the same goes through the scanner of C47 (`PropTrail.v`, `scan_trail`).",
'C65':"`GenRecover.v`: the rule functions with their deferred recover blocks and the error handler (Sync, RecoverInline, Recover with lastErrorIndex and lastErrorStates), a tree of requests and replies. `GenRecLike.v`: until the first report the run is one of GenRun.v, after it the error stays. `GenRecEnd.v`: the measure `phi` (tokens left, then parser states not yet recorded by Recover at this token) never grows, and every loop body makes it smaller, because a body is entered only if the next token can begin it (checked for all bodies, `code_grds`). `GenRecAsk.v`: predictions are only asked for before a token. `PropRecover.v`: the replies of ALL(*), including those after an error, meet what is assumed (`reply_ok`).",
'C66':"`Rfc5322.v`: the ABNF as sets of texts, each obsolete rule and each extension guarded by a form name. `RfcFacts.v`: every rule is within the set of `AcceptText.v` for it, whatever forms are on, the excluded ones apart. `RfcBack.v`: and the other way round with all other forms on. With C56. The limits by texts derived in `Rfc5322.v` with one form on, rejected by computation in one environment and by C56 in all. The extensions by `RfcDecide.v`: the rules as regular expressions, from above (a comment is anything that begins with a parenthesis) and from below (no comments), related to the rules once for any relation kept by the operations; a matcher on sets of positions, sound in both directions; then texts are shown to be outside the standard by computation.",
'C67':"As C66, with C57. Years: from C37.",
'C68':"`RfcMeaning.v`: what a text means, by rules that follow the ABNF. `RfcSyntax.v`: texts with a meaning are those of the syntax (touching atoms have to be taken as one word). `RfcRead.v`: a text with a meaning in RFC 5322 has the same one in `AddrText.v` (gaps that touch make one long gap), then C15, C16.",
'C69':"`RfcDates.v`: what a date-time means, by rules that follow the ABNF. `PropRfcDates.v`: each part is some characters with comments and white space around them, so the text without comments and white space is the parts in a row; C34 says what is returned for those, and the calendar facts of C36 give the fields.",
'C70':"`GoCode.v` is made from the Go files by `tools/gen_go.py` (statements as data); `GoRun.v` executes them on a heap: method sets with embedding, type assertions to interfaces by the methods a struct has, panics explicit. `GoGive.v`, `GoEnterDate.v`, `GoEnterText.v`, `GoEnter.v`: each callback does to the heap what `Walker.v` says for the values. `GoWalk.v`: the relation `paired` between heap and stack of values is kept by the walk of any tree (induction on the tree). `PropGo.v`: the two functions; that only ESyntax comes out is `Total.v`.",
'C71':"`paired` keeps that the addresses held by the nodes on the stack and by the result are pairwise distinct objects made after the call began, and that the objects from before are as they were.",
'C72':"`GoRun.v` keeps the printed texts: only notify with a console listener and the lexer's reports add to them. In `PropGo.v` the listeners at the time of the call of AddressList are exactly the walker.",
'C73':"Every step of a call (C62, C63) adds at most one state to the two tables; the sum of the steps is bounded by C63.",
'C74':"A table of heights of the rules without comments, found by iteration and checked; a comment is paid for by its own parenthesis; induction on the height. The other direction: a text without quotes and brackets is balanced, and the parentheses open at a place are comments around it, each of which is two levels (`all_deep`); C64 for acceptance. The tree is the one of any run of the generated functions (C65). For all runs, also after syntax errors, the functions are executed on a stack of bounded size (`srun`); a table of what each statement needs is found by iteration and checked, a call of Comment after a look at '(' costs two less because the parenthesis is then consumed; the runs on the two stacks are alike for all replies.",
'C75':"Texts of C56 followed by any text, with gaps and comments stripped: either a character no date contains is seen (every mailbox has '@' or '<'), or what is left ends in ':', ';' or ','. A stripped date (C34) has only letters, digits, and ',:+-', and ends in a letter or digit.",
'C76':"Texts of C56 and C57: reading any text after one of their parts is reading it at the same depth; induction on comments, and the parts with other parentheses need a character that is excluded.",
'C77':"Acceptance depends on the token types only, and these do not change with letter case. The independent scanner of C47 commutes with lowering letters, step by step, and so do its elements, names and addresses where no encoded word begins; C47 carries this to the parser.",
'C78':"Texts of C56 and C57: a changed text splits as the text did, part by part, each part again one of its kind; bodies of comments by induction on the length of both texts. Results: the stripped texts (C34) and what the scanner of C47 reports are equal.",
'C79':"Each part of the texts of C56 and C57 is closed under exchanging tabs and spaces. Results: the stripped texts (C34) and what the scanner of C47 reports are equal; with quoted strings and literals the scanner commutes with making tabs spaces, as in C77.",
'C80':"Each part of the texts of C56 and C57 is closed under taking line breaks out, and none begins with a line feed, so a line break is never split between parts. Results: the stripped texts (C34) are equal.",
}
EXTRA=json.load(open('/tmp/s5extra.json')) if __import__('os').path.exists('/tmp/s5extra.json') else {}
S5.update(EXTRA)
import glob,re
m=json.load(open('/verif/MANIFEST.json'))
loc={}
for f in glob.glob('/verif/rocq/theories/*.v'):
    for x in re.finditer(r'^(?:Theorem|Lemma)\s+(\w+)',open(f).read(),re.M): loc[x.group(1)]=f.split('/')[-1]
th={c['property']:c['theorems'] for c in m['claims']}
out=[]
for l in open('/verif/properties.jsonl'):
    d=json.loads(l); i=d['id']
    out.append(f"* **{i}** {d['title']}. {S5[i]} Theorems: "+', '.join(f"`{t}` ({loc[t]})" for t in th[i])+'.')
p='/verif/DESIGN.md'; s=open(p).read()
s=s[:s.index('## 5. Properties')]+'## 5. Properties: what is modelled and how it is proved\n\n'+'\n'.join(out)+'\n'
a=min(s.index('* The scanner development'),s.index('* Claims found false')); b=s.index('## 4. Trusted base'); 
s=s[:a]+'''* The scanner development (`ScanSpec.v`, the other `Scan*.v`, `PropScan.v`) shows that every parse
  tree of an input gives the addresses a one-pass scanner reports; `AddrText.v`, `MboxList.v`, `TextLang.v`,
  `TextScan.v` apply it to families of texts.
* `Gen*.v` model the generated Go files themselves and tie them to `Grammar.v` and `Lexer.v` (C48, C49), so
  that every theorem stated with `parse` and `tokens` also holds of the generated code.
* Claims found false are kept, with a theorem that refutes them (`..._fails...`, `..._not_in_general`) and
  the strongest true part.
* Property theorems live in `Prop*.v`, `DateCase.v` and `DateMore.v`. Beside each theorem an `Example`
  (`C.._met`, `C.._example`) shows a non-trivial input that meets its hypotheses.

'''+s[b:]
a=s.index('## 4. Trusted base'); b=s.index('## 5. Properties')
s=s[:a]+'''## 4. Trusted base

* Coq's kernel, including `vm_compute`; the check is repeated by `coqchk`.
* Axioms: `Print Assumptions` prints "Closed under the global context" for every theorem of MANIFEST.json.
  `coqchk` lists seven library axioms, `Coq.ssr.ssrunder.Under_rel.*` (standard library, loaded with the
  plug-in files that `lia`/`zify` require); no theorem uses them.
* The transcription of the Go code: `Walker.v`, `Api.v` by hand with citations; `GenCode.v`,
  `GenAtnData.v` by `tools/gen_code.py`; `Grammar.v`, `Lexer.v` from the .g4 files (and proved to agree with
  the generated files). `UnitTests.v` runs the repository's unit tests on the model at build time.
* The ANTLR runtime, which is not in the repository: `GenRun.runtime_ok` says what is assumed of
  AdaptivePredict (a prediction is one of the alternatives; if some alternative can lead to the end of
  the input given the pending rules, the least such one is predicted) and of Sync (no error if the
  network can go on with the next token or can end the rule). C61 derives the first from a model of the
  ALL(*) algorithm (`GenPredict.v`). Further: `GenAtn.v` the format of the serialized
  network (version 4); `GenLex.lexeme` the lexer's longest match, first rule; Match, Consume, the building
  of the tree, `ParseTreeWalkerDefault` and GetText as in `GenRun.run` and `Walker.v`. After a reported error
  C65 models the error handler (`GenRecover.v`); what is read then is not used: parser.go returns the error.
* The Go standard library functions in `Mime.v`, `GoTime.v`, `Strs.v`, `Utf8.v`, (for C52 and C53 only) `NetMail.v` and (for C55 only) `GoFormat.v`.
* For C66-C69: the ABNF and the prose of RFC 5322 and RFC 6532 as written down in `Rfc5322.v`, `RfcMeaning.v`
  and `RfcDates.v` (without a copy of the RFCs at hand).

'''+s[b:]
s=s.replace("| `Api.v` | `parser.go` |","| `GenSyntax.v`, `GenCode.v`, `GenRun.v` | `parser/rfc5322_parser.go`: the 67 rule functions | statements as data and their execution |\n| `GenAtnData.v`, `GenAtn.v`, `GenLex.v` | the serialized networks of parser and lexer, their deserializer, the lexer's reading | runtime behaviour as assumed in section 4 |\n| `Api.v` | `parser.go` |",1) if 'GenSyntax.v`, `GenCode' not in s else s
s=s.replace("Per property plan: see section 5 (filled in as the proofs land).\n\n","")
open(p,'w').write(s)
