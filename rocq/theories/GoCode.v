(** The Go files of the repository as data; written by tools/gen_go.py from /repo/*.go and /repo/parser/*.go. *)
From Coq Require Import String List NArith ZArith.
From Verif Require Import Lexer Grammar GoSyntax.
Import ListNotations.
Local Open Scope string_scope.

(** RFC5322ParserListener, with the methods of the embedded antlr.ParseTreeListener. *)
(* /repo: parser/rfc5322parser_listener.go:1-412 *)
Definition parser_RFC5322ParserListener_iface : iface :=
  [("VisitTerminal", [TName "antlr.TerminalNode"]);
   ("VisitErrorNode", [TName "antlr.ErrorNode"]);
   ("EnterEveryRule", [TName "antlr.ParserRuleContext"]);
   ("ExitEveryRule", [TName "antlr.ParserRuleContext"]);
   ("EnterQuotedChar", [TPtr (TName "parser.QuotedCharContext")]);
   ("EnterQuotedPair", [TPtr (TName "parser.QuotedPairContext")]);
   ("EnterFws", [TPtr (TName "parser.FwsContext")]);
   ("EnterCtext", [TPtr (TName "parser.CtextContext")]);
   ("EnterCcontent", [TPtr (TName "parser.CcontentContext")]);
   ("EnterComment", [TPtr (TName "parser.CommentContext")]);
   ("EnterCfws", [TPtr (TName "parser.CfwsContext")]);
   ("EnterAtext", [TPtr (TName "parser.AtextContext")]);
   ("EnterAtom", [TPtr (TName "parser.AtomContext")]);
   ("EnterDotAtom", [TPtr (TName "parser.DotAtomContext")]);
   ("EnterQtext", [TPtr (TName "parser.QtextContext")]);
   ("EnterQuotedContent", [TPtr (TName "parser.QuotedContentContext")]);
   ("EnterQuotedValue", [TPtr (TName "parser.QuotedValueContext")]);
   ("EnterQuotedString", [TPtr (TName "parser.QuotedStringContext")]);
   ("EnterWord", [TPtr (TName "parser.WordContext")]);
   ("EnterDateTime", [TPtr (TName "parser.DateTimeContext")]);
   ("EnterDayOfweek", [TPtr (TName "parser.DayOfweekContext")]);
   ("EnterDayName", [TPtr (TName "parser.DayNameContext")]);
   ("EnterDay", [TPtr (TName "parser.DayContext")]);
   ("EnterMonth", [TPtr (TName "parser.MonthContext")]);
   ("EnterYear", [TPtr (TName "parser.YearContext")]);
   ("EnterHour", [TPtr (TName "parser.HourContext")]);
   ("EnterMinute", [TPtr (TName "parser.MinuteContext")]);
   ("EnterSecond", [TPtr (TName "parser.SecondContext")]);
   ("EnterOffset", [TPtr (TName "parser.OffsetContext")]);
   ("EnterZone", [TPtr (TName "parser.ZoneContext")]);
   ("EnterAddress", [TPtr (TName "parser.AddressContext")]);
   ("EnterMailbox", [TPtr (TName "parser.MailboxContext")]);
   ("EnterNameAddr", [TPtr (TName "parser.NameAddrContext")]);
   ("EnterAngleAddr", [TPtr (TName "parser.AngleAddrContext")]);
   ("EnterGroup", [TPtr (TName "parser.GroupContext")]);
   ("EnterUnspaced", [TPtr (TName "parser.UnspacedContext")]);
   ("EnterDisplayName", [TPtr (TName "parser.DisplayNameContext")]);
   ("EnterMailboxList", [TPtr (TName "parser.MailboxListContext")]);
   ("EnterAddressList", [TPtr (TName "parser.AddressListContext")]);
   ("EnterGroupList", [TPtr (TName "parser.GroupListContext")]);
   ("EnterAddrSpec", [TPtr (TName "parser.AddrSpecContext")]);
   ("EnterLocalPart", [TPtr (TName "parser.LocalPartContext")]);
   ("EnterPort", [TPtr (TName "parser.PortContext")]);
   ("EnterDomain", [TPtr (TName "parser.DomainContext")]);
   ("EnterDomainLiteral", [TPtr (TName "parser.DomainLiteralContext")]);
   ("EnterDtext", [TPtr (TName "parser.DtextContext")]);
   ("EnterObsNoWSCTL", [TPtr (TName "parser.ObsNoWSCTLContext")]);
   ("EnterObsCtext", [TPtr (TName "parser.ObsCtextContext")]);
   ("EnterObsQtext", [TPtr (TName "parser.ObsQtextContext")]);
   ("EnterObsQP", [TPtr (TName "parser.ObsQPContext")]);
   ("EnterObsFWS", [TPtr (TName "parser.ObsFWSContext")]);
   ("EnterObsZone", [TPtr (TName "parser.ObsZoneContext")]);
   ("EnterObsAngleAddr", [TPtr (TName "parser.ObsAngleAddrContext")]);
   ("EnterObsRoute", [TPtr (TName "parser.ObsRouteContext")]);
   ("EnterObsDomainList", [TPtr (TName "parser.ObsDomainListContext")]);
   ("EnterObsMboxList", [TPtr (TName "parser.ObsMboxListContext")]);
   ("EnterObsAddrList", [TPtr (TName "parser.ObsAddrListContext")]);
   ("EnterObsGroupList", [TPtr (TName "parser.ObsGroupListContext")]);
   ("EnterObsLocalPart", [TPtr (TName "parser.ObsLocalPartContext")]);
   ("EnterObsDomain", [TPtr (TName "parser.ObsDomainContext")]);
   ("EnterEncodedWord", [TPtr (TName "parser.EncodedWordContext")]);
   ("EnterCharset", [TPtr (TName "parser.CharsetContext")]);
   ("EnterEncoding", [TPtr (TName "parser.EncodingContext")]);
   ("EnterToken", [TPtr (TName "parser.TokenContext")]);
   ("EnterTokenChar", [TPtr (TName "parser.TokenCharContext")]);
   ("EnterEncodedText", [TPtr (TName "parser.EncodedTextContext")]);
   ("EnterEncodedChar", [TPtr (TName "parser.EncodedCharContext")]);
   ("EnterCrlf", [TPtr (TName "parser.CrlfContext")]);
   ("EnterWsp", [TPtr (TName "parser.WspContext")]);
   ("EnterVchar", [TPtr (TName "parser.VcharContext")]);
   ("EnterAlpha", [TPtr (TName "parser.AlphaContext")]);
   ("ExitQuotedChar", [TPtr (TName "parser.QuotedCharContext")]);
   ("ExitQuotedPair", [TPtr (TName "parser.QuotedPairContext")]);
   ("ExitFws", [TPtr (TName "parser.FwsContext")]);
   ("ExitCtext", [TPtr (TName "parser.CtextContext")]);
   ("ExitCcontent", [TPtr (TName "parser.CcontentContext")]);
   ("ExitComment", [TPtr (TName "parser.CommentContext")]);
   ("ExitCfws", [TPtr (TName "parser.CfwsContext")]);
   ("ExitAtext", [TPtr (TName "parser.AtextContext")]);
   ("ExitAtom", [TPtr (TName "parser.AtomContext")]);
   ("ExitDotAtom", [TPtr (TName "parser.DotAtomContext")]);
   ("ExitQtext", [TPtr (TName "parser.QtextContext")]);
   ("ExitQuotedContent", [TPtr (TName "parser.QuotedContentContext")]);
   ("ExitQuotedValue", [TPtr (TName "parser.QuotedValueContext")]);
   ("ExitQuotedString", [TPtr (TName "parser.QuotedStringContext")]);
   ("ExitWord", [TPtr (TName "parser.WordContext")]);
   ("ExitDateTime", [TPtr (TName "parser.DateTimeContext")]);
   ("ExitDayOfweek", [TPtr (TName "parser.DayOfweekContext")]);
   ("ExitDayName", [TPtr (TName "parser.DayNameContext")]);
   ("ExitDay", [TPtr (TName "parser.DayContext")]);
   ("ExitMonth", [TPtr (TName "parser.MonthContext")]);
   ("ExitYear", [TPtr (TName "parser.YearContext")]);
   ("ExitHour", [TPtr (TName "parser.HourContext")]);
   ("ExitMinute", [TPtr (TName "parser.MinuteContext")]);
   ("ExitSecond", [TPtr (TName "parser.SecondContext")]);
   ("ExitOffset", [TPtr (TName "parser.OffsetContext")]);
   ("ExitZone", [TPtr (TName "parser.ZoneContext")]);
   ("ExitAddress", [TPtr (TName "parser.AddressContext")]);
   ("ExitMailbox", [TPtr (TName "parser.MailboxContext")]);
   ("ExitNameAddr", [TPtr (TName "parser.NameAddrContext")]);
   ("ExitAngleAddr", [TPtr (TName "parser.AngleAddrContext")]);
   ("ExitGroup", [TPtr (TName "parser.GroupContext")]);
   ("ExitUnspaced", [TPtr (TName "parser.UnspacedContext")]);
   ("ExitDisplayName", [TPtr (TName "parser.DisplayNameContext")]);
   ("ExitMailboxList", [TPtr (TName "parser.MailboxListContext")]);
   ("ExitAddressList", [TPtr (TName "parser.AddressListContext")]);
   ("ExitGroupList", [TPtr (TName "parser.GroupListContext")]);
   ("ExitAddrSpec", [TPtr (TName "parser.AddrSpecContext")]);
   ("ExitLocalPart", [TPtr (TName "parser.LocalPartContext")]);
   ("ExitPort", [TPtr (TName "parser.PortContext")]);
   ("ExitDomain", [TPtr (TName "parser.DomainContext")]);
   ("ExitDomainLiteral", [TPtr (TName "parser.DomainLiteralContext")]);
   ("ExitDtext", [TPtr (TName "parser.DtextContext")]);
   ("ExitObsNoWSCTL", [TPtr (TName "parser.ObsNoWSCTLContext")]);
   ("ExitObsCtext", [TPtr (TName "parser.ObsCtextContext")]);
   ("ExitObsQtext", [TPtr (TName "parser.ObsQtextContext")]);
   ("ExitObsQP", [TPtr (TName "parser.ObsQPContext")]);
   ("ExitObsFWS", [TPtr (TName "parser.ObsFWSContext")]);
   ("ExitObsZone", [TPtr (TName "parser.ObsZoneContext")]);
   ("ExitObsAngleAddr", [TPtr (TName "parser.ObsAngleAddrContext")]);
   ("ExitObsRoute", [TPtr (TName "parser.ObsRouteContext")]);
   ("ExitObsDomainList", [TPtr (TName "parser.ObsDomainListContext")]);
   ("ExitObsMboxList", [TPtr (TName "parser.ObsMboxListContext")]);
   ("ExitObsAddrList", [TPtr (TName "parser.ObsAddrListContext")]);
   ("ExitObsGroupList", [TPtr (TName "parser.ObsGroupListContext")]);
   ("ExitObsLocalPart", [TPtr (TName "parser.ObsLocalPartContext")]);
   ("ExitObsDomain", [TPtr (TName "parser.ObsDomainContext")]);
   ("ExitEncodedWord", [TPtr (TName "parser.EncodedWordContext")]);
   ("ExitCharset", [TPtr (TName "parser.CharsetContext")]);
   ("ExitEncoding", [TPtr (TName "parser.EncodingContext")]);
   ("ExitToken", [TPtr (TName "parser.TokenContext")]);
   ("ExitTokenChar", [TPtr (TName "parser.TokenCharContext")]);
   ("ExitEncodedText", [TPtr (TName "parser.EncodedTextContext")]);
   ("ExitEncodedChar", [TPtr (TName "parser.EncodedCharContext")]);
   ("ExitCrlf", [TPtr (TName "parser.CrlfContext")]);
   ("ExitWsp", [TPtr (TName "parser.WspContext")]);
   ("ExitVchar", [TPtr (TName "parser.VcharContext")]);
   ("ExitAlpha", [TPtr (TName "parser.AlphaContext")])].

(* /repo: parser/rfc5322parser_base_listener.go:1-424 *)
Definition base_methods : list method :=
  [("parser.BaseRFC5322ParserListener", "VisitTerminal", mkFn "s" [("node", TName "antlr.TerminalNode")] []);
   ("parser.BaseRFC5322ParserListener", "VisitErrorNode", mkFn "s" [("node", TName "antlr.ErrorNode")] []);
   ("parser.BaseRFC5322ParserListener", "EnterEveryRule", mkFn "s" [("ctx", TName "antlr.ParserRuleContext")] []);
   ("parser.BaseRFC5322ParserListener", "ExitEveryRule", mkFn "s" [("ctx", TName "antlr.ParserRuleContext")] []);
   ("parser.BaseRFC5322ParserListener", "EnterQuotedChar", mkFn "s" [("ctx", TPtr (TName "parser.QuotedCharContext"))] []);
   ("parser.BaseRFC5322ParserListener", "ExitQuotedChar", mkFn "s" [("ctx", TPtr (TName "parser.QuotedCharContext"))] []);
   ("parser.BaseRFC5322ParserListener", "EnterQuotedPair", mkFn "s" [("ctx", TPtr (TName "parser.QuotedPairContext"))] []);
   ("parser.BaseRFC5322ParserListener", "ExitQuotedPair", mkFn "s" [("ctx", TPtr (TName "parser.QuotedPairContext"))] []);
   ("parser.BaseRFC5322ParserListener", "EnterFws", mkFn "s" [("ctx", TPtr (TName "parser.FwsContext"))] []);
   ("parser.BaseRFC5322ParserListener", "ExitFws", mkFn "s" [("ctx", TPtr (TName "parser.FwsContext"))] []);
   ("parser.BaseRFC5322ParserListener", "EnterCtext", mkFn "s" [("ctx", TPtr (TName "parser.CtextContext"))] []);
   ("parser.BaseRFC5322ParserListener", "ExitCtext", mkFn "s" [("ctx", TPtr (TName "parser.CtextContext"))] []);
   ("parser.BaseRFC5322ParserListener", "EnterCcontent", mkFn "s" [("ctx", TPtr (TName "parser.CcontentContext"))] []);
   ("parser.BaseRFC5322ParserListener", "ExitCcontent", mkFn "s" [("ctx", TPtr (TName "parser.CcontentContext"))] []);
   ("parser.BaseRFC5322ParserListener", "EnterComment", mkFn "s" [("ctx", TPtr (TName "parser.CommentContext"))] []);
   ("parser.BaseRFC5322ParserListener", "ExitComment", mkFn "s" [("ctx", TPtr (TName "parser.CommentContext"))] []);
   ("parser.BaseRFC5322ParserListener", "EnterCfws", mkFn "s" [("ctx", TPtr (TName "parser.CfwsContext"))] []);
   ("parser.BaseRFC5322ParserListener", "ExitCfws", mkFn "s" [("ctx", TPtr (TName "parser.CfwsContext"))] []);
   ("parser.BaseRFC5322ParserListener", "EnterAtext", mkFn "s" [("ctx", TPtr (TName "parser.AtextContext"))] []);
   ("parser.BaseRFC5322ParserListener", "ExitAtext", mkFn "s" [("ctx", TPtr (TName "parser.AtextContext"))] []);
   ("parser.BaseRFC5322ParserListener", "EnterAtom", mkFn "s" [("ctx", TPtr (TName "parser.AtomContext"))] []);
   ("parser.BaseRFC5322ParserListener", "ExitAtom", mkFn "s" [("ctx", TPtr (TName "parser.AtomContext"))] []);
   ("parser.BaseRFC5322ParserListener", "EnterDotAtom", mkFn "s" [("ctx", TPtr (TName "parser.DotAtomContext"))] []);
   ("parser.BaseRFC5322ParserListener", "ExitDotAtom", mkFn "s" [("ctx", TPtr (TName "parser.DotAtomContext"))] []);
   ("parser.BaseRFC5322ParserListener", "EnterQtext", mkFn "s" [("ctx", TPtr (TName "parser.QtextContext"))] []);
   ("parser.BaseRFC5322ParserListener", "ExitQtext", mkFn "s" [("ctx", TPtr (TName "parser.QtextContext"))] []);
   ("parser.BaseRFC5322ParserListener", "EnterQuotedContent", mkFn "s" [("ctx", TPtr (TName "parser.QuotedContentContext"))] []);
   ("parser.BaseRFC5322ParserListener", "ExitQuotedContent", mkFn "s" [("ctx", TPtr (TName "parser.QuotedContentContext"))] []);
   ("parser.BaseRFC5322ParserListener", "EnterQuotedValue", mkFn "s" [("ctx", TPtr (TName "parser.QuotedValueContext"))] []);
   ("parser.BaseRFC5322ParserListener", "ExitQuotedValue", mkFn "s" [("ctx", TPtr (TName "parser.QuotedValueContext"))] []);
   ("parser.BaseRFC5322ParserListener", "EnterQuotedString", mkFn "s" [("ctx", TPtr (TName "parser.QuotedStringContext"))] []);
   ("parser.BaseRFC5322ParserListener", "ExitQuotedString", mkFn "s" [("ctx", TPtr (TName "parser.QuotedStringContext"))] []);
   ("parser.BaseRFC5322ParserListener", "EnterWord", mkFn "s" [("ctx", TPtr (TName "parser.WordContext"))] []);
   ("parser.BaseRFC5322ParserListener", "ExitWord", mkFn "s" [("ctx", TPtr (TName "parser.WordContext"))] []);
   ("parser.BaseRFC5322ParserListener", "EnterDateTime", mkFn "s" [("ctx", TPtr (TName "parser.DateTimeContext"))] []);
   ("parser.BaseRFC5322ParserListener", "ExitDateTime", mkFn "s" [("ctx", TPtr (TName "parser.DateTimeContext"))] []);
   ("parser.BaseRFC5322ParserListener", "EnterDayOfweek", mkFn "s" [("ctx", TPtr (TName "parser.DayOfweekContext"))] []);
   ("parser.BaseRFC5322ParserListener", "ExitDayOfweek", mkFn "s" [("ctx", TPtr (TName "parser.DayOfweekContext"))] []);
   ("parser.BaseRFC5322ParserListener", "EnterDayName", mkFn "s" [("ctx", TPtr (TName "parser.DayNameContext"))] []);
   ("parser.BaseRFC5322ParserListener", "ExitDayName", mkFn "s" [("ctx", TPtr (TName "parser.DayNameContext"))] []);
   ("parser.BaseRFC5322ParserListener", "EnterDay", mkFn "s" [("ctx", TPtr (TName "parser.DayContext"))] []);
   ("parser.BaseRFC5322ParserListener", "ExitDay", mkFn "s" [("ctx", TPtr (TName "parser.DayContext"))] []);
   ("parser.BaseRFC5322ParserListener", "EnterMonth", mkFn "s" [("ctx", TPtr (TName "parser.MonthContext"))] []);
   ("parser.BaseRFC5322ParserListener", "ExitMonth", mkFn "s" [("ctx", TPtr (TName "parser.MonthContext"))] []);
   ("parser.BaseRFC5322ParserListener", "EnterYear", mkFn "s" [("ctx", TPtr (TName "parser.YearContext"))] []);
   ("parser.BaseRFC5322ParserListener", "ExitYear", mkFn "s" [("ctx", TPtr (TName "parser.YearContext"))] []);
   ("parser.BaseRFC5322ParserListener", "EnterHour", mkFn "s" [("ctx", TPtr (TName "parser.HourContext"))] []);
   ("parser.BaseRFC5322ParserListener", "ExitHour", mkFn "s" [("ctx", TPtr (TName "parser.HourContext"))] []);
   ("parser.BaseRFC5322ParserListener", "EnterMinute", mkFn "s" [("ctx", TPtr (TName "parser.MinuteContext"))] []);
   ("parser.BaseRFC5322ParserListener", "ExitMinute", mkFn "s" [("ctx", TPtr (TName "parser.MinuteContext"))] []);
   ("parser.BaseRFC5322ParserListener", "EnterSecond", mkFn "s" [("ctx", TPtr (TName "parser.SecondContext"))] []);
   ("parser.BaseRFC5322ParserListener", "ExitSecond", mkFn "s" [("ctx", TPtr (TName "parser.SecondContext"))] []);
   ("parser.BaseRFC5322ParserListener", "EnterOffset", mkFn "s" [("ctx", TPtr (TName "parser.OffsetContext"))] []);
   ("parser.BaseRFC5322ParserListener", "ExitOffset", mkFn "s" [("ctx", TPtr (TName "parser.OffsetContext"))] []);
   ("parser.BaseRFC5322ParserListener", "EnterZone", mkFn "s" [("ctx", TPtr (TName "parser.ZoneContext"))] []);
   ("parser.BaseRFC5322ParserListener", "ExitZone", mkFn "s" [("ctx", TPtr (TName "parser.ZoneContext"))] []);
   ("parser.BaseRFC5322ParserListener", "EnterAddress", mkFn "s" [("ctx", TPtr (TName "parser.AddressContext"))] []);
   ("parser.BaseRFC5322ParserListener", "ExitAddress", mkFn "s" [("ctx", TPtr (TName "parser.AddressContext"))] []);
   ("parser.BaseRFC5322ParserListener", "EnterMailbox", mkFn "s" [("ctx", TPtr (TName "parser.MailboxContext"))] []);
   ("parser.BaseRFC5322ParserListener", "ExitMailbox", mkFn "s" [("ctx", TPtr (TName "parser.MailboxContext"))] []);
   ("parser.BaseRFC5322ParserListener", "EnterNameAddr", mkFn "s" [("ctx", TPtr (TName "parser.NameAddrContext"))] []);
   ("parser.BaseRFC5322ParserListener", "ExitNameAddr", mkFn "s" [("ctx", TPtr (TName "parser.NameAddrContext"))] []);
   ("parser.BaseRFC5322ParserListener", "EnterAngleAddr", mkFn "s" [("ctx", TPtr (TName "parser.AngleAddrContext"))] []);
   ("parser.BaseRFC5322ParserListener", "ExitAngleAddr", mkFn "s" [("ctx", TPtr (TName "parser.AngleAddrContext"))] []);
   ("parser.BaseRFC5322ParserListener", "EnterGroup", mkFn "s" [("ctx", TPtr (TName "parser.GroupContext"))] []);
   ("parser.BaseRFC5322ParserListener", "ExitGroup", mkFn "s" [("ctx", TPtr (TName "parser.GroupContext"))] []);
   ("parser.BaseRFC5322ParserListener", "EnterUnspaced", mkFn "s" [("ctx", TPtr (TName "parser.UnspacedContext"))] []);
   ("parser.BaseRFC5322ParserListener", "ExitUnspaced", mkFn "s" [("ctx", TPtr (TName "parser.UnspacedContext"))] []);
   ("parser.BaseRFC5322ParserListener", "EnterDisplayName", mkFn "s" [("ctx", TPtr (TName "parser.DisplayNameContext"))] []);
   ("parser.BaseRFC5322ParserListener", "ExitDisplayName", mkFn "s" [("ctx", TPtr (TName "parser.DisplayNameContext"))] []);
   ("parser.BaseRFC5322ParserListener", "EnterMailboxList", mkFn "s" [("ctx", TPtr (TName "parser.MailboxListContext"))] []);
   ("parser.BaseRFC5322ParserListener", "ExitMailboxList", mkFn "s" [("ctx", TPtr (TName "parser.MailboxListContext"))] []);
   ("parser.BaseRFC5322ParserListener", "EnterAddressList", mkFn "s" [("ctx", TPtr (TName "parser.AddressListContext"))] []);
   ("parser.BaseRFC5322ParserListener", "ExitAddressList", mkFn "s" [("ctx", TPtr (TName "parser.AddressListContext"))] []);
   ("parser.BaseRFC5322ParserListener", "EnterGroupList", mkFn "s" [("ctx", TPtr (TName "parser.GroupListContext"))] []);
   ("parser.BaseRFC5322ParserListener", "ExitGroupList", mkFn "s" [("ctx", TPtr (TName "parser.GroupListContext"))] []);
   ("parser.BaseRFC5322ParserListener", "EnterAddrSpec", mkFn "s" [("ctx", TPtr (TName "parser.AddrSpecContext"))] []);
   ("parser.BaseRFC5322ParserListener", "ExitAddrSpec", mkFn "s" [("ctx", TPtr (TName "parser.AddrSpecContext"))] []);
   ("parser.BaseRFC5322ParserListener", "EnterLocalPart", mkFn "s" [("ctx", TPtr (TName "parser.LocalPartContext"))] []);
   ("parser.BaseRFC5322ParserListener", "ExitLocalPart", mkFn "s" [("ctx", TPtr (TName "parser.LocalPartContext"))] []);
   ("parser.BaseRFC5322ParserListener", "EnterPort", mkFn "s" [("ctx", TPtr (TName "parser.PortContext"))] []);
   ("parser.BaseRFC5322ParserListener", "ExitPort", mkFn "s" [("ctx", TPtr (TName "parser.PortContext"))] []);
   ("parser.BaseRFC5322ParserListener", "EnterDomain", mkFn "s" [("ctx", TPtr (TName "parser.DomainContext"))] []);
   ("parser.BaseRFC5322ParserListener", "ExitDomain", mkFn "s" [("ctx", TPtr (TName "parser.DomainContext"))] []);
   ("parser.BaseRFC5322ParserListener", "EnterDomainLiteral", mkFn "s" [("ctx", TPtr (TName "parser.DomainLiteralContext"))] []);
   ("parser.BaseRFC5322ParserListener", "ExitDomainLiteral", mkFn "s" [("ctx", TPtr (TName "parser.DomainLiteralContext"))] []);
   ("parser.BaseRFC5322ParserListener", "EnterDtext", mkFn "s" [("ctx", TPtr (TName "parser.DtextContext"))] []);
   ("parser.BaseRFC5322ParserListener", "ExitDtext", mkFn "s" [("ctx", TPtr (TName "parser.DtextContext"))] []);
   ("parser.BaseRFC5322ParserListener", "EnterObsNoWSCTL", mkFn "s" [("ctx", TPtr (TName "parser.ObsNoWSCTLContext"))] []);
   ("parser.BaseRFC5322ParserListener", "ExitObsNoWSCTL", mkFn "s" [("ctx", TPtr (TName "parser.ObsNoWSCTLContext"))] []);
   ("parser.BaseRFC5322ParserListener", "EnterObsCtext", mkFn "s" [("ctx", TPtr (TName "parser.ObsCtextContext"))] []);
   ("parser.BaseRFC5322ParserListener", "ExitObsCtext", mkFn "s" [("ctx", TPtr (TName "parser.ObsCtextContext"))] []);
   ("parser.BaseRFC5322ParserListener", "EnterObsQtext", mkFn "s" [("ctx", TPtr (TName "parser.ObsQtextContext"))] []);
   ("parser.BaseRFC5322ParserListener", "ExitObsQtext", mkFn "s" [("ctx", TPtr (TName "parser.ObsQtextContext"))] []);
   ("parser.BaseRFC5322ParserListener", "EnterObsQP", mkFn "s" [("ctx", TPtr (TName "parser.ObsQPContext"))] []);
   ("parser.BaseRFC5322ParserListener", "ExitObsQP", mkFn "s" [("ctx", TPtr (TName "parser.ObsQPContext"))] []);
   ("parser.BaseRFC5322ParserListener", "EnterObsFWS", mkFn "s" [("ctx", TPtr (TName "parser.ObsFWSContext"))] []);
   ("parser.BaseRFC5322ParserListener", "ExitObsFWS", mkFn "s" [("ctx", TPtr (TName "parser.ObsFWSContext"))] []);
   ("parser.BaseRFC5322ParserListener", "EnterObsZone", mkFn "s" [("ctx", TPtr (TName "parser.ObsZoneContext"))] []);
   ("parser.BaseRFC5322ParserListener", "ExitObsZone", mkFn "s" [("ctx", TPtr (TName "parser.ObsZoneContext"))] []);
   ("parser.BaseRFC5322ParserListener", "EnterObsAngleAddr", mkFn "s" [("ctx", TPtr (TName "parser.ObsAngleAddrContext"))] []);
   ("parser.BaseRFC5322ParserListener", "ExitObsAngleAddr", mkFn "s" [("ctx", TPtr (TName "parser.ObsAngleAddrContext"))] []);
   ("parser.BaseRFC5322ParserListener", "EnterObsRoute", mkFn "s" [("ctx", TPtr (TName "parser.ObsRouteContext"))] []);
   ("parser.BaseRFC5322ParserListener", "ExitObsRoute", mkFn "s" [("ctx", TPtr (TName "parser.ObsRouteContext"))] []);
   ("parser.BaseRFC5322ParserListener", "EnterObsDomainList", mkFn "s" [("ctx", TPtr (TName "parser.ObsDomainListContext"))] []);
   ("parser.BaseRFC5322ParserListener", "ExitObsDomainList", mkFn "s" [("ctx", TPtr (TName "parser.ObsDomainListContext"))] []);
   ("parser.BaseRFC5322ParserListener", "EnterObsMboxList", mkFn "s" [("ctx", TPtr (TName "parser.ObsMboxListContext"))] []);
   ("parser.BaseRFC5322ParserListener", "ExitObsMboxList", mkFn "s" [("ctx", TPtr (TName "parser.ObsMboxListContext"))] []);
   ("parser.BaseRFC5322ParserListener", "EnterObsAddrList", mkFn "s" [("ctx", TPtr (TName "parser.ObsAddrListContext"))] []);
   ("parser.BaseRFC5322ParserListener", "ExitObsAddrList", mkFn "s" [("ctx", TPtr (TName "parser.ObsAddrListContext"))] []);
   ("parser.BaseRFC5322ParserListener", "EnterObsGroupList", mkFn "s" [("ctx", TPtr (TName "parser.ObsGroupListContext"))] []);
   ("parser.BaseRFC5322ParserListener", "ExitObsGroupList", mkFn "s" [("ctx", TPtr (TName "parser.ObsGroupListContext"))] []);
   ("parser.BaseRFC5322ParserListener", "EnterObsLocalPart", mkFn "s" [("ctx", TPtr (TName "parser.ObsLocalPartContext"))] []);
   ("parser.BaseRFC5322ParserListener", "ExitObsLocalPart", mkFn "s" [("ctx", TPtr (TName "parser.ObsLocalPartContext"))] []);
   ("parser.BaseRFC5322ParserListener", "EnterObsDomain", mkFn "s" [("ctx", TPtr (TName "parser.ObsDomainContext"))] []);
   ("parser.BaseRFC5322ParserListener", "ExitObsDomain", mkFn "s" [("ctx", TPtr (TName "parser.ObsDomainContext"))] []);
   ("parser.BaseRFC5322ParserListener", "EnterEncodedWord", mkFn "s" [("ctx", TPtr (TName "parser.EncodedWordContext"))] []);
   ("parser.BaseRFC5322ParserListener", "ExitEncodedWord", mkFn "s" [("ctx", TPtr (TName "parser.EncodedWordContext"))] []);
   ("parser.BaseRFC5322ParserListener", "EnterCharset", mkFn "s" [("ctx", TPtr (TName "parser.CharsetContext"))] []);
   ("parser.BaseRFC5322ParserListener", "ExitCharset", mkFn "s" [("ctx", TPtr (TName "parser.CharsetContext"))] []);
   ("parser.BaseRFC5322ParserListener", "EnterEncoding", mkFn "s" [("ctx", TPtr (TName "parser.EncodingContext"))] []);
   ("parser.BaseRFC5322ParserListener", "ExitEncoding", mkFn "s" [("ctx", TPtr (TName "parser.EncodingContext"))] []);
   ("parser.BaseRFC5322ParserListener", "EnterToken", mkFn "s" [("ctx", TPtr (TName "parser.TokenContext"))] []);
   ("parser.BaseRFC5322ParserListener", "ExitToken", mkFn "s" [("ctx", TPtr (TName "parser.TokenContext"))] []);
   ("parser.BaseRFC5322ParserListener", "EnterTokenChar", mkFn "s" [("ctx", TPtr (TName "parser.TokenCharContext"))] []);
   ("parser.BaseRFC5322ParserListener", "ExitTokenChar", mkFn "s" [("ctx", TPtr (TName "parser.TokenCharContext"))] []);
   ("parser.BaseRFC5322ParserListener", "EnterEncodedText", mkFn "s" [("ctx", TPtr (TName "parser.EncodedTextContext"))] []);
   ("parser.BaseRFC5322ParserListener", "ExitEncodedText", mkFn "s" [("ctx", TPtr (TName "parser.EncodedTextContext"))] []);
   ("parser.BaseRFC5322ParserListener", "EnterEncodedChar", mkFn "s" [("ctx", TPtr (TName "parser.EncodedCharContext"))] []);
   ("parser.BaseRFC5322ParserListener", "ExitEncodedChar", mkFn "s" [("ctx", TPtr (TName "parser.EncodedCharContext"))] []);
   ("parser.BaseRFC5322ParserListener", "EnterCrlf", mkFn "s" [("ctx", TPtr (TName "parser.CrlfContext"))] []);
   ("parser.BaseRFC5322ParserListener", "ExitCrlf", mkFn "s" [("ctx", TPtr (TName "parser.CrlfContext"))] []);
   ("parser.BaseRFC5322ParserListener", "EnterWsp", mkFn "s" [("ctx", TPtr (TName "parser.WspContext"))] []);
   ("parser.BaseRFC5322ParserListener", "ExitWsp", mkFn "s" [("ctx", TPtr (TName "parser.WspContext"))] []);
   ("parser.BaseRFC5322ParserListener", "EnterVchar", mkFn "s" [("ctx", TPtr (TName "parser.VcharContext"))] []);
   ("parser.BaseRFC5322ParserListener", "ExitVchar", mkFn "s" [("ctx", TPtr (TName "parser.VcharContext"))] []);
   ("parser.BaseRFC5322ParserListener", "EnterAlpha", mkFn "s" [("ctx", TPtr (TName "parser.AlphaContext"))] []);
   ("parser.BaseRFC5322ParserListener", "ExitAlpha", mkFn "s" [("ctx", TPtr (TName "parser.AlphaContext"))] [])].

(* /repo: parser/rfc5322_parser.go: the methods EnterRule, ExitRule and AllDigit of the contexts, e.g. 858-868, 5000-5010 *)
Definition context_methods : list method :=
  [("parser.QuotedCharContext", "EnterRule", mkFn "s" [("listener", TName "antlr.ParseTreeListener")] [SIfIs "listenerT" (EVar "listener") parser_RFC5322ParserListener_iface [SExpr (EMethod (EVar "listenerT") "EnterQuotedChar" [EVar "s"])]]);
   ("parser.QuotedCharContext", "ExitRule", mkFn "s" [("listener", TName "antlr.ParseTreeListener")] [SIfIs "listenerT" (EVar "listener") parser_RFC5322ParserListener_iface [SExpr (EMethod (EVar "listenerT") "ExitQuotedChar" [EVar "s"])]]);
   ("parser.QuotedPairContext", "EnterRule", mkFn "s" [("listener", TName "antlr.ParseTreeListener")] [SIfIs "listenerT" (EVar "listener") parser_RFC5322ParserListener_iface [SExpr (EMethod (EVar "listenerT") "EnterQuotedPair" [EVar "s"])]]);
   ("parser.QuotedPairContext", "ExitRule", mkFn "s" [("listener", TName "antlr.ParseTreeListener")] [SIfIs "listenerT" (EVar "listener") parser_RFC5322ParserListener_iface [SExpr (EMethod (EVar "listenerT") "ExitQuotedPair" [EVar "s"])]]);
   ("parser.FwsContext", "EnterRule", mkFn "s" [("listener", TName "antlr.ParseTreeListener")] [SIfIs "listenerT" (EVar "listener") parser_RFC5322ParserListener_iface [SExpr (EMethod (EVar "listenerT") "EnterFws" [EVar "s"])]]);
   ("parser.FwsContext", "ExitRule", mkFn "s" [("listener", TName "antlr.ParseTreeListener")] [SIfIs "listenerT" (EVar "listener") parser_RFC5322ParserListener_iface [SExpr (EMethod (EVar "listenerT") "ExitFws" [EVar "s"])]]);
   ("parser.CtextContext", "EnterRule", mkFn "s" [("listener", TName "antlr.ParseTreeListener")] [SIfIs "listenerT" (EVar "listener") parser_RFC5322ParserListener_iface [SExpr (EMethod (EVar "listenerT") "EnterCtext" [EVar "s"])]]);
   ("parser.CtextContext", "ExitRule", mkFn "s" [("listener", TName "antlr.ParseTreeListener")] [SIfIs "listenerT" (EVar "listener") parser_RFC5322ParserListener_iface [SExpr (EMethod (EVar "listenerT") "ExitCtext" [EVar "s"])]]);
   ("parser.CcontentContext", "EnterRule", mkFn "s" [("listener", TName "antlr.ParseTreeListener")] [SIfIs "listenerT" (EVar "listener") parser_RFC5322ParserListener_iface [SExpr (EMethod (EVar "listenerT") "EnterCcontent" [EVar "s"])]]);
   ("parser.CcontentContext", "ExitRule", mkFn "s" [("listener", TName "antlr.ParseTreeListener")] [SIfIs "listenerT" (EVar "listener") parser_RFC5322ParserListener_iface [SExpr (EMethod (EVar "listenerT") "ExitCcontent" [EVar "s"])]]);
   ("parser.CommentContext", "EnterRule", mkFn "s" [("listener", TName "antlr.ParseTreeListener")] [SIfIs "listenerT" (EVar "listener") parser_RFC5322ParserListener_iface [SExpr (EMethod (EVar "listenerT") "EnterComment" [EVar "s"])]]);
   ("parser.CommentContext", "ExitRule", mkFn "s" [("listener", TName "antlr.ParseTreeListener")] [SIfIs "listenerT" (EVar "listener") parser_RFC5322ParserListener_iface [SExpr (EMethod (EVar "listenerT") "ExitComment" [EVar "s"])]]);
   ("parser.CfwsContext", "EnterRule", mkFn "s" [("listener", TName "antlr.ParseTreeListener")] [SIfIs "listenerT" (EVar "listener") parser_RFC5322ParserListener_iface [SExpr (EMethod (EVar "listenerT") "EnterCfws" [EVar "s"])]]);
   ("parser.CfwsContext", "ExitRule", mkFn "s" [("listener", TName "antlr.ParseTreeListener")] [SIfIs "listenerT" (EVar "listener") parser_RFC5322ParserListener_iface [SExpr (EMethod (EVar "listenerT") "ExitCfws" [EVar "s"])]]);
   ("parser.AtextContext", "EnterRule", mkFn "s" [("listener", TName "antlr.ParseTreeListener")] [SIfIs "listenerT" (EVar "listener") parser_RFC5322ParserListener_iface [SExpr (EMethod (EVar "listenerT") "EnterAtext" [EVar "s"])]]);
   ("parser.AtextContext", "ExitRule", mkFn "s" [("listener", TName "antlr.ParseTreeListener")] [SIfIs "listenerT" (EVar "listener") parser_RFC5322ParserListener_iface [SExpr (EMethod (EVar "listenerT") "ExitAtext" [EVar "s"])]]);
   ("parser.AtomContext", "EnterRule", mkFn "s" [("listener", TName "antlr.ParseTreeListener")] [SIfIs "listenerT" (EVar "listener") parser_RFC5322ParserListener_iface [SExpr (EMethod (EVar "listenerT") "EnterAtom" [EVar "s"])]]);
   ("parser.AtomContext", "ExitRule", mkFn "s" [("listener", TName "antlr.ParseTreeListener")] [SIfIs "listenerT" (EVar "listener") parser_RFC5322ParserListener_iface [SExpr (EMethod (EVar "listenerT") "ExitAtom" [EVar "s"])]]);
   ("parser.DotAtomContext", "EnterRule", mkFn "s" [("listener", TName "antlr.ParseTreeListener")] [SIfIs "listenerT" (EVar "listener") parser_RFC5322ParserListener_iface [SExpr (EMethod (EVar "listenerT") "EnterDotAtom" [EVar "s"])]]);
   ("parser.DotAtomContext", "ExitRule", mkFn "s" [("listener", TName "antlr.ParseTreeListener")] [SIfIs "listenerT" (EVar "listener") parser_RFC5322ParserListener_iface [SExpr (EMethod (EVar "listenerT") "ExitDotAtom" [EVar "s"])]]);
   ("parser.QtextContext", "EnterRule", mkFn "s" [("listener", TName "antlr.ParseTreeListener")] [SIfIs "listenerT" (EVar "listener") parser_RFC5322ParserListener_iface [SExpr (EMethod (EVar "listenerT") "EnterQtext" [EVar "s"])]]);
   ("parser.QtextContext", "ExitRule", mkFn "s" [("listener", TName "antlr.ParseTreeListener")] [SIfIs "listenerT" (EVar "listener") parser_RFC5322ParserListener_iface [SExpr (EMethod (EVar "listenerT") "ExitQtext" [EVar "s"])]]);
   ("parser.QuotedContentContext", "EnterRule", mkFn "s" [("listener", TName "antlr.ParseTreeListener")] [SIfIs "listenerT" (EVar "listener") parser_RFC5322ParserListener_iface [SExpr (EMethod (EVar "listenerT") "EnterQuotedContent" [EVar "s"])]]);
   ("parser.QuotedContentContext", "ExitRule", mkFn "s" [("listener", TName "antlr.ParseTreeListener")] [SIfIs "listenerT" (EVar "listener") parser_RFC5322ParserListener_iface [SExpr (EMethod (EVar "listenerT") "ExitQuotedContent" [EVar "s"])]]);
   ("parser.QuotedValueContext", "EnterRule", mkFn "s" [("listener", TName "antlr.ParseTreeListener")] [SIfIs "listenerT" (EVar "listener") parser_RFC5322ParserListener_iface [SExpr (EMethod (EVar "listenerT") "EnterQuotedValue" [EVar "s"])]]);
   ("parser.QuotedValueContext", "ExitRule", mkFn "s" [("listener", TName "antlr.ParseTreeListener")] [SIfIs "listenerT" (EVar "listener") parser_RFC5322ParserListener_iface [SExpr (EMethod (EVar "listenerT") "ExitQuotedValue" [EVar "s"])]]);
   ("parser.QuotedStringContext", "EnterRule", mkFn "s" [("listener", TName "antlr.ParseTreeListener")] [SIfIs "listenerT" (EVar "listener") parser_RFC5322ParserListener_iface [SExpr (EMethod (EVar "listenerT") "EnterQuotedString" [EVar "s"])]]);
   ("parser.QuotedStringContext", "ExitRule", mkFn "s" [("listener", TName "antlr.ParseTreeListener")] [SIfIs "listenerT" (EVar "listener") parser_RFC5322ParserListener_iface [SExpr (EMethod (EVar "listenerT") "ExitQuotedString" [EVar "s"])]]);
   ("parser.WordContext", "EnterRule", mkFn "s" [("listener", TName "antlr.ParseTreeListener")] [SIfIs "listenerT" (EVar "listener") parser_RFC5322ParserListener_iface [SExpr (EMethod (EVar "listenerT") "EnterWord" [EVar "s"])]]);
   ("parser.WordContext", "ExitRule", mkFn "s" [("listener", TName "antlr.ParseTreeListener")] [SIfIs "listenerT" (EVar "listener") parser_RFC5322ParserListener_iface [SExpr (EMethod (EVar "listenerT") "ExitWord" [EVar "s"])]]);
   ("parser.DateTimeContext", "EnterRule", mkFn "s" [("listener", TName "antlr.ParseTreeListener")] [SIfIs "listenerT" (EVar "listener") parser_RFC5322ParserListener_iface [SExpr (EMethod (EVar "listenerT") "EnterDateTime" [EVar "s"])]]);
   ("parser.DateTimeContext", "ExitRule", mkFn "s" [("listener", TName "antlr.ParseTreeListener")] [SIfIs "listenerT" (EVar "listener") parser_RFC5322ParserListener_iface [SExpr (EMethod (EVar "listenerT") "ExitDateTime" [EVar "s"])]]);
   ("parser.DayOfweekContext", "EnterRule", mkFn "s" [("listener", TName "antlr.ParseTreeListener")] [SIfIs "listenerT" (EVar "listener") parser_RFC5322ParserListener_iface [SExpr (EMethod (EVar "listenerT") "EnterDayOfweek" [EVar "s"])]]);
   ("parser.DayOfweekContext", "ExitRule", mkFn "s" [("listener", TName "antlr.ParseTreeListener")] [SIfIs "listenerT" (EVar "listener") parser_RFC5322ParserListener_iface [SExpr (EMethod (EVar "listenerT") "ExitDayOfweek" [EVar "s"])]]);
   ("parser.DayNameContext", "EnterRule", mkFn "s" [("listener", TName "antlr.ParseTreeListener")] [SIfIs "listenerT" (EVar "listener") parser_RFC5322ParserListener_iface [SExpr (EMethod (EVar "listenerT") "EnterDayName" [EVar "s"])]]);
   ("parser.DayNameContext", "ExitRule", mkFn "s" [("listener", TName "antlr.ParseTreeListener")] [SIfIs "listenerT" (EVar "listener") parser_RFC5322ParserListener_iface [SExpr (EMethod (EVar "listenerT") "ExitDayName" [EVar "s"])]]);
   ("parser.DayContext", "AllDigit", mkFn "s" [] [SReturn [EMethod (EVar "s") "GetTokens" [EConst T_Digit]]]);
   ("parser.DayContext", "EnterRule", mkFn "s" [("listener", TName "antlr.ParseTreeListener")] [SIfIs "listenerT" (EVar "listener") parser_RFC5322ParserListener_iface [SExpr (EMethod (EVar "listenerT") "EnterDay" [EVar "s"])]]);
   ("parser.DayContext", "ExitRule", mkFn "s" [("listener", TName "antlr.ParseTreeListener")] [SIfIs "listenerT" (EVar "listener") parser_RFC5322ParserListener_iface [SExpr (EMethod (EVar "listenerT") "ExitDay" [EVar "s"])]]);
   ("parser.MonthContext", "EnterRule", mkFn "s" [("listener", TName "antlr.ParseTreeListener")] [SIfIs "listenerT" (EVar "listener") parser_RFC5322ParserListener_iface [SExpr (EMethod (EVar "listenerT") "EnterMonth" [EVar "s"])]]);
   ("parser.MonthContext", "ExitRule", mkFn "s" [("listener", TName "antlr.ParseTreeListener")] [SIfIs "listenerT" (EVar "listener") parser_RFC5322ParserListener_iface [SExpr (EMethod (EVar "listenerT") "ExitMonth" [EVar "s"])]]);
   ("parser.YearContext", "AllDigit", mkFn "s" [] [SReturn [EMethod (EVar "s") "GetTokens" [EConst T_Digit]]]);
   ("parser.YearContext", "EnterRule", mkFn "s" [("listener", TName "antlr.ParseTreeListener")] [SIfIs "listenerT" (EVar "listener") parser_RFC5322ParserListener_iface [SExpr (EMethod (EVar "listenerT") "EnterYear" [EVar "s"])]]);
   ("parser.YearContext", "ExitRule", mkFn "s" [("listener", TName "antlr.ParseTreeListener")] [SIfIs "listenerT" (EVar "listener") parser_RFC5322ParserListener_iface [SExpr (EMethod (EVar "listenerT") "ExitYear" [EVar "s"])]]);
   ("parser.HourContext", "AllDigit", mkFn "s" [] [SReturn [EMethod (EVar "s") "GetTokens" [EConst T_Digit]]]);
   ("parser.HourContext", "EnterRule", mkFn "s" [("listener", TName "antlr.ParseTreeListener")] [SIfIs "listenerT" (EVar "listener") parser_RFC5322ParserListener_iface [SExpr (EMethod (EVar "listenerT") "EnterHour" [EVar "s"])]]);
   ("parser.HourContext", "ExitRule", mkFn "s" [("listener", TName "antlr.ParseTreeListener")] [SIfIs "listenerT" (EVar "listener") parser_RFC5322ParserListener_iface [SExpr (EMethod (EVar "listenerT") "ExitHour" [EVar "s"])]]);
   ("parser.MinuteContext", "AllDigit", mkFn "s" [] [SReturn [EMethod (EVar "s") "GetTokens" [EConst T_Digit]]]);
   ("parser.MinuteContext", "EnterRule", mkFn "s" [("listener", TName "antlr.ParseTreeListener")] [SIfIs "listenerT" (EVar "listener") parser_RFC5322ParserListener_iface [SExpr (EMethod (EVar "listenerT") "EnterMinute" [EVar "s"])]]);
   ("parser.MinuteContext", "ExitRule", mkFn "s" [("listener", TName "antlr.ParseTreeListener")] [SIfIs "listenerT" (EVar "listener") parser_RFC5322ParserListener_iface [SExpr (EMethod (EVar "listenerT") "ExitMinute" [EVar "s"])]]);
   ("parser.SecondContext", "AllDigit", mkFn "s" [] [SReturn [EMethod (EVar "s") "GetTokens" [EConst T_Digit]]]);
   ("parser.SecondContext", "EnterRule", mkFn "s" [("listener", TName "antlr.ParseTreeListener")] [SIfIs "listenerT" (EVar "listener") parser_RFC5322ParserListener_iface [SExpr (EMethod (EVar "listenerT") "EnterSecond" [EVar "s"])]]);
   ("parser.SecondContext", "ExitRule", mkFn "s" [("listener", TName "antlr.ParseTreeListener")] [SIfIs "listenerT" (EVar "listener") parser_RFC5322ParserListener_iface [SExpr (EMethod (EVar "listenerT") "ExitSecond" [EVar "s"])]]);
   ("parser.OffsetContext", "AllDigit", mkFn "s" [] [SReturn [EMethod (EVar "s") "GetTokens" [EConst T_Digit]]]);
   ("parser.OffsetContext", "EnterRule", mkFn "s" [("listener", TName "antlr.ParseTreeListener")] [SIfIs "listenerT" (EVar "listener") parser_RFC5322ParserListener_iface [SExpr (EMethod (EVar "listenerT") "EnterOffset" [EVar "s"])]]);
   ("parser.OffsetContext", "ExitRule", mkFn "s" [("listener", TName "antlr.ParseTreeListener")] [SIfIs "listenerT" (EVar "listener") parser_RFC5322ParserListener_iface [SExpr (EMethod (EVar "listenerT") "ExitOffset" [EVar "s"])]]);
   ("parser.ZoneContext", "EnterRule", mkFn "s" [("listener", TName "antlr.ParseTreeListener")] [SIfIs "listenerT" (EVar "listener") parser_RFC5322ParserListener_iface [SExpr (EMethod (EVar "listenerT") "EnterZone" [EVar "s"])]]);
   ("parser.ZoneContext", "ExitRule", mkFn "s" [("listener", TName "antlr.ParseTreeListener")] [SIfIs "listenerT" (EVar "listener") parser_RFC5322ParserListener_iface [SExpr (EMethod (EVar "listenerT") "ExitZone" [EVar "s"])]]);
   ("parser.AddressContext", "EnterRule", mkFn "s" [("listener", TName "antlr.ParseTreeListener")] [SIfIs "listenerT" (EVar "listener") parser_RFC5322ParserListener_iface [SExpr (EMethod (EVar "listenerT") "EnterAddress" [EVar "s"])]]);
   ("parser.AddressContext", "ExitRule", mkFn "s" [("listener", TName "antlr.ParseTreeListener")] [SIfIs "listenerT" (EVar "listener") parser_RFC5322ParserListener_iface [SExpr (EMethod (EVar "listenerT") "ExitAddress" [EVar "s"])]]);
   ("parser.MailboxContext", "EnterRule", mkFn "s" [("listener", TName "antlr.ParseTreeListener")] [SIfIs "listenerT" (EVar "listener") parser_RFC5322ParserListener_iface [SExpr (EMethod (EVar "listenerT") "EnterMailbox" [EVar "s"])]]);
   ("parser.MailboxContext", "ExitRule", mkFn "s" [("listener", TName "antlr.ParseTreeListener")] [SIfIs "listenerT" (EVar "listener") parser_RFC5322ParserListener_iface [SExpr (EMethod (EVar "listenerT") "ExitMailbox" [EVar "s"])]]);
   ("parser.NameAddrContext", "EnterRule", mkFn "s" [("listener", TName "antlr.ParseTreeListener")] [SIfIs "listenerT" (EVar "listener") parser_RFC5322ParserListener_iface [SExpr (EMethod (EVar "listenerT") "EnterNameAddr" [EVar "s"])]]);
   ("parser.NameAddrContext", "ExitRule", mkFn "s" [("listener", TName "antlr.ParseTreeListener")] [SIfIs "listenerT" (EVar "listener") parser_RFC5322ParserListener_iface [SExpr (EMethod (EVar "listenerT") "ExitNameAddr" [EVar "s"])]]);
   ("parser.AngleAddrContext", "EnterRule", mkFn "s" [("listener", TName "antlr.ParseTreeListener")] [SIfIs "listenerT" (EVar "listener") parser_RFC5322ParserListener_iface [SExpr (EMethod (EVar "listenerT") "EnterAngleAddr" [EVar "s"])]]);
   ("parser.AngleAddrContext", "ExitRule", mkFn "s" [("listener", TName "antlr.ParseTreeListener")] [SIfIs "listenerT" (EVar "listener") parser_RFC5322ParserListener_iface [SExpr (EMethod (EVar "listenerT") "ExitAngleAddr" [EVar "s"])]]);
   ("parser.GroupContext", "EnterRule", mkFn "s" [("listener", TName "antlr.ParseTreeListener")] [SIfIs "listenerT" (EVar "listener") parser_RFC5322ParserListener_iface [SExpr (EMethod (EVar "listenerT") "EnterGroup" [EVar "s"])]]);
   ("parser.GroupContext", "ExitRule", mkFn "s" [("listener", TName "antlr.ParseTreeListener")] [SIfIs "listenerT" (EVar "listener") parser_RFC5322ParserListener_iface [SExpr (EMethod (EVar "listenerT") "ExitGroup" [EVar "s"])]]);
   ("parser.UnspacedContext", "EnterRule", mkFn "s" [("listener", TName "antlr.ParseTreeListener")] [SIfIs "listenerT" (EVar "listener") parser_RFC5322ParserListener_iface [SExpr (EMethod (EVar "listenerT") "EnterUnspaced" [EVar "s"])]]);
   ("parser.UnspacedContext", "ExitRule", mkFn "s" [("listener", TName "antlr.ParseTreeListener")] [SIfIs "listenerT" (EVar "listener") parser_RFC5322ParserListener_iface [SExpr (EMethod (EVar "listenerT") "ExitUnspaced" [EVar "s"])]]);
   ("parser.DisplayNameContext", "EnterRule", mkFn "s" [("listener", TName "antlr.ParseTreeListener")] [SIfIs "listenerT" (EVar "listener") parser_RFC5322ParserListener_iface [SExpr (EMethod (EVar "listenerT") "EnterDisplayName" [EVar "s"])]]);
   ("parser.DisplayNameContext", "ExitRule", mkFn "s" [("listener", TName "antlr.ParseTreeListener")] [SIfIs "listenerT" (EVar "listener") parser_RFC5322ParserListener_iface [SExpr (EMethod (EVar "listenerT") "ExitDisplayName" [EVar "s"])]]);
   ("parser.MailboxListContext", "EnterRule", mkFn "s" [("listener", TName "antlr.ParseTreeListener")] [SIfIs "listenerT" (EVar "listener") parser_RFC5322ParserListener_iface [SExpr (EMethod (EVar "listenerT") "EnterMailboxList" [EVar "s"])]]);
   ("parser.MailboxListContext", "ExitRule", mkFn "s" [("listener", TName "antlr.ParseTreeListener")] [SIfIs "listenerT" (EVar "listener") parser_RFC5322ParserListener_iface [SExpr (EMethod (EVar "listenerT") "ExitMailboxList" [EVar "s"])]]);
   ("parser.AddressListContext", "EnterRule", mkFn "s" [("listener", TName "antlr.ParseTreeListener")] [SIfIs "listenerT" (EVar "listener") parser_RFC5322ParserListener_iface [SExpr (EMethod (EVar "listenerT") "EnterAddressList" [EVar "s"])]]);
   ("parser.AddressListContext", "ExitRule", mkFn "s" [("listener", TName "antlr.ParseTreeListener")] [SIfIs "listenerT" (EVar "listener") parser_RFC5322ParserListener_iface [SExpr (EMethod (EVar "listenerT") "ExitAddressList" [EVar "s"])]]);
   ("parser.GroupListContext", "EnterRule", mkFn "s" [("listener", TName "antlr.ParseTreeListener")] [SIfIs "listenerT" (EVar "listener") parser_RFC5322ParserListener_iface [SExpr (EMethod (EVar "listenerT") "EnterGroupList" [EVar "s"])]]);
   ("parser.GroupListContext", "ExitRule", mkFn "s" [("listener", TName "antlr.ParseTreeListener")] [SIfIs "listenerT" (EVar "listener") parser_RFC5322ParserListener_iface [SExpr (EMethod (EVar "listenerT") "ExitGroupList" [EVar "s"])]]);
   ("parser.AddrSpecContext", "EnterRule", mkFn "s" [("listener", TName "antlr.ParseTreeListener")] [SIfIs "listenerT" (EVar "listener") parser_RFC5322ParserListener_iface [SExpr (EMethod (EVar "listenerT") "EnterAddrSpec" [EVar "s"])]]);
   ("parser.AddrSpecContext", "ExitRule", mkFn "s" [("listener", TName "antlr.ParseTreeListener")] [SIfIs "listenerT" (EVar "listener") parser_RFC5322ParserListener_iface [SExpr (EMethod (EVar "listenerT") "ExitAddrSpec" [EVar "s"])]]);
   ("parser.LocalPartContext", "EnterRule", mkFn "s" [("listener", TName "antlr.ParseTreeListener")] [SIfIs "listenerT" (EVar "listener") parser_RFC5322ParserListener_iface [SExpr (EMethod (EVar "listenerT") "EnterLocalPart" [EVar "s"])]]);
   ("parser.LocalPartContext", "ExitRule", mkFn "s" [("listener", TName "antlr.ParseTreeListener")] [SIfIs "listenerT" (EVar "listener") parser_RFC5322ParserListener_iface [SExpr (EMethod (EVar "listenerT") "ExitLocalPart" [EVar "s"])]]);
   ("parser.PortContext", "AllDigit", mkFn "s" [] [SReturn [EMethod (EVar "s") "GetTokens" [EConst T_Digit]]]);
   ("parser.PortContext", "EnterRule", mkFn "s" [("listener", TName "antlr.ParseTreeListener")] [SIfIs "listenerT" (EVar "listener") parser_RFC5322ParserListener_iface [SExpr (EMethod (EVar "listenerT") "EnterPort" [EVar "s"])]]);
   ("parser.PortContext", "ExitRule", mkFn "s" [("listener", TName "antlr.ParseTreeListener")] [SIfIs "listenerT" (EVar "listener") parser_RFC5322ParserListener_iface [SExpr (EMethod (EVar "listenerT") "ExitPort" [EVar "s"])]]);
   ("parser.DomainContext", "EnterRule", mkFn "s" [("listener", TName "antlr.ParseTreeListener")] [SIfIs "listenerT" (EVar "listener") parser_RFC5322ParserListener_iface [SExpr (EMethod (EVar "listenerT") "EnterDomain" [EVar "s"])]]);
   ("parser.DomainContext", "ExitRule", mkFn "s" [("listener", TName "antlr.ParseTreeListener")] [SIfIs "listenerT" (EVar "listener") parser_RFC5322ParserListener_iface [SExpr (EMethod (EVar "listenerT") "ExitDomain" [EVar "s"])]]);
   ("parser.DomainLiteralContext", "EnterRule", mkFn "s" [("listener", TName "antlr.ParseTreeListener")] [SIfIs "listenerT" (EVar "listener") parser_RFC5322ParserListener_iface [SExpr (EMethod (EVar "listenerT") "EnterDomainLiteral" [EVar "s"])]]);
   ("parser.DomainLiteralContext", "ExitRule", mkFn "s" [("listener", TName "antlr.ParseTreeListener")] [SIfIs "listenerT" (EVar "listener") parser_RFC5322ParserListener_iface [SExpr (EMethod (EVar "listenerT") "ExitDomainLiteral" [EVar "s"])]]);
   ("parser.DtextContext", "EnterRule", mkFn "s" [("listener", TName "antlr.ParseTreeListener")] [SIfIs "listenerT" (EVar "listener") parser_RFC5322ParserListener_iface [SExpr (EMethod (EVar "listenerT") "EnterDtext" [EVar "s"])]]);
   ("parser.DtextContext", "ExitRule", mkFn "s" [("listener", TName "antlr.ParseTreeListener")] [SIfIs "listenerT" (EVar "listener") parser_RFC5322ParserListener_iface [SExpr (EMethod (EVar "listenerT") "ExitDtext" [EVar "s"])]]);
   ("parser.ObsNoWSCTLContext", "EnterRule", mkFn "s" [("listener", TName "antlr.ParseTreeListener")] [SIfIs "listenerT" (EVar "listener") parser_RFC5322ParserListener_iface [SExpr (EMethod (EVar "listenerT") "EnterObsNoWSCTL" [EVar "s"])]]);
   ("parser.ObsNoWSCTLContext", "ExitRule", mkFn "s" [("listener", TName "antlr.ParseTreeListener")] [SIfIs "listenerT" (EVar "listener") parser_RFC5322ParserListener_iface [SExpr (EMethod (EVar "listenerT") "ExitObsNoWSCTL" [EVar "s"])]]);
   ("parser.ObsCtextContext", "EnterRule", mkFn "s" [("listener", TName "antlr.ParseTreeListener")] [SIfIs "listenerT" (EVar "listener") parser_RFC5322ParserListener_iface [SExpr (EMethod (EVar "listenerT") "EnterObsCtext" [EVar "s"])]]);
   ("parser.ObsCtextContext", "ExitRule", mkFn "s" [("listener", TName "antlr.ParseTreeListener")] [SIfIs "listenerT" (EVar "listener") parser_RFC5322ParserListener_iface [SExpr (EMethod (EVar "listenerT") "ExitObsCtext" [EVar "s"])]]);
   ("parser.ObsQtextContext", "EnterRule", mkFn "s" [("listener", TName "antlr.ParseTreeListener")] [SIfIs "listenerT" (EVar "listener") parser_RFC5322ParserListener_iface [SExpr (EMethod (EVar "listenerT") "EnterObsQtext" [EVar "s"])]]);
   ("parser.ObsQtextContext", "ExitRule", mkFn "s" [("listener", TName "antlr.ParseTreeListener")] [SIfIs "listenerT" (EVar "listener") parser_RFC5322ParserListener_iface [SExpr (EMethod (EVar "listenerT") "ExitObsQtext" [EVar "s"])]]);
   ("parser.ObsQPContext", "EnterRule", mkFn "s" [("listener", TName "antlr.ParseTreeListener")] [SIfIs "listenerT" (EVar "listener") parser_RFC5322ParserListener_iface [SExpr (EMethod (EVar "listenerT") "EnterObsQP" [EVar "s"])]]);
   ("parser.ObsQPContext", "ExitRule", mkFn "s" [("listener", TName "antlr.ParseTreeListener")] [SIfIs "listenerT" (EVar "listener") parser_RFC5322ParserListener_iface [SExpr (EMethod (EVar "listenerT") "ExitObsQP" [EVar "s"])]]);
   ("parser.ObsFWSContext", "EnterRule", mkFn "s" [("listener", TName "antlr.ParseTreeListener")] [SIfIs "listenerT" (EVar "listener") parser_RFC5322ParserListener_iface [SExpr (EMethod (EVar "listenerT") "EnterObsFWS" [EVar "s"])]]);
   ("parser.ObsFWSContext", "ExitRule", mkFn "s" [("listener", TName "antlr.ParseTreeListener")] [SIfIs "listenerT" (EVar "listener") parser_RFC5322ParserListener_iface [SExpr (EMethod (EVar "listenerT") "ExitObsFWS" [EVar "s"])]]);
   ("parser.ObsZoneContext", "EnterRule", mkFn "s" [("listener", TName "antlr.ParseTreeListener")] [SIfIs "listenerT" (EVar "listener") parser_RFC5322ParserListener_iface [SExpr (EMethod (EVar "listenerT") "EnterObsZone" [EVar "s"])]]);
   ("parser.ObsZoneContext", "ExitRule", mkFn "s" [("listener", TName "antlr.ParseTreeListener")] [SIfIs "listenerT" (EVar "listener") parser_RFC5322ParserListener_iface [SExpr (EMethod (EVar "listenerT") "ExitObsZone" [EVar "s"])]]);
   ("parser.ObsAngleAddrContext", "EnterRule", mkFn "s" [("listener", TName "antlr.ParseTreeListener")] [SIfIs "listenerT" (EVar "listener") parser_RFC5322ParserListener_iface [SExpr (EMethod (EVar "listenerT") "EnterObsAngleAddr" [EVar "s"])]]);
   ("parser.ObsAngleAddrContext", "ExitRule", mkFn "s" [("listener", TName "antlr.ParseTreeListener")] [SIfIs "listenerT" (EVar "listener") parser_RFC5322ParserListener_iface [SExpr (EMethod (EVar "listenerT") "ExitObsAngleAddr" [EVar "s"])]]);
   ("parser.ObsRouteContext", "EnterRule", mkFn "s" [("listener", TName "antlr.ParseTreeListener")] [SIfIs "listenerT" (EVar "listener") parser_RFC5322ParserListener_iface [SExpr (EMethod (EVar "listenerT") "EnterObsRoute" [EVar "s"])]]);
   ("parser.ObsRouteContext", "ExitRule", mkFn "s" [("listener", TName "antlr.ParseTreeListener")] [SIfIs "listenerT" (EVar "listener") parser_RFC5322ParserListener_iface [SExpr (EMethod (EVar "listenerT") "ExitObsRoute" [EVar "s"])]]);
   ("parser.ObsDomainListContext", "EnterRule", mkFn "s" [("listener", TName "antlr.ParseTreeListener")] [SIfIs "listenerT" (EVar "listener") parser_RFC5322ParserListener_iface [SExpr (EMethod (EVar "listenerT") "EnterObsDomainList" [EVar "s"])]]);
   ("parser.ObsDomainListContext", "ExitRule", mkFn "s" [("listener", TName "antlr.ParseTreeListener")] [SIfIs "listenerT" (EVar "listener") parser_RFC5322ParserListener_iface [SExpr (EMethod (EVar "listenerT") "ExitObsDomainList" [EVar "s"])]]);
   ("parser.ObsMboxListContext", "EnterRule", mkFn "s" [("listener", TName "antlr.ParseTreeListener")] [SIfIs "listenerT" (EVar "listener") parser_RFC5322ParserListener_iface [SExpr (EMethod (EVar "listenerT") "EnterObsMboxList" [EVar "s"])]]);
   ("parser.ObsMboxListContext", "ExitRule", mkFn "s" [("listener", TName "antlr.ParseTreeListener")] [SIfIs "listenerT" (EVar "listener") parser_RFC5322ParserListener_iface [SExpr (EMethod (EVar "listenerT") "ExitObsMboxList" [EVar "s"])]]);
   ("parser.ObsAddrListContext", "EnterRule", mkFn "s" [("listener", TName "antlr.ParseTreeListener")] [SIfIs "listenerT" (EVar "listener") parser_RFC5322ParserListener_iface [SExpr (EMethod (EVar "listenerT") "EnterObsAddrList" [EVar "s"])]]);
   ("parser.ObsAddrListContext", "ExitRule", mkFn "s" [("listener", TName "antlr.ParseTreeListener")] [SIfIs "listenerT" (EVar "listener") parser_RFC5322ParserListener_iface [SExpr (EMethod (EVar "listenerT") "ExitObsAddrList" [EVar "s"])]]);
   ("parser.ObsGroupListContext", "EnterRule", mkFn "s" [("listener", TName "antlr.ParseTreeListener")] [SIfIs "listenerT" (EVar "listener") parser_RFC5322ParserListener_iface [SExpr (EMethod (EVar "listenerT") "EnterObsGroupList" [EVar "s"])]]);
   ("parser.ObsGroupListContext", "ExitRule", mkFn "s" [("listener", TName "antlr.ParseTreeListener")] [SIfIs "listenerT" (EVar "listener") parser_RFC5322ParserListener_iface [SExpr (EMethod (EVar "listenerT") "ExitObsGroupList" [EVar "s"])]]);
   ("parser.ObsLocalPartContext", "EnterRule", mkFn "s" [("listener", TName "antlr.ParseTreeListener")] [SIfIs "listenerT" (EVar "listener") parser_RFC5322ParserListener_iface [SExpr (EMethod (EVar "listenerT") "EnterObsLocalPart" [EVar "s"])]]);
   ("parser.ObsLocalPartContext", "ExitRule", mkFn "s" [("listener", TName "antlr.ParseTreeListener")] [SIfIs "listenerT" (EVar "listener") parser_RFC5322ParserListener_iface [SExpr (EMethod (EVar "listenerT") "ExitObsLocalPart" [EVar "s"])]]);
   ("parser.ObsDomainContext", "EnterRule", mkFn "s" [("listener", TName "antlr.ParseTreeListener")] [SIfIs "listenerT" (EVar "listener") parser_RFC5322ParserListener_iface [SExpr (EMethod (EVar "listenerT") "EnterObsDomain" [EVar "s"])]]);
   ("parser.ObsDomainContext", "ExitRule", mkFn "s" [("listener", TName "antlr.ParseTreeListener")] [SIfIs "listenerT" (EVar "listener") parser_RFC5322ParserListener_iface [SExpr (EMethod (EVar "listenerT") "ExitObsDomain" [EVar "s"])]]);
   ("parser.EncodedWordContext", "EnterRule", mkFn "s" [("listener", TName "antlr.ParseTreeListener")] [SIfIs "listenerT" (EVar "listener") parser_RFC5322ParserListener_iface [SExpr (EMethod (EVar "listenerT") "EnterEncodedWord" [EVar "s"])]]);
   ("parser.EncodedWordContext", "ExitRule", mkFn "s" [("listener", TName "antlr.ParseTreeListener")] [SIfIs "listenerT" (EVar "listener") parser_RFC5322ParserListener_iface [SExpr (EMethod (EVar "listenerT") "ExitEncodedWord" [EVar "s"])]]);
   ("parser.CharsetContext", "EnterRule", mkFn "s" [("listener", TName "antlr.ParseTreeListener")] [SIfIs "listenerT" (EVar "listener") parser_RFC5322ParserListener_iface [SExpr (EMethod (EVar "listenerT") "EnterCharset" [EVar "s"])]]);
   ("parser.CharsetContext", "ExitRule", mkFn "s" [("listener", TName "antlr.ParseTreeListener")] [SIfIs "listenerT" (EVar "listener") parser_RFC5322ParserListener_iface [SExpr (EMethod (EVar "listenerT") "ExitCharset" [EVar "s"])]]);
   ("parser.EncodingContext", "EnterRule", mkFn "s" [("listener", TName "antlr.ParseTreeListener")] [SIfIs "listenerT" (EVar "listener") parser_RFC5322ParserListener_iface [SExpr (EMethod (EVar "listenerT") "EnterEncoding" [EVar "s"])]]);
   ("parser.EncodingContext", "ExitRule", mkFn "s" [("listener", TName "antlr.ParseTreeListener")] [SIfIs "listenerT" (EVar "listener") parser_RFC5322ParserListener_iface [SExpr (EMethod (EVar "listenerT") "ExitEncoding" [EVar "s"])]]);
   ("parser.TokenContext", "EnterRule", mkFn "s" [("listener", TName "antlr.ParseTreeListener")] [SIfIs "listenerT" (EVar "listener") parser_RFC5322ParserListener_iface [SExpr (EMethod (EVar "listenerT") "EnterToken" [EVar "s"])]]);
   ("parser.TokenContext", "ExitRule", mkFn "s" [("listener", TName "antlr.ParseTreeListener")] [SIfIs "listenerT" (EVar "listener") parser_RFC5322ParserListener_iface [SExpr (EMethod (EVar "listenerT") "ExitToken" [EVar "s"])]]);
   ("parser.TokenCharContext", "EnterRule", mkFn "s" [("listener", TName "antlr.ParseTreeListener")] [SIfIs "listenerT" (EVar "listener") parser_RFC5322ParserListener_iface [SExpr (EMethod (EVar "listenerT") "EnterTokenChar" [EVar "s"])]]);
   ("parser.TokenCharContext", "ExitRule", mkFn "s" [("listener", TName "antlr.ParseTreeListener")] [SIfIs "listenerT" (EVar "listener") parser_RFC5322ParserListener_iface [SExpr (EMethod (EVar "listenerT") "ExitTokenChar" [EVar "s"])]]);
   ("parser.EncodedTextContext", "EnterRule", mkFn "s" [("listener", TName "antlr.ParseTreeListener")] [SIfIs "listenerT" (EVar "listener") parser_RFC5322ParserListener_iface [SExpr (EMethod (EVar "listenerT") "EnterEncodedText" [EVar "s"])]]);
   ("parser.EncodedTextContext", "ExitRule", mkFn "s" [("listener", TName "antlr.ParseTreeListener")] [SIfIs "listenerT" (EVar "listener") parser_RFC5322ParserListener_iface [SExpr (EMethod (EVar "listenerT") "ExitEncodedText" [EVar "s"])]]);
   ("parser.EncodedCharContext", "EnterRule", mkFn "s" [("listener", TName "antlr.ParseTreeListener")] [SIfIs "listenerT" (EVar "listener") parser_RFC5322ParserListener_iface [SExpr (EMethod (EVar "listenerT") "EnterEncodedChar" [EVar "s"])]]);
   ("parser.EncodedCharContext", "ExitRule", mkFn "s" [("listener", TName "antlr.ParseTreeListener")] [SIfIs "listenerT" (EVar "listener") parser_RFC5322ParserListener_iface [SExpr (EMethod (EVar "listenerT") "ExitEncodedChar" [EVar "s"])]]);
   ("parser.CrlfContext", "EnterRule", mkFn "s" [("listener", TName "antlr.ParseTreeListener")] [SIfIs "listenerT" (EVar "listener") parser_RFC5322ParserListener_iface [SExpr (EMethod (EVar "listenerT") "EnterCrlf" [EVar "s"])]]);
   ("parser.CrlfContext", "ExitRule", mkFn "s" [("listener", TName "antlr.ParseTreeListener")] [SIfIs "listenerT" (EVar "listener") parser_RFC5322ParserListener_iface [SExpr (EMethod (EVar "listenerT") "ExitCrlf" [EVar "s"])]]);
   ("parser.WspContext", "EnterRule", mkFn "s" [("listener", TName "antlr.ParseTreeListener")] [SIfIs "listenerT" (EVar "listener") parser_RFC5322ParserListener_iface [SExpr (EMethod (EVar "listenerT") "EnterWsp" [EVar "s"])]]);
   ("parser.WspContext", "ExitRule", mkFn "s" [("listener", TName "antlr.ParseTreeListener")] [SIfIs "listenerT" (EVar "listener") parser_RFC5322ParserListener_iface [SExpr (EMethod (EVar "listenerT") "ExitWsp" [EVar "s"])]]);
   ("parser.VcharContext", "EnterRule", mkFn "s" [("listener", TName "antlr.ParseTreeListener")] [SIfIs "listenerT" (EVar "listener") parser_RFC5322ParserListener_iface [SExpr (EMethod (EVar "listenerT") "EnterVchar" [EVar "s"])]]);
   ("parser.VcharContext", "ExitRule", mkFn "s" [("listener", TName "antlr.ParseTreeListener")] [SIfIs "listenerT" (EVar "listener") parser_RFC5322ParserListener_iface [SExpr (EMethod (EVar "listenerT") "ExitVchar" [EVar "s"])]]);
   ("parser.AlphaContext", "EnterRule", mkFn "s" [("listener", TName "antlr.ParseTreeListener")] [SIfIs "listenerT" (EVar "listener") parser_RFC5322ParserListener_iface [SExpr (EMethod (EVar "listenerT") "EnterAlpha" [EVar "s"])]]);
   ("parser.AlphaContext", "ExitRule", mkFn "s" [("listener", TName "antlr.ParseTreeListener")] [SIfIs "listenerT" (EVar "listener") parser_RFC5322ParserListener_iface [SExpr (EMethod (EVar "listenerT") "ExitAlpha" [EVar "s"])]])].

(** The type of the context that the rule function makes. *)
(* /repo: parser/rfc5322_parser.go: "localctx = New...Context(...)" in the rule functions, and these New functions *)
Definition context_type (r : rule) : string :=
  match r with
  | R_quotedChar => "parser.QuotedCharContext"
  | R_quotedPair => "parser.QuotedPairContext"
  | R_fws => "parser.FwsContext"
  | R_ctext => "parser.CtextContext"
  | R_ccontent => "parser.CcontentContext"
  | R_comment => "parser.CommentContext"
  | R_cfws => "parser.CfwsContext"
  | R_atext => "parser.AtextContext"
  | R_atom => "parser.AtomContext"
  | R_dotAtom => "parser.DotAtomContext"
  | R_qtext => "parser.QtextContext"
  | R_quotedContent => "parser.QuotedContentContext"
  | R_quotedValue => "parser.QuotedValueContext"
  | R_quotedString => "parser.QuotedStringContext"
  | R_word => "parser.WordContext"
  | R_dateTime => "parser.DateTimeContext"
  | R_dayOfweek => "parser.DayOfweekContext"
  | R_dayName => "parser.DayNameContext"
  | R_day => "parser.DayContext"
  | R_month => "parser.MonthContext"
  | R_year => "parser.YearContext"
  | R_hour => "parser.HourContext"
  | R_minute => "parser.MinuteContext"
  | R_second => "parser.SecondContext"
  | R_offset => "parser.OffsetContext"
  | R_zone => "parser.ZoneContext"
  | R_address => "parser.AddressContext"
  | R_mailbox => "parser.MailboxContext"
  | R_nameAddr => "parser.NameAddrContext"
  | R_angleAddr => "parser.AngleAddrContext"
  | R_group => "parser.GroupContext"
  | R_unspaced => "parser.UnspacedContext"
  | R_displayName => "parser.DisplayNameContext"
  | R_mailboxList => "parser.MailboxListContext"
  | R_addressList => "parser.AddressListContext"
  | R_groupList => "parser.GroupListContext"
  | R_addrSpec => "parser.AddrSpecContext"
  | R_localPart => "parser.LocalPartContext"
  | R_port => "parser.PortContext"
  | R_domain => "parser.DomainContext"
  | R_domainLiteral => "parser.DomainLiteralContext"
  | R_dtext => "parser.DtextContext"
  | R_obsNoWSCTL => "parser.ObsNoWSCTLContext"
  | R_obsCtext => "parser.ObsCtextContext"
  | R_obsQtext => "parser.ObsQtextContext"
  | R_obsQP => "parser.ObsQPContext"
  | R_obsFWS => "parser.ObsFWSContext"
  | R_obsZone => "parser.ObsZoneContext"
  | R_obsAngleAddr => "parser.ObsAngleAddrContext"
  | R_obsRoute => "parser.ObsRouteContext"
  | R_obsDomainList => "parser.ObsDomainListContext"
  | R_obsMboxList => "parser.ObsMboxListContext"
  | R_obsAddrList => "parser.ObsAddrListContext"
  | R_obsGroupList => "parser.ObsGroupListContext"
  | R_obsLocalPart => "parser.ObsLocalPartContext"
  | R_obsDomain => "parser.ObsDomainContext"
  | R_encodedWord => "parser.EncodedWordContext"
  | R_charset => "parser.CharsetContext"
  | R_encoding => "parser.EncodingContext"
  | R_token => "parser.TokenContext"
  | R_tokenChar => "parser.TokenCharContext"
  | R_encodedText => "parser.EncodedTextContext"
  | R_encodedChar => "parser.EncodedCharContext"
  | R_crlf => "parser.CrlfContext"
  | R_wsp => "parser.WspContext"
  | R_vchar => "parser.VcharContext"
  | R_alpha => "parser.AlphaContext"
  end.

(* /repo: addr_spec.go:11-37 *)
Definition addr_spec_go : list method :=
  [("addrSpec", "withLocalPart", mkFn "a" [("localPart", TPtr (TName "localPart"))] [SAssign (EField (EVar "a") "localPart") (EField (EVar "localPart") "value")]);
   ("addrSpec", "withDomain", mkFn "a" [("domain", TPtr (TName "domain"))] [SAssign (EField (EVar "a") "domain") (EField (EVar "domain") "value")]);
   ("addrSpec", "withPort", mkFn "a" [("port", TPtr (TName "port"))] [SAddAssign (EField (EVar "a") "domain") (EBin OAdd (EStr ":") (EField (EVar "port") "value"))]);
   ("walker", "EnterAddrSpec", mkFn "w" [("ctx", TPtr (TName "parser.AddrSpecContext"))] [SExpr (EMethod (EVar "w") "enter" [ENew "addrSpec" []])]);
   ("walker", "ExitAddrSpec", mkFn "w" [("ctx", TPtr (TName "parser.AddrSpecContext"))] [SDefine ["res"] (EAssert (EMethod (EVar "w") "exit" []) (TPtr (TName "addrSpec"))); SIfIs "parent" (EMethod (EVar "w") "parent" []) [("withAddrSpec", [TPtr (TName "addrSpec")])] [SExpr (EMethod (EVar "parent") "withAddrSpec" [EVar "res"])]])].

(* /repo: address.go:13-38 *)
Definition address_go : list method :=
  [("address", "withMailbox", mkFn "a" [("mailbox", TPtr (TName "mailbox"))] [SAssign (EField (EVar "a") "addresses") (EAppend (EField (EVar "a") "addresses") (ENew "mail.Address" [("Name", EField (EVar "mailbox") "name"); ("Address", EField (EVar "mailbox") "address")]))]);
   ("address", "withGroup", mkFn "a" [("group", TPtr (TName "group"))] [SAssign (EField (EVar "a") "addresses") (EAppendAll (EField (EVar "a") "addresses") (EField (EVar "group") "addresses"))]);
   ("walker", "EnterAddress", mkFn "w" [("ctx", TPtr (TName "parser.AddressContext"))] [SExpr (EMethod (EVar "w") "enter" [ENew "address" []])]);
   ("walker", "ExitAddress", mkFn "w" [("ctx", TPtr (TName "parser.AddressContext"))] [SDefine ["res"] (EAssert (EMethod (EVar "w") "exit" []) (TPtr (TName "address"))); SIfIs "parent" (EMethod (EVar "w") "parent" []) [("withAddress", [TPtr (TName "address")])] [SExpr (EMethod (EVar "parent") "withAddress" [EVar "res"])]])].

(* /repo: address_list.go:13-23 *)
Definition address_list_go : list method :=
  [("addressList", "withAddress", mkFn "a" [("address", TPtr (TName "address"))] [SAssign (EField (EVar "a") "addresses") (EAppendAll (EField (EVar "a") "addresses") (EField (EVar "address") "addresses"))]);
   ("walker", "EnterAddressList", mkFn "w" [("ctx", TPtr (TName "parser.AddressListContext"))] [SExpr (EMethod (EVar "w") "enter" [ENew "addressList" []])]);
   ("walker", "ExitAddressList", mkFn "w" [("ctx", TPtr (TName "parser.AddressListContext"))] [SAssign (EField (EVar "w") "res") (EField (EAssert (EMethod (EVar "w") "exit" []) (TPtr (TName "addressList"))) "addresses")])].

(* /repo: angle_addr.go:13-35 *)
Definition angle_addr_go : list method :=
  [("angleAddr", "withAddrSpec", mkFn "a" [("addrSpec", TPtr (TName "addrSpec"))] [SAssign (EField (EVar "a") "address") (ECall "fmt.Sprintf" [EStr "%v@%v"; EField (EVar "addrSpec") "localPart"; EField (EVar "addrSpec") "domain"])]);
   ("angleAddr", "withObsAngleAddr", mkFn "a" [("obsAngleAddr", TPtr (TName "obsAngleAddr"))] [SAssign (EField (EVar "a") "address") (EField (EVar "obsAngleAddr") "address")]);
   ("walker", "EnterAngleAddr", mkFn "w" [("ctx", TPtr (TName "parser.AngleAddrContext"))] [SExpr (EMethod (EVar "w") "enter" [ENew "angleAddr" []])]);
   ("walker", "ExitAngleAddr", mkFn "w" [("ctx", TPtr (TName "parser.AngleAddrContext"))] [SDefine ["res"] (EAssert (EMethod (EVar "w") "exit" []) (TPtr (TName "angleAddr"))); SIfIs "parent" (EMethod (EVar "w") "parent" []) [("withAngleAddr", [TPtr (TName "angleAddr")])] [SExpr (EMethod (EVar "parent") "withAngleAddr" [EVar "res"])]])].

(* /repo: atom.go:11-27 *)
Definition atom_go : list method :=
  [("walker", "EnterAtom", mkFn "w" [("ctx", TPtr (TName "parser.AtomContext"))] [SExpr (EMethod (EVar "w") "enter" [ENew "atom" [("value", EMethod (EVar "ctx") "GetText" [])]])]);
   ("walker", "ExitAtom", mkFn "w" [("ctx", TPtr (TName "parser.AtomContext"))] [SDefine ["res"] (EAssert (EMethod (EVar "w") "exit" []) (TPtr (TName "atom"))); SIfIs "parent" (EMethod (EVar "w") "parent" []) [("withAtom", [TPtr (TName "atom")])] [SExpr (EMethod (EVar "parent") "withAtom" [EVar "res"])]])].

(* /repo: date_time.go:19-57 *)
Definition date_time_go : list method :=
  [("dateTime", "withDay", mkFn "dt" [("day", TPtr (TName "day"))] [SAssign (EField (EVar "dt") "day") (EField (EVar "day") "value")]);
   ("dateTime", "withMonth", mkFn "dt" [("month", TPtr (TName "month"))] [SAssign (EField (EVar "dt") "month") (EField (EVar "month") "value")]);
   ("dateTime", "withYear", mkFn "dt" [("year", TPtr (TName "year"))] [SAssign (EField (EVar "dt") "year") (EField (EVar "year") "value")]);
   ("dateTime", "withHour", mkFn "dt" [("hour", TPtr (TName "hour"))] [SAssign (EField (EVar "dt") "hour") (EField (EVar "hour") "value")]);
   ("dateTime", "withMinute", mkFn "dt" [("minute", TPtr (TName "minute"))] [SAssign (EField (EVar "dt") "min") (EField (EVar "minute") "value")]);
   ("dateTime", "withSecond", mkFn "dt" [("second", TPtr (TName "second"))] [SAssign (EField (EVar "dt") "sec") (EField (EVar "second") "value")]);
   ("dateTime", "withZone", mkFn "dt" [("zone", TPtr (TName "zone"))] [SAssign (EField (EVar "dt") "loc") (EField (EVar "zone") "location")]);
   ("walker", "EnterDateTime", mkFn "w" [("ctx", TPtr (TName "parser.DateTimeContext"))] [SExpr (EMethod (EVar "w") "enter" [ENew "dateTime" [("loc", EGlobal "time.UTC")]])]);
   ("walker", "ExitDateTime", mkFn "w" [("ctx", TPtr (TName "parser.DateTimeContext"))] [SDefine ["dt"] (EAssert (EMethod (EVar "w") "exit" []) (TPtr (TName "dateTime"))); SAssign (EField (EVar "w") "res") (ECall "time.Date" [EField (EVar "dt") "year"; EField (EVar "dt") "month"; EField (EVar "dt") "day"; EField (EVar "dt") "hour"; EField (EVar "dt") "min"; EField (EVar "dt") "sec"; EInt 0; EField (EVar "dt") "loc"])])].

(* /repo: day.go:13-40 *)
Definition day_go : list method :=
  [("walker", "EnterDay", mkFn "w" [("ctx", TPtr (TName "parser.DayContext"))] [SVar "text" (TName "string"); SRange "digit" (EMethod (EVar "ctx") "AllDigit" []) [SAddAssign (EVar "text") (EMethod (EVar "digit") "GetText" [])]; SDefine ["val"; "err"] (ECall "strconv.Atoi" [EVar "text"]); SIf (EBin ONe (EVar "err") (ENil)) [SAssign (EField (EVar "w") "err") (EVar "err")] []; SExpr (EMethod (EVar "w") "enter" [ENew "day" [("value", EVar "val")]])]);
   ("walker", "ExitDay", mkFn "w" [("ctx", TPtr (TName "parser.DayContext"))] [SDefine ["res"] (EAssert (EMethod (EVar "w") "exit" []) (TPtr (TName "day"))); SIfIs "parent" (EMethod (EVar "w") "parent" []) [("withDay", [TPtr (TName "day")])] [SExpr (EMethod (EVar "parent") "withDay" [EVar "res"])]])].

(* /repo: display_name.go:12-41 *)
Definition display_name_go : list method :=
  [("displayName", "withWord", mkFn "n" [("word", TPtr (TName "word"))] [SIf (EField (EVar "n") "unspaced") [SAssign (EField (EVar "n") "unspaced") (EBool false)] [SIf (EBin OGt (ELen (EField (EVar "n") "value")) (EInt 0)) [SAddAssign (EField (EVar "n") "value") (EStr " ")] []]; SAddAssign (EField (EVar "n") "value") (EField (EVar "word") "value")]);
   ("displayName", "withUnspaced", mkFn "n" [("unspaced", TPtr (TName "unspaced"))] [SAssign (EField (EVar "n") "unspaced") (EBool true); SAddAssign (EField (EVar "n") "value") (EField (EVar "unspaced") "value")]);
   ("walker", "EnterDisplayName", mkFn "w" [("ctx", TPtr (TName "parser.DisplayNameContext"))] [SExpr (EMethod (EVar "w") "enter" [ENew "displayName" []])]);
   ("walker", "ExitDisplayName", mkFn "w" [("ctx", TPtr (TName "parser.DisplayNameContext"))] [SDefine ["res"] (EAssert (EMethod (EVar "w") "exit" []) (TPtr (TName "displayName"))); SIfIs "parent" (EMethod (EVar "w") "parent" []) [("withDisplayName", [TPtr (TName "displayName")])] [SExpr (EMethod (EVar "parent") "withDisplayName" [EVar "res"])]])].

(* /repo: domain.go:13-39 *)
Definition domain_go : list method :=
  [("domain", "withDotAtom", mkFn "d" [("dotAtom", TPtr (TName "dotAtom"))] [SAssign (EField (EVar "d") "value") (EField (EVar "dotAtom") "value")]);
   ("domain", "withDomainLiteral", mkFn "d" [("domainLiteral", TPtr (TName "domainLiteral"))] [SAssign (EField (EVar "d") "value") (EField (EVar "domainLiteral") "value")]);
   ("domain", "withObsDomain", mkFn "d" [("obsDomain", TPtr (TName "obsDomain"))] [SAssign (EField (EVar "d") "value") (ECall "strings.Join" [EField (EVar "obsDomain") "atoms"; EStr "."])]);
   ("walker", "EnterDomain", mkFn "w" [("ctx", TPtr (TName "parser.DomainContext"))] [SExpr (EMethod (EVar "w") "enter" [ENew "domain" []])]);
   ("walker", "ExitDomain", mkFn "w" [("ctx", TPtr (TName "parser.DomainContext"))] [SDefine ["res"] (EAssert (EMethod (EVar "w") "exit" []) (TPtr (TName "domain"))); SIfIs "parent" (EMethod (EVar "w") "parent" []) [("withDomain", [TPtr (TName "domain")])] [SExpr (EMethod (EVar "parent") "withDomain" [EVar "res"])]])].

(* /repo: domain_literal.go:11-27 *)
Definition domain_literal_go : list method :=
  [("walker", "EnterDomainLiteral", mkFn "w" [("ctx", TPtr (TName "parser.DomainLiteralContext"))] [SExpr (EMethod (EVar "w") "enter" [ENew "domainLiteral" [("value", EMethod (EVar "ctx") "GetText" [])]])]);
   ("walker", "ExitDomainLiteral", mkFn "w" [("ctx", TPtr (TName "parser.DomainLiteralContext"))] [SDefine ["res"] (EAssert (EMethod (EVar "w") "exit" []) (TPtr (TName "domainLiteral"))); SIfIs "parent" (EMethod (EVar "w") "parent" []) [("withDomainLiteral", [TPtr (TName "domainLiteral")])] [SExpr (EMethod (EVar "parent") "withDomainLiteral" [EVar "res"])]])].

(* /repo: dot_atom.go:11-27 *)
Definition dot_atom_go : list method :=
  [("walker", "EnterDotAtom", mkFn "w" [("ctx", TPtr (TName "parser.DotAtomContext"))] [SExpr (EMethod (EVar "w") "enter" [ENew "dotAtom" [("value", EMethod (EVar "ctx") "GetText" [])]])]);
   ("walker", "ExitDotAtom", mkFn "w" [("ctx", TPtr (TName "parser.DotAtomContext"))] [SDefine ["res"] (EAssert (EMethod (EVar "w") "exit" []) (TPtr (TName "dotAtom"))); SIfIs "parent" (EMethod (EVar "w") "parent" []) [("withDotAtom", [TPtr (TName "dotAtom")])] [SExpr (EMethod (EVar "parent") "withDotAtom" [EVar "res"])]])].

(* /repo: encoded_word.go:13-36 *)
Definition encoded_word_go : list method :=
  [("walker", "EnterEncodedWord", mkFn "w" [("ctx", TPtr (TName "parser.EncodedWordContext"))] [SDefine ["dec"] (ENew "mime.WordDecoder" [("CharsetReader", EGlobal "CharsetReader")]); SDefine ["word"; "err"] (EMethod (EVar "dec") "Decode" [EMethod (EVar "ctx") "GetText" []]); SIf (EBin ONe (EVar "err") (ENil)) [SAssign (EVar "word") (EMethod (EVar "ctx") "GetText" [])] []; SExpr (EMethod (EVar "w") "enter" [ENew "encodedWord" [("value", EVar "word")]])]);
   ("walker", "ExitEncodedWord", mkFn "w" [("ctx", TPtr (TName "parser.EncodedWordContext"))] [SDefine ["res"] (EAssert (EMethod (EVar "w") "exit" []) (TPtr (TName "encodedWord"))); SIfIs "parent" (EMethod (EVar "w") "parent" []) [("withEncodedWord", [TPtr (TName "encodedWord")])] [SExpr (EMethod (EVar "parent") "withEncodedWord" [EVar "res"])]])].

(* /repo: fws.go:11-27 *)
Definition fws_go : list method :=
  [("walker", "EnterFws", mkFn "w" [("ctx", TPtr (TName "parser.FwsContext"))] [SExpr (EMethod (EVar "w") "enter" [ENew "fws" [("value", EMethod (EVar "ctx") "GetText" [])]])]);
   ("walker", "ExitFws", mkFn "w" [("ctx", TPtr (TName "parser.FwsContext"))] [SDefine ["res"] (EAssert (EMethod (EVar "w") "exit" []) (TPtr (TName "fws"))); SIfIs "parent" (EMethod (EVar "w") "parent" []) [("withFws", [TPtr (TName "fws")])] [SExpr (EMethod (EVar "parent") "withFws" [EVar "res"])]])].

(* /repo: group.go:13-31 *)
Definition group_go : list method :=
  [("group", "withGroupList", mkFn "g" [("groupList", TPtr (TName "groupList"))] [SAssign (EField (EVar "g") "addresses") (EAppendAll (EField (EVar "g") "addresses") (EField (EVar "groupList") "addresses"))]);
   ("walker", "EnterGroup", mkFn "w" [("ctx", TPtr (TName "parser.GroupContext"))] [SExpr (EMethod (EVar "w") "enter" [ENew "group" []])]);
   ("walker", "ExitGroup", mkFn "w" [("ctx", TPtr (TName "parser.GroupContext"))] [SDefine ["res"] (EAssert (EMethod (EVar "w") "exit" []) (TPtr (TName "group"))); SIfIs "parent" (EMethod (EVar "w") "parent" []) [("withGroup", [TPtr (TName "group")])] [SExpr (EMethod (EVar "parent") "withGroup" [EVar "res"])]])].

(* /repo: group_list.go:13-31 *)
Definition group_list_go : list method :=
  [("groupList", "withMailboxList", mkFn "gl" [("mailboxList", TPtr (TName "mailboxList"))] [SAssign (EField (EVar "gl") "addresses") (EAppendAll (EField (EVar "gl") "addresses") (EField (EVar "mailboxList") "addresses"))]);
   ("walker", "EnterGroupList", mkFn "w" [("ctx", TPtr (TName "parser.GroupListContext"))] [SExpr (EMethod (EVar "w") "enter" [ENew "groupList" []])]);
   ("walker", "ExitGroupList", mkFn "w" [("ctx", TPtr (TName "parser.GroupListContext"))] [SDefine ["res"] (EAssert (EMethod (EVar "w") "exit" []) (TPtr (TName "groupList"))); SIfIs "parent" (EMethod (EVar "w") "parent" []) [("withGroupList", [TPtr (TName "groupList")])] [SExpr (EMethod (EVar "parent") "withGroupList" [EVar "res"])]])].

(* /repo: hour.go:13-40 *)
Definition hour_go : list method :=
  [("walker", "EnterHour", mkFn "w" [("ctx", TPtr (TName "parser.HourContext"))] [SVar "text" (TName "string"); SRange "digit" (EMethod (EVar "ctx") "AllDigit" []) [SAddAssign (EVar "text") (EMethod (EVar "digit") "GetText" [])]; SDefine ["val"; "err"] (ECall "strconv.Atoi" [EVar "text"]); SIf (EBin ONe (EVar "err") (ENil)) [SAssign (EField (EVar "w") "err") (EVar "err")] []; SExpr (EMethod (EVar "w") "enter" [ENew "hour" [("value", EVar "val")]])]);
   ("walker", "ExitHour", mkFn "w" [("ctx", TPtr (TName "parser.HourContext"))] [SDefine ["res"] (EAssert (EMethod (EVar "w") "exit" []) (TPtr (TName "hour"))); SIfIs "parent" (EMethod (EVar "w") "parent" []) [("withHour", [TPtr (TName "hour")])] [SExpr (EMethod (EVar "parent") "withHour" [EVar "res"])]])].

(* /repo: local_part.go:13-39 *)
Definition local_part_go : list method :=
  [("localPart", "withDotAtom", mkFn "p" [("dotAtom", TPtr (TName "dotAtom"))] [SAssign (EField (EVar "p") "value") (EField (EVar "dotAtom") "value")]);
   ("localPart", "withQuotedString", mkFn "p" [("quotedString", TPtr (TName "quotedString"))] [SAssign (EField (EVar "p") "value") (EField (EVar "quotedString") "value")]);
   ("localPart", "withObsLocalPart", mkFn "p" [("obsLocalPart", TPtr (TName "obsLocalPart"))] [SAssign (EField (EVar "p") "value") (ECall "strings.Join" [EField (EVar "obsLocalPart") "words"; EStr "."])]);
   ("walker", "EnterLocalPart", mkFn "w" [("ctx", TPtr (TName "parser.LocalPartContext"))] [SExpr (EMethod (EVar "w") "enter" [ENew "localPart" []])]);
   ("walker", "ExitLocalPart", mkFn "w" [("ctx", TPtr (TName "parser.LocalPartContext"))] [SDefine ["res"] (EAssert (EMethod (EVar "w") "exit" []) (TPtr (TName "localPart"))); SIfIs "parent" (EMethod (EVar "w") "parent" []) [("withLocalPart", [TPtr (TName "localPart")])] [SExpr (EMethod (EVar "parent") "withLocalPart" [EVar "res"])]])].

(* /repo: mailbox.go:13-36 *)
Definition mailbox_go : list method :=
  [("mailbox", "withNameAddr", mkFn "m" [("nameAddr", TPtr (TName "nameAddr"))] [SAssign (EField (EVar "m") "name") (EField (EVar "nameAddr") "name"); SAssign (EField (EVar "m") "address") (EField (EVar "nameAddr") "address")]);
   ("mailbox", "withAddrSpec", mkFn "m" [("addrSpec", TPtr (TName "addrSpec"))] [SAssign (EField (EVar "m") "address") (ECall "fmt.Sprintf" [EStr "%v@%v"; EField (EVar "addrSpec") "localPart"; EField (EVar "addrSpec") "domain"])]);
   ("walker", "EnterMailbox", mkFn "w" [("ctx", TPtr (TName "parser.MailboxContext"))] [SExpr (EMethod (EVar "w") "enter" [ENew "mailbox" []])]);
   ("walker", "ExitMailbox", mkFn "w" [("ctx", TPtr (TName "parser.MailboxContext"))] [SDefine ["res"] (EAssert (EMethod (EVar "w") "exit" []) (TPtr (TName "mailbox"))); SIfIs "parent" (EMethod (EVar "w") "parent" []) [("withMailbox", [TPtr (TName "mailbox")])] [SExpr (EMethod (EVar "parent") "withMailbox" [EVar "res"])]])].

(* /repo: mailbox_list.go:13-38 *)
Definition mailbox_list_go : list method :=
  [("mailboxList", "withMailbox", mkFn "ml" [("mailbox", TPtr (TName "mailbox"))] [SAssign (EField (EVar "ml") "addresses") (EAppend (EField (EVar "ml") "addresses") (ENew "mail.Address" [("Name", EField (EVar "mailbox") "name"); ("Address", EField (EVar "mailbox") "address")]))]);
   ("mailboxList", "withObsMboxList", mkFn "ml" [("obsMboxList", TPtr (TName "obsMboxList"))] [SAssign (EField (EVar "ml") "addresses") (EAppendAll (EField (EVar "ml") "addresses") (EField (EVar "obsMboxList") "addresses"))]);
   ("walker", "EnterMailboxList", mkFn "w" [("ctx", TPtr (TName "parser.MailboxListContext"))] [SExpr (EMethod (EVar "w") "enter" [ENew "mailboxList" []])]);
   ("walker", "ExitMailboxList", mkFn "w" [("ctx", TPtr (TName "parser.MailboxListContext"))] [SDefine ["res"] (EAssert (EMethod (EVar "w") "exit" []) (TPtr (TName "mailboxList"))); SIfIs "parent" (EMethod (EVar "w") "parent" []) [("withMailboxList", [TPtr (TName "mailboxList")])] [SExpr (EMethod (EVar "parent") "withMailboxList" [EVar "res"])]])].

(* /repo: minute.go:13-40 *)
Definition minute_go : list method :=
  [("walker", "EnterMinute", mkFn "w" [("ctx", TPtr (TName "parser.MinuteContext"))] [SVar "text" (TName "string"); SRange "digit" (EMethod (EVar "ctx") "AllDigit" []) [SAddAssign (EVar "text") (EMethod (EVar "digit") "GetText" [])]; SDefine ["val"; "err"] (ECall "strconv.Atoi" [EVar "text"]); SIf (EBin ONe (EVar "err") (ENil)) [SAssign (EField (EVar "w") "err") (EVar "err")] []; SExpr (EMethod (EVar "w") "enter" [ENew "minute" [("value", EVar "val")]])]);
   ("walker", "ExitMinute", mkFn "w" [("ctx", TPtr (TName "parser.MinuteContext"))] [SDefine ["res"] (EAssert (EMethod (EVar "w") "exit" []) (TPtr (TName "minute"))); SIfIs "parent" (EMethod (EVar "w") "parent" []) [("withMinute", [TPtr (TName "minute")])] [SExpr (EMethod (EVar "parent") "withMinute" [EVar "res"])]])].

(* /repo: month.go:15-62 *)
Definition month_go : list method :=
  [("walker", "EnterMonth", mkFn "w" [("ctx", TPtr (TName "parser.MonthContext"))] [SVar "m" (TName "time.Month"); SSwitch (ECall "strings.ToLower" [EMethod (EVar "ctx") "GetText" []]) [(EStr "jan", [SAssign (EVar "m") (EGlobal "time.January")]); (EStr "feb", [SAssign (EVar "m") (EGlobal "time.February")]); (EStr "mar", [SAssign (EVar "m") (EGlobal "time.March")]); (EStr "apr", [SAssign (EVar "m") (EGlobal "time.April")]); (EStr "may", [SAssign (EVar "m") (EGlobal "time.May")]); (EStr "jun", [SAssign (EVar "m") (EGlobal "time.June")]); (EStr "jul", [SAssign (EVar "m") (EGlobal "time.July")]); (EStr "aug", [SAssign (EVar "m") (EGlobal "time.August")]); (EStr "sep", [SAssign (EVar "m") (EGlobal "time.September")]); (EStr "oct", [SAssign (EVar "m") (EGlobal "time.October")]); (EStr "nov", [SAssign (EVar "m") (EGlobal "time.November")]); (EStr "dec", [SAssign (EVar "m") (EGlobal "time.December")])] [SAssign (EField (EVar "w") "err") (ECall "errors.New" [EStr "no such month"])]; SExpr (EMethod (EVar "w") "enter" [ENew "month" [("value", EVar "m")]])]);
   ("walker", "ExitMonth", mkFn "w" [("ctx", TPtr (TName "parser.MonthContext"))] [SDefine ["res"] (EAssert (EMethod (EVar "w") "exit" []) (TPtr (TName "month"))); SIfIs "parent" (EMethod (EVar "w") "parent" []) [("withMonth", [TPtr (TName "month")])] [SExpr (EMethod (EVar "parent") "withMonth" [EVar "res"])]])].

(* /repo: name_addr.go:11-33 *)
Definition name_addr_go : list method :=
  [("nameAddr", "withDisplayName", mkFn "a" [("displayName", TPtr (TName "displayName"))] [SAssign (EField (EVar "a") "name") (EField (EVar "displayName") "value")]);
   ("nameAddr", "withAngleAddr", mkFn "a" [("angleAddr", TPtr (TName "angleAddr"))] [SAssign (EField (EVar "a") "address") (EField (EVar "angleAddr") "address")]);
   ("walker", "EnterNameAddr", mkFn "w" [("ctx", TPtr (TName "parser.NameAddrContext"))] [SExpr (EMethod (EVar "w") "enter" [ENew "nameAddr" []])]);
   ("walker", "ExitNameAddr", mkFn "w" [("ctx", TPtr (TName "parser.NameAddrContext"))] [SDefine ["res"] (EAssert (EMethod (EVar "w") "exit" []) (TPtr (TName "nameAddr"))); SIfIs "parent" (EMethod (EVar "w") "parent" []) [("withNameAddr", [TPtr (TName "nameAddr")])] [SExpr (EMethod (EVar "parent") "withNameAddr" [EVar "res"])]])].

(* /repo: obs_angle_addr.go:15-33 *)
Definition obs_angle_addr_go : list method :=
  [("obsAngleAddr", "withAddrSpec", mkFn "a" [("addrSpec", TPtr (TName "addrSpec"))] [SAssign (EField (EVar "a") "address") (ECall "fmt.Sprintf" [EStr "%v@%v"; EField (EVar "addrSpec") "localPart"; EField (EVar "addrSpec") "domain"])]);
   ("walker", "EnterObsAngleAddr", mkFn "w" [("ctx", TPtr (TName "parser.ObsAngleAddrContext"))] [SExpr (EMethod (EVar "w") "enter" [ENew "obsAngleAddr" []])]);
   ("walker", "ExitObsAngleAddr", mkFn "w" [("ctx", TPtr (TName "parser.ObsAngleAddrContext"))] [SDefine ["res"] (EAssert (EMethod (EVar "w") "exit" []) (TPtr (TName "obsAngleAddr"))); SIfIs "parent" (EMethod (EVar "w") "parent" []) [("withObsAngleAddr", [TPtr (TName "obsAngleAddr")])] [SExpr (EMethod (EVar "parent") "withObsAngleAddr" [EVar "res"])]])].

(* /repo: obs_domain.go:11-29 *)
Definition obs_domain_go : list method :=
  [("obsDomain", "withAtom", mkFn "p" [("atom", TPtr (TName "atom"))] [SAssign (EField (EVar "p") "atoms") (EAppend (EField (EVar "p") "atoms") (EField (EVar "atom") "value"))]);
   ("walker", "EnterObsDomain", mkFn "w" [("ctx", TPtr (TName "parser.ObsDomainContext"))] [SExpr (EMethod (EVar "w") "enter" [ENew "obsDomain" []])]);
   ("walker", "ExitObsDomain", mkFn "w" [("ctx", TPtr (TName "parser.ObsDomainContext"))] [SDefine ["res"] (EAssert (EMethod (EVar "w") "exit" []) (TPtr (TName "obsDomain"))); SIfIs "parent" (EMethod (EVar "w") "parent" []) [("withObsDomain", [TPtr (TName "obsDomain")])] [SExpr (EMethod (EVar "parent") "withObsDomain" [EVar "res"])]])].

(* /repo: obs_local_part.go:11-29 *)
Definition obs_local_part_go : list method :=
  [("obsLocalPart", "withWord", mkFn "p" [("word", TPtr (TName "word"))] [SAssign (EField (EVar "p") "words") (EAppend (EField (EVar "p") "words") (EField (EVar "word") "value"))]);
   ("walker", "EnterObsLocalPart", mkFn "w" [("ctx", TPtr (TName "parser.ObsLocalPartContext"))] [SExpr (EMethod (EVar "w") "enter" [ENew "obsLocalPart" []])]);
   ("walker", "ExitObsLocalPart", mkFn "w" [("ctx", TPtr (TName "parser.ObsLocalPartContext"))] [SDefine ["res"] (EAssert (EMethod (EVar "w") "exit" []) (TPtr (TName "obsLocalPart"))); SIfIs "parent" (EMethod (EVar "w") "parent" []) [("withObsLocalPart", [TPtr (TName "obsLocalPart")])] [SExpr (EMethod (EVar "parent") "withObsLocalPart" [EVar "res"])]])].

(* /repo: obs_mbox_list.go:13-34 *)
Definition obs_mbox_list_go : list method :=
  [("obsMboxList", "withMailbox", mkFn "ml" [("mailbox", TPtr (TName "mailbox"))] [SAssign (EField (EVar "ml") "addresses") (EAppend (EField (EVar "ml") "addresses") (ENew "mail.Address" [("Name", EField (EVar "mailbox") "name"); ("Address", EField (EVar "mailbox") "address")]))]);
   ("walker", "EnterObsMboxList", mkFn "w" [("ctx", TPtr (TName "parser.ObsMboxListContext"))] [SExpr (EMethod (EVar "w") "enter" [ENew "obsMboxList" []])]);
   ("walker", "ExitObsMboxList", mkFn "w" [("ctx", TPtr (TName "parser.ObsMboxListContext"))] [SDefine ["res"] (EAssert (EMethod (EVar "w") "exit" []) (TPtr (TName "obsMboxList"))); SIfIs "parent" (EMethod (EVar "w") "parent" []) [("withObsMboxList", [TPtr (TName "obsMboxList")])] [SExpr (EMethod (EVar "parent") "withObsMboxList" [EVar "res"])]])].

(* /repo: obs_zone.go:15-60 *)
Definition obs_zone_go : list method :=
  [("walker", "EnterObsZone", mkFn "w" [("ctx", TPtr (TName "parser.ObsZoneContext"))] [SDefine ["loc"] (EGlobal "time.UTC"); SSwitch (ECall "strings.ToLower" [EMethod (EVar "ctx") "GetText" []]) [(EStr "ut", [SAssign (EVar "loc") (ECall "time.FixedZone" [EMethod (EVar "ctx") "GetText" []; EInt 0])]); (EStr "utc", [SAssign (EVar "loc") (ECall "time.FixedZone" [EMethod (EVar "ctx") "GetText" []; EInt 0])]); (EStr "gmt", [SAssign (EVar "loc") (ECall "time.FixedZone" [EMethod (EVar "ctx") "GetText" []; EInt 0])]); (EStr "est", [SAssign (EVar "loc") (ECall "time.FixedZone" [EMethod (EVar "ctx") "GetText" []; EBin OMul (EBin OMul (ENeg (EInt 5)) (EInt 60)) (EInt 60)])]); (EStr "edt", [SAssign (EVar "loc") (ECall "time.FixedZone" [EMethod (EVar "ctx") "GetText" []; EBin OMul (EBin OMul (ENeg (EInt 4)) (EInt 60)) (EInt 60)])]); (EStr "cst", [SAssign (EVar "loc") (ECall "time.FixedZone" [EMethod (EVar "ctx") "GetText" []; EBin OMul (EBin OMul (ENeg (EInt 6)) (EInt 60)) (EInt 60)])]); (EStr "cdt", [SAssign (EVar "loc") (ECall "time.FixedZone" [EMethod (EVar "ctx") "GetText" []; EBin OMul (EBin OMul (ENeg (EInt 5)) (EInt 60)) (EInt 60)])]); (EStr "mst", [SAssign (EVar "loc") (ECall "time.FixedZone" [EMethod (EVar "ctx") "GetText" []; EBin OMul (EBin OMul (ENeg (EInt 7)) (EInt 60)) (EInt 60)])]); (EStr "mdt", [SAssign (EVar "loc") (ECall "time.FixedZone" [EMethod (EVar "ctx") "GetText" []; EBin OMul (EBin OMul (ENeg (EInt 6)) (EInt 60)) (EInt 60)])]); (EStr "pst", [SAssign (EVar "loc") (ECall "time.FixedZone" [EMethod (EVar "ctx") "GetText" []; EBin OMul (EBin OMul (ENeg (EInt 8)) (EInt 60)) (EInt 60)])]); (EStr "pdt", [SAssign (EVar "loc") (ECall "time.FixedZone" [EMethod (EVar "ctx") "GetText" []; EBin OMul (EBin OMul (ENeg (EInt 7)) (EInt 60)) (EInt 60)])])] [SAssign (EField (EVar "w") "err") (ECall "errors.New" [EStr "bad timezone"])]; SExpr (EMethod (EVar "w") "enter" [ENew "obsZone" [("location", EVar "loc")]])]);
   ("walker", "ExitObsZone", mkFn "w" [("ctx", TPtr (TName "parser.ObsZoneContext"))] [SDefine ["res"] (EAssert (EMethod (EVar "w") "exit" []) (TPtr (TName "obsZone"))); SIfIs "parent" (EMethod (EVar "w") "parent" []) [("withObsZone", [TPtr (TName "obsZone")])] [SExpr (EMethod (EVar "parent") "withObsZone" [EVar "res"])]])].

(* /repo: offset.go:16-51 *)
Definition offset_go : list method :=
  [("walker", "EnterOffset", mkFn "w" [("ctx", TPtr (TName "parser.OffsetContext"))] [SDefine ["text"] (EMethod (EVar "ctx") "GetText" []); SIf (EBin OAnd (ENot (ECall "strings.HasPrefix" [EVar "text"; EStr "+"])) (ENot (ECall "strings.HasPrefix" [EVar "text"; EStr "-"]))) [SAssign (EVar "text") (EBin OAdd (EStr "+") (EVar "text"))] []; SDefine ["sgn"] (ESlice (EVar "text") (EInt 0) (EInt 1)); SDefine ["hrs"] (ESlice (EVar "text") (EInt 1) (EInt 3)); SDefine ["min"] (ESlice (EVar "text") (EInt 3) (EInt 5)); SDefine ["dur"; "err"] (ECall "time.ParseDuration" [ECall "fmt.Sprintf" [EStr "%v%vh%vm"; EVar "sgn"; EVar "hrs"; EVar "min"]]); SIf (EBin ONe (EVar "err") (ENil)) [SAssign (EField (EVar "w") "err") (EVar "err")] []; SExpr (EMethod (EVar "w") "enter" [ENew "offset" [("rep", EVar "text"); ("value", EToInt (EMethod (EVar "dur") "Seconds" []))]])]);
   ("walker", "ExitOffset", mkFn "w" [("ctx", TPtr (TName "parser.OffsetContext"))] [SDefine ["res"] (EAssert (EMethod (EVar "w") "exit" []) (TPtr (TName "offset"))); SIfIs "parent" (EMethod (EVar "w") "parent" []) [("withOffset", [TPtr (TName "offset")])] [SExpr (EMethod (EVar "parent") "withOffset" [EVar "res"])]])].

(* /repo: port.go:11-27 *)
Definition port_go : list method :=
  [("walker", "EnterPort", mkFn "w" [("ctx", TPtr (TName "parser.PortContext"))] [SExpr (EMethod (EVar "w") "enter" [ENew "port" [("value", EMethod (EVar "ctx") "GetText" [])]])]);
   ("walker", "ExitPort", mkFn "w" [("ctx", TPtr (TName "parser.PortContext"))] [SDefine ["res"] (EAssert (EMethod (EVar "w") "exit" []) (TPtr (TName "port"))); SIfIs "parent" (EMethod (EVar "w") "parent" []) [("withPort", [TPtr (TName "port")])] [SExpr (EMethod (EVar "parent") "withPort" [EVar "res"])]])].

(* /repo: qtext.go:11-27 *)
Definition qtext_go : list method :=
  [("walker", "EnterQtext", mkFn "w" [("ctx", TPtr (TName "parser.QtextContext"))] [SExpr (EMethod (EVar "w") "enter" [ENew "qtext" [("value", EMethod (EVar "ctx") "GetText" [])]])]);
   ("walker", "ExitQtext", mkFn "w" [("ctx", TPtr (TName "parser.QtextContext"))] [SDefine ["res"] (EAssert (EMethod (EVar "w") "exit" []) (TPtr (TName "qtext"))); SIfIs "parent" (EMethod (EVar "w") "parent" []) [("withQtext", [TPtr (TName "qtext")])] [SExpr (EMethod (EVar "parent") "withQtext" [EVar "res"])]])].

(* /repo: quoted_char.go:11-27 *)
Definition quoted_char_go : list method :=
  [("walker", "EnterQuotedChar", mkFn "w" [("ctx", TPtr (TName "parser.QuotedCharContext"))] [SExpr (EMethod (EVar "w") "enter" [ENew "quotedChar" [("value", EMethod (EVar "ctx") "GetText" [])]])]);
   ("walker", "ExitQuotedChar", mkFn "w" [("ctx", TPtr (TName "parser.QuotedCharContext"))] [SDefine ["res"] (EAssert (EMethod (EVar "w") "exit" []) (TPtr (TName "quotedChar"))); SIfIs "parent" (EMethod (EVar "w") "parent" []) [("withQuotedChar", [TPtr (TName "quotedChar")])] [SExpr (EMethod (EVar "parent") "withQuotedChar" [EVar "res"])]])].

(* /repo: quoted_content.go:11-33 *)
Definition quoted_content_go : list method :=
  [("quotedContent", "withQtext", mkFn "c" [("qtext", TPtr (TName "qtext"))] [SAssign (EField (EVar "c") "value") (EField (EVar "qtext") "value")]);
   ("quotedContent", "withQuotedPair", mkFn "c" [("quotedPair", TPtr (TName "quotedPair"))] [SAssign (EField (EVar "c") "value") (EField (EVar "quotedPair") "value")]);
   ("walker", "EnterQuotedContent", mkFn "w" [("ctx", TPtr (TName "parser.QuotedContentContext"))] [SExpr (EMethod (EVar "w") "enter" [ENew "quotedContent" []])]);
   ("walker", "ExitQuotedContent", mkFn "w" [("ctx", TPtr (TName "parser.QuotedContentContext"))] [SDefine ["res"] (EAssert (EMethod (EVar "w") "exit" []) (TPtr (TName "quotedContent"))); SIfIs "parent" (EMethod (EVar "w") "parent" []) [("withQuotedContent", [TPtr (TName "quotedContent")])] [SExpr (EMethod (EVar "parent") "withQuotedContent" [EVar "res"])]])].

(* /repo: quoted_pair.go:11-29 *)
Definition quoted_pair_go : list method :=
  [("quotedPair", "withQuotedChar", mkFn "p" [("quotedChar", TPtr (TName "quotedChar"))] [SAssign (EField (EVar "p") "value") (EField (EVar "quotedChar") "value")]);
   ("walker", "EnterQuotedPair", mkFn "w" [("ctx", TPtr (TName "parser.QuotedPairContext"))] [SExpr (EMethod (EVar "w") "enter" [ENew "quotedPair" []])]);
   ("walker", "ExitQuotedPair", mkFn "w" [("ctx", TPtr (TName "parser.QuotedPairContext"))] [SDefine ["res"] (EAssert (EMethod (EVar "w") "exit" []) (TPtr (TName "quotedPair"))); SIfIs "parent" (EMethod (EVar "w") "parent" []) [("withQuotedPair", [TPtr (TName "quotedPair")])] [SExpr (EMethod (EVar "parent") "withQuotedPair" [EVar "res"])]])].

(* /repo: quoted_string.go:11-29 *)
Definition quoted_string_go : list method :=
  [("quotedString", "withQuotedValue", mkFn "s" [("quotedValue", TPtr (TName "quotedValue"))] [SAssign (EField (EVar "s") "value") (EField (EVar "quotedValue") "value")]);
   ("walker", "EnterQuotedString", mkFn "w" [("ctx", TPtr (TName "parser.QuotedStringContext"))] [SExpr (EMethod (EVar "w") "enter" [ENew "quotedString" []])]);
   ("walker", "ExitQuotedString", mkFn "w" [("ctx", TPtr (TName "parser.QuotedStringContext"))] [SDefine ["res"] (EAssert (EMethod (EVar "w") "exit" []) (TPtr (TName "quotedString"))); SIfIs "parent" (EMethod (EVar "w") "parent" []) [("withQuotedString", [TPtr (TName "quotedString")])] [SExpr (EMethod (EVar "parent") "withQuotedString" [EVar "res"])]])].

(* /repo: quoted_value.go:11-33 *)
Definition quoted_value_go : list method :=
  [("quotedValue", "withFws", mkFn "v" [("fws", TPtr (TName "fws"))] [SAddAssign (EField (EVar "v") "value") (EField (EVar "fws") "value")]);
   ("quotedValue", "withQuotedContent", mkFn "v" [("quotedContent", TPtr (TName "quotedContent"))] [SAddAssign (EField (EVar "v") "value") (EField (EVar "quotedContent") "value")]);
   ("walker", "EnterQuotedValue", mkFn "w" [("ctx", TPtr (TName "parser.QuotedValueContext"))] [SExpr (EMethod (EVar "w") "enter" [ENew "quotedValue" []])]);
   ("walker", "ExitQuotedValue", mkFn "w" [("ctx", TPtr (TName "parser.QuotedValueContext"))] [SDefine ["res"] (EAssert (EMethod (EVar "w") "exit" []) (TPtr (TName "quotedValue"))); SIfIs "parent" (EMethod (EVar "w") "parent" []) [("withQuotedValue", [TPtr (TName "quotedValue")])] [SExpr (EMethod (EVar "parent") "withQuotedValue" [EVar "res"])]])].

(* /repo: second.go:13-40 *)
Definition second_go : list method :=
  [("walker", "EnterSecond", mkFn "w" [("ctx", TPtr (TName "parser.SecondContext"))] [SVar "text" (TName "string"); SRange "digit" (EMethod (EVar "ctx") "AllDigit" []) [SAddAssign (EVar "text") (EMethod (EVar "digit") "GetText" [])]; SDefine ["val"; "err"] (ECall "strconv.Atoi" [EVar "text"]); SIf (EBin ONe (EVar "err") (ENil)) [SAssign (EField (EVar "w") "err") (EVar "err")] []; SExpr (EMethod (EVar "w") "enter" [ENew "second" [("value", EVar "val")]])]);
   ("walker", "ExitSecond", mkFn "w" [("ctx", TPtr (TName "parser.SecondContext"))] [SDefine ["res"] (EAssert (EMethod (EVar "w") "exit" []) (TPtr (TName "second"))); SIfIs "parent" (EMethod (EVar "w") "parent" []) [("withSecond", [TPtr (TName "second")])] [SExpr (EMethod (EVar "parent") "withSecond" [EVar "res"])]])].

(* /repo: unspaced.go:11-27 *)
Definition unspaced_go : list method :=
  [("walker", "EnterUnspaced", mkFn "w" [("ctx", TPtr (TName "parser.UnspacedContext"))] [SExpr (EMethod (EVar "w") "enter" [ENew "unspaced" [("value", EMethod (EVar "ctx") "GetText" [])]])]);
   ("walker", "ExitUnspaced", mkFn "w" [("ctx", TPtr (TName "parser.UnspacedContext"))] [SDefine ["res"] (EAssert (EMethod (EVar "w") "exit" []) (TPtr (TName "unspaced"))); SIfIs "parent" (EMethod (EVar "w") "parent" []) [("withUnspaced", [TPtr (TName "unspaced")])] [SExpr (EMethod (EVar "parent") "withUnspaced" [EVar "res"])]])].

(* /repo: walker.go:29-45 *)
Definition walker_go : list method :=
  [("walker", "enter", mkFn "w" [("b", TName "interface{}")] [SAssign (EField (EVar "w") "nodes") (EAppend (EField (EVar "w") "nodes") (EVar "b"))]);
   ("walker", "exit", mkFn "w" [] [SDefine ["b"] (EIndex (EField (EVar "w") "nodes") (EBin OSub (ELen (EField (EVar "w") "nodes")) (EInt 1))); SAssign (EField (EVar "w") "nodes") (ESlice (EField (EVar "w") "nodes") (EInt 0) (EBin OSub (ELen (EField (EVar "w") "nodes")) (EInt 1))); SReturn [EVar "b"]]);
   ("walker", "parent", mkFn "w" [] [SReturn [EIndex (EField (EVar "w") "nodes") (EBin OSub (ELen (EField (EVar "w") "nodes")) (EInt 1))]]);
   ("walker", "SyntaxError", mkFn "w" [("_", TName "antlr.Recognizer"); ("_", TName "interface{}"); ("_", TName "int"); ("_", TName "int"); ("msg", TName "string"); ("_", TName "antlr.RecognitionException")] [SAssign (EField (EVar "w") "err") (ECall "fmt.Errorf" [EStr "error parsing rfc5322 input: %v"; EVar "msg"])])].

(* /repo: word.go:11-37 *)
Definition word_go : list method :=
  [("word", "withAtom", mkFn "w" [("atom", TPtr (TName "atom"))] [SAssign (EField (EVar "w") "value") (EField (EVar "atom") "value")]);
   ("word", "withQuotedString", mkFn "w" [("quotedString", TPtr (TName "quotedString"))] [SAssign (EField (EVar "w") "value") (EField (EVar "quotedString") "value")]);
   ("word", "withEncodedWord", mkFn "w" [("encodedWord", TPtr (TName "encodedWord"))] [SAddAssign (EField (EVar "w") "value") (EField (EVar "encodedWord") "value")]);
   ("walker", "EnterWord", mkFn "w" [("ctx", TPtr (TName "parser.WordContext"))] [SExpr (EMethod (EVar "w") "enter" [ENew "word" []])]);
   ("walker", "ExitWord", mkFn "w" [("ctx", TPtr (TName "parser.WordContext"))] [SDefine ["res"] (EAssert (EMethod (EVar "w") "exit" []) (TPtr (TName "word"))); SIfIs "parent" (EMethod (EVar "w") "parent" []) [("withWord", [TPtr (TName "word")])] [SExpr (EMethod (EVar "parent") "withWord" [EVar "res"])]])].

(* /repo: year.go:14-50 *)
Definition year_go : list method :=
  [("walker", "EnterYear", mkFn "w" [("ctx", TPtr (TName "parser.YearContext"))] [SVar "text" (TName "string"); SRange "digit" (EMethod (EVar "ctx") "AllDigit" []) [SAddAssign (EVar "text") (EMethod (EVar "digit") "GetText" [])]; SDefine ["val"; "err"] (ECall "strconv.Atoi" [EVar "text"]); SIf (EBin ONe (EVar "err") (ENil)) [SAssign (EField (EVar "w") "err") (EVar "err")] []; SIf (EBin OEq (ELen (EVar "text")) (EInt 2)) [SIf (EBin OGt (EVar "val") (EBin ORem (EMethod (ECall "time.Now" []) "Year" []) (EInt 100))) [SAddAssign (EVar "val") (EInt 1900)] [SAddAssign (EVar "val") (EInt 2000)]] []; SExpr (EMethod (EVar "w") "enter" [ENew "year" [("value", EVar "val")]])]);
   ("walker", "ExitYear", mkFn "w" [("ctx", TPtr (TName "parser.YearContext"))] [SDefine ["res"] (EAssert (EMethod (EVar "w") "exit" []) (TPtr (TName "year"))); SIfIs "parent" (EMethod (EVar "w") "parent" []) [("withYear", [TPtr (TName "year")])] [SExpr (EMethod (EVar "parent") "withYear" [EVar "res"])]])].

(* /repo: zone.go:13-37 *)
Definition zone_go : list method :=
  [("zone", "withOffset", mkFn "z" [("offset", TPtr (TName "offset"))] [SAssign (EField (EVar "z") "location") (ECall "time.FixedZone" [EField (EVar "offset") "rep"; EField (EVar "offset") "value"])]);
   ("zone", "withObsZone", mkFn "z" [("obsZone", TPtr (TName "obsZone"))] [SAssign (EField (EVar "z") "location") (EField (EVar "obsZone") "location")]);
   ("walker", "EnterZone", mkFn "w" [("ctx", TPtr (TName "parser.ZoneContext"))] [SExpr (EMethod (EVar "w") "enter" [ENew "zone" [("location", EGlobal "time.UTC")]])]);
   ("walker", "ExitZone", mkFn "w" [("ctx", TPtr (TName "parser.ZoneContext"))] [SDefine ["res"] (EAssert (EMethod (EVar "w") "exit" []) (TPtr (TName "zone"))); SIfIs "parent" (EMethod (EVar "w") "parent" []) [("withZone", [TPtr (TName "zone")])] [SExpr (EMethod (EVar "parent") "withZone" [EVar "res"])]])].

(* /repo: the struct types of the files *.go *)
Definition go_structs : list (string * list (string * gty)) :=
  [("addrSpec", [("localPart", TName "string"); ("domain", TName "string")]);
   ("address", [("addresses", TSlice (TPtr (TName "mail.Address")))]);
   ("addressList", [("addresses", TSlice (TPtr (TName "mail.Address")))]);
   ("angleAddr", [("address", TName "string")]);
   ("atom", [("value", TName "string")]);
   ("dateTime", [("day", TName "int"); ("month", TName "time.Month"); ("year", TName "int"); ("hour", TName "int"); ("min", TName "int"); ("sec", TName "int"); ("loc", TPtr (TName "time.Location"))]);
   ("day", [("value", TName "int")]);
   ("displayName", [("value", TName "string"); ("unspaced", TName "bool")]);
   ("domain", [("value", TName "string")]);
   ("domainLiteral", [("value", TName "string")]);
   ("dotAtom", [("value", TName "string")]);
   ("encodedWord", [("value", TName "string")]);
   ("fws", [("value", TName "string")]);
   ("group", [("addresses", TSlice (TPtr (TName "mail.Address")))]);
   ("groupList", [("addresses", TSlice (TPtr (TName "mail.Address")))]);
   ("hour", [("value", TName "int")]);
   ("localPart", [("value", TName "string")]);
   ("mailbox", [("name", TName "string"); ("address", TName "string")]);
   ("mailboxList", [("addresses", TSlice (TPtr (TName "mail.Address")))]);
   ("minute", [("value", TName "int")]);
   ("month", [("value", TName "time.Month")]);
   ("nameAddr", [("name", TName "string"); ("address", TName "string")]);
   ("obsAngleAddr", [("address", TName "string")]);
   ("obsDomain", [("atoms", TSlice (TName "string"))]);
   ("obsLocalPart", [("words", TSlice (TName "string"))]);
   ("obsMboxList", [("addresses", TSlice (TPtr (TName "mail.Address")))]);
   ("obsZone", [("location", TPtr (TName "time.Location"))]);
   ("offset", [("rep", TName "string"); ("value", TName "int")]);
   ("port", [("value", TName "string")]);
   ("qtext", [("value", TName "string")]);
   ("quotedChar", [("value", TName "string")]);
   ("quotedContent", [("value", TName "string")]);
   ("quotedPair", [("value", TName "string")]);
   ("quotedString", [("value", TName "string")]);
   ("quotedValue", [("value", TName "string")]);
   ("second", [("value", TName "int")]);
   ("unspaced", [("value", TName "string")]);
   ("walker", [("nodes", TSlice (TName "interface{}")); ("res", TName "interface{}"); ("err", TName "error")]);
   ("word", [("value", TName "string")]);
   ("year", [("value", TName "int")]);
   ("zone", [("location", TPtr (TName "time.Location"))]);
   ("parser.BaseRFC5322ParserListener", [])].

(** Embedded types. *)
(* /repo: walker.go:13-15 *)
Definition go_embeds : list (string * string) := [("walker", "parser.BaseRFC5322ParserListener"); ("walker", "antlr.DefaultErrorListener")].

(* /repo: parser.go:18-62 *)
Definition go_funcs : list (string * fn) :=
  [("ParseAddressList", mkFn "" [("input", TName "string")] [SIf (EBin OEq (ELen (EVar "input")) (EInt 0)) [SReturn [EEmpty (TPtr (TName "mail.Address")); ENil]] []; SDefine ["l"] (ECall "parser.NewRFC5322Lexer" [ECall "antlr.NewInputStream" [EVar "input"]]); SDefine ["p"] (ECall "parser.NewRFC5322Parser" [ECall "antlr.NewCommonTokenStream" [EVar "l"; EGlobal "antlr.TokenDefaultChannel"]]); SDefine ["w"] (ENew "walker" []); SExpr (EMethod (EVar "p") "RemoveErrorListeners" []); SExpr (EMethod (EVar "p") "AddErrorListener" [EVar "w"]); SDefine ["tree"] (EMethod (EVar "p") "AddressList" []); SIf (EBin ONe (EField (EVar "w") "err") (ENil)) [SReturn [ENil; EField (EVar "w") "err"]] []; SExpr (EMethod (EGlobal "antlr.ParseTreeWalkerDefault") "Walk" [EVar "w"; EVar "tree"]); SReturn [EAssert (EField (EVar "w") "res") (TSlice (TPtr (TName "mail.Address"))); EField (EVar "w") "err"]]);
   ("ParseDateTime", mkFn "" [("input", TName "string")] [SIf (EBin OEq (ELen (EVar "input")) (EInt 0)) [SReturn [EStruct "time.Time" []; ENil]] []; SDefine ["l"] (ECall "parser.NewRFC5322Lexer" [ECall "antlr.NewInputStream" [EVar "input"]]); SDefine ["p"] (ECall "parser.NewRFC5322Parser" [ECall "antlr.NewCommonTokenStream" [EVar "l"; EGlobal "antlr.TokenDefaultChannel"]]); SDefine ["w"] (ENew "walker" []); SExpr (EMethod (EVar "p") "RemoveErrorListeners" []); SExpr (EMethod (EVar "p") "AddErrorListener" [EVar "w"]); SDefine ["tree"] (EMethod (EVar "p") "DateTime" []); SIf (EBin ONe (EField (EVar "w") "err") (ENil)) [SReturn [EStruct "time.Time" []; EField (EVar "w") "err"]] []; SExpr (EMethod (EGlobal "antlr.ParseTreeWalkerDefault") "Walk" [EVar "w"; EVar "tree"]); SReturn [EAssert (EField (EVar "w") "res") (TName "time.Time"); EField (EVar "w") "err"]])].

(* /repo: all files *.go of /repo, parser/rfc5322_parser.go, parser/rfc5322parser_base_listener.go *)
Definition go_methods : list method :=
  (addr_spec_go ++ address_go ++ address_list_go ++ angle_addr_go ++ atom_go ++ date_time_go ++ day_go ++ display_name_go ++ domain_go ++ domain_literal_go ++ dot_atom_go ++ encoded_word_go ++ fws_go ++ group_go ++ group_list_go ++ hour_go ++ local_part_go ++ mailbox_go ++ mailbox_list_go ++ minute_go ++ month_go ++ name_addr_go ++ obs_angle_addr_go ++ obs_domain_go ++ obs_local_part_go ++ obs_mbox_list_go ++ obs_zone_go ++ offset_go ++ port_go ++ qtext_go ++ quoted_char_go ++ quoted_content_go ++ quoted_pair_go ++ quoted_string_go ++ quoted_value_go ++ second_go ++ unspaced_go ++ walker_go ++ word_go ++ year_go ++ zone_go ++ base_methods ++ context_methods)%list.

(* /repo: the package *)
Definition package : program := mkProg go_structs go_embeds go_methods go_funcs.
