-Q theories Verif
theories/Lexer.v
theories/Utf8.v
theories/Grammar.v
theories/Strs.v
theories/Mime.v
theories/GoTime.v
theories/Parser.v
theories/Walker.v
theories/Api.v
theories/UnitTests.v
theories/Spec.v
theories/ParserFacts.v
theories/WalkerFacts.v
theories/Static.v
theories/Total.v
theories/PropApi.v
theories/Cfws.v
theories/DateSpec.v
theories/Utf8Facts.v
theories/LexFacts.v
theories/Dates.v
theories/Calendar.v
theories/LangFacts.v
theories/DateText.v
theories/DateAccept.v
theories/First.v
theories/PropDate.v
theories/DateCase.v
theories/DateMore.v
theories/Chosen.v
theories/AddrSem.v
theories/AddrSpec.v
theories/CharFacts.v
theories/PropLex.v
theories/PropInv.v
theories/PropReader.v
theories/ScanSpec.v
theories/ScanFacts.v
theories/ScanEnc.v
theories/ScanWords.v
theories/ScanName.v
theories/ScanAddr.v
theories/ScanBox.v
theories/ScanList.v
theories/ScanPhase.v
theories/PropScan.v
theories/AddrText.v
theories/MboxList.v
theories/TextLang.v
theories/TextScan.v
theories/TextFold.v
theories/PropText.v
theories/PropAddr.v
theories/PropSpec.v
theories/PropEnc.v
theories/PropJoin.v
theories/PropCharset.v
theories/GenSyntax.v
theories/GenAtnData.v
theories/GenAtn.v
theories/GenCode.v
theories/GenRun.v
theories/GenShape.v
theories/GenNet.v
theories/GenCheck.v
theories/GenFacts.v
theories/GenLex.v
theories/GenWit.v
theories/PropGen.v
theories/GenPredict.v
theories/PropPredict.v
theories/EncText.v
theories/EncAlign.v
theories/EncSel.v
theories/EncBox.v
theories/EncList.v
theories/EncConv.v
theories/PropFull.v
theories/NetMail.v
theories/PropNet.v
theories/PropStable.v
theories/PropSize.v
theories/GoFormat.v
theories/PropDateFormat.v
theories/AcceptText.v
theories/AcceptFacts.v
theories/PropAccept.v
theories/PropSplit.v
theories/PropMade.v
theories/PropJoin2.v
theories/GenCost.v
theories/GenCache.v
theories/PropCache.v
theories/PropCost.v
theories/Lead.v
theories/PropLead.v
theories/GenRecover.v
theories/GenRecLike.v
theories/GenRecEnd.v
theories/GenRecAsk.v
theories/PropRecover.v
theories/PropTrail.v
theories/GenLexCache.v
theories/PropLexCache.v
theories/GenCacheRec.v
theories/GenRecCost.v
theories/GenRecShort.v
theories/PropProcess.v
theories/PropLazy.v
theories/PropOnce.v
theories/Rfc5322.v
theories/RfcFacts.v
theories/RfcMeaning.v
theories/RfcRead.v
theories/RfcSyntax.v
theories/RfcBack.v
theories/PropRfc.v
theories/RfcDecide.v
theories/PropRfcMore.v
theories/RfcDates.v
theories/PropRfcDates.v
theories/GoSyntax.v
theories/GoCode.v
theories/GoRun.v
theories/GoFacts.v
theories/GoSim.v
theories/GoGive.v
theories/GoNames.v
theories/GoEnterDate.v
theories/GoEnterText.v
theories/GoEnter.v
theories/GoWalk.v
theories/PropGo.v
theories/PropMemory.v
theories/PropDepth.v
theories/PropStack.v
theories/PropApart.v
theories/PropMarks.v
theories/PropClosed.v
theories/PropCase.v
theories/PropInside.v
theories/PropBlank.v
theories/PropTabs.v
theories/PropUnfold.v
