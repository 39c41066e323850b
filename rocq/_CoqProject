-Q theories Verif
theories/Base.v
theories/Buf.v
theories/Lexer.v
theories/Nodes.v
theories/NodeQueries.v
theories/Types.v
theories/Cspec.v
theories/Resolve.v
theories/Cursor.v
theories/Preparser.v
theories/Parser.v
theories/CAst.v
theories/FormatChe.v
theories/FormatC.v
theories/Translator.v
theories/Build.v
theories/Mains.v
theories/BaseFacts.v
theories/LexOps.v
theories/SpecLex.v
theories/LexFacts.v
theories/TokenFacts.v
theories/LexerRefine.v
theories/GapFacts.v
theories/PropLex.v
theories/SpecTypes.v
theories/TypeFacts.v
theories/NodeInd.v
theories/SpecScope.v
theories/ScopeFacts.v
theories/TrFacts.v
theories/TrScope.v
theories/Samples.v
theories/SpecExports.v
theories/ExportFacts.v
theories/ScopeProps.v
theories/PropScope.v
theories/SpecDecl.v
theories/SpecTarget.v
theories/TargetFacts.v
theories/SpecTyping.v
theories/TypingFacts.v
theories/ElabFacts.v
theories/RunFacts.v
theories/SpecAccept.v
theories/AcceptFacts.v
theories/TypeProps.v
theories/PropTypes.v
theories/SpecModule.v
theories/CustomFacts.v
theories/TargetProps.v
theories/GroupFacts.v
theories/PropTarget.v
theories/FuelFacts.v
theories/SpecBuild.v
theories/BuildFacts.v
theories/ProjectFacts.v
theories/BuildProps.v
theories/PathFacts.v
theories/PropBuild.v
theories/SpecMain.v
theories/MainFacts.v
theories/PropMain.v
theories/SpecGrammar.v
theories/GrammarSound.v
theories/GrammarExpr.v
theories/GrammarComplete.v
theories/ParseFacts.v
theories/PrepassFacts.v
theories/NamespaceFacts.v
theories/TextFacts.v
theories/SpecSafe.v
theories/SafeFacts.v
theories/SafeText.v
theories/PropParse.v
theories/SpecFault.v
theories/FaultFacts.v
theories/PropFault.v
theories/SpecC.v
theories/CReadFacts.v
theories/CUnique.v
theories/PropFormat.v
theories/SpecLib.v
theories/LibFacts.v
theories/PropLib.v
theories/SpecCStmt.v
theories/CStmtFacts.v
theories/SpecExec.v
theories/ExecFacts.v
theories/SpecReturn.v
theories/ValueFacts.v
theories/ReturnFacts.v
theories/PlainCheck.v
theories/ToyMachine.v
theories/CStmtUnique.v
theories/SpecCModule.v
theories/CModuleFacts.v
theories/CModuleUnique.v
theories/ModuleCheck.v
theories/PropExec.v
theories/PropText.v
theories/SpecProject.v
theories/AnnounceFacts.v
theories/VisitFacts.v
theories/PropProject.v
theories/SpecTame.v
theories/TameFacts.v
theories/PropTame.v
theories/SpecClosed.v
theories/SpecTidy.v
theories/SpecNeat.v
theories/ClosedFacts.v
theories/ClosedModule.v
theories/ClosedProject.v
theories/ClosedOwn.v
theories/ClosedFile.v
theories/OpenCheck.v
theories/PropClosed.v
theories/PropFile.v
theories/SpecLink.v
theories/LinkFacts.v
theories/PropLink.v
theories/SpecComplete.v
theories/SizeFacts.v
theories/CompleteFacts.v
theories/PropComplete.v
theories/SpecMeaning.v
theories/MeaningFacts.v
theories/PropMeaning.v
theories/SpecRun.v
theories/WholeExec.v
theories/WholeNames.v
theories/WholeFacts.v
theories/ToyHost.v
theories/PropWhole.v
theories/LibBase.v
theories/LibClip.v
theories/SpecClip.v
theories/ClipFacts.v
theories/Clip2Facts.v
theories/PropClip.v
theories/LibIO.v
theories/SpecIO.v
theories/PropIO.v
theories/LibText.v
theories/SpecText.v
theories/PropStrings.v
theories/PropBencode.v
theories/LibSha1.v
theories/SpecSha1.v
theories/PropSha1.v
theories/LibTok.v
theories/SpecTok.v
theories/PropTok.v
theories/LibJson.v
theories/SpecJson.v
theories/PropJson.v
theories/LibLzw.v
theories/SpecLzw.v
theories/PropLzw.v
theories/LibHuffman.v
theories/SpecHuffman.v
theories/PropHuffman.v
theories/LibMem.v
theories/SpecMd5.v
theories/PropMd5.v
theories/LibCsv.v
theories/SpecCsv.v
theories/PropCsv.v
theories/LibLines.v
theories/SpecLines.v
theories/PropLines.v
theories/LibUtf.v
theories/SpecUtf.v
theories/PropUtf.v
theories/LibOpt.v
theories/SpecOpt.v
theories/PropOpt.v
theories/LibHttp.v
theories/SpecHttp.v
theories/PropHttp.v
theories/PropHttpRes.v
theories/LibUrl.v
theories/SpecUrl.v
theories/PropUrl.v
theories/LibTime.v
theories/SpecTime.v
theories/PropTime.v
theories/LibRnd.v
theories/SpecRnd.v
theories/PropRnd.v
theories/LibImage.v
theories/SpecImage.v
theories/PropImage.v
theories/LibMisc.v
theories/SpecMisc.v
theories/PropMisc.v
theories/LibSrt.v
theories/SpecSrt.v
theories/PropSrt.v
theories/LibVtt.v
theories/SpecVtt.v
theories/PropVtt.v
theories/SpecShow.v
theories/PropShow.v
theories/SpecError.v
theories/PropError.v
theories/LibCue.v
theories/SpecCue.v
theories/PropCue.v
theories/LibByteReader.v
theories/SpecByteReader.v
theories/PropByteReader.v
theories/LibRunes.v
theories/SpecRunes.v
theories/PropRunes.v
theories/LibRuneFind.v
theories/SpecRuneFind.v
theories/PropRuneFind.v
