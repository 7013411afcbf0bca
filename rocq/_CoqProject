-Q theories Verif
theories/Base.v
theories/Data.v
theories/Token.v
theories/Reader.v
theories/ReaderIndexed.v
theories/Lexer.v
theories/Diag.v
theories/Ast.v
theories/Parser.v
theories/Display.v
theories/Visitor.v
theories/ImportGuard.v
theories/Analysis.v
theories/Project.v
theories/Printer.v
theories/Cli.v
theories/Server.v
theories/Config.v
theories/Tests.v
theories/TestsMore.v
theories/LexSpec.v
theories/ReaderProofs.v
theories/Utf8.v
theories/LexerProofs.v
theories/LexerProofs2.v
theories/LexerProofs3.v
theories/PropsLexer.v
theories/GuardProofs.v
theories/GuardSteer.v
theories/PropsGuard.v
theories/ParserBase.v
theories/ParserSafe.v
theories/ParserSafe2.v
theories/TreeSpec.v
theories/TreeProofs.v
theories/PropsParser.v
theories/TokParser.v
theories/ParserSim.v
theories/Fuel.v
theories/Grammar.v
theories/NameProofs.v
theories/NumProofs.v
theories/GrammarComplete.v
theories/GrammarSound.v
theories/PropsGrammar.v
theories/ParserReport.v
theories/PropsReport.v
theories/PropsPlaces.v
theories/NameReport.v
theories/PropsNames.v
theories/Tolerated.v
theories/PropsTolerated.v
theories/NumReport.v
theories/Forgiving.v
theories/PropsForgiving.v
theories/Rejected.v
theories/PropsRejected.v
theories/Viable.v
theories/PropsViable.v
theories/FirstFault.v
theories/PropsFirstFault.v
theories/PropsPointing.v
theories/Relaid.v
theories/PropsRelaid.v
theories/PropsRelaidSession.v
theories/PropsRelaidHover.v
theories/PropsRelaidGoto.v
theories/Count.v
theories/PropsCount.v
theories/Whole.v
theories/PropsWhole.v
theories/Session.v
theories/Live.v
theories/LiveProofs.v
theories/LiveAny.v
theories/LiveAsk.v
theories/CrLf.v
theories/CrLfScan.v
theories/CrLfParser.v
theories/PropsSession.v
theories/PropsSemicolon.v
theories/Reformat.v
theories/Insert.v
theories/PropsReformat.v
theories/PropsSearch.v
theories/AnalysisSpec.v
theories/AnalysisProofs.v
theories/PropsAnalysis.v
theories/ProjectSpec.v
theories/ProjectProofs.v
theories/ProjectProofs2.v
theories/ProjectOrder.v
theories/ProjectHistory.v
theories/PropsProject.v
theories/PropsProject2.v
theories/PropsProject3.v
theories/PropsFiles.v
theories/PropsCli.v
theories/PropsVisitor.v
theories/PropsSymbols.v
theories/ServerProofs.v
theories/PropsServer.v
theories/PropsGoto.v
theories/PropsUtf16.v
theories/PropsColumns.v
theories/DisplayProofs.v
theories/PropsDisplay.v
theories/PropsDisplayOnly.v
theories/PropsHistory.v
theories/PropsServed.v
theories/PropsOrder.v
theories/PropsElsewhere.v
theories/PropsCycle.v
theories/PropsPaste.v
theories/PropsMore.v
theories/PropsConcat.v
theories/PropsLayout.v
theories/Utf8Adequacy.v
theories/PropsUtf8.v
theories/LexGrow.v
theories/Prefix.v
theories/PropsStable.v
theories/GrammarDet.v
theories/Complete.v
theories/PropsComplete.v
theories/PropsFaithful.v
theories/LsMain.v
theories/PropsLs.v
theories/Kinds.v
theories/PropsOnce.v
theories/Unbalanced.v
theories/PropsCrash.v
theories/PropsCodes.v
theories/Rename.v
theories/PropsRename.v
theories/FirstError.v
theories/Boundary.v
theories/PropsFirst.v
theories/PropsQuickFix.v
theories/PropsTool.v
theories/Meaning.v
theories/Accept.v
theories/PropsAccept.v
theories/PropsFlat.v
theories/PropsRealise.v
theories/PropsDepth.v
theories/PropsPasteText.v
theories/Locks.v
theories/PropsLocks.v
theories/PropsShown.v
theories/PropsLive.v
theories/PropsLiveAsk.v
theories/CrLfProject.v
theories/CrLfServer.v
theories/PropsCrLf.v
theories/Unlabel.v
theories/UnlabelProject.v
theories/PropsUnlabel.v
theories/PropsBom.v
theories/CInclude.v
theories/PropsCInclude.v
theories/SplitRoot.v
theories/PropsSplitRoot.v
theories/Revalue.v
theories/RevalueProject.v
theories/PropsRevalue.v
theories/PropsOtherNames.v
theories/PropsTwice.v
