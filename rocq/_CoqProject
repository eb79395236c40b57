-Q theories Verif
theories/Text.v
theories/Kind.v
theories/Regex.v
theories/Lexer.v
theories/LexerProofs.v
theories/PropLexer.v
theories/ParserApi.v
theories/GrammarExpr.v
theories/GrammarTags.v
theories/GrammarHtml.v
theories/Machine.v
theories/Render.v
theories/TreeMachine.v
theories/Simulation.v
theories/TreeSpec.v
theories/WpBase.v
theories/Total.v
theories/TotalApi.v
theories/TotalExpr.v
theories/TotalTags.v
theories/TotalHtml.v
theories/PropParser.v
theories/ConformExpr.v
theories/ConformTags.v
theories/ConformHtml.v
theories/Naming.v
theories/ConformNaming.v
theories/PropNaming.v
theories/Red.v
theories/Typed.v
theories/Rule.v
theories/Rules.v
theories/Check.v
theories/Process.v
theories/Output.v
theories/RedFacts.v
theories/PropSelect.v
theories/PropOutput.v
theories/DefaultConfig.v
theories/PropProcess.v
theories/WalkSpec.v
theories/PropRun.v
theories/PropTree.v
theories/PropFits.v
theories/PropLines.v
theories/PropQuotes.v
theories/PropReport.v
theories/Session.v
theories/PropSession.v
theories/Shape.v
theories/Schema.v
theories/Skeleton.v
theories/Precedence.v
theories/ShapeStrict.v
theories/ShapeExpr.v
theories/ShapeTags.v
theories/ShapeHtml.v
theories/PropShape.v
theories/SkelBase.v
theories/SkelEdges.v
theories/SkelExpr.v
theories/SkelTags.v
theories/SkelHtml.v
theories/PropSkel.v
theories/PropPrec.v
theories/Layout.v
theories/LayoutSim.v
theories/LayoutGrammar.v
theories/LayoutRoot.v
theories/LexLayout.v
theories/PropLayout.v
theories/PropIndent.v
theories/PropEndings.v
theories/PropOff.v
theories/Found.v
theories/FoundRun.v
theories/FoundShape.v
theories/PropFound.v
theories/PropFound2.v
theories/PropFound3.v
theories/PropFound4.v
theories/PropFound5.v
theories/TypedRest.v
theories/PropTyped.v
theories/Endings.v
theories/LexEndings.v
theories/LexLines.v
theories/Tidy.v
theories/PropFound6.v
theories/ConfigLoad.v
theories/PropConfig.v
theories/AccLogic.v
theories/AccSpec.v
theories/AccRules.v
theories/AccExpr.v
theories/AccTags.v
theories/AccHtml.v
theories/PropAccept.v
theories/ConformRules.v
theories/Builds.v
theories/PropBuilds.v
theories/PropTokens.v
theories/Loud.v
theories/Main.v
theories/PropMain.v
theories/Recover.v
theories/PropRecover.v
theories/Snug.v
theories/Nested.v
theories/Relaid.v
theories/Rounds.v
theories/Settled.v
theories/Finish.v
theories/PropFinish.v
theories/PropKeep.v
theories/Rename.v
theories/RenameSim.v
theories/RenameGrammar.v
theories/RenameRoot.v
theories/PropRename.v
theories/Collide.v
theories/PropCollide.v
theories/PropAlone.v
theories/Respell.v
theories/PropRespell.v
theories/LexSwap.v
theories/PropSpelled.v
theories/PropIgnored.v
theories/Chain.v
theories/Sides.v
theories/Cost.v
theories/PropCost.v
theories/ErrOrder.v
theories/PropErrOrder.v
theories/Diagnostics.v
theories/PropLabels.v
theories/Local.v
theories/PropLocal.v
theories/Dump.v
theories/PropDump.v
theories/PropByLine.v
theories/PropCompose.v
theories/ErrLine.v
theories/RuleLine.v
theories/PropErrLine.v
theories/RawKind.v
theories/PropRawKind.v
theories/PropSettings.v
theories/PropLooking.v
theories/PropLasting.v
theories/PropTwice.v
theories/Shown.v
theories/PropShown.v
theories/Said.v
theories/PropSaid.v
theories/PropAgree.v
theories/PropCodes.v
