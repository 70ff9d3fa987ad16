-Q theories Verif
theories/Str.v
theories/Keywords.v
theories/Token.v
theories/Lexer.v
theories/StmtIter.v
theories/Ast.v
theories/Parser.v
theories/Api.v
theories/StrFacts.v
theories/LexSpec.v
theories/LexBasics.v
theories/LexProofs.v
theories/LexPropSpec.v
theories/LexProps.v
theories/LexProps2.v
theories/FloatRounding.v
theories/LexProps3.v
theories/PropLexer.v
theories/Lines.v
theories/LinesSim.v
theories/ParseFuel.v
theories/AstTokens.v
theories/TokIter.v
theories/TokIterFacts.v
theories/Grammar.v
theories/ExprGrammar.v
theories/LineGrammar.v
theories/Clean.v
theories/ProgGrammar.v
theories/ProgComplete.v
theories/IterFacts.v
theories/ParserProps.v
theories/LineLocal.v
theories/Free.v
theories/ReadAll.v
theories/PropParser.v
theories/NodeTokens.v
theories/NodeKind.v
theories/LineTrace.v
theories/ProgTrace.v
theories/ParserProps2.v
theories/Blocks.v
theories/PropParser2.v
theories/Relabel.v
theories/RelabelProofs.v
theories/SourceSpec.v
theories/SourceProofs.v
theories/PropSource.v
theories/Failure.v
theories/FailureSound.v
theories/Reads.v
theories/FailureComplete.v
theories/Recovery.v
theories/RecoverySound.v
theories/RecoveryComplete.v
theories/RecoveryProps.v
theories/PropFailure.v
theories/Eq.v
theories/EqSpec.v
theories/EqFacts.v
theories/EqInj.v
theories/RelabelTokens.v
theories/EqProps.v
theories/Display.v
theories/DisplayProofs.v
theories/PropEq.v
theories/SourceLines.v
theories/SourceLinesProofs.v
theories/SourceJoin.v
theories/PropApi.v
theories/Cost.v
theories/CostProofs.v
theories/PropCost.v
theories/Ranges.v
theories/RangesProofs.v
theories/PropRanges.v
theories/Shape.v
theories/Unparse.v
theories/ShapeProofs.v
theories/UnparseProofs.v
theories/Format.v
theories/FormatProofs.v
theories/PropShape.v
theories/LexCost.v
theories/LexCostProofs.v
theories/PropLexCost.v
theories/Depth.v
theories/DepthProofs.v
theories/PropDepth.v
theories/ErrorShape.v
theories/ErrorShapeProofs.v
theories/LinesImage.v
theories/ErrorImage.v
theories/PropErrors.v
theories/RepoTests.v
theories/SourceImage.v
theories/SameAst.v
theories/SameAstProofs.v
theories/PropSameAst.v
theories/NodeLines.v
theories/NodeLinesProofs.v
theories/PropNodeLines.v
theories/LineEffect.v
theories/LineEffectProofs.v
theories/PropLineEffect.v
theories/SourceEdit.v
theories/SourceEditProofs.v
theories/PropSourceEdit.v
theories/StmtSubst.v
theories/SourceSubst.v
theories/PropSubst.v
theories/ErrorDocs.v
theories/PropErrorDocs.v
theories/Debug.v
theories/DebugSpec.v
theories/DebugProofs.v
theories/DebugAst.v
theories/DebugEq.v
theories/DebugLines.v
theories/DebugExample.v
theories/PropDebug.v
theories/Prefix.v
theories/AppendSpec.v
theories/AppendProofs.v
theories/PropAppend.v
theories/Pretty.v
theories/PrettyProofs.v
theories/PropPretty.v
theories/Conversions.v
theories/ConversionsProofs.v
theories/PropConversions.v
theories/CostLimit.v
theories/CostPanic.v
theories/DocSpec.v
theories/DocProofs.v
theories/PropDocs.v
theories/TokCost.v
theories/TokCostProofs.v
theories/PropTokCost.v
theories/PrettyLayout.v
theories/PrettyLayoutProofs.v
theories/IterCost.v
theories/IterCostProofs.v
theories/PropIterCost.v
theories/Kept.v
theories/KeptProofs.v
theories/PropKept.v
theories/LookAhead.v
theories/LookAheadProofs.v
theories/PropLookAhead.v
theories/Rename.v
theories/RenameProofs.v
theories/PropRename.v
theories/Vocabulary.v
theories/VocabularyProofs.v
theories/PropVocabulary.v
theories/Machine.v
theories/MachineSpec.v
theories/MachineProofs.v
theories/PropMachine.v
theories/Windows.v
theories/WindowsProofs.v
theories/PropWindows.v
theories/UnclosedProofs.v
theories/PropUnclosed.v
theories/Utf8.v
theories/Utf8Proofs.v
theories/PropUtf8.v
theories/PropSeparators.v
theories/FloatImage.v
theories/ImageSpec.v
theories/ImageProofs.v
theories/ImageParse.v
theories/PropImage.v
theories/ByteLexer.v
theories/ByteSpec.v
theories/ByteProofs.v
theories/PropByteLexer.v
theories/FloatText.v
theories/FloatTextSpec.v
theories/FloatTextProofs.v
theories/FloatTextRead.v
theories/PropFloatText.v
theories/PrintAst.v
theories/PrintAstProofs.v
theories/PropPrintAst.v
theories/Normal.v
theories/NormalProofs.v
theories/PropNormal.v
theories/Checker.v
theories/CheckerProofs.v
theories/PropChecker.v
theories/Reader.v
theories/ReaderProofs.v
theories/PropReader.v
theories/FirstError.v
theories/FirstErrorProofs.v
theories/FirstErrorRuns.v
theories/FirstErrorMain.v
theories/PropFirstError.v
theories/Automaton.v
theories/AutomatonProofs.v
theories/PropAutomaton.v
theories/Earliest.v
theories/EarliestProofs.v
theories/PropEarliest.v
theories/Memory.v
theories/MemoryProofs.v
theories/PropMemory.v
theories/HeaderProofs.v
