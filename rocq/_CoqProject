-Q theories Verif
theories/Chars.v
theories/Units.v
theories/Token.v
theories/F32.v
theories/Lexer.v
theories/SpecToken.v
theories/TokenProofs.v
theories/KindProofs.v
theories/PropToken.v
theories/SpecLex.v
theories/LexBase.v
theories/ScanProofs.v
theories/ScanProofs2.v
theories/ScanProofs3.v
theories/NumProofs.v
theories/DimProofs.v
theories/LexProofs.v
theories/LexFacts.v
theories/SpecTrace.v
theories/LexTrace.v
theories/LexKinds.v
theories/LexProps.v
theories/LexProps2.v
theories/LexProps3.v
theories/LexUrl.v
theories/LexLimits.v
theories/PropLex.v
theories/SpecF32.v
theories/F32Proofs.v
theories/NumberValue.v
theories/PropNumber.v
theories/Span.v
theories/Cursor.v
theories/SpecCursor.v
theories/CursorProofs.v
theories/CursorLex.v
theories/CursorFacts.v
theories/PropCursor.v
theories/SpecSpan.v
theories/SpanProofs.v
theories/PropSpan.v
theories/Parser.v
theories/SpecParser.v
theories/ParserProofs.v
theories/ParserProofs2.v
theories/ParserProofs3.v
theories/ParserProofs4.v
theories/CompareProofs.v
theories/PropParser.v
theories/Traits.v
theories/Syntax.v
theories/SpecSyntax.v
theories/SyntaxProofs.v
theories/SyntaxTotal.v
theories/SyntaxAccept.v
theories/SyntaxFacts.v
theories/PropSyntax.v
theories/LspFrame.v
theories/SpecLspFrame.v
theories/LspFrameProofs.v
theories/LspMessage.v
theories/SpecLspMessage.v
theories/LspMessageProofs.v
theories/LspJson.v
theories/SpecLspJson.v
theories/LspJsonProofs.v
theories/LspHandler.v
theories/SpecLspHandler.v
theories/LspHandlerProofs.v
theories/LspDoc.v
theories/SpecLspDoc.v
theories/LspDocProofs.v
theories/LspThreads.v
theories/SpecLspThreads.v
theories/LspThreadsProofs.v
theories/PropLspWire.v
theories/SpecLspString.v
theories/LspStringProofs.v
theories/PropLspString.v
theories/SpecLspGrammar.v
theories/LspGrammarProofs.v
theories/LspGrammarProofs2.v
theories/PropLspGrammar.v
theories/PropLspServer.v
theories/Write.v
theories/DisplayProofs.v
theories/SpecWrite.v
theories/WriteProofs.v
theories/RestProofs.v
theories/RestProofs2.v
theories/PropWrite.v
theories/JoinProofs.v
theories/JoinProofs2.v
theories/JoinProofs3.v
theories/JoinProofs4.v
theories/PropJoin.v
theories/Nth.v
theories/SpecNth.v
theories/NthLex.v
theories/NthProofs.v
theories/PropNth.v
theories/SpecTraits.v
theories/TraitsTotal.v
theories/RulesTotal.v
theories/SpecRules.v
theories/FaithProofs.v
theories/FaithTraits.v
theories/FaithRules.v
theories/PropRules.v
theories/Features.v
theories/SpecFeatures.v
theories/FeatureProofs.v
theories/FeatureProofs2.v
theories/FeatureProofs3.v
theories/FeatureProofs4.v
theories/FeatureProofs5.v
theories/FeatureProofs6.v
theories/PropFeatures.v
theories/SelectorWords.v
theories/Selectors.v
theories/SpecWords.v
theories/SpecSelectors.v
theories/SelectorProofs.v
theories/SelectorProofs2.v
theories/SelectorProofs3.v
theories/SelectorProofs4.v
theories/SelectorProofs5.v
theories/SelectorProofs6.v
theories/SelectorProofs7.v
theories/SelectorProofs8.v
theories/SelectorProofs9.v
theories/PropSelectors.v
theories/SpecSelectorText.v
theories/SelectorGoes.v
theories/SelectorGoes2.v
theories/SelectorGoes3.v
theories/SelectorGoes4.v
theories/SelectorGoes5.v
theories/SelectorGoes6.v
theories/SelectorGoesNth.v
theories/SelectorGoes7.v
theories/PropSelectorText.v
theories/MagnitudeProofs.v
theories/PropMagnitude.v
theories/Ast.v
theories/AstSheet.v
theories/SpecSheet.v
theories/Goes.v
theories/Goes2.v
theories/Goes3.v
theories/Goes4.v
theories/Goes5.v
theories/Goes6.v
theories/Goes7.v
theories/Goes8.v
theories/GoesPage.v
theories/Goes9.v
theories/SheetReadable.v
theories/SheetTotal.v
theories/PropSheet.v
theories/Tells.v
theories/Tells2.v
theories/Tells3.v
theories/Tells4.v
theories/Tells5.v
theories/Tells6.v
theories/Tells7.v
theories/SpecWritten.v
theories/Tells8.v
theories/Tells9.v
theories/PropWritten.v
theories/Def.v
theories/Types.v
theories/Values.v
theories/ValuesTotal.v
theories/PropValues.v
theories/SpecValues.v
theories/ValuesTold.v
theories/PropValues2.v
theories/SpecConforms.v
theories/ValuesConform.v
theories/ValuesConform2.v
theories/ValuesConform3.v
theories/PropValues3.v
theories/SpecAccepts.v
theories/ValuesTaken.v
theories/ValuesTaken2.v
theories/ValuesTaken3.v
theories/ValuesTaken4.v
theories/ValuesTaken5.v
theories/ValuesTaken6.v
theories/ValuesTaken7.v
theories/PropValues4.v
theories/Minify.v
theories/SpecMinify.v
theories/MinifyProofs.v
theories/PropMinify.v
theories/Highlight.v
theories/SpecHighlight.v
theories/Shows.v
theories/Shows2.v
theories/Shows3.v
theories/Shows4.v
theories/HighlightProofs.v
theories/PropHighlight.v
theories/SpecDecl.v
theories/Keeps.v
theories/DeclProofs.v
theories/PropDecl.v
theories/SpecTree.v
theories/Says.v
theories/Says2.v
theories/Says3.v
theories/Says4.v
theories/Says5.v
theories/PropTree.v
theories/SpecRead.v
theories/Reads.v
theories/Reads2.v
theories/Reads3.v
theories/Reads4.v
theories/ReadsFeature.v
theories/Reads5.v
theories/Reads6.v
theories/Reads7.v
theories/ReadsPage.v
theories/Reads8.v
theories/PropRead.v
theories/PageOrder.v
theories/SpecPage.v
theories/PageProofs.v
theories/PropPage.v
