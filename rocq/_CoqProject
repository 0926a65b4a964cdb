-Q theories Verif

theories/Chars.v
theories/Ast.v
theories/GenericAst.v
theories/Query.v
theories/Visitor.v
theories/Transformer.v
theories/GenericTransformer.v
theories/SpecAst.v
theories/SpecTransform.v
theories/GenericFacts.v
theories/TransformFacts.v
theories/RewriteFacts.v
theories/ExpandFacts.v
theories/Sample.v
theories/PropAst.v
theories/IdGen.v
theories/PropIds.v
theories/PropTransform.v
theories/Pretty.v
theories/HtmlPrinter.v
theories/SpecHtml.v
theories/HtmlFacts.v
theories/HtmlView.v
theories/HtmlProps.v
theories/PropHtml.v
theories/LatexPrinter.v
theories/SpecLatex.v
theories/LatexFacts.v
theories/LatexProps.v
theories/PropLatex.v
theories/Nom.v
theories/ParserConfig.v
theories/ParserInline.v
theories/ParserBlock.v
theories/NomFacts.v
theories/ParserInlineFacts.v
theories/ParserBlockFacts.v
theories/ConformanceParser.v
theories/SpecNum.v
theories/NumFacts.v
theories/SpecParser.v
theories/ParserTotal.v
theories/ParserInv.v
theories/ParserProps.v
theories/ParserHooks.v
theories/ParserLeaf.v
theories/ParserCode.v
theories/ParserIdent.v
theories/ParserPlain.v
theories/ParserText.v
theories/PropParser.v
theories/MdPrinter.v
theories/ConformanceMd.v
theories/ConformanceOut.v
theories/DecFacts.v
theories/SpecMd.v
theories/MdFacts.v
theories/MdView.v
theories/MdPanic.v
theories/MdProps.v
theories/PropMd.v
theories/LineFacts.v
theories/SpecRender.v
theories/PropRender.v
theories/SpecRound.v
theories/ManyFacts.v
theories/RoundBlocks.v
theories/RoundStart.v
theories/RoundList.v
theories/RoundWrap.v
theories/RoundInline.v
theories/RoundSettle.v
theories/RoundWords.v
theories/RoundRead.v
theories/RoundCode.v
theories/RoundAlert.v
theories/RoundTable.v
theories/RoundLaid.v
theories/RoundShift.v
theories/RoundItem.v
theories/RoundDef.v
theories/RoundHtml.v
theories/RoundView.v
theories/RoundMain.v
theories/RoundCheck.v
theories/RoundUnwrap.v
theories/PropRound.v
theories/SpecFill.v
theories/FillFacts.v
theories/PropFill.v
theories/SpecInline.v
theories/SyntaxFacts.v
theories/SyntaxInline.v
theories/SyntaxInline2.v
theories/SpecBlock.v
theories/SyntaxLines.v
theories/SyntaxBlock.v
theories/SyntaxBlock2.v
theories/SyntaxHtml.v
theories/SyntaxDef.v
theories/SyntaxTable.v
theories/SyntaxDoc.v
theories/PropSyntax.v
theories/PropBlockSyntax.v
theories/ConfigBuild.v
theories/PropConfig.v
theories/SpecShape.v
theories/ShapeFacts.v
theories/PropShape.v
theories/CharFacts.v
theories/SpecCustom.v
theories/CustomFacts.v
theories/CustomText.v
theories/PropCustom.v
theories/SpecChars.v
theories/CharTree.v
theories/PropChars.v
theories/Serde.v
theories/SpecSerde.v
theories/SerdeFacts.v
theories/SpecEncode.v
theories/EncodeFacts.v
theories/PropEncode.v
theories/PropSerde.v
theories/SpecEol.v
theories/EolFacts.v
theories/HtmlStart.v
theories/EolBlocks.v
theories/PropEol.v
theories/PropBlank.v
theories/PropQuote.v
theories/SpecFinal.v
theories/FinalFacts.v
theories/PropFinal.v
theories/SpecAppend.v
theories/AppendFacts.v
theories/PropAppend.v
theories/EffNom.v
theories/EffParser.v
theories/EffSim.v
theories/EffState.v
theories/EffCost.v
theories/EffSeen.v
theories/SpecEffect.v
theories/PropEffect.v
theories/SpecHooks.v
theories/HookFacts.v
theories/EntryFacts.v
theories/PropHooks.v
theories/SpecJoin.v
theories/JoinFacts.v
theories/JoinBlocks.v
theories/PropJoin.v
theories/FillRich.v
theories/SpecFlow.v
theories/FlowFacts.v
theories/SpecLoss.v
theories/LossFacts.v
theories/PropLoss.v
theories/SpecSafe.v
theories/SafeFacts.v
theories/SafeParse.v
theories/PropSafe.v
theories/SpecSafeTex.v
theories/TexSafeFacts.v
theories/PropSafeTex.v
theories/SpecTogether.v
theories/TogetherFacts.v
theories/PropTogether.v
theories/SpecWrap.v
theories/PropWrap.v
theories/EscapeFacts.v
theories/PropEscape.v
theories/SpecSize.v
theories/SizeFacts.v
theories/SizeRefute.v
theories/PropSize.v
theories/SpecOutSize.v
theories/HtmlSize.v
theories/LatexSize.v
theories/PropOutSize.v
theories/SpecSwitch.v
theories/SwitchFacts.v
theories/PropSwitch.v
theories/PropAnchor.v
theories/SpecAlpha.v
theories/AlphaFacts.v
theories/PropAlpha.v
theories/SpecAlphaPrint.v
theories/AlphaPrint.v
theories/PropAlphaPrint.v
theories/SpecFormat.v
theories/FormatFacts.v
theories/PropFormat.v
theories/SpecRename.v
theories/RenameFacts.v
theories/PropRename.v
theories/SpecMeaning.v
theories/MeaningFacts.v
theories/PropMeaning.v
theories/SpecDepth.v
theories/DepthFacts.v
theories/PropDepth.v
