-Q theories Verif
theories/Base.v
theories/Peg.v
theories/Rules.v
theories/RulesApi.v
theories/Span.v
theories/Utf8.v
theories/Selmaho.v
theories/ClassifyTable.v
theories/Classify.v
theories/Decompose.v
theories/Lex.v
theories/PegMeta.v
theories/RulesTotal.v
theories/PegChars.v
theories/DecomposeSpec.v
theories/DecomposeFacts.v
theories/History.v
theories/DecomposeMachine.v
theories/SpecText.v
theories/DecomposeThms.v
theories/Props_Decompose.v
theories/PegSim.v
theories/ClassifyFacts.v
theories/DecomposeSim.v
theories/SpecCmavo.v
theories/ClassifyThms.v
theories/Props_Classify.v
theories/SpanThms.v
theories/Props_Span.v
theories/DecomposeSuffix.v
theories/SpecLex.v
theories/LexThms.v
theories/LexFacts.v
theories/LexDet.v
theories/LexQuote.v
theories/Props_Lex.v
theories/Cst.v
theories/CstRules.v
theories/CstApi.v
theories/CstMeta.v
theories/CstTotal.v
theories/SpecCst.v
theories/CstTree.v
theories/CstBalance.v
theories/CstAuto.v
theories/CstMain.v
theories/CstPrint.v
theories/CstShape.v
theories/CstError.v
theories/CstWitness.v
theories/CstThms.v
theories/CstNodes.v
theories/Props_Cst.v
theories/SymPeg.v
theories/SpecMorph.v
theories/MorphFacts.v
theories/MorphCons.v
theories/MorphCmavo.v
theories/MorphGismu.v
theories/MorphThms.v
theories/Props_Morph.v
theories/DecMorph.v
theories/DecPrefix.v
theories/DecVowels.v
theories/SpecWords.v
theories/DecStress.v
theories/DecWords.v
theories/Props_Words.v
theories/Cost.v
theories/CostThms.v
theories/Props_Cost.v
theories/SpecCll.v
theories/CllFacts.v
theories/Props_Cll.v
theories/CstSimp.v
theories/CstIndic.v
theories/SpecFragment.v
theories/CstTail.v
theories/CstSame.v
theories/Props_Fragment.v
theories/SpecGen.v
theories/SpecGrammar.v
theories/CstGen.v
theories/SpecParts.v
theories/CstGrammar.v
theories/Props_Grammar.v
theories/CstParts.v
theories/Props_Parts.v
theories/CstPara.v
theories/Props_Compose.v
theories/SpecEbnf.v
theories/CstEbnf.v
theories/Props_Ebnf.v
theories/Derive.v
theories/CstDecls.v
theories/CstDerive.v
theories/SpecDerive.v
theories/DeriveThms.v
theories/DeriveMore.v
theories/Props_Derive.v
theories/SpecPrint.v
theories/PrintThms.v
theories/Props_Print.v
theories/TreeDerive.v
theories/SpecTree.v
theories/TreeThms.v
theories/Props_Tree.v
theories/Tool.v
theories/SpecTool.v
theories/Props_Tool.v
theories/SpecReading.v
theories/Props_Reading.v
theories/SpecCase.v
theories/Caseless.v
theories/Props_Case.v
