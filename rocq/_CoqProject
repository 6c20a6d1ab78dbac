-Q theories Verif
theories/ModelBase.v
theories/ModelContext.v
theories/ModelEvaluator.v
theories/ModelText.v
theories/ModelDefault.v
theories/ModelStr.v
theories/ModelFloat.v
theories/ModelGamma.v
theories/ModelNum.v
theories/ModelOps.v
theories/ModelStd.v
theories/SpecExpr.v
theories/SpecGrammar.v
theories/SpecTokens.v
theories/SpecRun.v
theories/SpecChain.v
theories/SpecText.v
theories/SpecFrame.v
theories/ProofYard.v
theories/ProofRpn.v
theories/ProofGrammar.v
theories/ProofUnique.v
theories/ProofTokens.v
theories/ProofTokens2.v
theories/ProofTokens3.v
theories/ProofRun.v
theories/ProofWf.v
theories/ProofEvalMore.v
theories/PropEvaluator.v
theories/ProofText.v
theories/ProofFrame.v
theories/ProofDefault.v
theories/PropContext.v
theories/SpecOps.v
theories/ProofBuild.v
theories/ProofCtx.v
theories/ProofOps.v
theories/ProofOps2.v
theories/ProofOps3.v
theories/ProofFloat.v
theories/PropOps.v
theories/ModelSplit.v
theories/ModelTokenizer.v
theories/ModelParse.v
theories/SpecLex.v
theories/ProofSplit.v
theories/ProofLex.v
theories/ProofLex2.v
theories/SpecTokenizer.v
theories/ProofTok.v
theories/ProofExprText.v
theories/ProofTok2.v
theories/SpecParse.v
theories/ProofParse.v
theories/ProofIntText.v
theories/SpecLex2.v
theories/ProofLex3.v
theories/PropLex.v
theories/ModelBinary.v
theories/SpecBinary.v
theories/ProofBinary.v
theories/PropBinary.v
theories/ModelRepl.v
theories/SpecRepl.v
theories/ProofRepl.v
theories/PropRepl.v
theories/ModelDecimal.v
theories/SpecDecimal.v
theories/ProofDecRef.v
theories/ProofDecimal.v
theories/ProofDecimal2.v
theories/PropDecimal.v
theories/ProofDecTrig.v
theories/ProofDecFun.v
theories/ProofDecFun2.v
theories/PropDecimal2.v
theories/SpecDouble.v
theories/ProofDouble.v
theories/ProofDouble2.v
theories/PropDouble.v
theories/ModelComplex.v
theories/SpecComplex.v
theories/ProofComplex.v
theories/PropComplex.v
theories/SpecUsual.v
theories/PropUsual.v
theories/ProofFrame2.v
theories/PropFrame.v
theories/ModelServer.v
theories/SpecServer.v
theories/ProofServer.v
theories/PropServer.v
theories/PropServer2.v
theories/ModelNewtype.v
theories/ProofShape.v
theories/PropNewtype.v
theories/SpecFunctions.v
theories/ProofSnap.v
theories/PropFunctions.v
theories/SpecRound.v
theories/ProofRound.v
theories/ProofRound2.v
theories/ProofRound3.v
theories/PropRound.v
theories/PropRandom.v
theories/PropLogs.v
theories/PropDecimal3.v
theories/PropComplex2.v
theories/ModelTerminal.v
theories/SpecTerminal.v
theories/ProofTerminal.v
theories/PropTerminal.v
theories/ProofReals.v
theories/ProofDecReal.v
theories/ProofDecReal2.v
theories/PropTrig.v
theories/ProofLn.v
theories/ProofDecLn.v
theories/PropLn.v
theories/ProofExp.v
theories/ProofDecExp.v
theories/PropExp.v
theories/PropFactorial.v
theories/ProofAtan.v
theories/ProofDecAtan.v
theories/PropAtan.v
theories/ProofDecCbrt.v
theories/PropRoots.v
theories/SpecRoots.v
theories/ProofDecRoot.v
theories/ProofDecArc.v
theories/ProofDecArc2.v
theories/ProofDecHyp.v
theories/ProofDecRefRoot.v
theories/PropArc.v
theories/SpecSource.v
theories/ProofSource.v
theories/PropSource.v
theories/ModelError.v
theories/PropError.v
theories/ModelExample.v
theories/PropExample.v
theories/SpecRewrite.v
theories/PropRewrite.v
theories/SpecCompare.v
theories/ProofCompare.v
theories/PropUnchecked.v
theories/PropDecimal4.v
theories/ModelLimiter.v
theories/SpecLimiter.v
theories/PropLimiter.v
theories/SpecGamma.v
theories/ProofGamma.v
theories/PropGamma.v
theories/SpecDecGamma.v
theories/ProofDecFactor.v
theories/ProofDecGamma.v
theories/PropDecGamma.v
theories/SpecCalculator.v
theories/ProofCalculator.v
theories/ProofClosed.v
theories/PropRange.v
theories/PropCalculator.v
theories/PropNames.v
theories/SpecExact.v
theories/PropExact.v
theories/SpecComplexText.v
theories/ProofComplexText.v
theories/PropComplexText.v
theories/SpecAccepted.v
theories/ProofAccepted.v
theories/PropAccepted.v
theories/SpecConfig.v
theories/ProofConfig.v
theories/PropConfig.v
theories/SpecBlame.v
theories/ProofBlame.v
theories/PropBlame.v
theories/SpecDecCalc.v
theories/PropDecCalc.v
theories/ModelSplitBuilder.v
theories/SpecSplitter.v
theories/PropSplitter.v
theories/ModelJson.v
theories/SpecJson.v
theories/ProofJson.v
theories/ProofUtf8.v
theories/ProofRequest.v
theories/ProofWrite.v
theories/PropJson.v
theories/ModelListing.v
theories/SpecListing.v
theories/ProofListing.v
theories/PropListing.v
theories/SpecGlued.v
theories/PropGlued.v
theories/SpecEndToEnd.v
theories/PropEndToEnd.v
theories/SpecBinCalc.v
theories/ProofBinCalc.v
theories/PropBinCalc.v
theories/SpecDoubleCalc.v
theories/ProofDoubleCalc.v
theories/ProofDoubleCalc2.v
theories/PropDoubleCalc.v
theories/PropBytes.v
theories/SpecComplexCalc.v
theories/ProofComplexCalc.v
theories/ProofComplexCalc2.v
theories/PropComplexCalc.v
theories/ModelMessage.v
theories/SpecMessage.v
theories/ProofMessage.v
theories/ProofStillOpen.v
theories/ProofMessage2.v
theories/ProofMessage3.v
theories/PropMessage.v
theories/ModelSpoken.v
theories/SpecSpoken.v
theories/ProofSpoken.v
theories/PropSpoken.v
theories/ModelVoice.v
theories/PropReported.v
theories/SpecUsualTree.v
theories/PropUsualTree.v
theories/PropRegister.v
theories/PropAggregates.v
theories/PropUsualServer.v
