-Q theories Verif
theories/RPow.v
theories/NumberModel.v
theories/PrimeFacModel.v
theories/NumPowerModel.v
theories/DoubleModel.v
theories/NumberSpec.v
theories/NumberProofs.v
theories/PrimeFacProofs.v
theories/PrimeListProofs.v
theories/NumPowerProofs.v
theories/NumberWitness.v
theories/PropNumber.v
theories/ExprModel.v
theories/ExprSpec.v
theories/ExprProofs.v
theories/OrderModel.v
theories/OrderProofs.v
theories/ExprWitness.v
theories/PropExpr.v
theories/SymbolModel.v
theories/SymbolProofs.v
theories/PropSymbol.v
theories/SolveModel.v
theories/SolveFacts.v
theories/SkipFacts.v
theories/SolveAlg.v
theories/SolveSpec.v
theories/SolveProofs.v
theories/SolveExact.v
theories/SolveApi.v
theories/SolveWitness.v
theories/PropSolve.v
theories/Sem.v
theories/FloatEval.v
theories/Run.v
theories/SimplModel.v
theories/RunSpec.v
theories/RunFacts.v
theories/SoundOps.v
theories/SumProofs.v
theories/ListFacts.v
theories/ProductProofs.v
theories/ProductProofs2.v
theories/CreateProofs.v
theories/PowerProofs.v
theories/SignProofs.v
theories/TrigModel.v
theories/TrigFacts.v
theories/TrigProofs.v
theories/TrigProofs2.v
theories/PolyModel.v
theories/PolyProofs.v
theories/NormalModel.v
theories/NormalProofs.v
theories/NormalProofs2.v
theories/World.v
theories/DiffModel.v
theories/WorldProofs.v
theories/WorldExact.v
theories/DiffSpec.v
theories/DiffFacts.v
theories/DiffProofs.v
theories/DiffTotal.v
theories/ApiModel.v
theories/ApiSpec.v
theories/ApiProofs.v
theories/HasProofs.v
theories/SimplApi.v
theories/DiffApi.v
theories/RefFloat.v
theories/Conformance.v
theories/SimplWitness.v
theories/PolySpec.v
theories/PolyCoeff.v
theories/GcdProofs.v
theories/PropSimpl.v
theories/PropDiff.v
theories/PropPoly.v
theories/Interval.v
theories/Certain.v
theories/TrigApi.v
theories/PropTrig.v
theories/CacheModel.v
theories/CacheSpec.v
theories/CacheProofs.v
theories/PropCache.v
theories/ParserModel.v
theories/GrammarSpec.v
theories/ParserProofs.v
theories/ParserSound.v
theories/ParserComplete.v
theories/TextSpec.v
theories/ParserText.v
theories/PropText.v
theories/PrinterModel.v
theories/PrintSpec.v
theories/PrinterProofs.v
theories/PrinterMain.v
theories/PropPrint.v
theories/TextTests.v
theories/LaurentSpec.v
theories/LaurentOrder.v
theories/LaurentProd.v
theories/LaurentIdent.v
theories/LaurentSum.v
theories/LaurentInert.v
theories/LaurentExpand.v
theories/LaurentMain.v
theories/FuelMono.v
theories/FuelApi.v
theories/LaurentApi.v
theories/DoubleExact.v
theories/PropExpand.v
theories/RingProd.v
theories/RingSum.v
theories/RingPos.v
theories/RingSpec.v
theories/RingTerm.v
theories/PropRing.v
theories/DerivSpec.v
theories/LaurentDiff.v
theories/LaurentDiffApi.v
theories/PropDeriv.v
theories/ShapeSpec.v
theories/ShapeProofs.v
theories/ShapeProd.v
theories/ShapePow.v
theories/ShapeTrig.v
theories/ShapePoly.v
theories/ShapeNormal.v
theories/ShapeApi.v
theories/ShapePrint.v
theories/PropShape.v
theories/LaurentCoeff.v
theories/PolyTotal.v
theories/PolyCode.v
theories/NumInt.v
theories/HRuns.v
theories/RingRun.v
theories/DivExact.v
theories/DivRun.v
theories/DivRem.v
theories/DivSpec.v
theories/DivApi.v
theories/DivUser.v
theories/PropDivide.v
theories/GcdPoly.v
theories/GcdRun.v
theories/GcdUser.v
theories/PropGcd.v
theories/NormPoly.v
theories/NormRun.v
theories/NormSpec.v
theories/NormUser.v
theories/PropNormal.v
theories/RealField.v
theories/SystemSpec.v
theories/SolveField.v
theories/Laplace.v
theories/SolveExpr.v
theories/SolveEntry.v
theories/SolveReal.v
theories/SolveSkip.v
theories/SystemApi.v
theories/PropSystem.v
theories/LuModel.v
theories/LuSpec.v
theories/LuReal.v
theories/LuProofs.v
theories/PropLu.v
theories/DivHang.v
theories/NormHang.v
theories/PropHang.v
theories/RatSpec.v
theories/RatFacts.v
theories/PropRational.v
theories/MixedModel.v
theories/MixedSpec.v
theories/DoubleOps.v
theories/FractionProofs.v
theories/MixedProofs.v
theories/MixedBounds.v
theories/MixedOrder.v
theories/MixedPow.v
theories/MixedWitness.v
theories/PropDouble.v
theories/MixedAmple.v
theories/EvalModel.v
theories/EvalConst.v
theories/EvalSpec.v
theories/EvalPow.v
theories/EvalProofs.v
theories/EvalConv.v
theories/EvalAmple.v
theories/EvalWitness.v
theories/PropEval.v
theories/PiArith.v
theories/PiTrig.v
theories/PiBase.v
theories/PiDouble.v
theories/PiMultiples.v
theories/PiTan.v
theories/PropMultiples.v
theories/RootFound.v
theories/PropRoots.v
theories/TexModel.v
theories/NameTextSpec.v
theories/NameTextProofs.v
theories/PropNames.v
theories/TypeModel.v
theories/ViewSpec.v
theories/ViewProofs.v
theories/PropView.v
theories/UnitProofs.v
