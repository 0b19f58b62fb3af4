-Q theories Verif
theories/CModel.v
theories/FloatModel.v
theories/WidthConv.v
theories/Codec.v
theories/Spec.v
theories/CodeFacts.v
theories/SpecFacts.v
theories/ValueFacts.v
theories/RoundFacts.v
theories/WidthFacts.v
theories/WidthApi.v
theories/WidthProps.v
theories/PropWidth.v
theories/FloatFacts.v
theories/FloatSym.v
theories/DecodeFacts.v
theories/EncodeFacts.v
theories/PhiFacts.v
theories/Codec8Facts.v
theories/Libm.v
theories/Conversion.v
theories/Arith.v
theories/Wrappers.v
theories/LogApi.v
theories/Machine.v
theories/LogFacts.v
theories/PowFacts.v
theories/LogProps.v
theories/MiscProps.v
theories/PropLog.v
theories/LinApi.v
theories/LinFacts.v
theories/FloatSpec.v
theories/LinDec.v
theories/LinProps.v
theories/LinRefute.v
theories/PropLinear.v
theories/LinOps.v
theories/LinGap.v
theories/LinArith.v
theories/LinArithRefute.v
theories/LinAlgebra.v
theories/PropLinArith.v
theories/RealBounds.v
theories/Constants.v
theories/ConstSpec.v
theories/ConstFacts.v
theories/GammaFacts.v
theories/ConstProps.v
theories/PropConst.v
theories/LibmSpec.v
theories/LibmIdeal.v
theories/WrapApi.v
theories/WrapTotal.v
theories/NearFacts.v
theories/LogConv.v
theories/LogAlgebra.v
theories/LogOddRefute.v
theories/PropLogConv.v
theories/PropTotal.v
theories/WrapNar.v
theories/PropNar.v
theories/WrapSpec.v
theories/NearCode.v
theories/FloatAcc.v
theories/RealFacts.v
theories/FixFacts.v
theories/WrapAcc.v
theories/WrapAcc2.v
theories/TrigGap.v
theories/WrapAcc3.v
theories/WrapMain.v
theories/WrapDom.v
theories/WrapSmall.v
theories/WrapPi.v
theories/WrapTrig.v
theories/WrapRefute.v
theories/PropFun.v
theories/WrapSpec2.v
theories/WrapBin.v
theories/WrapPow.v
theories/WrapRoot.v
theories/WrapExact.v
theories/WrapSign.v
theories/PropBin.v
theories/PropExact.v
theories/LogOdd8.v
theories/PropLogArith.v
theories/FunSym.v
theories/FunSym2.v
theories/PropSym.v
theories/MonoFloat.v
theories/MonoSpec.v
theories/MonoConv.v
theories/MonoIdeal.v
theories/MonoFun.v
theories/MonoFun2.v
theories/PropMono.v
theories/MonoBin.v
theories/MonoBin2.v
theories/PropMonoBin.v
theories/Platforms.v
theories/PlatSpec.v
theories/PlatDec.v
theories/PropPlat.v
theories/KindConv.v
theories/PropKind.v
theories/Calculator.v
theories/CalcSpec.v
theories/CalcFacts.v
theories/CalcOps.v
theories/CalcStep.v
theories/CalcEval.v
theories/CalcRun.v
theories/CalcSession.v
theories/CalcInput.v
theories/CalcLiteral.v
theories/CalcWitness.v
theories/CalcExact.v
theories/PropCalc.v
theories/CalcLineSpec.v
theories/CalcLine.v
theories/CalcNumeral.v
theories/PropCalcLine.v
theories/FloatTrip.v
theories/PropTrip.v
theories/RangeSpec.v
theories/Faithful.v
theories/RangeFacts.v
theories/PropFaithful.v
theories/Agree.v
theories/RelFacts.v
theories/PropRel.v
theories/WidthSteps.v
theories/PropSteps.v
theories/Exactly.v
theories/PropExactly.v
theories/Sterbenz.v
theories/Octant.v
theories/PropClose.v
theories/ErrorSpec.v
theories/ErrorProps.v
theories/ErrorApi.v
theories/Sums.v
theories/Horner.v
theories/PropError.v
theories/PosteriorSpec.v
theories/Posterior.v
theories/TwoSum.v
theories/PropTwoSum.v
theories/FormatFree.v
theories/PropFormat.v
theories/InverseSpec.v
theories/InverseFun.v
theories/InverseOps.v
theories/InverseRefute.v
theories/PropInverse.v
theories/ListSpec.v
theories/Lists.v
theories/Middle.v
theories/Pythagoras.v
theories/QuotientOne.v
theories/PropLists.v
theories/TextSpec.v
theories/TextFacts.v
theories/TextTrip.v
theories/TextLibrary.v
theories/TextSession.v
theories/TextWitness.v
theories/TextTotal.v
theories/PropText.v
theories/PlatSpec2.v
theories/PlatArith.v
theories/PropPlat2.v
theories/Detour.v
theories/PropDetour.v
theories/WaySpec.v
theories/TwoWays.v
theories/PropTwoWays.v
theories/LogRecip.v
theories/AbsSign.v
theories/PropRecip.v
theories/Distance.v
theories/PropDistance.v
theories/Negations.v
theories/TreeSpec.v
theories/Trees.v
theories/PropTrees.v
theories/CompSpec.v
theories/Computations.v
theories/CompCase.v
theories/PropComputations.v
theories/TestHarness.v
theories/Lfsr.v
theories/GeneratorFacts.v
theories/HarnessSpec.v
theories/SamplerFacts.v
theories/SamplerModes.v
theories/HarnessProofs.v
theories/HarnessResults.v
theories/PropHarness.v
theories/TestBlocks.v
theories/TestBlocksSpec.v
theories/TestBlocksProofs.v
theories/PropTestBlocks.v
theories/TestPrograms.v
theories/TestProgramsProofs.v
theories/TestProgramsLog.v
theories/TestProgramsMisc.v
theories/PropTestPrograms.v
theories/TestFunctions.v
theories/TestFunctionsProofs.v
theories/PropTestFunctions.v
theories/TestBinary.v
theories/TestBinaryProofs.v
theories/PropTestBinary.v
theories/TestExponentials.v
theories/TestExponentialsProofs.v
theories/PropTestExponentials.v
