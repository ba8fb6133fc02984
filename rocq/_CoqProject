-Q theories Verif
theories/Base.v
theories/Heap.v
theories/Affine.v
theories/Ops.v
theories/UMath.v
theories/NumR.v
theories/NumF.v
theories/HeapSpec.v
theories/HeapProofs.v
theories/DenProofs.v
theories/Machine.v
theories/Wrap.v
theories/WrapSpec.v
theories/WrapProofs.v
theories/PropsWrap.v
theories/Cov.v
theories/Copy.v
theories/Calls.v
theories/Spec.v
theories/Refine.v
theories/RefineStep.v
theories/Unumpy.v
theories/UMatrix.v
theories/History.v
theories/CallProofs.v
theories/CovConv.v
theories/Plain.v
theories/PlainProofs.v
theories/PropsCore.v
theories/Regular.v
theories/DiffProofs.v
theories/ADProofs.v
theories/ADRun.v
theories/CovSpec.v
theories/UnumpySpec.v
theories/ArrProofs.v
theories/MxProofs.v
theories/InvConv.v
theories/UMxConv.v
theories/HistoryProofs.v
theories/CovProofs.v
theories/CorrProofs.v
theories/CopySpec.v
theories/CopyProofs.v
theories/DerivR.v
theories/Prim.v
theories/PrimProofs.v
theories/PrimReg.v
theories/Examples.v
theories/ExFacts.v
theories/ExCov.v
theories/PropsHistory.v
theories/ChainProofs.v
theories/ExPrim.v
theories/GenProofs.v
theories/RealFacts.v
theories/FFacts.v
theories/Fuel.v
theories/FRefute.v
theories/NumDeriv.v
theories/ExGen.v
theories/PlainThm.v
theories/UMathNum.v
theories/PropsPrim.v
theories/PropsCov.v
theories/Conc.v
theories/ConcSpec.v
theories/ConcProofs.v
theories/Ordered.v
theories/ConcThm.v
theories/FConc.v
theories/PropsConc.v
theories/Str.v
theories/FmtOps.v
theories/Format.v
theories/Parse.v
theories/Repr.v
theories/StrProofs.v
theories/FmtSpec.v
theories/SpecProofs.v
theories/FixedProofs.v
theories/FormatProofs.v
theories/DecProofs.v
theories/ExFmt.v
theories/PropsFmt.v
theories/RealFmt.v
theories/RealThm.v
theories/ZeroFmt.v
theories/ExReal.v
theories/PropsReal.v
theories/ParseSpec.v
theories/ReadProofs.v
theories/ParseProofs.v
theories/NotationProofs.v
theories/ParseThm.v
theories/RoundTrip.v
theories/ErrThm.v
theories/ReprThm.v
theories/FmtF.v
theories/BinProofs.v
theories/BinRepr.v
theories/BinQ.v
theories/BinSpec.v
theories/BinFmt.v
theories/BinThm.v
theories/BinLibm.v
theories/LangSpec.v
theories/LangProofs.v
theories/LangThm.v
theories/LangRead.v
theories/ExParse.v
theories/ExLang.v
theories/TagThm.v
theories/SpecialTrip.v
theories/ExTrip.v
theories/LangLetters.v
theories/PropsParse.v
theories/ExBin.v
theories/PropsBin.v
theories/BinStd.v
theories/BinArith.v
theories/NumFacts.v
theories/NumState.v
theories/BinDeriv.v
theories/BinEq.v
theories/FmodState.v
theories/ExFmod.v
theories/PropsNum.v
theories/Extra.v
theories/PropsExtra.v
theories/Attrs.v
theories/AttrsProofs.v
theories/PropsAttrs.v
theories/ParseBin.v
theories/BinTrip.v
theories/PropsParseBin.v
theories/MatrixSpec.v
theories/UarrProofs.v
theories/InvThm.v
theories/WArrThm.v
theories/VecProofs.v
theories/UMxThm.v
theories/ExArr.v
theories/ExMx.v
theories/PropsUMatrix.v
theories/PropsUnumpy.v
theories/Fixer.v
theories/FixerSpec.v
theories/FixerProofs.v
theories/ExFixer.v
theories/PyEval.v
theories/PyThm.v
theories/PyLib.v
theories/PyInst.v
theories/PyEff.v
theories/ExPy.v
theories/PropsFixer.v
theories/SpecialFmt.v
theories/GenFmt.v
theories/Cost.v
theories/PropsCost.v
theories/GradSpec.v
theories/Evolve.v
theories/DepSpec.v
theories/Deps.v
theories/ExDeps.v
theories/BinGrad.v
theories/BinGradThm.v
theories/GradStd.v
theories/BinSqrt.v
theories/ExGrad.v
theories/BinCov.v
theories/ExBinCov.v
theories/BinOrd.v
theories/ExBinOrd.v
theories/CalcSpec.v
theories/CalcAlg.v
theories/CalcThm.v
theories/CalcFun.v
theories/CalcOp.v
theories/CalcPow.v
theories/CalcMore.v
theories/CalcTwo.v
theories/CalcTop.v
theories/ExCalc.v
theories/PropsGrad.v
theories/TermSpec.v
theories/Term.v
theories/TermF.v
theories/ExTerm.v
theories/BinCancel.v
theories/PropsTerm.v
theories/AnySpec.v
theories/AnyArith.v
theories/ExAny.v
theories/PropsAny.v
theories/TwinSpec.v
theories/Twin.v
theories/IntDiv.v
theories/ExTwin.v
theories/PropsTwin.v
theories/StaySpec.v
theories/Stay.v
theories/StayF.v
theories/PropsStay.v
theories/LaterSpec.v
theories/Later.v
theories/LaterMore.v
theories/ExLater.v
theories/PropsLater.v
theories/PropsDep.v
theories/PropsCalc.v
theories/OutcomeSpec.v
theories/Outcome.v
theories/OutcomeCov.v
theories/OutcomeCmp.v
theories/ExOutcome.v
theories/PropsOutcome.v
theories/LaterCov.v
theories/ExLaterCov.v
theories/CorrAny.v
theories/ExCorrAny.v
theories/OutcomeMat.v
theories/ExOutcomeMat.v
theories/OutcomeBool.v
theories/ExOutcomeBool.v
theories/PropsCorr.v
theories/BiggerSpec.v
theories/Bigger.v
theories/BiggerLater.v
theories/ExBigger.v
theories/Parts.v
theories/ExParts.v
theories/Opposite.v
theories/ExOpposite.v
theories/PropsBigger.v
