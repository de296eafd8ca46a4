-Q theories Verif
theories/Num.v
theories/NumR.v
theories/Spec.v
theories/OrbIntegrals.v
theories/Uniformulas.v
theories/Lagrange.v
theories/KepEqu.v
theories/RotMat.v
theories/OrbElements.v
theories/StateTrans.v
theories/PathCheck.v
theories/PropKepler.v
theories/Gravity.v
theories/RLib.v
theories/Ana.v
theories/SeriesU.v
theories/UFacts.v
theories/Atan2.v
theories/OrbFacts.v
theories/KepState.v
theories/LoopFacts.v
theories/KepMotion.v
theories/TwoBody.v
theories/Witness.v
theories/OrbFacts2.v
theories/PropsOrbit.v
theories/PropsUniversal.v
theories/KepRows.v
theories/StmAlg.v
theories/Stm.v
theories/StmSym.v
theories/StmFacts.v
theories/StmMore.v
theories/StmSymp.v
theories/StmExamples.v
theories/PropsStm.v
theories/KepExamples.v
theories/PropsLoops.v
theories/SpecAnom.v
theories/SolveFacts.v
theories/SolveElps.v
theories/SolveElpsNear.v
theories/SolveElpsBad.v
theories/SolveElpsBad2.v
theories/SolveHypb.v
theories/Classical.v
theories/SolveUni.v
theories/SolveUni5.v
theories/SolveExamples.v
theories/PropsSolvers.v
theories/RotFacts.v
theories/ElemFacts.v
theories/ElemExamples.v
theories/PropsElements.v
theories/SpecGrav.v
theories/GravFacts.v
theories/GravMore.v
theories/GravExamples.v
theories/PropsGravity.v
theories/SpecPath.v
theories/PathFacts.v
theories/PathMotion.v
theories/PathExamples.v
theories/PropsPath.v
theories/Equi.v
theories/EquiExamples.v
theories/KepExamples2.v
theories/PropsKepler.v
theories/PropsEqui.v
theories/NumX.v
theories/Lift.v
theories/LiftMore.v
theories/SpecX.v
theories/XFacts.v
theories/XFacts2.v
theories/PropsX.v
theories/Cowell.v
theories/SpecInteg.v
theories/CowellFacts.v
theories/PropsCowell.v
theories/Nd.v
theories/NdModel.v
theories/SpecNd.v
theories/NdLib.v
theories/NdElem.v
theories/NdVec.v
theories/NdRv.v
theories/NdCoe.v
theories/NdKep.v
theories/NdStm.v
theories/NdExamples.v
theories/PropsNd.v
theories/NumD.v
theories/SpecAd.v
theories/AdOps.v
theories/AdFacts.v
theories/Trace.v
theories/TraceLib.v
theories/AdKep.v
theories/AdMore.v
theories/PropsAd.v
theories/NumB32.v
theories/B32Lib.v
theories/B32Facts.v
theories/B32Kep.v
theories/B32Uni.v
theories/LibmRef.v
theories/B32Examples.v
theories/PropsB32.v
theories/DocExamples.v
theories/Mutants.v
theories/LoopExamples.v
theories/Mutants2.v
theories/Mutants3.v
theories/Mutants4.v
theories/Mutants5.v
theories/Mutants6.v
theories/NewtonConvex.v
theories/SolveHypb2.v
theories/SolveUni2.v
theories/SolveUni3.v
theories/SolveUni4.v
theories/NumB64.v
theories/B64Lib.v
theories/B64Facts.v
theories/B64Kep.v
theories/B64Uni.v
theories/B64Far.v
theories/AccLib.v
theories/B32Acc.v
theories/B64Acc.v
theories/LibmRef64.v
theories/B64Examples.v
theories/B32Examples2.v
theories/PropsB64.v
theories/SpecFl.v
theories/SpecFl32.v
theories/RelLib.v
theories/B32Rel.v
theories/B32Closed.v
theories/B32Grav.v
theories/B32Cancel.v
theories/B32Fl.v
theories/PropsFl.v
theories/Dt.v
theories/DtModel.v
theories/SpecDt.v
theories/DtFacts.v
theories/PropsDt.v
theories/NumJ.v
theories/SpecJ.v
theories/JFacts.v
theories/JInt.v
theories/JPy.v
theories/PropsJ.v
theories/SpecFl64.v
theories/B64Rel.v
theories/B64Closed.v
theories/B64Grav.v
theories/B64Cancel.v
theories/B64Fl.v
theories/PropsFl64.v
theories/NewtonFl.v
theories/B32Newton.v
theories/B64Newton.v
theories/PropsNewton.v
theories/RoundAn.v
theories/SpecFlV.v
theories/B64An.v
theories/B64Geo.v
theories/B64Path.v
theories/B32An.v
theories/B32Geo.v
theories/B32Path.v
theories/GeoExamples.v
theories/PropsRound.v
theories/RoundFn.v
theories/UfReal.v
theories/B64Coe.v
theories/B32Coe.v
theories/B64Uf.v
theories/B32Uf.v
theories/B64Uvi.v
theories/B32Uvi.v
theories/B64Stop.v
theories/B32Stop.v
theories/Fine64.v
theories/Fine32.v
theories/UviExamples.v
theories/PropsRound2.v
theories/NumV.v
theories/SpecRev.v
theories/RevOps.v
theories/RevFacts.v
theories/RevPulls.v
theories/Reverse.v
theories/RevKep.v
theories/PropsRev.v
theories/BackReal.v
theories/B64Back.v
theories/B32Back.v
theories/BackExamples.v
theories/PropsRound3.v
theories/SqrtSqr.v
theories/SpecFlAng.v
theories/AngReal.v
theories/B64Ang.v
theories/B32Ang.v
theories/AngExamples.v
theories/PropsRound4.v
theories/AdElps.v
theories/AdHypb.v
theories/PropsAdSolve.v
theories/SpecFlStm.v
theories/StmReal.v
theories/B64Stm.v
theories/B32Stm.v
theories/B64Dx.v
theories/B32Dx.v
theories/StmFlExamples.v
theories/PropsRound5.v
theories/SpecFlPer.v
theories/B64Per.v
theories/B32Per.v
theories/PerExamples.v
theories/B64Ev.v
theories/B32Ev.v
theories/EvExamples.v
theories/PropsRound6.v
theories/AdHypb2.v
theories/Mutants7.v
theories/SqrtSqr2.v
theories/B64Past.v
theories/B32Past.v
theories/PastExamples.v
theories/B64Zero.v
theories/B32Zero.v
theories/ZeroExamples.v
theories/PropsRound7.v
theories/SpecMirror.v
theories/SgnCalc.v
theories/SgnCalc2.v
theories/SgnFloat.v
theories/SgnCalc3.v
theories/B64Mirror.v
theories/B32Mirror.v
theories/MirrorExamples.v
theories/SgnCalc4.v
theories/B64Odd.v
theories/B32Odd.v
theories/OddExamples.v
theories/PropsMirror.v
theories/NumW.v
theories/SpecUnits.v
theories/UnitFloat.v
theories/UnitCalc.v
theories/UnitMain.v
theories/UnitExamples.v
theories/PropsUnits.v
theories/SpecOrd.v
theories/OrdFloat.v
theories/OrdMain.v
theories/OrdExamples.v
theories/PropsOrder.v
theories/SpecRange.v
theories/AngRange.v
theories/RangeExamples.v
theories/PropsRange.v
theories/B64Trip.v
theories/B32Trip.v
theories/TripExamples.v
theories/PropsTrip.v
theories/AdCirc.v
theories/SpecTiny.v
theories/TinyReal.v
theories/B64Flat.v
theories/B32Flat.v
theories/FlatExamples.v
theories/PropsTiny.v
theories/AdFloor.v
theories/JScalar.v
theories/Mutants8.v
theories/AdHypb3.v
theories/SpecSwap.v
theories/SgnSwap.v
theories/SwapFloat.v
theories/SwapExamples.v
theories/PropsSwap.v
theories/NumF.v
theories/SpecFlush.v
theories/FlushCalc.v
theories/FlushMain.v
theories/FlushExamples.v
theories/PropsFlush.v
theories/ElpsFinite.v
theories/FiniteExamples.v
theories/PropsFinite.v
theories/HypNewton.v
theories/HypFloat.v
theories/B64Hyp.v
theories/B32Hyp.v
theories/PropsHypFloat.v
theories/TimeReal.v
theories/B64Time.v
theories/B32Time.v
theories/PropsTime.v
theories/HypNear.v
theories/HypFloat6.v
theories/B64Hyp6.v
theories/B32Hyp6.v
theories/PropsHypNear.v
theories/TimeReal6.v
theories/B64Time6.v
theories/B32Time6.v
theories/PropsTimeNear.v
theories/ElpsNine.v
theories/B64Nine.v
theories/B32Nine.v
theories/PropsNine.v
theories/B64Time9.v
theories/B32Time9.v
theories/PropsTimeWide.v
theories/UniFloat.v
theories/B64Kuni.v
theories/B32Kuni.v
theories/KuniExamples.v
theories/PropsKuni.v
theories/EccNear.v
theories/AdGuess.v
