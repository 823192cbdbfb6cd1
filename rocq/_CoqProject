-Q theories Verif
theories/Num.v
theories/ModelTypes.v
theories/ModelWs.v
theories/ModelHx.v
theories/ModelStateEq.v
theories/ModelEngine.v
theories/ModelStubs.v
theories/ModelApi.v
theories/Spec.v
theories/PolySolve.v
theories/SpecLoop.v
theories/PolyLoop.v
theories/PolyRun.v
theories/SpecApi.v
theories/PolyPanic.v
theories/PolyApi.v
theories/SpecCfg.v
theories/PolyCfg.v
theories/RNum.v
theories/B64.v
theories/Fixture.v
theories/Replay.v
theories/PolyMore.v
theories/SpecInfl.v
theories/PolyInfl.v
theories/Demo.v
theories/Witness.v
theories/PolyStubs.v
theories/SpecR.v
theories/RSolve.v
theories/RGauss.v
theories/SpecGas.v
theories/RFluid.v
theories/SpecKin.v
theories/RKin.v
theories/SpecDrive.v
theories/RDrive.v
theories/SpecTraj.v
theories/RMass.v
theories/RCase.v
theories/RState.v
theories/SpecLaws.v
theories/RLaws.v
theories/RLimit.v
theories/SpecHydro.v
theories/RHydro.v
theories/RLeak.v
theories/RCase3.v
theories/SpecSecond.v
theories/RSecond.v
theories/SpecSeries.v
theories/RSeries.v
theories/SpecQuad.v
theories/RQuad.v
theories/SpecPerf.v
theories/RPerf.v
theories/SpecHx.v
theories/RHx.v
theories/RCase2.v
theories/SpecF64.v
theories/SpecRound.v
theories/F64Base.v
theories/F64Err.v
theories/F64Avg.v
theories/F64Mean.v
theories/F64Order.v
theories/F64Conv.v
theories/F64More.v
theories/F64Deg.v
theories/F64Norm.v
theories/F64Run.v
theories/F64Case.v
theories/RClose.v
theories/RPairs.v
theories/SpecUnique.v
theories/RUnique.v
theories/RPeriod.v
theories/RPicard.v
theories/RLocal.v
theories/SpecExist.v
theories/RExist.v
theories/RStart.v
theories/SpecDepend.v
theories/RReturn.v
theories/RDepend.v
theories/RCase4.v
theories/Properties_Solve.v
theories/Properties_Loop.v
theories/Properties_Api.v
theories/Properties_State.v
theories/ModelSerde.v
theories/SpecSerde.v
theories/PolySerde.v
theories/PolyDoc.v
theories/SerdeDocs.v
theories/Properties_Gas.v
theories/Properties_Laws.v
theories/Properties_Series.v
theories/Properties_Perf.v
theories/Properties_F64.v
theories/Properties_Round.v
theories/Properties_File.v
theories/Properties_Cycle.v
theories/Properties_Depend.v
theories/SpecDefault.v
theories/RDefault.v
theories/F64Default.v
theories/SpecSign.v
theories/F64Sign.v
theories/Properties_Default.v
theories/SpecSpaces.v
theories/RSpaces.v
theories/Properties_Spaces.v
theories/SpecBalance.v
theories/F64Balance.v
theories/F64BalanceCase.v
theories/Properties_Balance.v
theories/SpecMargin.v
theories/F64Margin.v
theories/F64MarginCase.v
theories/F64Fragile.v
theories/Properties_Margin.v
theories/SpecBounds.v
theories/RBounds.v
theories/Properties_Bounds.v
theories/SpecSteady.v
theories/RBrouwer.v
theories/RSteady.v
theories/Properties_Steady.v
theories/SpecCold.v
theories/RCold.v
theories/Properties_Cold.v
theories/SpecRange.v
theories/F64Range.v
theories/F64RangeCase.v
theories/Properties_Range.v
theories/SpecRegen.v
theories/RRegen.v
theories/RRegenCase.v
theories/Properties_Regen.v
theories/SpecReport.v
theories/PolyReport.v
theories/F64Report.v
theories/F64FirstLaw.v
theories/F64ReportCase.v
theories/Properties_Report.v
theories/SpecLimits.v
theories/PolyLimits.v
theories/LimitsCase.v
theories/Properties_Limits.v
theories/RSmooth.v
theories/RMotion.v
theories/SpecSample.v
theories/RSample.v
theories/RSampleReport.v
theories/RSampleCase.v
theories/Properties_Sample.v
theories/SpecGlobal.v
theories/RGlobal.v
theories/RGlobalReport.v
theories/RNearby.v
theories/Properties_Global.v
theories/ModelExamples.v
theories/SpecExamples.v
theories/PolyExamples.v
theories/F64Examples.v
theories/RExamples.v
theories/Properties_Examples.v
theories/SpecSimilar.v
theories/RSimilar.v
theories/RSimilarCase.v
theories/Properties_Similar.v
theories/RContract.v
theories/SpecContract.v
theories/RContractEngine.v
theories/RSettle.v
theories/RSettleCase.v
theories/Properties_Contract.v
theories/SpecSearch.v
theories/RSearch.v
theories/SpecConverge.v
theories/RSearchCase.v
theories/RConverge.v
theories/SpecAccurate.v
theories/SpecSolver.v
theories/REuler.v
theories/RAccurate.v
theories/RConvergeCase.v
theories/RAccurateCase.v
theories/RSolver.v
theories/SpecMeans.v
theories/RMeans.v
theories/RReturned.v
theories/RSolverRun.v
theories/RSolverCase.v
theories/Properties_Converge.v
theories/Properties_Accurate.v
theories/Properties_Solver.v
theories/Properties_Search.v
theories/SpecPush.v
theories/RPush.v
theories/Properties_Push.v
theories/RApproach.v
theories/RConsistent.v
theories/RConsistentCase.v
theories/Properties_Returned.v
theories/RPushDrive.v
theories/SpecEffective.v
theories/RFlowBound.v
theories/RFollow.v
theories/REffective.v
theories/RFamily.v
theories/RTame.v
theories/RUniform.v
theories/REffectiveCase.v
theories/Properties_Effective.v
theories/SpecMixed.v
theories/RMixed.v
theories/RMixedCase.v
theories/SpecOuter.v
theories/RVary.v
theories/RVaryRun.v
theories/RShadow.v
theories/RApart.v
theories/ROuter.v
theories/ROuterLimit.v
theories/ROuterCase.v
theories/Properties_Outer.v
theories/RClosing.v
theories/RInside.v
theories/ROuterExact.v
theories/ROuterExactCase.v
theories/Properties_Exact.v
theories/ROuterMean.v
theories/ROuterSteady.v
theories/ROuterReport.v
theories/ROuterSteadyCase.v
theories/Properties_Attain.v
theories/ROuterPower.v
theories/ROuterPowerCase.v
theories/RRhombicCase.v
theories/RRhombicRuns.v
theories/Properties_Power.v
theories/SpecPoints.v
theories/F64Points.v
theories/F64PointsCase.v
theories/Properties_Points.v
theories/PolyFixed.v
theories/F64Fixed.v
theories/Properties_Fixed.v
theories/SpecTurn.v
theories/RTurn.v
theories/RTurnCase.v
theories/Properties_Turn.v
theories/SpecCarnot.v
theories/RCarnot.v
theories/RBook.v
theories/RCarnotCase.v
theories/RCarnotRun.v
theories/Properties_Carnot.v
theories/SpecCrank.v
theories/F64Rhombic.v
theories/F64RhombicCase.v
theories/Properties_Crank.v
theories/SpecH2.v
theories/RH2.v
theories/RH2Case.v
theories/RH2Steady.v
theories/Properties_H2.v
theories/SpecProps.v
theories/F64Props.v
theories/F64PropsCase.v
theories/Properties_Props.v
theories/SpecAngle.v
theories/F64Pi.v
theories/F64Angle.v
theories/F64AngleCase.v
theories/Properties_Angle.v
theories/SpecH2Cycle.v
theories/RH2Cycle.v
theories/Properties_H2Cycle.v
theories/SpecLink.v
theories/F64Link.v
theories/F64LinkCase.v
theories/Properties_Link.v
theories/SpecLogMean.v
theories/F64LogMean.v
theories/F64LogMeanCase.v
theories/Properties_LogMean.v
theories/SpecNtu.v
theories/F64Ntu.v
theories/F64NtuCase.v
theories/Properties_Ntu.v
theories/F64NtuRegen.v
