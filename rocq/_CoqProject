-Q theories Verif
theories/Ops.v
theories/Arr.v
theories/MUtils.v
theories/MDatasets.v
theories/MDatafits.v
theories/MDatafitsMT.v
theories/MPenalties.v
theories/MBlockPenalties.v
theories/MCd.v
theories/MBcd.v
theories/MHyper.v
theories/MEstimators.v
theories/MPython.v
theories/XR.v
theories/SpecPen.v
theories/PProx.v
theories/PProx05.v
theories/VecR.v
theories/PProxBlock.v
theories/PSubdiff.v
theories/PSubdiffBlock.v
theories/PPenEx.v
theories/PropPenalties.v
theories/IEEE.v
theories/SpecHyper.v
theories/SpecParams.v
theories/PHyper.v
theories/PHyperEx.v
theories/PropHyper.v
theories/PBase.v
theories/RSum.v
theories/PPenVal.v
theories/SpecLin.v
theories/PLin.v
theories/PLin2.v
theories/PropUtils.v
theories/SpecData.v
theories/PData.v
theories/PDatafit.v
theories/PCalc.v
theories/SpecDatafit.v
theories/PDataProps.v
theories/PDataEx.v
theories/PropData.v
theories/PAnderson.v
theories/SpecSolve.v
theories/PStruct.v
theories/PShape.v
theories/PNoPanic.v
theories/PLaws.v
theories/PRuns.v
theories/PRunsEx.v
theories/PropRuns.v
theories/PRef.v
theories/PRefCD.v
theories/PRefBCD.v
theories/PRefPen.v
theories/PSim.v
theories/PFit.v
theories/SpecSym.v
theories/PSym.v
theories/PSymProps.v
theories/PSymEx.v
theories/PropSym.v
theories/PDescent.v
theories/PConv.v
theories/PTheory.v
theories/SpecOpt.v
theories/PFitOpt.v
theories/SpecBudget.v
theories/PBudget.v
theories/SpecAccel.v
theories/PAccel.v
theories/POptEx.v
theories/PropOpt.v
theories/PCert.v
theories/PCertEx.v
theories/PropCert.v
theories/PNull.v
theories/PNullLaws.v
theories/PStrict.v
theories/SpecNull.v
theories/PNullFit.v
theories/PNullMt.v
theories/PParams.v
theories/PPanics.v
theories/PPanicsEx.v
theories/PNan.v
theories/PNullFloat.v
theories/PNullEx.v
theories/PNullEx2.v
theories/PropNull.v
theories/PropPanics.v
theories/SpecMore.v
theories/PMore.v
theories/PConvTd.v
theories/PConvBlock.v
theories/PMoreEx.v
theories/PropMore.v
theories/SpecOrth.v
theories/POrth.v
theories/POrthEx.v
theories/PropClosed.v
theories/SpecScale.v
theories/PScale.v
theories/PScaleFit.v
theories/PScaleEx.v
theories/PropUnits.v
theories/SpecShape.v
theories/PMismatch.v
theories/PMismatchEx.v
theories/PropShape.v
theories/SpecPath.v
theories/PPath.v
theories/PStab.v
theories/PScreen.v
theories/PPathEx.v
theories/PropPath.v
theories/MPyUtils.v
theories/MTestHelpers.v
theories/SpecSynth.v
theories/PSynth.v
theories/PSynth2.v
theories/PSynthEx.v
theories/PSynth3.v
theories/PropSynth.v
theories/PBudgetEx.v
theories/PropBudget.v
theories/SpecRot.v
theories/PRot.v
theories/PRotFit.v
theories/PRotEx.v
theories/PropRot.v
theories/PSortNan.v
theories/PSortNanFit.v
theories/SpecNan.v
theories/PPoison.v
theories/PPoisonMt.v
theories/PPoisonFit.v
theories/PPoisonEst.v
theories/PNanCol.v
theories/PropNan.v
theories/SpecDead.v
theories/PDead.v
theories/PDeadInst.v
theories/PDeadEst.v
theories/PropDead.v
theories/SpecRound.v
theories/PFloat.v
theories/PRoundPen.v
theories/PRoundFit.v
theories/PRoundKkt.v
theories/PRoundTop.v
theories/PRoundEx.v
theories/PropRound.v
theories/PRoundStep.v
theories/PRoundStepEx.v
theories/PropRoundStep.v
theories/SpecTrace.v
theories/SpecDrift.v
theories/PTrace.v
theories/PDrift.v
theories/PDriftInst.v
theories/PDriftRun.v
theories/PRoundCert.v
theories/PTraceFit.v
theories/PTraceEx.v
theories/PropTrace.v
theories/SpecLayout.v
theories/PBisim.v
theories/PLayout.v
theories/PLayoutEx.v
theories/PropLayout.v
theories/SpecLimits.v
theories/PLimits.v
theories/PLimitsFl.v
theories/PLimitsEx.v
theories/PropLimits.v
theories/SpecSelect.v
theories/PSelect.v
theories/PSelectX.v
theories/PInert.v
theories/PSelectFit.v
theories/PropSelect.v
theories/SpecMoments.v
theories/PTwin.v
theories/PMoments.v
theories/PMomentsEx.v
theories/PropMoments.v
theories/PWrongLen.v
theories/PWrongLenEx.v
theories/PropWrongLen.v
theories/SpecTol.v
theories/PTol.v
theories/PTolEx.v
theories/PropTol.v
theories/PRate.v
theories/PRateFit.v
theories/PRateEx.v
theories/PropRate.v
theories/SpecOracle.v
theories/POracle.v
theories/POracleEx.v
theories/PropOracle.v
theories/PSens.v
theories/PSensEx.v
theories/PropSens.v
theories/PUninit.v
theories/PropUninit.v
theories/SpecSample.v
theories/PSample.v
theories/PSampleEx.v
theories/PropSample.v
theories/PSensMT.v
theories/PSensMTEx.v
theories/PropSensMT.v
theories/SpecTraceMT.v
theories/PTraceMT.v
theories/PTraceMTEx.v
theories/PropTraceMT.v
theories/SpecDriftEnet.v
theories/PRoundEnet.v
theories/PTraceEnet.v
theories/PTraceEnetEx.v
theories/PropTraceEnet.v
theories/SpecAgree.v
theories/PAgree.v
theories/PAgreeEx.v
theories/PropAgree.v
theories/MErrors.v
theories/SpecErrors.v
theories/PErrors.v
theories/PErrorsEx.v
theories/PropErrors.v
theories/PCols.v
theories/PColsEx.v
theories/PropCols.v
theories/SpecAdd.v
theories/PAdd.v
theories/PAddEx.v
theories/PropAdd.v
theories/PDup.v
theories/PDupEx.v
theories/PropDup.v
theories/SpecIncoh.v
theories/PIncoh.v
theories/PIncohEx.v
theories/PropIncoh.v
theories/SpecShrink.v
theories/PShrink.v
theories/PShrinkEx.v
theories/PShrinkBlk.v
theories/PropShrink.v
