-Q theories Verif

theories/Base.v
theories/Num.v
theories/ModelVec.v
theories/ModelGrid.v
theories/ModelArray.v
theories/ModelInterp.v
theories/ModelGradient.v
theories/ModelTemporal.v
theories/SpecGrid.v
theories/ProofsBase.v
theories/ProofsGrid.v
theories/ProofsArray.v
theories/ProofsGridProps.v
theories/PropertiesGrid.v
theories/SpecInterp.v
theories/ProofsHermite.v
theories/ProofsHermiteCell.v
theories/ProofsHermiteExact.v
theories/ProofsInterp.v
theories/ProofsInterpProps.v
theories/ProofsInterpMore.v
theories/ProofsCalc.v
theories/ProofsLoops.v
theories/ProofsInterpApi.v
theories/ProofsInterpCases.v
theories/PropertiesInterp.v
theories/SpecGradient.v
theories/ProofsGradient.v
theories/ProofsGradientR.v
theories/ProofsGradientOob.v
theories/ProofsTaylor.v
theories/ProofsGradientProps.v
theories/PropertiesGradient.v
theories/SpecTemporal.v
theories/ProofsChain.v
theories/ProofsTemporal.v
theories/ProofsTemporalCases.v
theories/PropertiesTemporal.v
theories/NumB64.v
theories/ModelAnalytic.v
theories/SpecAnalytic.v
theories/ProofsAnalytic.v
theories/ProofsAnalyticR.v
theories/PropertiesAnalytic.v
theories/ModelOutput.v
theories/ModelParser.v
theories/ModelFiles.v
theories/ModelApp.v
theories/SpecApp.v
theories/ProofsApp.v
theories/ProofsB64.v
theories/ProofsB64Time.v
theories/PropertiesApp.v
theories/SpecOutput.v
theories/ProofsOutput.v
theories/SpecParser.v
theories/ProofsParser.v
theories/SpecFiles.v
theories/ProofsFiles.v
theories/ProofsIOCases.v
theories/PropertiesIO.v
theories/SpecFileNames.v
theories/ProofsFileNames.v
theories/PropertiesFileNames.v
theories/ProofsParserErrors.v
theories/PropertiesParserErrors.v
theories/ModelRefMath.v
theories/ModelRefMem.v
theories/ModelRef.v
theories/SpecRef.v
theories/ProofsRefHermite.v
theories/ProofsRefMath.v
theories/ProofsRefTrace.v
theories/ProofsRefLib.v
theories/ProofsRefCases.v
theories/ProofsRefHeun.v
theories/PropertiesRef.v
theories/SpecRefPar.v
theories/SpecRefRun.v
theories/ProofsRefMem.v
theories/ProofsRefPar.v
theories/ProofsRefRun.v
theories/ProofsRefUpd.v
theories/ProofsRefMix.v
theories/ProofsRefSearch.v
theories/ProofsRefStep.v
theories/ProofsRefMain.v
theories/ProofsRefReal.v
theories/ProofsRefExact.v
theories/ProofsRefFlows.v
theories/ProofsRefRace.v
theories/ProofsRefApi.v
theories/ProofsRefRunCases.v
theories/PropertiesRefRun.v
theories/ModelRefCuda.v
theories/SpecRefCuda.v
theories/ProofsRefKernel.v
theories/ProofsRefCudaRun.v
theories/ProofsRefCudaStep.v
theories/ProofsRefCudaMain.v
theories/ProofsRefCudaReal.v
theories/ProofsRefCudaCases.v
theories/ProofsRefCudaEx.v
theories/PropertiesRefCuda.v
theories/ModelRefMpi.v
theories/ProofsRefPair.v
theories/ProofsRefMpi.v
theories/ProofsRefMpiStep.v
theories/ProofsRefMpiMain.v
theories/SpecRefMpi.v
theories/ProofsRefMpiApi.v
theories/PropertiesRefMpi.v
theories/ModelRefOmp.v
theories/SpecRefOmp.v
theories/ProofsRefOmp.v
theories/ProofsRefHyb.v
theories/ProofsRefLine.v
theories/PropertiesRefOmp.v
theories/ModelRefPrint.v
theories/SpecRefPrint.v
theories/ProofsRefPrint.v
theories/PropertiesRefPrint.v
theories/ModelRefOld.v
theories/SpecRefOld.v
theories/ProofsRefOld.v
theories/ProofsRefOldReal.v
theories/ProofsRefOldApi.v
theories/PropertiesRefOld.v
theories/ProofsHermiteErr.v
theories/SpecAccuracy.v
theories/ProofsAccuracy.v
theories/ProofsAccuracyStep.v
theories/ProofsAccuracyLinear.v
theories/PropertiesAccuracy.v
theories/ProofsB64Ops.v
theories/ProofsB64Grid.v
theories/SpecB64.v
theories/ProofsB64Interp.v
theories/ProofsB64Cases.v
theories/PropertiesB64.v
theories/ModelVisualize.v
theories/SpecVisualize.v
theories/ProofsVisualize.v
theories/PropertiesVisualize.v
theories/ModelRefMpiN.v
theories/ProofsRefWorld.v
theories/ProofsRefMpiN.v
theories/PropertiesRefMpiN.v
theories/SpecPatch.v
theories/ProofsPatch.v
theories/PropertiesPatch.v
theories/ModelRefMpiFiles.v
theories/SpecRefMpiFiles.v
theories/ProofsRefMpiFiles.v
theories/ProofsRefMpiFilesTwo.v
theories/ProofsRefMpiFilesRun.v
theories/PropertiesRefMpiFiles.v
theories/ModelRefHybN.v
theories/SpecRefHybN.v
theories/ProofsRefHybN.v
theories/PropertiesRefHybN.v
theories/SpecLimited.v
theories/ProofsLimited.v
theories/ProofsLimitedField.v
theories/PropertiesLimited.v
theories/ProofsRound.v
theories/ProofsRoundHermite.v
theories/ProofsRoundAxis.v
theories/ProofsRoundEval.v
theories/SpecRound.v
theories/ProofsRoundInterp.v
theories/ProofsRoundStep.v
theories/ProofsRoundCases.v
theories/ProofsRoundRest.v
theories/PropertiesRound.v
theories/SpecRoundGrad.v
theories/ProofsRoundGrad.v
theories/ProofsRoundGradRun.v
theories/PropertiesRoundGrad.v
theories/ProofsRoundCircle.v
theories/ProofsPi.v
theories/SpecRoundField.v
theories/ProofsRoundField.v
theories/PropertiesRoundField.v
theories/ProofsDrift.v
theories/SpecRoundRun.v
theories/ProofsRoundRun.v
theories/ProofsRoundTotal.v
theories/PropertiesRoundRun.v
theories/ModelTests.v
theories/PropertiesTests.v
theories/ModelRun.v
theories/SpecRun.v
theories/SpecStability.v
theories/ProofsRun.v
theories/ProofsRunStep.v
theories/ProofsRunLine.v
theories/ProofsRunCases.v
theories/ProofsRunMixed.v
theories/PropertiesRun.v
theories/ProofsEnergy.v
theories/ProofsStability.v
theories/ProofsSegErr.v
theories/ProofsConverge.v
theories/ProofsConvergeRun.v
theories/PropertiesStability.v
theories/ProofsIteration.v
theories/PropertiesIteration.v
theories/ModelShow.v
theories/SpecShow.v
theories/ProofsShow.v
theories/ProofsShowProps.v
theories/PropertiesShow.v
theories/SpecSensitive.v
theories/ProofsSensitive.v
theories/ProofsSensitiveStep.v
theories/ProofsSensitiveCases.v
theories/PropertiesSensitive.v
theories/SpecRefOrder.v
theories/ProofsRefOrder.v
theories/ProofsRefSmooth.v
theories/ProofsRefSmoothCases.v
theories/PropertiesRefOrder.v
theories/SpecRefStep.v
theories/ProofsRefStepErr.v
theories/ProofsRefStepCases.v
theories/PropertiesRefStep.v
theories/ProofsPicard.v
theories/SpecRefSolve.v
theories/ProofsRefScale.v
theories/ProofsRefSolve.v
theories/ProofsRefSolveCases.v
theories/PropertiesRefSolve.v
theories/ModelOwner.v
theories/SpecOwner.v
theories/ProofsOwner.v
theories/ProofsOwnerCases.v
theories/PropertiesOwner.v
theories/ModelRefHeap.v
theories/SpecRefHeap.v
theories/ProofsRefHeap.v
theories/PropertiesRefHeap.v
theories/ModelReadfiles.v
theories/SpecReadfiles.v
theories/ProofsReadfiles.v
theories/PropertiesReadfiles.v
theories/SpecRefGrad.v
theories/ProofsRefGrad.v
theories/ProofsRefFlowGrad.v
theories/ProofsRefGradSolve.v
theories/ProofsRefGradCases.v
theories/PropertiesRefGrad.v
theories/ProofsRefJet.v
theories/ProofsRefVariation.v
theories/ProofsRefOrder4.v
theories/ProofsRefGradThird.v
theories/PropertiesRefGradThird.v
theories/SpecRefExist.v
theories/ProofsRefExist.v
theories/ProofsRefReverse.v
theories/PropertiesRefExist.v
theories/PropertiesRefReverse.v
theories/ProofsRefFirst.v
theories/PropertiesRefFirst.v
theories/ProofsRefWallGrad.v
theories/PropertiesRefWallGrad.v
theories/SpecPde.v
theories/ProofsPde.v
theories/ProofsPdeCases.v
theories/PropertiesPde.v
theories/SpecTurn.v
theories/ProofsTurn.v
theories/PropertiesTurn.v
theories/SpecPdeRound.v
theories/ProofsPdeRound.v
theories/ProofsPdeRoundCases.v
theories/PropertiesPdeRound.v
theories/SpecRefRound.v
theories/ProofsRefRound.v
theories/PropertiesRefRound.v
theories/SpecRefTraceRound.v
theories/ProofsRefTraceRound.v
theories/ProofsRefTraceRoundCases.v
theories/PropertiesRefTraceRound.v
theories/SpecRefStepRound.v
theories/ProofsRefStepRound.v
theories/ProofsRefStepRoundCases.v
theories/SpecRefDyadic.v
theories/ProofsRefDyadic.v
theories/PropertiesRefStepRound.v
theories/SpecRefSuperRound.v
theories/ProofsRefSuperRound.v
theories/ProofsRefSuperStep.v
theories/ProofsRefSuperCases.v
theories/PropertiesRefSuperRound.v
theories/SpecRefMixed.v
theories/ProofsRefMixed.v
theories/ProofsRefMixedStep.v
theories/PropertiesRefMixed.v
theories/ProofsRefMixedRound.v
theories/ProofsRefMixedRoundStep.v
theories/ProofsRefMixedRoundCases.v
theories/PropertiesRefMixedRound.v
