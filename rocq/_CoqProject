-Q theories Verif
theories/ModelBase.v
theories/ModelAlg.v
theories/BaseLemmas.v
theories/AlgFrame.v
theories/AlgRestart.v
theories/AlgInv.v
theories/AlgProv.v
theories/AlgTerm.v
theories/AlgBox.v
theories/AlgSep.v
theories/AlgMode.v
theories/AlgFine.v
theories/AlgSched.v
theories/AlgHist.v
theories/AlgPause.v
theories/AlgExact.v
theories/Witness.v
theories/SpecAlg.v
theories/AlgGlue.v
theories/WitnessAlg.v
theories/PropertiesAlg.v
theories/ModelSettings.v
theories/SettingsProofs.v
theories/SpecSettings.v
theories/SettingsGlue.v
theories/PropertiesSettings.v
theories/ModelCategorical.v
theories/CatProofs.v
theories/CatCodes.v
theories/SpecCategorical.v
theories/CatGlue.v
theories/PropertiesCategorical.v
theories/ModelInit.v
theories/SpecInit.v
theories/InitProofs.v
theories/InitSample.v
theories/InitGlue.v
theories/InitUtil.v
theories/PropertiesInit.v
theories/ModelGeom.v
theories/ModelRBF.v
theories/GeomProofs.v
theories/RBFProofs.v
theories/SpecRBF.v
theories/RBFSolve.v
theories/RBFGlue.v
theories/WitnessRBF.v
theories/PropertiesRBF.v
theories/ModelScaling.v
theories/SpecScaling.v
theories/ScalingProofs.v
theories/DomainProofs.v
theories/PropertiesScaling.v
theories/ModelRefine.v
theories/SpecRefine.v
theories/RefineProofs.v
theories/RefineGlue.v
theories/RefineMore.v
theories/RefineAlg.v
theories/RefineRun.v
theories/PropertiesRefine.v
theories/ModelSteps.v
theories/SpecSteps.v
theories/StepsProofs.v
theories/WitnessSteps.v
theories/PropertiesSteps.v
theories/ModelGA.v
theories/SpecGA.v
theories/GAProofs.v
theories/GAGlue.v
theories/PropertiesGA.v
theories/ModelAux.v
theories/SpecAux.v
theories/AuxProofs.v
theories/AuxInverse.v
theories/PropertiesAux.v
theories/ModelPyomo.v
theories/SpecPyomo.v
theories/PyomoProofs.v
theories/PyomoGlue.v
theories/PropertiesPyomo.v
theories/ModelPersist.v
theories/SpecPersist.v
theories/PersistProofs.v
theories/PropertiesPersist.v
theories/ModelParallel.v
theories/SpecParallel.v
theories/ParEffects.v
theories/ParInv.v
theories/ParCap.v
theories/ParBudget.v
theories/ParProv.v
theories/ParTabs.v
theories/ParBox.v
theories/ParStuck.v
theories/ParSep.v
theories/WitnessPar.v
theories/PropertiesPar.v
theories/ModelTestBB.v
theories/SpecTestBB.v
theories/TestBBProofs.v
theories/PropertiesTest.v
theories/ModelCLI.v
theories/SpecCLI.v
theories/CLIProofs.v
theories/PropertiesCLI.v
theories/ModelFloat.v
theories/FloatProofs.v
theories/NanProofs.v
theories/PropertiesFloat.v
theories/ModelLinear.v
theories/SpecLinear.v
theories/KernelSum.v
theories/KernelAna.v
theories/LinAlg.v
theories/KernelNodes.v
theories/SystemProofs.v
theories/LstsqProofs.v
theories/LinearGlue.v
theories/KernelMore.v
theories/GaussSolver.v
theories/WitnessLinear.v
theories/PropertiesLinear.v
theories/ModelProblem.v
theories/SpecProblem.v
theories/RegionProofs.v
theories/ProblemProofs.v
theories/ProblemGlue.v
theories/ProblemRuns.v
theories/PropertiesProblem.v
theories/SpecRefineRun.v
theories/ParRefine.v
theories/PropertiesParRefine.v
theories/AlgPhase.v
theories/PropertiesNoisy.v
theories/ParReuse.v
theories/PropertiesReuse.v
theories/AlgDistinct.v
theories/SpaceProofs.v
theories/SpecSpace.v
theories/SpaceRun.v
theories/PropertiesSpace.v
theories/ModelSelect.v
theories/SpecSelect.v
theories/SelectProofs.v
theories/PropertiesSelect.v
theories/ModelAutoScale.v
theories/AutoScaleProofs.v
theories/PropertiesAutoScale.v
theories/ModelBenchData.v
theories/ModelBench.v
theories/SpecBench.v
theories/BenchBase.v
theories/BenchPoly.v
theories/BenchPenalty.v
theories/BenchSearch.v
theories/BenchSchoen.v
theories/BenchSchoenCat.v
theories/BenchExp.v
theories/BenchLog.v
theories/BenchOpt.v
theories/BenchRefute.v
theories/BenchExtra.v
theories/BenchSmooth.v
theories/PropertiesBench.v
theories/ModelQuality.v
theories/SpecQuality.v
theories/QualityProofs.v
theories/GaussFactor.v
theories/PropertiesQuality.v
theories/PropertiesFamilies.v
theories/ModelTestMain.v
theories/PropertiesTestMain.v
theories/ParNoisy.v
theories/PropertiesParNoisy.v
theories/SpecStop.v
theories/StopProofs.v
theories/ParStop.v
theories/PropertiesStop.v
theories/SpecExact.v
theories/ExactProofs.v
theories/PropertiesExact.v
theories/SpecAudit.v
theories/AuditProofs.v
theories/PropertiesAudit.v
theories/FollowProofs.v
theories/PropertiesFollow.v
theories/PropertiesBump.v
theories/ParOnce.v
theories/ParApart.v
theories/PropertiesParOnce.v
theories/SpecEnd.v
theories/ParEnd.v
theories/PropertiesParEnd.v
theories/ModelRandom.v
theories/RandomProofs.v
theories/PropertiesRandom.v
theories/ModelSummary.v
theories/SummaryProofs.v
theories/PropertiesSummary.v
theories/ModelOptima.v
theories/SpecOptima.v
theories/OptimaProofs.v
theories/PropertiesOptima.v
theories/SpecSerialRefine.v
theories/SerialRefine.v
theories/SerialRefineRun.v
theories/PropertiesSerialRefine.v
theories/SpecSymmetry.v
theories/SymmetryProofs.v
theories/PropertiesSymmetry.v
theories/ModelExternal.v
theories/SpecExternal.v
theories/PropertiesExternal.v
theories/SpecParSpace.v
theories/ParFinite.v
theories/ParSpace.v
theories/PropertiesParSpace.v
theories/ModelFloatRun.v
theories/FloatRun.v
theories/FloatDist.v
theories/SpecFloatRun.v
theories/FloatAcc.v
theories/PropertiesFloatRun.v
theories/ModelFloatValues.v
theories/FloatValues.v
theories/SpecFloatValues.v
theories/FloatCutoff.v
theories/PropertiesFloatValues.v
theories/RestartExact.v
theories/PropertiesRestart.v
theories/ParRestart.v
theories/PropertiesParRestart.v
theories/SampleSize.v
theories/ModelRank.v
theories/RankProofs.v
theories/PropertiesRank.v
theories/PropertiesParLinear.v
theories/PropertiesParStop.v
