-Q theories Verif
theories/Arith.v
theories/Pint.v
theories/Base.v
theories/TwoLayer.v
theories/Impulse.v
theories/Utils.v
theories/Scm.v
theories/Api.v
theories/Spec.v
theories/Demo.v
theories/GenTL.v
theories/GenTLHist.v
theories/GenIR.v
theories/GenIRHist.v
theories/GenScm.v
theories/GenMeta.v
theories/GenRun.v
theories/GenRunInst.v
theories/GenLayout.v
theories/GenModel.v
theories/FactsRun.v
theories/PropertiesRun.v
theories/Heap.v
theories/SpecHeap.v
theories/GenHeap.v
theories/GenWorld.v
theories/GenShare.v
theories/FactsHeap.v
theories/PropertiesHeap.v
theories/Table.v
theories/GenTable.v
theories/FactsScm.v
theories/FactsTable.v
theories/PropertiesTable.v
theories/PropertiesScm.v
theories/Exact.v
theories/SpecReal.v
theories/RealUnits.v
theories/RealGeo.v
theories/RealTL.v
theories/RealConv.v
theories/RealIR.v
theories/RealTrace.v
theories/RealModels.v
theories/RealEuler.v
theories/FactsTL.v
theories/PropertiesTL.v
theories/FactsTL2.v
theories/PropertiesTL2.v
theories/RealBox.v
theories/FactsIR.v
theories/PropertiesIR.v
theories/RealEquiv.v
theories/FactsConv.v
theories/PropertiesConv.v
theories/FactsEquiv.v
theories/PropertiesEquiv.v
theories/FactsUnits.v
theories/PropertiesUnits.v
theories/FactsAbort.v
theories/PropertiesAbort.v
theories/FactsTL3.v
theories/PropertiesTL3.v
theories/FactsIR2.v
theories/PropertiesIR2.v
theories/FactsEcs.v
theories/PropertiesEcs.v
theories/FactsDefaults.v
theories/PropertiesDefaults.v
theories/Version.v
theories/SpecVersion.v
theories/VersionStr.v
theories/FactsVersion.v
theories/PropertiesVersion.v
theories/Float.v
theories/SpecRound.v
theories/FloatTL.v
theories/FloatRun.v
theories/FloatBox.v
theories/FactsFloat.v
theories/PropertiesFloat.v
theories/SpecRefine.v
theories/FactsRefine.v
theories/PropertiesRefine.v
theories/SpecExact.v
theories/FloatSym.v
theories/FloatExact.v
theories/FactsExact.v
theories/PropertiesExact.v
theories/VersionFile.v
theories/Package.v
theories/SpecPackage.v
theories/PackageProof.v
theories/FactsPackage.v
theories/PropertiesPackage.v
theories/SpecStep.v
theories/RealStep.v
theories/FactsStep.v
theories/PropertiesStep.v
theories/FactsMono.v
theories/PropertiesMono.v
theories/SpecPhysical.v
theories/FloatPhys.v
theories/FloatPert.v
theories/FactsPhys.v
theories/PropertiesPhys.v
theories/FactsPhysHeat.v
theories/PropertiesPhysHeat.v
theories/FactsInverse.v
theories/PropertiesInverse.v
theories/SpecLong.v
theories/RealLong.v
theories/FactsLong.v
theories/PropertiesLong.v
theories/Rows.v
theories/SpecRows.v
theories/GenRows.v
theories/GenRowsIR.v
theories/FactsRows.v
theories/PropertiesRows.v
theories/SpecRepeat.v
theories/GenRepeat.v
theories/FactsRepeat.v
theories/PropertiesRepeat.v
theories/Install.v
theories/SpecInstall.v
theories/InstallProof.v
theories/GenInstall.v
theories/FactsInstall.v
theories/PropertiesInstall.v
theories/Config.v
theories/SetupCfg.v
theories/SpecConfig.v
theories/ConfigProof.v
theories/FactsConfig.v
theories/PropertiesConfig.v
theories/Interrupt.v
theories/SpecInterrupt.v
theories/InterruptProof.v
theories/InterruptRun.v
theories/GenInterrupt.v
theories/FactsInterrupt.v
theories/PropertiesInterrupt.v
theories/FactsInterruptDriver.v
theories/PropertiesInterruptDriver.v
theories/Threads.v
theories/SpecThreads.v
theories/ThreadsProof.v
theories/NonInterf.v
theories/FactsThreads.v
theories/PropertiesThreads.v
theories/ThreadRun.v
theories/FactsThreadRun.v
theories/PropertiesThreadRun.v
theories/ThreadRunIR.v
theories/FactsThreadRunIR.v
theories/PropertiesThreadRunIR.v
theories/SpecBalance.v
theories/FactsBalance.v
theories/PropertiesBalance.v
theories/SpecFeedback.v
theories/FactsFeedback.v
theories/PropertiesFeedback.v
theories/SpecSampled.v
theories/FactsSampled.v
theories/PropertiesSampled.v
theories/FactsSampledHeat.v
theories/PropertiesSampledHeat.v
theories/FactsSampledRound.v
theories/PropertiesSampledRound.v
