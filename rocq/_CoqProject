-Q theories Verif
theories/AeosLimiter.v
theories/AeosLimiterBounds.v
theories/AeosLimiterEntropy.v
theories/AeosLimiterFinal.v
theories/AeosLimiterProofs.v
theories/AeosLimiterSpec.v
theories/AeosLimiterThms.v
theories/AeosLimiterVerdict.v
theories/AeosPhysProofs.v
theories/AeosPrecompute.v
theories/AeosPrecomputeProofs.v
theories/AeosPrecomputeSpec.v
theories/AeosPrecomputeThms.v
theories/AeosRiemann.v
theories/AeosRiemannFinal.v
theories/AeosRiemannProofs.v
theories/AeosRiemannSpec.v
theories/AeosRiemannThms.v
theories/AeosRun.v
theories/AeosRunExamples.v
theories/AeosRunProofs.v
theories/AeosRunSpec.v
theories/AeosRunThms.v
theories/AeosScheme.v
theories/AeosSchemeBounds.v
theories/AeosSchemeCovolume.v
theories/AeosSchemeDiscontinuous.v
theories/AeosSchemeExamples.v
theories/AeosSchemeFinal.v
theories/AeosSchemeLimits.v
theories/AeosSchemeProofs.v
theories/AeosSchemeSpec.v
theories/AeosSchemeThms.v
theories/AeosSystem.v
theories/Airfoil.v
theories/AirfoilExamples.v
theories/AirfoilFinal.v
theories/AirfoilNaca.v
theories/AirfoilProofs.v
theories/AirfoilPsi.v
theories/AirfoilSpec.v
theories/AirfoilThms.v
theories/Annulus.v
theories/AnnulusProofs.v
theories/AnnulusSpec.v
theories/AnnulusThms.v
theories/Assembly.v
theories/AssemblyExamples.v
theories/AssemblyFinal.v
theories/AssemblyMesh.v
theories/AssemblyProofs.v
theories/AssemblyRanks.v
theories/AssemblySpec.v
theories/AssemblyThms.v
theories/BalanceProofs.v
theories/BalanceSpec.v
theories/Becker.v
theories/BeckerFinal.v
theories/BeckerProofs.v
theories/BeckerStall.v
theories/BoundaryKinds.v
theories/BoundaryKindsThms.v
theories/BoundaryMap.v
theories/BoundaryMapFinal.v
theories/BoundaryMapProofs.v
theories/BoundaryMapRays.v
theories/BoundaryMapSpec.v
theories/BoundaryMapThms.v
theories/BoundaryPairs.v
theories/Checkpoint.v
theories/CheckpointProofs.v
theories/CheckpointThms.v
theories/Conc.v
theories/ConcProofs.v
theories/ConcThms.v
theories/Discretization.v
theories/DiscretizationExamples.v
theories/DiscretizationFinal.v
theories/DiscretizationProofs.v
theories/DiscretizationSpec.v
theories/DiscretizationTensor.v
theories/DiscretizationThms.v
theories/Dispatch.v
theories/DispatchProofs.v
theories/DispatchThms.v
theories/EnumParams.v
theories/EnumParamsProofs.v
theories/EnumParamsSpec.v
theories/EnumParamsThms.v
theories/Eos.v
theories/EosFunction.v
theories/EosFunctionProofs.v
theories/EosFunctionThms.v
theories/EosProofs.v
theories/EosSpec.v
theories/EosThms.v
theories/ErrorNorms.v
theories/ErrorNormsProofs.v
theories/ErrorNormsSpec.v
theories/ErrorNormsThms.v
theories/EulerContact.v
theories/EulerInitialFans.v
theories/EulerInitialMore.v
theories/EulerInitialNoh.v
theories/EulerInitialProofs.v
theories/EulerInitialShocks.v
theories/EulerInitialStates.v
theories/EulerInitialThms.v
theories/EulerLimiter.v
theories/EulerLimiterBounds.v
theories/EulerLimiterEntropy.v
theories/EulerLimiterFinal.v
theories/EulerLimiterProofs.v
theories/EulerLimiterSpec.v
theories/EulerLimiterThms.v
theories/EulerLimiterVerdict.v
theories/EulerLinearWaves.v
theories/EulerMinEntropy.v
theories/EulerMinEntropyBar.v
theories/EulerMinEntropyExamples.v
theories/EulerMinEntropyFinal.v
theories/EulerMinEntropyPair.v
theories/EulerMinEntropySpec.v
theories/EulerMinEntropyThms.v
theories/EulerPhysProofs.v
theories/EulerRiemann.v
theories/EulerRiemannExist.v
theories/EulerRiemannFinal.v
theories/EulerRiemannNewton.v
theories/EulerRiemannProofs.v
theories/EulerRiemannSpec.v
theories/EulerRiemannThms.v
theories/EulerRun.v
theories/EulerRunExamples.v
theories/EulerRunFinal.v
theories/EulerRunMore.v
theories/EulerRunProofs.v
theories/EulerRunSpec.v
theories/EulerRunThms.v
theories/EulerScheme.v
theories/EulerSchemeBounds.v
theories/EulerSchemeExamples.v
theories/EulerSchemeFinal.v
theories/EulerSchemeProofs.v
theories/EulerSchemeSpec.v
theories/EulerSchemeThms.v
theories/EulerSpeed.v
theories/EulerSystem.v
theories/Extractor.v
theories/ExtractorProofs.v
theories/ExtractorThms.v
theories/FastPow.v
theories/FastPowFinal.v
theories/FastPowProofs.v
theories/FastPowThms.v
theories/FunctionTime.v
theories/FunctionTimeProofs.v
theories/FunctionTimeSpec.v
theories/FunctionTimeThms.v
theories/GasWaves.v
theories/Geometry.v
theories/GeometryExamples.v
theories/GeometryFinal.v
theories/GeometryProofs.v
theories/GeometrySpec.v
theories/GeometryThms.v
theories/Geotiff.v
theories/GeotiffExamples.v
theories/GeotiffFinal.v
theories/GeotiffProofs.v
theories/GeotiffSpec.v
theories/GeotiffThms.v
theories/GhostRows.v
theories/GhostRowsFinal.v
theories/GhostRowsLists.v
theories/GhostRowsProofs.v
theories/GhostRowsSpec.v
theories/GhostRowsThms.v
theories/GhostRowsWorld.v
theories/Indicator.v
theories/IndicatorFlat.v
theories/IndicatorFlatSpec.v
theories/IndicatorFlatThms.v
theories/IndicatorProofs.v
theories/IndicatorThms.v
theories/InitialPlacement.v
theories/InitialPlacementProofs.v
theories/InitialPlacementThms.v
theories/InitialRegions.v
theories/InitialRegionsExamples.v
theories/InitialRegionsProofs.v
theories/InitialRegionsSoliton.v
theories/InitialRegionsSpec.v
theories/InitialRegionsThms.v
theories/InitialRegionsWater.v
theories/LimiterVerdictSpec.v
theories/LimiterVerdictThms.v
theories/MeshResume.v
theories/MeshResumeProofs.v
theories/MeshResumeSpec.v
theories/MeshResumeThms.v
theories/MeshTransfer.v
theories/MeshTransferFinal.v
theories/MeshTransferProofs.v
theories/MeshTransferSpec.v
theories/MeshTransferThms.v
theories/MultiVec.v
theories/MultiVecProofs.v
theories/MultiVecSpec.v
theories/MultiVecThms.v
theories/Multigrid.v
theories/MultigridExamples.v
theories/MultigridFinal.v
theories/MultigridProofs.v
theories/MultigridSpec.v
theories/MultigridThms.v
theories/NSRun.v
theories/NSRunExamples.v
theories/NSRunFinal.v
theories/NSRunProofs.v
theories/NSRunSpec.v
theories/NSRunThms.v
theories/Newton.v
theories/NewtonFinal.v
theories/NewtonProofs.v
theories/NewtonSign.v
theories/NewtonSpec.v
theories/NewtonThms.v
theories/Opt.v
theories/Parabolic.v
theories/ParabolicExamples.v
theories/ParabolicFinal.v
theories/ParabolicMore.v
theories/ParabolicProofs.v
theories/ParabolicRows.v
theories/ParabolicSpec.v
theories/ParabolicThms.v
theories/ParabolicTiles.v
theories/PhysExamples.v
theories/PhysLib.v
theories/PhysLimiter.v
theories/PhysSpec.v
theories/PhysThms.v
theories/Postprocess.v
theories/PostprocessFinal.v
theories/PostprocessProofs.v
theories/PostprocessSpec.v
theories/PostprocessThms.v
theories/Quantities.v
theories/QuantitiesExamples.v
theories/QuantitiesMesh.v
theories/QuantitiesMeshFinal.v
theories/QuantitiesMeshProofs.v
theories/QuantitiesMeshSpec.v
theories/QuantitiesMeshThms.v
theories/QuantitiesProofs.v
theories/QuantitiesSpec.v
theories/QuantitiesThms.v
theories/RVec.v
theories/Renumber.v
theories/RenumberProofs.v
theories/RenumberThms.v
theories/Report.v
theories/ReportPartition.v
theories/ReportPartitionProofs.v
theories/ReportPartitionSpec.v
theories/ReportPartitionThms.v
theories/ReportProofs.v
theories/ReportSpec.v
theories/ReportThms.v
theories/ReportTimers.v
theories/ReportTimersProofs.v
theories/ReportTimersSpec.v
theories/ReportTimersThms.v
theories/RunLib.v
theories/RunParams.v
theories/RunParamsFinal.v
theories/RunParamsProofs.v
theories/RunParamsSpec.v
theories/RunParamsThms.v
theories/SWInitialBump.v
theories/SWInitialCrest.v
theories/SWInitialFlow.v
theories/SWInitialJump.v
theories/SWInitialJumpThms.v
theories/SWInitialParaboloid.v
theories/SWInitialProofs.v
theories/SWInitialSpec.v
theories/SWInitialStates.v
theories/SWInitialThms.v
theories/SWInitialVortex.v
theories/SWLimiter.v
theories/SWLimiterFinal.v
theories/SWLimiterProofs.v
theories/SWLimiterSpec.v
theories/SWLimiterThms.v
theories/SWLimiterVerdict.v
theories/SWPhysProofs.v
theories/SWRiemann.v
theories/SWRiemannFinal.v
theories/SWRiemannProofs.v
theories/SWRiemannSpec.v
theories/SWRiemannThms.v
theories/SWRun.v
theories/SWRunExamples.v
theories/SWRunProofs.v
theories/SWRunSpec.v
theories/SWRunThms.v
theories/SWScheme.v
theories/SWSchemeDepth.v
theories/SWSchemeExamples.v
theories/SWSchemeFinal.v
theories/SWSchemeProofs.v
theories/SWSchemeRest.v
theories/SWSchemeSpec.v
theories/SWSchemeThms.v
theories/SWSystem.v
theories/SWThinProofs.v
theories/SWThinSpec.v
theories/SWThinThms.v
theories/Scalar.v
theories/ScalarFlux.v
theories/ScalarFluxProofs.v
theories/ScalarFluxThms.v
theories/ScalarProofs.v
theories/ScalarRun.v
theories/ScalarRunExamples.v
theories/ScalarRunProofs.v
theories/ScalarRunSpec.v
theories/ScalarRunThms.v
theories/ScalarScheme.v
theories/ScalarSchemeBounds.v
theories/ScalarSchemeFinal.v
theories/ScalarSchemeProofs.v
theories/ScalarSchemeSpec.v
theories/ScalarSchemeThms.v
theories/ScalarSpec.v
theories/ScalarThms.v
theories/Scheme.v
theories/SchemeExamples.v
theories/SchemeFinal.v
theories/SchemeIndep.v
theories/SchemeLimit.v
theories/SchemeProofs.v
theories/SchemeSpec.v
theories/SchemeThms.v
theories/SchemeUpdate.v
theories/Selection.v
theories/SelectionProofs.v
theories/SelectionSpec.v
theories/SelectionThms.v
theories/Simd.v
theories/SimdLoop.v
theories/SimdLoopFinal.v
theories/SimdLoopProofs.v
theories/SimdLoopSpec.v
theories/SimdLoopThms.v
theories/SimdProofs.v
theories/SimdThms.v
theories/Sparse.v
theories/SparseProofs.v
theories/SparseSpec.v
theories/SparseThms.v
theories/StartUp.v
theories/StartUpFinal.v
theories/StartUpProofs.v
theories/StartUpSpec.v
theories/StartUpThms.v
theories/TimeInt.v
theories/TimeIntInv.v
theories/TimeIntProofs.v
theories/TimeIntRK.v
theories/TimeIntSpec.v
theories/TimeIntThms.v
theories/TimeLoop.v
theories/TimeLoopExamples.v
theories/TimeLoopFinal.v
theories/TimeLoopProofs.v
theories/TimeLoopSpec.v
theories/TimeLoopThms.v
theories/Transfinite.v
theories/TransfiniteExamples.v
theories/TransfiniteFinal.v
theories/TransfiniteProofs.v
theories/TransfiniteSpec.v
theories/TransfiniteThms.v
theories/Vec.v
theories/VtuOutput.v
theories/VtuOutputProofs.v
theories/VtuOutputSpec.v
theories/VtuOutputThms.v
theories/WaterProofs.v
