-Q theories Verif

theories/AliasModel.v
theories/BestProofs.v
theories/BestSpec.v
theories/BravaisHex.v
theories/BravaisLaue.v
theories/BravaisModel.v
theories/BravaisProofs.v
theories/BravaisSpec.v
theories/BravaisSym.v
theories/Burnside.v
theories/DepthProofs.v
theories/DepthSpec.v
theories/DirectCase3.v
theories/DirectConcProofs.v
theories/DirectConcSpec.v
theories/DirectConcrete.v
theories/DirectCorCase.v
theories/DirectCorMiss.v
theories/DirectCorModel.v
theories/DirectCorProofs.v
theories/DirectCorSpec.v
theories/DirectCorTol.v
theories/DirectExample.v
theories/DirectGlobal.v
theories/DirectModel.v
theories/DirectProofs.v
theories/DirectSpec.v
theories/DirectTransfer.v
theories/DistModel.v
theories/DistProofs.v
theories/DistProofs2.v
theories/DistSpec.v
theories/Eig.v
theories/EulerProofs.v
theories/Flat.v
theories/FloatDiv.v
theories/FloatProofs.v
theories/FloatVol.v
theories/GroupModel.v
theories/GroupProofs.v
theories/GroupSpec.v
theories/HeapModel.v
theories/HnfCanon.v
theories/HnfChain.v
theories/HnfCount.v
theories/HnfCountSpec.v
theories/HnfEnum.v
theories/HnfFloat.v
theories/HnfMergeExact.v
theories/HnfModel.v
theories/HnfProofs.v
theories/HnfSearchAsync.v
theories/HnfSearchConc.v
theories/HnfSearchModel.v
theories/HnfSearchProofs.v
theories/HnfSearchSpec.v
theories/HnfSpec.v
theories/HnfWord.v
theories/HnfWordProofs.v
theories/Hom.v
theories/InitProofs.v
theories/IsMinModel.v
theories/LLLConv.v
theories/LLLModel.v
theories/LLLProofs.v
theories/LLLProofs2.v
theories/LLLProofs3.v
theories/LLLShort.v
theories/LLLSim.v
theories/LLLSpec.v
theories/Lagrange.v
theories/LatCorCase.v
theories/LatCorDist.v
theories/LatCorModel.v
theories/LatCorProofs.v
theories/LatCorSpec.v
theories/LatCorTotal.v
theories/LatCorTree.v
theories/LatticeComplete.v
theories/LatticeGroups.v
theories/LatticeLaue.v
theories/LatticeModel.v
theories/LatticeMore.v
theories/LatticeProofs.v
theories/LatticeSpec.v
theories/LaueExact.v
theories/LaueSamples.v
theories/LinAlg.v
theories/MartAcc.v
theories/MartConj.v
theories/MartFrame.v
theories/MartModel.v
theories/MartProofs.v
theories/MartSpec.v
theories/Mat.v
theories/MatEigModel.v
theories/MatMathModel.v
theories/MatMathProofs.v
theories/MicroModel.v
theories/MoreCor.v
theories/MoreProofs.v
theories/Ord.v
theories/OrientCase.v
theories/OrientProofs.v
theories/OrientRun.v
theories/OutputModel.v
theories/OutputProofs.v
theories/PropAlias.v
theories/PropAxisAngle.v
theories/PropBase.v
theories/PropBravais.v
theories/PropBurnside.v
theories/PropCellVolume.v
theories/PropChain.v
theories/PropCofactor.v
theories/PropCount.v
theories/PropDepth.v
theories/PropDirect.v
theories/PropDirectCor.v
theories/PropDirectGlobal.v
theories/PropDirectTol.v
theories/PropDist.v
theories/PropEuler.v
theories/PropFloat.v
theories/PropFloatVol.v
theories/PropFrame.v
theories/PropGroups.v
theories/PropHeap.v
theories/PropHnf.v
theories/PropHnfSearch.v
theories/PropIndifference.v
theories/PropInit.v
theories/PropIsMin.v
theories/PropLLL.v
theories/PropLLL2.v
theories/PropLLL3.v
theories/PropLatCor.v
theories/PropLattice.v
theories/PropLatticeGroup.v
theories/PropLaue.v
theories/PropMart.v
theories/PropMatEig.v
theories/PropMatMath.v
theories/PropMicro.v
theories/PropMore.v
theories/PropOrders.v
theories/PropOrient.v
theories/PropOrientComp.v
theories/PropOrientInt.v
theories/PropOutput.v
theories/PropQuart.v
theories/PropQuartStop.v
theories/PropRankFrame.v
theories/PropRankOne.v
theories/PropRankOneIn.v
theories/PropReduce.v
theories/PropReducePy2.v
theories/PropRefute.v
theories/PropRot.v
theories/PropSameCell.v
theories/PropScrew.v
theories/PropSelf.v
theories/PropStereo.v
theories/PropStop.v
theories/PropText.v
theories/PropTree.v
theories/PropTwin.v
theories/PropTwin2.v
theories/PropTwin3.v
theories/PropTwin4.v
theories/PropTwin5.v
theories/PropTwin6.v
theories/PropTwin7.v
theories/PropTwinAll.v
theories/PropTwinFrame.v
theories/PropTwinNone.v
theories/PropTwinOrbit.v
theories/PropTwinScale.v
theories/PropTwinSym.v
theories/PropTwoSearches.v
theories/PropUnique.v
theories/PropUnit.v
theories/PropVariantCount.v
theories/PropVariants.v
theories/PropVecGen.v
theories/PropVis.v
theories/PropVolume.v
theories/PropWord.v
theories/Py.v
theories/QuartJac.v
theories/QuartModel.v
theories/QuartProofs.v
theories/RMat.v
theories/RankOneAll.v
theories/RankOneConn.v
theories/RankOneModel.v
theories/RankOneProofs.v
theories/RankOneSpec.v
theories/ReduceModel.v
theories/ReduceProofs.v
theories/ReducePy2.v
theories/ReduceSpec.v
theories/RotModel.v
theories/RotProofs.v
theories/RotSpec.v
theories/ScrewModel.v
theories/SelfCase.v
theories/SelfProofs.v
theories/SelfSearch.v
theories/SolverModel.v
theories/Spectral.v
theories/SpectralThm.v
theories/StopProofs.v
theories/TextModel.v
theories/TextProofs.v
theories/TextSpec.v
theories/TreeConc.v
theories/TreeDfs.v
theories/TreeLatOpt.v
theories/TreeModel.v
theories/TreeProofs.v
theories/TreeSols.v
theories/TreeSpec.v
theories/TwinAxes.v
theories/TwinAxis.v
theories/TwinAxis2.v
theories/TwinExamples.v
theories/TwinModel.v
theories/TwinMono.v
theories/TwinMono2.v
theories/TwinMono3.v
theories/TwinMonoC.v
theories/TwinProofs.v
theories/TwinSpec.v
theories/TwinState.v
theories/TwinSystem.v
theories/UniqueModel.v
theories/UnitDirect.v
theories/UnitProofs.v
theories/UnitSpec.v
theories/VecGenModel.v
theories/VecGenProofs.v
theories/VecGenSpec.v
theories/VecGenTotal.v
theories/VisModel.v
theories/VolMore.v
