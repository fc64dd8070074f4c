-Q theories Verif
theories/Base.v
theories/ModelIndex.v
theories/ModelWord.v
theories/ModelTensor.v
theories/ModelOps.v
theories/ModelJvp.v
theories/ModelPar.v
theories/ModelGraph.v
theories/ModelNN.v
theories/Spec.v
theories/Lists.v
theories/IndexFacts.v
theories/TensorFacts.v
theories/OpsFacts.v
theories/Sums.v
theories/SpecDual.v
theories/SpecGraph.v
theories/JvpFacts.v
theories/Instances.v
theories/SpecWord.v
theories/ClaimsWord.v
theories/ClaimsTensor.v
theories/ClaimsView.v
theories/ClaimsOps.v
theories/ClaimsMat.v
theories/Dual.v
theories/Adjoint.v
theories/GradRing.v
theories/RealInst.v
theories/SpecReal.v
theories/OpDeriv.v
theories/GradReal.v
theories/FuelFacts.v
theories/SpecPar.v
theories/ParFacts.v
theories/ChanFacts.v
theories/ChanLive.v
theories/ChanBmm.v
theories/ChanOne.v
theories/ChanExec.v
theories/UpdFacts.v
theories/FloatInst.v
theories/ClaimsPar.v
theories/GraphFacts.v
theories/ProgFacts.v
theories/BackFacts.v
theories/ClaimsGraph.v
theories/ClaimsProg.v
theories/ClaimsVjp.v
theories/SimFacts.v
theories/ClaimsGrad.v
theories/SpecNN.v
theories/NNFacts.v
theories/ClaimsNN.v
theories/SpecTrain.v
theories/TrainFacts.v
theories/ClaimsTrain.v
theories/ModelHandle.v
theories/SpecHandle.v
theories/HandleFacts.v
theories/HandleProg.v
theories/HandleCycle.v
theories/HandleTerm.v
theories/ClaimsHandle.v
theories/PropertiesTensor.v
theories/PropertiesView.v
theories/PropertiesOps.v
theories/PropertiesMat.v
theories/PropertiesGraph.v
theories/PropertiesProg.v
theories/PropertiesVjp.v
theories/PropertiesGrad.v
theories/PropertiesNN.v
theories/PropertiesTrain.v
theories/PropertiesWord.v
theories/PropertiesPar.v
theories/PropertiesHandle.v
theories/SpecDescent.v
theories/DescentFacts.v
theories/ClaimsDescent.v
theories/PropertiesDescent.v
theories/SpecRound.v
theories/RoundFacts.v
theories/ChanOrder.v
theories/ClaimsRound.v
theories/PropertiesRound.v
theories/ModelMain.v
theories/SpecLoop.v
theories/LoopFacts.v
theories/ClaimsLoop.v
theories/PropertiesLoop.v
theories/ModelCrash.v
theories/SpecCrash.v
theories/CrashFacts.v
theories/ClaimsCrash.v
theories/PropertiesCrash.v
theories/ModelApi.v
theories/SpecApi.v
theories/ApiFacts.v
theories/CopyFacts.v
theories/ClaimsApi.v
theories/PropertiesApi.v
theories/ModelCost.v
theories/SpecCost.v
theories/CostFacts.v
theories/ClaimsCost.v
theories/PropertiesCost.v
theories/ModelInt.v
theories/SpecParam.v
theories/ParamFacts.v
theories/ClaimsParam.v
theories/PropertiesParam.v
theories/ModelDrop.v
theories/SpecDrop.v
theories/DropFacts.v
theories/ClaimsDrop.v
theories/PropertiesDrop.v
theories/ClaimsAccess.v
theories/PropertiesAccess.v
theories/ModelConc.v
theories/SpecConc.v
theories/ConcFacts.v
theories/ClaimsConc.v
theories/PropertiesConc.v
theories/SpecShape.v
theories/ClaimsShape.v
theories/PropertiesShape.v
theories/SpecFlow.v
theories/FlowFacts.v
theories/ClaimsFlow.v
theories/PropertiesFlow.v
theories/SpecError.v
theories/BranchFacts.v
theories/ErrorFacts.v
theories/IntervalFacts.v
theories/ClaimsError.v
theories/PropertiesError.v
theories/RoomFacts.v
theories/ClaimsRoom.v
theories/PropertiesRoom.v
theories/ModelSched.v
theories/SpecSched.v
theories/SchedFacts.v
theories/ClaimsSched.v
theories/PropertiesSched.v
theories/SchedBranch.v
theories/SpecSpread.v
theories/SpreadFacts.v
theories/SpreadInterval.v
theories/ClaimsSpread.v
theories/PropertiesSpread.v
theories/SpecFrozen.v
theories/FrozenFacts.v
theories/ClaimsFrozen.v
theories/PropertiesFrozen.v
theories/SpecKeep.v
theories/KeepFacts.v
theories/ClaimsKeep.v
theories/PropertiesKeep.v
theories/SpecRegret.v
theories/RegretFacts.v
theories/ClaimsRegret.v
theories/PropertiesRegret.v
theories/SpecLocal.v
theories/LocalFacts.v
theories/LocalReal.v
theories/ClaimsLocal.v
theories/PropertiesLocal.v
theories/ModelUsize.v
theories/UsizeFacts.v
theories/UsizeSmall.v
theories/ClaimsUsize.v
theories/PropertiesUsize.v
theories/ModelRust.v
theories/ModelKernel.v
theories/SpecRust.v
theories/QueueFacts.v
theories/RustFacts.v
theories/RustBmm.v
theories/RustJvp.v
theories/RustMore.v
theories/RustLink.v
theories/RustRel.v
theories/ClaimsRust.v
theories/PropertiesRust.v
theories/ModelMachine.v
theories/MachineFacts.v
theories/RustLim.v
theories/MachineLim.v
theories/RustMono.v
theories/ClaimsMachine.v
theories/PropertiesMachine.v
theories/ModelMachineNN.v
theories/MachineNN.v
theories/ClaimsMachineNN.v
theories/PropertiesMachineNN.v
theories/MachineSmall.v
theories/MachineSmallNN.v
theories/ClaimsMachineSmall.v
theories/PropertiesMachineSmall.v
theories/ClaimsCall.v
theories/PropertiesCall.v
theories/RepoTests.v
