-Q theories Verif
theories/ApiProps.v
theories/ArrayFacts.v
theories/ArrayModel.v
theories/ArrayProofs.v
theories/ArrayProps.v
theories/ArrayRuns.v
theories/ArraySpec.v
theories/ArraySteps.v
theories/ArrayUniq.v
theories/Base.v
theories/BytesProofs.v
theories/BytesProps.v
theories/BytesSpec.v
theories/CmpModel.v
theories/CmpProofs.v
theories/CmpProps.v
theories/CmpSpec.v
theories/CodecLemmas.v
theories/CodecModel.v
theories/CodecProofs.v
theories/CodecProps.v
theories/CodecSpec.v
theories/ConfBuild.v
theories/ConfCodecFacts.v
theories/ConfCodecMain.v
theories/ConfCodecModel.v
theories/ConfCodecProofs.v
theories/ConfCodecProps.v
theories/ConfCodecSpec.v
theories/ConfMeaning.v
theories/ContextModel.v
theories/ContextProofs.v
theories/ContextProps.v
theories/ContextSpec.v
theories/Datum.v
theories/DistCodecModel.v
theories/DistCodecMore.v
theories/DistCodecProofs.v
theories/DistCodecProps.v
theories/DistCodecSpec.v
theories/DistMemModel.v
theories/DistMemProofs.v
theories/DistMemProps.v
theories/DistMemSpec.v
theories/DistMix.v
theories/DistModel.v
theories/DistParamModel.v
theories/DistParamProofs.v
theories/DistParamProps.v
theories/DistParamSpec.v
theories/DistProofs.v
theories/DistProps.v
theories/DistRoulette.v
theories/DistSearch.v
theories/DistSpec.v
theories/DistTables.v
theories/DlistModel.v
theories/DlistProofs.v
theories/DlistProps.v
theories/DlistSpec.v
theories/DlistTopo.v
theories/ErrorStackExec.v
theories/ErrorStackHistory.v
theories/ErrorStackModel.v
theories/ErrorStackProofs.v
theories/ErrorStackProps.v
theories/ErrorStackSpec.v
theories/EvalArraySpec.v
theories/EvalFacts.v
theories/EvalModel.v
theories/EvalOrder.v
theories/EvalProofs.v
theories/EvalProps.v
theories/EvalSpec.v
theories/ExprCodec.v
theories/ExprLemmas.v
theories/ExprModel.v
theories/ExprProofs.v
theories/ExprProps.v
theories/ExprSem.v
theories/ExprSpec.v
theories/FeatWholeModel.v
theories/FeatWholeProofs.v
theories/FeatWholeProps.v
theories/FeatWholeSpec.v
theories/FileApi.v
theories/FileModel.v
theories/FileProofs.v
theories/FileProps.v
theories/FileSpec.v
theories/FloatInt.v
theories/FloatModel.v
theories/FloatProofs.v
theories/FloatRound.v
theories/FloatSpec.v
theories/FloatSum.v
theories/FrameModel.v
theories/FrameProofs.v
theories/FrameSpec.v
theories/GetterFacts.v
theories/GetterModel.v
theories/GetterProofs.v
theories/GetterProps.v
theories/GetterSpec.v
theories/GetterTrees.v
theories/HookModel.v
theories/HookProofs.v
theories/HookProps.v
theories/HookSpec.v
theories/IntervalModel.v
theories/IntervalProofs.v
theories/IntervalProps.v
theories/IntervalSpec.v
theories/LifeAccept.v
theories/LifeCalls.v
theories/LifeCalls2.v
theories/LifeCalls3.v
theories/LifeCalls4.v
theories/LifeCalls5.v
theories/LifeCalls6.v
theories/LifeCalls7.v
theories/LifeCounts.v
theories/LifeEffects.v
theories/LifeHistory.v
theories/LifeModel.v
theories/LifeOps.v
theories/LifeProofs.v
theories/LifeProps.v
theories/LifeSpec.v
theories/LifeSteps.v
theories/MapLemmas.v
theories/MapModel.v
theories/MapProofs.v
theories/MapProps.v
theories/MapSpec.v
theories/NormalModel.v
theories/NormalProofs.v
theories/NormalProps.v
theories/NormalSpec.v
theories/ParamCodec.v
theories/ParamLemmas.v
theories/ParamModel.v
theories/ParamProofs.v
theories/ParamProps.v
theories/ParamSpec.v
theories/RestoreModel.v
theories/RestoreOrder.v
theories/RestoreProofs.v
theories/RestoreProps.v
theories/RestoreSpec.v
theories/RngModel.v
theories/RngProofs.v
theories/RngProps.v
theories/RngSpec.v
theories/SpaceCheck.v
theories/SpaceCodecModel.v
theories/SpaceCodecProofs.v
theories/SpaceCodecProps.v
theories/SpaceCodecSpec.v
theories/SpaceDist.v
theories/SpaceGraph.v
theories/SpaceHistory.v
theories/SpaceLemmas.v
theories/SpaceMain.v
theories/SpaceModel.v
theories/SpaceProofs.v
theories/SpaceProps.v
theories/SpaceReach.v
theories/SpaceSample.v
theories/SpaceSpec.v
theories/StreamModel.v
theories/StreamMore.v
theories/StreamProofs.v
theories/StreamProps.v
theories/StreamSpec.v
theories/TreeCodec.v
theories/TreeCodecSpec.v
theories/TreeConfModel.v
theories/TreeConfProofs.v
theories/TreeConfProps.v
theories/TreeConfSpec.v
theories/TreeFacts.v
theories/TreeHeap.v
theories/TreeLimits.v
theories/TreeModel.v
theories/TreeNav.v
theories/TreeOps.v
theories/TreeProofs.v
theories/TreeProps.v
theories/TreeRep.v
theories/TreeSpaceCodec.v
theories/TreeSpaceModel.v
theories/TreeSpaceProofs.v
theories/TreeSpaceProps.v
theories/TreeSpaceSpec.v
theories/TreeSpec.v
theories/TreeSteps.v
theories/TreeWholeModel.v
theories/TreeWholeProofs.v
theories/TreeWholeProps.v
theories/TreeWholeSpec.v
theories/TunerCodecModel.v
theories/TunerCodecProofs.v
theories/TunerCodecProps.v
theories/TunerCodecSpec.v
theories/TunerModel.v
theories/TunerProofs.v
theories/TunerProps.v
theories/TunerSpec.v
theories/UserTreeWholeProps.v
theories/UserTunerKinds.v
theories/UserTunerModel.v
theories/UserTunerProofs.v
theories/UserTunerProps.v
theories/UserTunerShort.v
theories/UserTunerShortProps.v
theories/UserTunerShortSpec.v
theories/UserTunerSpec.v
theories/UserWholeFeatures.v
theories/UserWholeModel.v
theories/UserWholeProofs.v
theories/UserWholeProps.v
theories/UserWholeSpec.v
theories/UserWholeTree.v
theories/UthashChains.v
theories/UthashFacts.v
theories/UthashLists.v
theories/UthashModel.v
theories/UthashProofs.v
theories/UthashProps.v
theories/UthashSpec.v
theories/UthashSteps.v
theories/WholeModel.v
theories/WholeProofs.v
theories/WholeProps.v
theories/WholeSpec.v
