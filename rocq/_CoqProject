-Q theories Verif
theories/Base.v
theories/ModelDefs.v
theories/StoreDefs.v
theories/DiffDefs.v
theories/DifferDefs.v
theories/SyncerDefs.v
theories/AdapterDefs.v
theories/TextDefs.v
theories/ConcDefs.v
theories/SyncConcDefs.v
theories/BaseFacts.v
theories/Spec.v
theories/DiffFacts.v
theories/Samples.v
theories/PropDiff.v
theories/ModelFacts.v
theories/PropModel.v
theories/TreeFacts.v
theories/PropTree.v
theories/StoreSpec.v
theories/StoreFacts.v
theories/CascadeFacts.v
theories/StoreMore.v
theories/PropStore.v
theories/DifferSpec.v
theories/PureDiffer.v
theories/FaithFacts.v
theories/DifferFacts.v
theories/DifferMore.v
theories/DifferTwo.v
theories/DifferThree.v
theories/DifferCount.v
theories/DifferLast.v
theories/PropDiffer.v
theories/SyncSpec.v
theories/SyncMaster.v
theories/SyncPost.v
theories/RemoveFacts.v
theories/SyncFacts.v
theories/SyncFrame.v
theories/HookFacts.v
theories/SyncFrame2.v
theories/SyncFrom.v
theories/SyncPair.v
theories/SyncSkip.v
theories/SyncSample.v
theories/PropSync.v
theories/RunSpec.v
theories/SyncTrace.v
theories/CallSpec.v
theories/RunFacts.v
theories/ClassRules.v
theories/WholeFacts.v
theories/CourseFrom.v
theories/CallFacts.v
theories/FrameCourse.v
theories/StopFacts.v
theories/FromFacts.v
theories/IdleFacts.v
theories/FromMore.v
theories/RunSample.v
theories/PropRun.v
theories/RedisSpec.v
theories/RedisFacts.v
theories/RedisMore.v
theories/ReprSpec.v
theories/ReprFacts.v
theories/GlobSpec.v
theories/GlobFacts.v
theories/PropRedis.v
theories/LoadSpec.v
theories/LoadFacts.v
theories/PropLoad.v
theories/ConvergeSpec.v
theories/ConvSteps.v
theories/ConvModel.v
theories/ConvRun.v
theories/ConvVals.v
theories/ConvTree.v
theories/ConvFits.v
theories/ConvTop.v
theories/ConvAgain.v
theories/ConvEnd.v
theories/ConvFirst.v
theories/ConvSample.v
theories/ConvCascade.v
theories/PropConverge.v
theories/DataSpec.v
theories/DataFacts.v
theories/DataOrder.v
theories/DataTrans.v
theories/DataSample.v
theories/PropData.v
theories/BaseMeth.v
theories/CopySpec.v
theories/CopyFacts.v
theories/CopyTop.v
theories/PropCopy.v
theories/ShowSpec.v
theories/ShowDict.v
theories/ShowStr.v
theories/ShowOrder.v
theories/PropShow.v
theories/ObsSpec.v
theories/ObsFacts.v
theories/PropObs.v
theories/OutcomeSpec.v
theories/OutcomeFacts.v
theories/PropOutcome.v
theories/TextSpec.v
theories/TextFacts.v
theories/AccessFacts.v
theories/PropText.v
theories/ConcSpec.v
theories/ConcFacts.v
theories/ConcSync.v
theories/ConcSystem.v
theories/ConcTop.v
theories/PropConc.v
theories/ServerSpec.v
theories/ServerFacts.v
theories/ServerSample.v
theories/PropServer.v
theories/CutFacts.v
theories/PropCut.v
theories/FailSteps.v
theories/FailRun.v
theories/FailSpec.v
theories/FailTop.v
theories/PropFail.v
theories/FailAlike.v
theories/PropRetry.v
theories/PropRepr.v
theories/RowSpec.v
theories/RowFacts.v
theories/RowEnd.v
theories/RowSample.v
theories/PropRow.v
theories/AgreeFacts.v
theories/PropAgree.v
theories/FleetSpec.v
theories/FleetFacts.v
theories/FleetEnd.v
theories/PropFleet.v
theories/SkipSpec.v
theories/SkipFacts.v
theories/PropSkip.v
theories/PoolSpec.v
theories/PoolFacts.v
theories/PoolEnd.v
theories/PropPool.v
theories/FlagSpec.v
theories/FlagFacts.v
theories/PropFlags.v
theories/RefuseSpec.v
theories/RefuseFacts.v
theories/PropRefuse.v
theories/CutSync.v
theories/PropCutSync.v
theories/ScanSpec.v
theories/ScanFacts.v
theories/ScanDiff.v
theories/PropScan.v
theories/LogDefs.v
theories/LogSpec.v
theories/LogFacts.v
theories/PropLog.v
theories/ConnDefs.v
theories/ConnSpec.v
theories/PropConn.v
theories/ShelfSpec.v
theories/ShelfFacts.v
theories/ShelfEnd.v
theories/PropShelf.v
theories/ServeRun.v
theories/ServeRead.v
theories/ServeSpec.v
theories/ServeTop.v
theories/PropServe.v
theories/GatherSpec.v
theories/GatherFacts.v
theories/PropGather.v
theories/RemoteSpec.v
theories/RemoteFacts.v
theories/RemoteMore.v
theories/PropRemote.v
theories/JsonDefs.v
theories/JsonSpec.v
theories/JsonFacts.v
theories/PropJson.v
theories/WideDefs.v
theories/WideSpec.v
theories/WideSame.v
theories/WideLog.v
theories/WideKeep.v
theories/PropWide.v
theories/WideDiffDefs.v
theories/WideDiffSpec.v
theories/WideDiffSim.v
theories/WideDiffFacts.v
theories/PropWideDiff.v
theories/RoundSpec.v
theories/RoundFacts.v
theories/PropRound.v
theories/EditSpec.v
theories/EditFacts.v
theories/EditEnd.v
theories/PropEdit.v
theories/FailRows.v
theories/TrySpec.v
theories/TryFacts.v
theories/TryEnd.v
theories/PropTry.v
theories/GiveFacts.v
theories/KeepSpec.v
theories/KeepFacts.v
theories/KeepEnd.v
theories/PropKeep.v
theories/GossipSpec.v
theories/GossipFacts.v
theories/PropGossip.v
theories/TypesSpec.v
theories/TypesFacts.v
theories/PropTypes.v
theories/ForetellSpec.v
theories/ForetellFacts.v
theories/PropForetell.v
theories/ShareDefs.v
theories/ShareSpec.v
theories/ShareFacts.v
theories/PropShare.v
theories/PartSpec.v
theories/PartFacts.v
theories/PropPart.v
theories/IndepSpec.v
theories/IndepFacts.v
theories/PropIndep.v
theories/LossDefs.v
theories/LossSpec.v
theories/LossFacts.v
theories/PropLoss.v
theories/PropSelf.v
theories/CostSpec.v
theories/CostFacts.v
theories/CostSync.v
theories/PropCost.v
theories/CostDiff.v
theories/PropCostDiff.v
theories/CostNat.v
theories/PropCostNat.v
theories/PropCostChain.v
