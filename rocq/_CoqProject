-Q theories Verif
theories/AckerModel.v
theories/AckerProps.v
theories/AcquireModel.v
theories/AcquireProps.v
theories/AmqpBound.v
theories/AmqpDelete.v
theories/AmqpInv.v
theories/AmqpModel.v
theories/AmqpPrefetch.v
theories/AmqpProofs.v
theories/AmqpProps.v
theories/AmqpShared.v
theories/AmqpSpec.v
theories/BackoffModel.v
theories/BackoffProps.v
theories/BagProps.v
theories/BagSpec.v
theories/Base.v
theories/BaseFacts.v
theories/BroadcastHandles.v
theories/BroadcastLive.v
theories/BroadcastModel.v
theories/BroadcastNever.v
theories/BroadcastOrder.v
theories/BroadcastProofs.v
theories/BroadcastProps.v
theories/BroadcastSpec.v
theories/CborFloat.v
theories/CborModel.v
theories/CborProps.v
theories/ConnHandles.v
theories/ConnModel.v
theories/ConnProps.v
theories/ConnSpec.v
theories/ContigConcAdj.v
theories/ContigConcModel.v
theories/ContigConcPair.v
theories/ContigConcProofs.v
theories/ContigConcProps.v
theories/ContigConcSpec.v
theories/ContigOverlap.v
theories/ContiguousModel.v
theories/ContiguousProofs.v
theories/ContiguousProps.v
theories/ContiguousSpec.v
theories/CoordCount.v
theories/CoordEnd.v
theories/CoordModel.v
theories/CoordProofs.v
theories/CoordProps.v
theories/CoordSpec.v
theories/DurBound.v
theories/DurModel.v
theories/DurProofs.v
theories/DurProps.v
theories/DurSpec.v
theories/ExecModel.v
theories/ExecProps.v
theories/FleetModel.v
theories/FleetProofs.v
theories/FleetProps.v
theories/FleetReach.v
theories/FleetSpec.v
theories/FleetStart.v
theories/FloatModel.v
theories/FoldAny.v
theories/FoldFaults.v
theories/FoldFineLive.v
theories/FoldFineModel.v
theories/FoldFineProofs.v
theories/FoldFineProps.v
theories/FoldLive.v
theories/FoldModel.v
theories/FoldMore.v
theories/FoldProofs.v
theories/FoldProps.v
theories/FoldSpec.v
theories/FoldWeight.v
theories/HelloModel.v
theories/HelloProps.v
theories/JointAny.v
theories/JointDone.v
theories/JointEnd.v
theories/JointFold.v
theories/JointFoldEnd.v
theories/JointFoldProps.v
theories/JointInv.v
theories/JointLive.v
theories/JointMapMust.v
theories/JointMapMustProps.v
theories/JointModel.v
theories/JointMust.v
theories/JointMustProps.v
theories/JointProofs.v
theories/JointProps.v
theories/JointProv.v
theories/KeyModel.v
theories/KeyProps.v
theories/LeaseProps.v
theories/LeftModel.v
theories/LeftProps.v
theories/LitCoord.v
theories/LiteralModel.v
theories/LiteralProps.v
theories/LockModel.v
theories/LockProps.v
theories/MapAny.v
theories/MapCoord.v
theories/MapCoordProps.v
theories/MapCount.v
theories/MapEnd.v
theories/MapEndProps.v
theories/MapLive.v
theories/MapMeasure.v
theories/MapModel.v
theories/MapProofs.v
theories/MapProps.v
theories/MapSpec.v
theories/MapTen.v
theories/MismatchProps.v
theories/PoolLive.v
theories/PoolProps.v
theories/PostcardExact.v
theories/PostcardModel.v
theories/PostcardProps.v
theories/PublishModel.v
theories/PublishProofs.v
theories/PublishProps.v
theories/PublishSpec.v
theories/QueueModel.v
theories/QueueProofs.v
theories/QueueProps.v
theories/RegistryModel.v
theories/RegistryProps.v
theories/RetryBlind.v
theories/RetryModel.v
theories/RetryProps.v
theories/RetryRange.v
theories/RetrySpec.v
theories/Schema.v
theories/StartModel.v
theories/StartProps.v
theories/StreamModel.v
theories/StreamProps.v
theories/SystemModel.v
theories/SystemProofs.v
theories/SystemProps.v
theories/SystemSpec.v
theories/TaskModel.v
theories/TaskProps.v
theories/TruncProps.v
theories/Utf8.v
theories/WireBytes.v
theories/WireModel.v
theories/WireProps.v
theories/WorkerFacts.v
theories/WorkerGrace.v
theories/WorkerIgnore.v
theories/WorkerInv.v
theories/WorkerModel.v
theories/WorkerProofs.v
theories/WorkerProps.v
theories/WorkerSpec.v
theories/WorkerUndisturbed.v
