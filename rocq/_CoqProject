-Q theories Verif
theories/AccessModel.v
theories/AccessProofs.v
theories/AccessProps.v
theories/AccessSpec.v
theories/AggModel.v
theories/AggProofs.v
theories/AggProps.v
theories/AggSpec.v
theories/AlignModel.v
theories/AlignProofs.v
theories/AlignProps.v
theories/AlignSpec.v
theories/ApplyModel.v
theories/ApplyProofs.v
theories/ApplyProps.v
theories/ApplySpec.v
theories/AuthModel.v
theories/AuthProofs.v
theories/AuthProps.v
theories/AuthSpec.v
theories/BitBuf.v
theories/BloomModel.v
theories/BloomProofs.v
theories/BloomProps.v
theories/BooleanModel.v
theories/BooleanProofs.v
theories/BucketModel.v
theories/BucketProofs.v
theories/BucketProps.v
theories/BucketSpec.v
theories/Bytes.v
theories/CodecProps.v
theories/CodecSpec.v
theories/CompactModel.v
theories/CompactProofs.v
theories/CompactProps.v
theories/CompactSpec.v
theories/CoordModel.v
theories/CoordProofs.v
theories/CoordProps.v
theories/CoordSpec.v
theories/CountModel.v
theories/CountProofs.v
theories/CountProps.v
theories/CountSpec.v
theories/DomainModel.v
theories/DomainProofs.v
theories/DomainProps.v
theories/DomainSpec.v
theories/DumpMain.v
theories/DumpModel.v
theories/DumpProofs.v
theories/DumpProps.v
theories/DumpRun.v
theories/DumpSpec.v
theories/EngineModel.v
theories/EngineProofs.v
theories/EngineProps.v
theories/EngineSpec.v
theories/EvolveModel.v
theories/EvolveProofs.v
theories/EvolveProps.v
theories/EvolveSpec.v
theories/FillModel.v
theories/FillProofs.v
theories/FillProps.v
theories/FillSpec.v
theories/FilterModel.v
theories/FilterProofs.v
theories/FilterProps.v
theories/FilterSpec.v
theories/FloatModel.v
theories/FloatProofs.v
theories/IndexModel.v
theories/IndexProofs.v
theories/IndexProofs2.v
theories/IndexProps.v
theories/IndexProps2.v
theories/IndexSpec.v
theories/IndexUpdateSpec.v
theories/IntegerModel.v
theories/IntegerProofs.v
theories/LifeModel.v
theories/LifeProofs.v
theories/LifeProps.v
theories/LifeSpec.v
theories/LimitModel.v
theories/LimitProofs.v
theories/LimitProps.v
theories/LimitSpec.v
theories/LineModel.v
theories/LineProofs.v
theories/LineProps.v
theories/LineSpec.v
theories/LogModel.v
theories/LogProofs.v
theories/LogProps.v
theories/LogSpec.v
theories/LruModel.v
theories/LruProofs.v
theories/LruProps.v
theories/LruSpec.v
theories/MemDropSpec.v
theories/MemModel.v
theories/MemPoolModel.v
theories/MemPoolProofs.v
theories/MemPoolProps.v
theories/MemPoolSpec.v
theories/MemProofs.v
theories/MemProofs2.v
theories/MemProps.v
theories/MemProps2.v
theories/MemSpec.v
theories/MergeModel.v
theories/MergeProofs.v
theories/MergeProps.v
theories/MergeSpec.v
theories/MetaEffectProofs.v
theories/MetaEffectProofs2.v
theories/MetaEffectProps.v
theories/MetaEffectProps2.v
theories/MetaEffectSpec.v
theories/MetaEffectSpec2.v
theories/MetaLogProofs.v
theories/MetaLogProps.v
theories/MetaLogSpec.v
theories/MetaModel.v
theories/MetaProofs.v
theories/MetaProofs2.v
theories/MetaProofs3.v
theories/MetaProps.v
theories/MetaSpec.v
theories/MetricModel.v
theories/MetricProofs.v
theories/MetricProps.v
theories/MetricSpec.v
theories/NodeModel.v
theories/NodeProofs.v
theories/NodeSpec.v
theories/PageModel.v
theories/PageProofs.v
theories/PageProps.v
theories/PageSpec.v
theories/PickModel.v
theories/PickProofs.v
theories/PickProps.v
theories/PickSpec.v
theories/PrecisionModel.v
theories/PrecisionProofs.v
theories/PrecisionProps.v
theories/PrecisionSpec.v
theories/Prelude.v
theories/PrivilegeModel.v
theories/PrivilegeProofs.v
theories/PrivilegeProps.v
theories/PrivilegeSpec.v
theories/PromModel.v
theories/PromProofs.v
theories/PromProps.v
theories/PromSpec.v
theories/PruneModel.v
theories/PruneProofs.v
theories/PruneProps.v
theories/PruneSpec.v
theories/QualityModel.v
theories/QualityProofs.v
theories/QualityProps.v
theories/QualitySpec.v
theories/RateModel.v
theories/RateProofs.v
theories/RateProps.v
theories/RateSpec.v
theories/ReadModel.v
theories/ReadProofs.v
theories/ReadProps.v
theories/ReadSpec.v
theories/RecordModel.v
theories/RecordProofs.v
theories/RecordProps.v
theories/RecordSpec.v
theories/RegisterModel.v
theories/RegisterProofs.v
theories/RegisterProps.v
theories/RegisterSpec.v
theories/RepairEven.v
theories/RepairModel.v
theories/RepairProofs.v
theories/RepairProps.v
theories/RepairSpec.v
theories/RingModel.v
theories/RingProofs.v
theories/RingProps.v
theories/RingSpec.v
theories/RouteModel.v
theories/RouteProofs.v
theories/RouteProofs2.v
theories/RouteProofs3.v
theories/RouteProofs4.v
theories/RouteProps.v
theories/RouteSpec.v
theories/SampleModel.v
theories/SampleProofs.v
theories/SampleProps.v
theories/SampleSpec.v
theories/ScreenModel.v
theories/ScreenProofs.v
theories/ScreenProps.v
theories/ScreenSpec.v
theories/ShowModel.v
theories/ShowProofs.v
theories/ShowProps.v
theories/ShowSpec.v
theories/Simple8bModel.v
theories/Simple8bProofs.v
theories/SnapshotModel.v
theories/SnapshotProofs.v
theories/SnapshotProps.v
theories/SnapshotSpec.v
theories/StateAggModel.v
theories/StateAggProofs.v
theories/StateAggProps.v
theories/StateAggSpec.v
theories/StateStoreModel.v
theories/StateStoreProofs.v
theories/StateStoreProps.v
theories/StateStoreSpec.v
theories/StreamModel.v
theories/StreamProofs.v
theories/StreamProofs2.v
theories/StreamProofs3.v
theories/StreamProofs4.v
theories/StreamProps.v
theories/StreamSpec.v
theories/SummaryModel.v
theories/SummaryProofs.v
theories/SummaryProps.v
theories/SummarySpec.v
theories/TaskModel.v
theories/TaskProofs.v
theories/TaskProps.v
theories/TaskSpec.v
theories/TimeRangeModel.v
theories/TimeRangeProofs.v
theories/TimeRangeProps.v
theories/TimeRangeSpec.v
theories/TimeWindowModel.v
theories/TimeWindowProofs.v
theories/TimeWindowProps.v
theories/TimeWindowSpec.v
theories/TimestampModel.v
theories/TimestampProofs.v
theories/TombModel.v
theories/TombProofs.v
theories/TombProps.v
theories/TombSpec.v
theories/TraceEvents.v
theories/TraceFind.v
theories/TraceModel.v
theories/TraceProofs.v
theories/TraceProps.v
theories/TraceSpec.v
theories/TrackerModel.v
theories/TrackerProofs.v
theories/TrackerProps.v
theories/TrackerSpec.v
theories/TsmModel.v
theories/TsmProofs.v
theories/TsmProofs2.v
theories/TsmProofs3.v
theories/TsmProofs4.v
theories/TsmProps.v
theories/TsmSpec.v
theories/TsmToy.v
theories/TtlModel.v
theories/TtlProofs.v
theories/TtlProps.v
theories/TtlSpec.v
theories/WalModel.v
theories/WalProofs.v
theories/WalProps.v
theories/WalSpec.v
theories/WatchModel.v
theories/WatchProofs.v
theories/WatchProps.v
theories/WatchSpec.v
theories/WriteModel.v
theories/WriteProofs.v
theories/WriteProofs2.v
theories/WriteProofs3.v
theories/WriteProofs4.v
theories/WriteProofs5.v
theories/WriteProofs6.v
theories/WriteProps.v
theories/WriteSpec.v
