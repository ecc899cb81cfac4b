-Q theories Verif
theories/Bytes.v
theories/WalModel.v
theories/WalSpec.v
theories/WalProofs.v
theories/WalProps.v
theories/RecoveryModel.v
theories/RecoverySpec.v
theories/RecoveryProofs.v
theories/RecoveryProps.v
theories/Text.v
theories/SnapshotManifestModel.v
theories/SnapshotManifestSpec.v
theories/SnapshotManifestProofs.v
theories/SnapshotManifestProps.v
theories/ScalarDataModel.v
theories/ScalarDataSpec.v
theories/ScalarDataProofs.v
theories/ScalarDataProps.v
theories/BinaryIoModel.v
theories/BinaryIoSpec.v
theories/BinaryIoProofs.v
theories/BinaryIoProps.v
theories/Double.v
theories/FilterModel.v
theories/FilterSpec.v
theories/FilterProofs.v
theories/FilterProps.v
theories/IndexEncodingModel.v
theories/IndexEncodingProofs.v
theories/IndexEncodingProps.v
theories/Kv.v
theories/StorageModel.v
theories/StorageSpec.v
theories/StorageProofs.v
theories/StorageQueryProofs.v
theories/StorageProps.v
theories/MatcherModel.v
theories/MatcherSpec.v
theories/MatcherProofs.v
theories/MatcherProps.v
theories/Arr.v
theories/BitsetModel.v
theories/BitsetSpec.v
theories/BitsetProofs.v
theories/BitsetProps.v
theories/PoolModel.v
theories/PoolSpec.v
theories/PoolProofs.v
theories/PoolProps.v
theories/NpqModel.v
theories/NpqSpec.v
theories/NpqProofs.v
theories/NpqProps.v
theories/PruneModel.v
theories/PruneSpec.v
theories/PruneProofs.v
theories/PruneProps.v
theories/TombModel.v
theories/TombSpec.v
theories/TombProofs.v
theories/TombProps.v
theories/StoreModel.v
theories/StoreSpec.v
theories/StoreProofs.v
theories/StoreProps.v
theories/SearchModel.v
theories/SearchSpec.v
theories/FrontierProofs.v
theories/SearchProofs.v
theories/SearchProps.v
theories/DiskSearchModel.v
theories/DiskSearchSpec.v
theories/DiskSearchProofs.v
theories/DiskSearchProps.v
theories/RankModel.v
theories/RankSpec.v
theories/RankProofs.v
theories/RankProps.v
theories/GraphFileModel.v
theories/GraphFileSpec.v
theories/GraphFileProofs.v
theories/GraphFileProps.v
theories/LayoutModel.v
theories/LayoutSpec.v
theories/LayoutProofs.v
theories/LayoutProps.v
theories/IndexModel.v
theories/IndexSpec.v
theories/IndexProofs.v
theories/IndexProps.v
theories/CacheModel.v
theories/CacheSpec.v
theories/CacheProofs.v
theories/CacheProps.v
theories/SegManifestModel.v
theories/SegManifestSpec.v
theories/SegManifestProofs.v
theories/SegManifestProps.v
theories/DiskCollModel.v
theories/DiskCollSpec.v
theories/DiskCollProofs.v
theories/DiskCollLive.v
theories/DiskCollProps.v
theories/CollSearchModel.v
theories/CollSearchSpec.v
theories/CollSearchProofs.v
theories/CollSearchProps.v
theories/BatchModel.v
theories/BatchSpec.v
theories/BatchProofs.v
theories/BatchProps.v
theories/Threads.v
theories/LockModel.v
theories/LockSpec.v
theories/LockProofs.v
theories/LockProps.v
theories/SchedModel.v
theories/SchedSpec.v
theories/SchedProofs.v
theories/SchedProps.v
theories/TPoolModel.v
theories/TPoolSpec.v
theories/TPoolProofs.v
theories/TPoolProps.v
theories/GateModel.v
theories/GateSpec.v
theories/GateProofs.v
theories/GateProps.v
theories/DictModel.v
theories/DictSpec.v
theories/DictProofs.v
theories/DictProps.v
theories/DeleteModel.v
theories/DeleteSpec.v
theories/DeleteProofs.v
theories/DeleteProps.v
theories/FloatLemmas.v
theories/QuantModel.v
theories/QuantSpec.v
theories/QuantProofs.v
theories/QuantProps.v
theories/SqDistModel.v
theories/SqDistSpec.v
theories/SqDistProofs.v
theories/SqDistProps.v
theories/EffortModel.v
theories/EffortSpec.v
theories/EffortProofs.v
theories/EffortProps.v
theories/ResultIdsModel.v
theories/ResultIdsSpec.v
theories/ResultIdsProofs.v
theories/ResultIdsProps.v
theories/HybridModel.v
theories/HybridSpec.v
theories/HybridProofs.v
theories/HybridProps.v
theories/UpdateModel.v
theories/UpdateSpec.v
theories/UpdateProofs.v
theories/UpdateProps.v
theories/NsgModel.v
theories/NsgSpec.v
theories/NsgProofs.v
theories/NsgProps.v
theories/FusionModel.v
theories/FusionSpec.v
theories/FusionProofs.v
theories/FusionProps.v
theories/HnswModel.v
theories/HnswSpec.v
theories/HnswProofs.v
theories/HnswProps.v
theories/VisitedModel.v
theories/VisitedSpec.v
theories/VisitedProofs.v
theories/VisitedProps.v
theories/ClientModel.v
theories/ClientSpec.v
theories/ClientProofs.v
theories/ClientProps.v
theories/FastscanModel.v
theories/FastscanSpec.v
theories/FastscanProofs.v
theories/FastscanSimdProofs.v
theories/FastscanTableProofs.v
theories/FastscanEstimateProofs.v
theories/FastscanLaserProofs.v
theories/FastscanProps.v
theories/PqModel.v
theories/PqSpec.v
theories/PqProofs.v
theories/PqBitProofs.v
theories/PqTableProofs.v
theories/PqExactProofs.v
theories/PqTrainProofs.v
theories/PqProps.v
theories/NsgSortProofs.v
theories/VBuildModel.v
theories/VBuildSpec.v
theories/VBuildProofs.v
theories/VBuildCleanProofs.v
theories/VBuildFloatProofs.v
theories/VBuildFuelProofs.v
theories/VBuildReachProofs.v
theories/VBuildEntryProofs.v
theories/VBuildLostProofs.v
theories/VBuildProps.v
theories/ShardModel.v
theories/ShardSpec.v
theories/ShardProofs.v
theories/ShardFileProofs.v
theories/ShardMergeProofs.v
theories/ShardProps.v
theories/KmeansModel.v
theories/KmeansSpec.v
theories/KmeansProofs.v
theories/KmeansExtraProofs.v
theories/KmeansProps.v
theories/PqSearchModel.v
theories/PqSearchSpec.v
theories/PqSearchProofs.v
theories/PqSearchProps.v
theories/CoroSearchModel.v
theories/CoroSearchSpec.v
theories/CoroSearchProofs.v
theories/CoroSearchProps.v
theories/NodeCacheModel.v
theories/NodeCacheSpec.v
theories/NodeCacheProofs.v
theories/NodeCacheProps.v
theories/MirrorModel.v
theories/MirrorSpec.v
theories/MirrorProofs.v
theories/MirrorProps.v
theories/RotateModel.v
theories/RotateSpec.v
theories/RotateProofs.v
theories/RotateProps.v
theories/QgModel.v
theories/QgSpec.v
theories/QgProofs.v
theories/QgProps.v
theories/UringModel.v
theories/UringSpec.v
theories/UringProofs.v
theories/UringProps.v
theories/ItemsModel.v
theories/ItemsSpec.v
theories/ItemsProofs.v
theories/ItemsProps.v
theories/LaserSearchModel.v
theories/LaserSearchSpec.v
theories/LaserSearchProofs.v
theories/LaserSearchProps.v
theories/LaserSegModel.v
theories/LaserSegSpec.v
theories/LaserSegProofs.v
theories/LaserSegProps.v
theories/PcaFileModel.v
theories/PcaFileSpec.v
theories/PcaFileProofs.v
theories/PcaFileProps.v
