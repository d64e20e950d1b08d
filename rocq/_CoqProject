-Q theories Verif
theories/Base.v
theories/BaseFacts.v
theories/BitmapModel.v
theories/BitmapProofs.v
theories/DacModel.v
theories/DacProofs.v
theories/SnapshotModel.v
theories/Bfs.v
theories/Spec.v
theories/GeomModel.v
theories/GeomProofs.v
theories/SnapshotProofs.v
theories/PropertiesSnapshot.v
theories/LogModel.v
theories/LogTree.v
theories/LogProofs.v
theories/PropertiesLog.v
theories/PropertiesExact.v
theories/StreamModel.v
theories/StreamProofs.v
theories/ChunkModel.v
theories/ChunkProofs.v
theories/ChunkReads.v
theories/PropertiesExactChunk.v
theories/ChunkStream.v
theories/PropertiesChunk.v
theories/PropertiesStream.v
theories/FixedModel.v
theories/FixedProofs.v
theories/PropertiesFixed.v
theories/NodeModel.v
theories/NodeProofs.v
theories/PropertiesNode.v
theories/SuperModel.v
theories/SuperViews.v
theories/SuperProofs.v
theories/SuperInt.v
theories/SuperLinks.v
theories/ArrayModel.v
theories/ArrayProofs.v
theories/MissingProofs.v
theories/PropertiesSuper.v
theories/PropertiesReads.v
theories/FloatModel.v
theories/FloatProofs.v
theories/FloatBuild.v
theories/DetProofs.v
theories/FloatDet.v
theories/PropertiesFloat.v
theories/DatasetModel.v
theories/DatasetProofs.v
theories/AppendProofs.v
theories/HistoryModel.v
theories/KindProofs.v
theories/HistoryProofs.v
theories/KeyProofs.v
theories/CanonProofs.v
theories/PropertiesDataset.v
theories/PropertiesListing.v
theories/PropertiesClosed.v
theories/ReadRange.v
theories/KeepProofs.v
theories/FlatProofs.v
theories/SessionModel.v
theories/SessionSpec.v
theories/SessionProofs.v
theories/StoryProofs.v
theories/PropertiesSession.v
theories/PropertiesVersions.v
theories/PropertiesKept.v
theories/PropertiesIdentity.v
theories/PropertiesCanon.v
theories/FrameProofs.v
theories/PropertiesAnywhere.v
theories/PlaceProofs.v
theories/PropertiesPlaces.v
theories/TransportModel.v
theories/TransportProofs.v
theories/PropertiesTransport.v
theories/NodeStops.v
theories/PropertiesTruncation.v
theories/PropertiesSize.v
theories/CacheModel.v
theories/CacheSpec.v
theories/CacheProofs.v
theories/CacheConc.v
theories/CacheCancel.v
theories/CacheDrop.v
theories/CacheGivenUp.v
theories/PropertiesCache.v
theories/RangeModel.v
theories/RangeProofs.v
theories/PropertiesRange.v
theories/RangeClose.v
theories/PropertiesClose.v
theories/PyModel.v
theories/PropertiesPython.v
theories/LoadProofs.v
theories/PropertiesLoad.v
theories/ShareProofs.v
theories/PropertiesShare.v
theories/PyDatasetModel.v
theories/PropertiesPyDataset.v
theories/RequestModel.v
theories/RequestProofs.v
theories/RequestReach.v
theories/RequestOnce.v
theories/RequestTree.v
theories/PropertiesRequests.v
theories/PruneProofs.v
theories/PruneTree.v
theories/PropertiesPrune.v
theories/WorkModel.v
theories/WorkProofs.v
theories/PropertiesTogether.v
theories/PropertiesMissing.v
theories/MemoryModel.v
theories/MemoryProofs.v
theories/PropertiesMemory.v
theories/BoundProofs.v
theories/PropertiesBound.v
theories/CostProofs.v
theories/PropertiesCost.v
theories/PropertiesUnusable.v
theories/PropertiesNames.v
theories/PropertiesPyExact.v
theories/PropertiesPyClose.v
