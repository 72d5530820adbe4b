-Q theories Verif
theories/AllocModel.v
theories/AllocProofs.v
theories/AllocProps.v
theories/AllocSpec.v
theories/Base.v
theories/BitsetModel.v
theories/BitsetProofs.v
theories/BitsetProps.v
theories/BitsetSpec.v
theories/BlobBomb.v
theories/BlobDecode.v
theories/BlobImage.v
theories/BlobModel.v
theories/BlobProofs.v
theories/BlobProps.v
theories/BlobSpec.v
theories/ChunkModel.v
theories/ChunkPoolProofs.v
theories/ChunkProofs.v
theories/ChunkProps.v
theories/ChunkSpec.v
theories/CompBits.v
theories/CompBlk.v
theories/CompCode.v
theories/CompDec.v
theories/CompEnc.v
theories/CompHuff.v
theories/CompLens.v
theories/CompModel.v
theories/CompOut.v
theories/CompProps.v
theories/CompSpec.v
theories/CompTok.v
theories/CompTop.v
theories/CompWrap.v
theories/ConvFloat.v
theories/ConvModel.v
theories/ConvProofs.v
theories/ConvProps.v
theories/ConvSpec.v
theories/ConvTableProps.v
theories/CrcModel.v
theories/CrcProofs.v
theories/CrcProps.v
theories/CrcSpec.v
theories/EditGroupProofs.v
theories/EditModel.v
theories/EditMoreProofs.v
theories/EditProofs.v
theories/EditProps.v
theories/EditSpec.v
theories/EditUngroupProofs.v
theories/EditWireProofs.v
theories/GrcModel.v
theories/GrcProofs.v
theories/GrcProps.v
theories/GrcSpec.v
theories/HistoryModel.v
theories/HistoryProofs.v
theories/HistoryProps.v
theories/HistorySpec.v
theories/LifecycleModel.v
theories/LifecycleProofs.v
theories/LifecycleProps.v
theories/LifecycleSpec.v
theories/LinkModel.v
theories/LinkProofs.v
theories/LinkProps.v
theories/LinkSizeProofs.v
theories/LinkSpec.v
theories/MergeModel.v
theories/MergeProofs.v
theories/MergeProps.v
theories/MergeSpec.v
theories/MpmcModel.v
theories/MpmcProofs.v
theories/MpmcProps.v
theories/MsgModel.v
theories/MsgProofs.v
theories/MsgProps.v
theories/MsgSpec.v
theories/NmeaModel.v
theories/NmeaProofs.v
theories/NmeaProps.v
theories/NmeaSpec.v
theories/PoolInvProofs.v
theories/PoolLiveProofs.v
theories/PoolModel.v
theories/PoolProofs.v
theories/PoolProps.v
theories/PoolSpec.v
theories/PrimeModel.v
theories/PrimeProofs.v
theories/PrimeProps.v
theories/PrimeSpec.v
theories/RegistryModel.v
theories/RegistryProofs.v
theories/RegistryProps.v
theories/RingArithModel.v
theories/RingArithProofs.v
theories/RingArithProps.v
theories/RingFacts.v
theories/RingModel.v
theories/RingProofs.v
theories/RingProps.v
theories/RingSpec.v
theories/RngModel.v
theories/RngProofs.v
theories/RngProps.v
theories/RngSpec.v
theories/RwLockModel.v
theories/RwLockProofs.v
theories/RwLockProps.v
theories/SchedAwayProofs.v
theories/SchedFateProofs.v
theories/SchedInvProofs.v
theories/SchedLoopProofs.v
theories/SchedModel.v
theories/SchedMsgProofs.v
theories/SchedOwnProofs.v
theories/SchedProps.v
theories/SchedQuietProofs.v
theories/SchedSpec.v
theories/SchmittModel.v
theories/SchmittProofs.v
theories/SchmittProps.v
theories/SchmittSpec.v
theories/SelModel.v
theories/SelProofs.v
theories/SelProofs2.v
theories/SelProofs3.v
theories/SelProps.v
theories/SelSpec.v
theories/SettHistProofs.v
theories/SettModel.v
theories/SettMoreProofs.v
theories/SettProofs.v
theories/SettProps.v
theories/SettRunProofs.v
theories/SettSpec.v
theories/SinkModel.v
theories/SinkProofs.v
theories/SinkProofs2.v
theories/SinkProps.v
theories/SinkRegModel.v
theories/SinkSpec.v
theories/SpModel.v
theories/SpProofs.v
theories/SpProps.v
theories/StreamDec.v
theories/StreamEnc.v
theories/StreamEncModel.v
theories/StreamEncProps.v
theories/StreamInf.v
theories/StreamModel.v
theories/StreamOut.v
theories/StreamProps.v
theories/StreamRd.v
theories/SyncModel.v
theories/SyncProofs.v
theories/SyncProofs2.v
theories/SyncProps.v
theories/SyncSpec.v
theories/TaperModel.v
theories/TaperProofs.v
theories/TaperProps.v
theories/TaperSpec.v
theories/TensorModel.v
theories/TensorProofs.v
theories/TensorProps.v
theories/TensorSpec.v
theories/TickModel.v
theories/TickProofs.v
theories/TickProps.v
theories/TickSpec.v
theories/TopoLoopProofs.v
theories/TopoModel.v
theories/TopoMoreProofs.v
theories/TopoNameProofs.v
theories/TopoProofs.v
theories/TopoProps.v
theories/TopoSearch.v
theories/TopoSpec.v
theories/TopoWccProofs.v
theories/TriggerModel.v
theories/TriggerProofs.v
theories/TriggerProps.v
theories/TriggerSpec.v
theories/ValueMapGrow.v
theories/ValueMapInv.v
theories/ValueMapModel.v
theories/ValueMapMore.v
theories/ValueMapPool.v
theories/ValueMapProofs.v
theories/ValueMapProps.v
theories/ValueMapSpec.v
theories/WallModel.v
theories/WallProofs.v
theories/WallProps.v
theories/WallSpec.v
theories/WinMatch.v
theories/WinModel.v
theories/WinProofs.v
theories/WinProofs2.v
theories/WinProps.v
theories/WinSpec.v
theories/WinStrProofs.v
theories/WinStrProofs2.v
theories/WinStrProofs3.v
theories/WinStrProofs4.v
theories/WinStrProofs5.v
theories/WinStrProps.v
theories/WinStrSpec.v
theories/WireModel.v
theories/WireProofs.v
theories/WireProps.v
theories/WireSpec.v
theories/WorkInv.v
theories/WorkModel.v
theories/WorkProofs.v
theories/WorkProps.v
theories/WorkRefuseProps.v
theories/WorkRun.v
theories/WorkSpec.v
theories/WorkStride.v
theories/WorkTags.v
theories/YamlFuelProofs.v
theories/YamlModel.v
theories/YamlNumProps.v
theories/YamlProps.v
theories/YamlRoundProofs.v
theories/YamlScalProofs.v
theories/YamlSoundProofs.v
theories/YamlSpec.v
theories/YamlTextProofs.v
