-Q theories Verif
theories/Base.v
theories/CodecModel.v
theories/CodecProofs.v
theories/CodecProps.v
theories/PacketSpec.v
theories/RecvPacketModel.v
theories/RecvPacketProofs.v
theories/RecvPacketProps.v
theories/SendPacketModel.v
theories/SendSpec.v
theories/SendPacketProofs.v
theories/SendGenProofs.v
theories/SendProps.v
theories/LiveHeapModel.v
theories/LiveHeapSpec.v
theories/LiveHeapProofs.v
theories/LiveHeapProps.v
theories/RecvHeapModel.v
theories/RecvHeapProofs.v
theories/RecvHeapProps.v
theories/ReassembleProofs.v
theories/E2EProofs.v
theories/E2EProps.v
theories/DescriptorModel.v
theories/DescriptorProofs.v
theories/DescriptorProps.v
theories/StreamModel.v
theories/StreamSpec.v
theories/StreamProofs.v
theories/StreamInvProofs.v
theories/StreamRunProofs.v
theories/StreamProps.v
theories/StreamE2EProofs.v
theories/StreamE2EProps.v
theories/StatsModel.v
theories/StatsProps.v
theories/ConcBase.v
theories/RingModel.v
theories/RingSpec.v
theories/RingProofs.v
theories/RingProps.v
theories/QueueModel.v
theories/QueueProps.v
theories/MemPoolModel.v
theories/MemPoolProps.v
theories/TcpModel.v
theories/TcpSpec.v
theories/TcpProofs.v
theories/TcpProps.v
theories/ChunkModel.v
theories/ChunkSpec.v
theories/ChunkProofs.v
theories/ChunkProps.v
theories/GroupModel.v
theories/GroupProofs.v
theories/GroupProps.v
theories/SendStreamModel.v
theories/SendStreamSpec.v
theories/SendStreamBase.v
theories/SendStreamProofs.v
theories/SendStreamProofs2.v
theories/SendStreamProofs3.v
theories/SendStreamProofs4.v
theories/SendStreamProps.v
theories/SendStreamLive.v
theories/SendStreamFaults.v
theories/RawModel.v
theories/RawSpec.v
theories/RawProps.v
theories/GsoModel.v
theories/GsoSpec.v
theories/GsoProofs.v
theories/GsoProps.v
theories/MemcpyModel.v
theories/MemcpyProps.v
theories/RateModel.v
theories/RateSpec.v
theories/RateProps.v
theories/DoubleModel.v
theories/DoubleProofs.v
theories/RateDModel.v
theories/RateDSpec.v
theories/RateDProofs.v
theories/RateDProps.v
theories/BitsModel.v
theories/BitsSpec.v
theories/BitsProofs.v
theories/BitsProps.v
theories/ItemModel.v
theories/ItemSpec.v
theories/ItemProps.v
theories/ItemGroupModel.v
theories/ItemGroupSpec.v
theories/ItemGroupProps.v
theories/HeapGenSpec.v
theories/HeapGenProps.v
theories/RingStreamModel.v
theories/RingStreamSpec.v
theories/RingStreamProofs.v
theories/RingStreamProps.v
theories/InprocModel.v
theories/InprocSpec.v
theories/InprocProofs.v
theories/InprocProps.v
theories/IbvFrameModel.v
theories/IbvFrameSpec.v
theories/IbvFrameProofs.v
theories/IbvFrameProps.v
theories/IbvSlotModel.v
theories/IbvSlotProofs.v
theories/IbvSlotProps.v
theories/ReadersModel.v
theories/ReadersSpec.v
theories/ReadersProofs.v
theories/ReadersProps.v
theories/IbvRecvModel.v
theories/IbvRecvSpec.v
theories/IbvRecvProofs.v
theories/IbvRecvProps.v
theories/MprqModel.v
theories/MprqSpec.v
theories/MprqProofs.v
theories/MprqProps.v
theories/LifeModel.v
theories/LifeSpec.v
theories/LifeProofs.v
theories/LifeLive.v
theories/LifeProps.v
theories/ChunkRingModel.v
theories/ChunkRingSpec.v
theories/ChunkRingProofs.v
theories/ChunkRingInv.v
theories/ChunkRingInv2.v
theories/ChunkRingProps.v
theories/GroupPoolModel.v
theories/GroupPoolProofs.v
theories/GroupPoolProps.v
theories/GroupPoolHandled.v
theories/AsyncQueueModel.v
theories/AsyncQueueProofs.v
theories/AsyncQueueProps.v
theories/AsyncSendModel.v
theories/AsyncSendProofs.v
theories/AsyncSendProps.v
theories/ByteStreamModel.v
theories/ByteStreamSpec.v
theories/ByteStreamProofs.v
theories/ByteStreamProps.v
theories/ByteStreamE2E.v
theories/SemModel.v
theories/SemSpec.v
theories/SemProps.v
theories/RingSemModel.v
theories/RingSemProps.v
theories/NumpyModel.v
theories/NumpySpec.v
theories/NumpyProps.v
theories/DumpWModel.v
theories/DumpWProofs.v
theories/DumpModel.v
theories/DumpSpec.v
theories/DumpProofs.v
theories/DumpProps.v
theories/LogModel.v
theories/LogSpec.v
theories/LogProofs.v
theories/LogProps.v
theories/DumpMModel.v
theories/DumpMSpec.v
theories/DumpMProofs.v
theories/DumpMProps.v
theories/GroupRingModel.v
theories/GroupRingSpec.v
theories/GroupRingProofs.v
theories/GroupRingProps.v
theories/PyChunkModel.v
theories/PyChunkSpec.v
theories/PyChunkProofs.v
theories/PyChunkProps.v
theories/SyncSendModel.v
theories/SyncSendSpec.v
theories/SyncSendProofs.v
theories/SyncSendProps.v
theories/PyConnectModel.v
theories/PyConnectSpec.v
theories/PyConnectProofs.v
theories/PyConnectProps.v
theories/TcpLifeModel.v
theories/TcpLifeSpec.v
theories/TcpLifeProofs.v
theories/TcpLifeProps.v
theories/PoolModel.v
theories/PoolSpec.v
theories/PoolProofs.v
theories/PoolProps.v
theories/ToolSendModel.v
theories/ToolSendProps.v
theories/BenchModel.v
theories/BenchProps.v
theories/CmdModel.v
theories/CmdProps.v
theories/AgentModel.v
theories/AgentProps.v
theories/RangeModel.v
theories/RangeProps.v
