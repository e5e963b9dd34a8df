-Q theories Verif
theories/AbModel.v
theories/AbProofs.v
theories/AbProps.v
theories/AbSpec.v
theories/AckModel.v
theories/AckProps.v
theories/AddressModel.v
theories/AddressParseProps.v
theories/AddressProps.v
theories/ApiModel.v
theories/ApiProofs.v
theories/ApiProps.v
theories/ApiSpec.v
theories/ArrayModel.v
theories/ArrayProofs.v
theories/ArraySpec.v
theories/BackpressureModel.v
theories/BackpressureProofs.v
theories/BackpressureProps.v
theories/BackpressureSpec.v
theories/CacheModel.v
theories/CacheProofs.v
theories/CacheProps.v
theories/CacheSpec.v
theories/ChannelRegModel.v
theories/ChannelRegProps.v
theories/ChunkProps.v
theories/ClassModel.v
theories/ClassProofs.v
theories/ClassProps.v
theories/ClassSpec.v
theories/CmdModel.v
theories/CmdProofs.v
theories/CmdProps.v
theories/CmdSpec.v
theories/CodecModel.v
theories/CodecProofs.v
theories/CodecProps.v
theories/CompactProps.v
theories/DagModel.v
theories/DagProofs.v
theories/DagProps.v
theories/DagSpec.v
theories/DecorModel.v
theories/DecorProps.v
theories/DecorSpec.v
theories/Dict.v
theories/DimsProps.v
theories/DrawModel.v
theories/DrawProofs.v
theories/DrawProps.v
theories/DrawSpec.v
theories/DrawTreeProofs.v
theories/EnvModel.v
theories/EnvProofs.v
theories/EnvProps.v
theories/EnvSpec.v
theories/EventLogModel.v
theories/EventLogProofs.v
theories/EventLogProps.v
theories/EventLogSpec.v
theories/EventStreamModel.v
theories/EventStreamProofs.v
theories/EventStreamProps.v
theories/EventStreamSpec.v
theories/FieldUpdateModel.v
theories/FieldUpdateProps.v
theories/GateModel.v
theories/GateProps.v
theories/GenModel.v
theories/GenProps.v
theories/HandlerModel.v
theories/HandlerProofs.v
theories/HandlerProps.v
theories/HandlerSpec.v
theories/HandshakeEndProofs.v
theories/HandshakeModel.v
theories/HandshakeNetProofs.v
theories/HandshakeProofs.v
theories/HandshakeProps.v
theories/HandshakeSpec.v
theories/HotModel.v
theories/HotProofs.v
theories/HotProps.v
theories/HotSpec.v
theories/InflightModel.v
theories/InflightProofs.v
theories/InflightProps.v
theories/InflightSpec.v
theories/IoLoopModel.v
theories/IoLoopProofs.v
theories/IoLoopProps.v
theories/IoLoopSpec.v
theories/JoinCtlProofs.v
theories/JoinEndProofs.v
theories/JoinLiveProofs.v
theories/JoinModel.v
theories/JoinProofs.v
theories/JoinProps.v
theories/JoinSpec.v
theories/JoinSyncProofs.v
theories/JoinViewProofs.v
theories/JsonModel.v
theories/JsonProofs.v
theories/JsonSpec.v
theories/LeakyQueueModel.v
theories/LeaseModel.v
theories/LeaseProofs.v
theories/LeaseProps.v
theories/LeaseSpec.v
theories/LifecycleModel.v
theories/LifecycleProps.v
theories/LocateAloneProofs.v
theories/LocateModel.v
theories/LocateProofs.v
theories/LocateProps.v
theories/LocateSpec.v
theories/LocateTimeProofs.v
theories/LogModel.v
theories/LogProps.v
theories/LoopExitModel.v
theories/LoopExitProofs.v
theories/LoopExitProps.v
theories/LoopExitSpec.v
theories/MarshalModel.v
theories/MarshalProofs.v
theories/ModifyProps.v
theories/MsgCodecModel.v
theories/MsgCodecProofs.v
theories/MsgCodecProps.v
theories/MsgCodecSpec.v
theories/MsgQueueModel.v
theories/MsgQueueProps.v
theories/OverlapModel.v
theories/OverlapProofs.v
theories/OverlapProps.v
theories/OverlapSpec.v
theories/PerfModel.v
theories/PerfProofs.v
theories/PerfProps.v
theories/PerfSpec.v
theories/ProcModel.v
theories/ProcProofs.v
theories/ProcProps.v
theories/ProcSpec.v
theories/ProfLogModel.v
theories/ProfLogProofs.v
theories/ProfLogProps.v
theories/ProfLogSpec.v
theories/ProfilingModel.v
theories/ProfilingProofs.v
theories/ProfilingProps.v
theories/ProfilingSpec.v
theories/PruneModel.v
theories/PruneProps.v
theories/PubSubDrain.v
theories/PubSubInv.v
theories/PubSubLive.v
theories/PubSubModel.v
theories/PubSubProofs.v
theories/PubSubProps.v
theories/PubSubSpec.v
theories/PubSubSteps.v
theories/PubSubSteps2.v
theories/PubSubSteps3.v
theories/PubSubSteps4.v
theories/PubSubSteps5.v
theories/PubSubSub.v
theories/QueryModel.v
theories/QueryProofs.v
theories/QueryProps.v
theories/QuerySpec.v
theories/QueueTransportProofs.v
theories/QueueTransportProps.v
theories/QueueTransportSpec.v
theories/QuiesceEndProofs.v
theories/QuiesceModel.v
theories/QuiesceProofs.v
theories/QuiesceProps.v
theories/QuiesceSpec.v
theories/RateModel.v
theories/RateProps.v
theories/RecvModel.v
theories/RecvProofs.v
theories/RecvProps.v
theories/RecvSpec.v
theories/RelayProofs.v
theories/RelayProps.v
theories/RouteModel.v
theories/RouteProofs.v
theories/RouteProps.v
theories/RouteSpec.v
theories/RoutingModel.v
theories/RoutingProofs.v
theories/RoutingProps.v
theories/RoutingSpec.v
theories/SanitizeModel.v
theories/SanitizeProofs.v
theories/SanitizeProps.v
theories/SanitizeSpec.v
theories/SchemaModel.v
theories/SchemaProofs.v
theories/SchemaProps.v
theories/SchemaSpec.v
theories/SelectProps.v
theories/ServerEvents.v
theories/ServerFrames.v
theories/ServerModel.v
theories/ServerProofs.v
theories/ServerProps.v
theories/ServerSpec.v
theories/ServerTopology.v
theories/SessionModel.v
theories/SessionProofs.v
theories/SessionProps.v
theories/SessionSpec.v
theories/SettingsModel.v
theories/SettingsProofs.v
theories/SettingsProps.v
theories/SettingsSpec.v
theories/SetupModel.v
theories/SetupProps.v
theories/ShmLeaseProofs.v
theories/ShmModel.v
theories/ShmProofs.v
theories/ShmProps.v
theories/ShmSpec.v
theories/SpanModel.v
theories/SpanProofs.v
theories/SpanProps.v
theories/SpanSpec.v
theories/SpinModel.v
theories/SpinProofs.v
theories/SpinProps.v
theories/SpinSpec.v
theories/StreamModel.v
theories/StreamProofs.v
theories/StreamProps.v
theories/SyncProps.v
theories/TopologyProps.v
theories/TracePushModel.v
theories/TracePushProofs.v
theories/TracePushProps.v
theories/TracePushSpec.v
theories/TraceStreamModel.v
theories/TraceStreamProofs.v
theories/TraceStreamProps.v
theories/TraceStreamSpec.v
theories/TransportModel.v
theories/TreeModel.v
theories/TreeProofs.v
theories/TreeProps.v
theories/TuneModel.v
theories/TuneProofs.v
theories/TuneProps.v
theories/TuneSpec.v
theories/View2dProps.v
theories/WindowProps.v
theories/WireModel.v
theories/WireProps.v
