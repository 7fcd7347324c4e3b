-Q theories Verif
theories/GF128Spec.v
theories/GF128Model.v
theories/GF128Poly.v
theories/GF128Proofs.v
theories/GF128Field.v
theories/GF128Props.v
theories/OKVSSpec.v
theories/OKVSModel.v
theories/OKVSProofs.v
theories/OKVSHash.v
theories/AESRound.v
theories/OKVSOptModel.v
theories/OKVSOptProofs.v
theories/LDPCSpec.v
theories/LDPCModel.v
theories/LDPCProofs.v
theories/OKVSProps.v
theories/SchedSpec.v
theories/SchedModel.v
theories/SchedProofs.v
theories/SchedSync.v
theories/SchedAsync.v
theories/SchedInv.v
theories/SchedFinal.v
theories/SchedProps.v
theories/SchedExec.v
theories/NetSpec.v
theories/NetModel.v
theories/NetProofs.v
theories/CollModel.v
theories/CollProofs.v
theories/ShuffleProofs.v
theories/BarrierProofs.v
theories/CtxModel.v
theories/CtxProofs.v
theories/MailboxModel.v
theories/MailboxSpec.v
theories/MailboxProofs.v
theories/CommProps.v
theories/Base64Model.v
theories/SerdeModel.v
theories/SerdeSpec.v
theories/SerdeProofs.v
theories/SerdeGraph.v
theories/SerdeValue.v
theories/BinModel.v
theories/BinProofs.v
theories/BinContainer.v
theories/TypeHash.v
theories/GraphModel.v
theories/GraphProofs.v
theories/GraphSerde.v
theories/SerdeProps.v
theories/MorphModel.v
theories/MorphProofs.v
theories/TraceModel.v
theories/TraceProofs.v
theories/TraceSound.v
theories/TraceCaps.v
theories/TraceProps.v
theories/StoreSpec.v
theories/StoreModel.v
theories/StoreObs.v
theories/StoreProofs.v
theories/StoreProps.v
theories/TableSpec.v
theories/TableModel.v
theories/TableProofs.v
theories/TableProps.v
theories/MPCBase.v
theories/OTModel.v
theories/OTSpec.v
theories/OTProofs.v
theories/IKNPProofs.v
theories/OTExample.v
theories/VOLEModel.v
theories/VOLESpec.v
theories/VOLEProofs.v
theories/VOLEProofs2.v
theories/MPCProps.v
theories/PSIModel.v
theories/PSIProofs.v
theories/PSIProps.v
theories/CuckooModel.v
theories/CuckooProofs.v
theories/CuckooProps.v
theories/PermModel.v
theories/PermNet.v
theories/PermProofs.v
theories/PermProps.v
theories/BFVSpec.v
theories/BFVModel.v
theories/BFVProofs.v
theories/BFVProofs2.v
theories/KeyCacheProofs.v
theories/GroupModel.v
theories/GroupProofs.v
theories/SGBModel.v
theories/SGBHistSpec.v
theories/SGBHistProofs.v
theories/SGBHistProps.v
theories/BFVProps.v
theories/SimpModel.v
theories/SimpSpec.v
theories/SimpProofs.v
theories/SimpProofs2.v
theories/SimpProps.v
theories/ClusterModel.v
theories/ClusterSpec.v
theories/ClusterProofs.v
theories/ClusterProps.v
theories/DeviceModel.v
theories/DeviceSpec.v
theories/DeviceProofs.v
theories/DeviceProps.v
theories/RequestModel.v
theories/RequestProofs.v
theories/RequestProps.v
theories/JobModel.v
theories/JobProofs.v
theories/JobProps.v
theories/SortKeys.v
theories/ExecKeyModel.v
theories/ExecKeySpec.v
theories/TyStrProofs.v
theories/ExecKeyProofs.v
theories/ExecKeyProps.v
theories/ProgramModel.v
theories/ProgramSpec.v
theories/JsonSort.v
theories/ProgramProofs.v
theories/ProgramProps.v
theories/JsonText.v
theories/JsonTextProofs.v
theories/JsonTextOk.v
theories/TensorModel.v
theories/TensorSpec.v
theories/TensorProofs.v
theories/TensorProps.v
theories/ConstModel.v
theories/ConstProofs.v
theories/ConstProps.v
theories/CryptoModel.v
theories/CryptoSpec.v
theories/CryptoProofs.v
theories/CryptoProps.v
theories/PHEModel.v
theories/PHESpec.v
theories/PHEProofs.v
theories/PHEProps.v
theories/EagerModel.v
theories/EagerSpec.v
theories/EagerProofs.v
theories/LiftProofs.v
theories/EagerProps.v
theories/TreeModel.v
theories/TreeSpec.v
theories/TreeProofs.v
theories/TreePredict.v
theories/TreeSplit.v
theories/TreeTrain.v
theories/TreeHist.v
theories/TreeProps.v
theories/VecModel.v
theories/VecSpec.v
theories/VecProofs.v
theories/VecProps.v
theories/ScopeModel.v
theories/ScopeSpec.v
theories/ScopeProofs.v
theories/ScopeProps.v
theories/TabFileModel.v
theories/TabFileSpec.v
theories/TabFileProofs.v
theories/TabFileProps.v
theories/TabProgModel.v
theories/TabProgSpec.v
theories/TabProgProofs.v
theories/TabProgProps.v
theories/TabConvModel.v
theories/TabConvSpec.v
theories/TabConvProofs.v
theories/TabConvProps.v
theories/SqlModel.v
theories/SqlSpec.v
theories/SqlProofs.v
theories/SqlProps.v
theories/SqlTextModel.v
theories/SqlTextSpec.v
theories/SqlTextProofs.v
theories/SqlTextProps.v
theories/JaxSpec.v
theories/JaxModel.v
theories/JaxProofs.v
theories/JaxExample.v
theories/JaxProps.v
theories/SpuLinkSpec.v
theories/SpuLinkModel.v
theories/SpuLinkProofs.v
theories/SpuLinkProps.v
theories/SpuCfgModel.v
theories/SpuCfgProps.v
theories/RequestIsolModel.v
theories/RequestIsolSpec.v
theories/RequestIsolProofs.v
theories/RequestIsolProps.v
theories/CliModel.v
theories/CliSpec.v
theories/CliProps.v
theories/SilverCodeModel.v
theories/SilverCodeSpec.v
theories/SilverCodeProofs.v
theories/SilverCodeProps.v
theories/SeedExpandModel.v
theories/SeedExpandSpec.v
theories/SeedExpandProofs.v
theories/SeedExpandProps.v
theories/FieldOpsModel.v
theories/FieldOpsProps.v
theories/EvalDriverModel.v
theories/EvalDriverSpec.v
theories/EvalDriverProofs.v
theories/EvalDriverProps.v
theories/TeeQuoteModel.v
theories/TeeQuoteProps.v
theories/RandomModel.v
theories/RandomSpec.v
theories/RandomProofs.v
theories/RandomProps.v
theories/LogModel.v
theories/LogSpec.v
theories/LogProps.v
theories/SpuRunModel.v
theories/SpuRunSpec.v
theories/SpuRunProofs.v
theories/SpuRunExample.v
theories/SpuRunProps.v
theories/DevProgModel.v
theories/DevProgSpec.v
theories/DevProgProofs.v
theories/DevProgProps.v
theories/DynCallModel.v
theories/DynCallProps.v
theories/HttpWireModel.v
theories/HttpWireSpec.v
theories/HttpWireProofs.v
theories/HttpWireProps.v
theories/BoostModel.v
theories/BoostSpec.v
theories/BoostProps.v
theories/TraceMergeModel.v
theories/TraceMergeSpec.v
theories/TraceMergeProofs.v
theories/TraceMergeProps.v
theories/ArgModel.v
theories/ArgSpec.v
theories/ArgProofs.v
theories/ArgProps.v
theories/BindModel.v
theories/BindProps.v
theories/RegistryModel.v
theories/RegistrySpec.v
theories/RegistryProofs.v
theories/RegistryProps.v
theories/FaultModel.v
theories/FaultProofs.v
theories/SpmdModel.v
theories/SpmdSpec.v
theories/SpmdProofs.v
theories/SpmdProps.v
theories/DevViewModel.v
theories/DevViewSpec.v
theories/DevViewProofs.v
theories/DevViewProps.v
theories/SpmdViewSpec.v
theories/SpmdViewProofs.v
theories/SpmdViewProps.v
theories/DevTraceModel.v
theories/DevTraceSpec.v
theories/DevTraceProofs.v
theories/DevTraceProofs2.v
theories/DevTraceProps.v
theories/SGBPackModel.v
theories/SGBPackSpec.v
theories/SGBPackProofs.v
theories/SGBPackProofs2.v
theories/SGBPackProps.v
theories/CliGenModel.v
theories/CliGenProps.v
theories/KeySpaceModel.v
theories/KeySpaceSpec.v
theories/KeySpaceProps.v
theories/PrintModel.v
theories/PrintSpec.v
theories/PrintProofs.v
theories/PrintProps.v
theories/PrintTypesModel.v
theories/PrintTypesSpec.v
theories/PrintTypesProofs.v
theories/PrintTypesProps.v
theories/RtWireModel.v
theories/RtWireProps.v
theories/BitcastModel.v
theories/BitcastProps.v
theories/BoostEvalModel.v
theories/BoostEvalProps.v
theories/SliceProps.v
theories/MoveProps.v
theories/TreeListProps.v
