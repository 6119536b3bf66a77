-Q theories Verif
theories/Base.v
theories/BaseProofs.v
theories/WireModel.v
theories/WireSpec.v
theories/WireProofs.v
theories/WireProps.v
theories/SegModel.v
theories/SegSpec.v
theories/SegProofs.v
theories/SegProps.v
theories/BitMaskModel.v
theories/BitMaskSpec.v
theories/BitMaskProofs.v
theories/BitMaskProps.v
theories/TypeModel.v
theories/TypeSpec.v
theories/TypeProofs.v
theories/TypeNameProofs.v
theories/TypeDefProofs.v
theories/TypeEqProofs.v
theories/TypeProps.v
theories/ValueModel.v
theories/ValueSpec.v
theories/LayoutProofs.v
theories/ValueTypeProofs.v
theories/ValueSafeProofs.v
theories/ValueTopProofs.v
theories/ValueEncProofs.v
theories/ValueRoundProofs.v
theories/ValueUpdateProofs.v
theories/ValueProps.v
theories/TextModel.v
theories/TextSpec.v
theories/TextProofs.v
theories/TextProps.v
theories/MarkModel.v
theories/MarkSpec.v
theories/MarkProofs.v
theories/MarkProps.v
theories/FieldProofs.v
theories/PvReqModel.v
theories/PvReqSpec.v
theories/PvReqProofs.v
theories/PvReqProps.v
theories/CopyModel.v
theories/CopySpec.v
theories/CopyProofs.v
theories/CopyProps.v
theories/ServerMonModel.v
theories/ServerMonSpec.v
theories/ServerMonProofs.v
theories/ServerMonProps.v
theories/ServerViewSpec.v
theories/ServerViewProofs.v
theories/ServerViewProps.v
theories/SharedPVModel.v
theories/SharedPVSpec.v
theories/SharedPVProofs.v
theories/SharedPVProps.v
theories/ServerOpModel.v
theories/ServerOpSpec.v
theories/ServerOpProofs.v
theories/ServerOpProofs2.v
theories/ServerOpProofs3.v
theories/ServerOpProps.v
theories/ConnModel.v
theories/ConnSpec.v
theories/ConnProofs.v
theories/ConnFrameProofs.v
theories/ConnProps.v
theories/ClientMonModel.v
theories/ClientMonSpec.v
theories/ClientMonProofs.v
theories/ClientMonProofs2.v
theories/ClientMonProofs3.v
theories/ClientMonProps.v
theories/ClientOpModel.v
theories/ClientOpSpec.v
theories/ClientOpProofs.v
theories/ClientOpProps.v
theories/EvBaseModel.v
theories/EvBaseProps.v
theories/ConfigModel.v
theories/ConfigSpec.v
theories/ConfigProps.v
theories/LogModel.v
theories/LogProps.v
theories/SourceModel.v
theories/SourceProps.v
theories/UdpModel.v
theories/UdpSpec.v
theories/UdpProofs.v
theories/UdpProps.v
theories/SearchModel.v
theories/SearchSpec.v
theories/SearchProofs.v
theories/SearchWire.v
theories/SearchRing.v
theories/SearchReply.v
theories/SearchProps.v
theories/BeaconModel.v
theories/BeaconSpec.v
theories/BeaconProofs.v
theories/BeaconProps.v
theories/ReqModel.v
theories/ReqSpec.v
theories/ReqProofs.v
theories/ReqProofs2.v
theories/ReqProofs3.v
theories/ReqProps.v
theories/LookupModel.v
theories/LookupSpec.v
theories/LookupProofs.v
theories/LookupProofs2.v
theories/LookupProofs3.v
theories/LookupProps.v
theories/MsgModel.v
theories/MsgSpec.v
theories/MsgProofs.v
theories/MsgProps.v
theories/MsgSafeProofs.v
theories/MsgAuthProps.v
theories/StreamModel.v
theories/StreamSpec.v
theories/StreamProps.v
theories/NtModel.v
theories/NtSpec.v
theories/NtProofs.v
theories/NtProps.v
theories/GroupModel.v
theories/GroupSpec.v
theories/GroupProofs.v
theories/GroupProofs2.v
theories/GroupProofs3.v
theories/GroupProofs4.v
theories/GroupProofs5.v
theories/GroupProofs6.v
theories/GroupProofs7.v
theories/GroupProofs8.v
theories/GroupProps.v
theories/OpsModel.v
theories/OpsSpec.v
theories/OpsProofs.v
theories/OpsProofs2.v
theories/OpsProofs3.v
theories/OpsProofs4.v
theories/OpsProofs5.v
theories/OpsProofs6.v
theories/OpsProofs7.v
theories/OpsProofs8.v
theories/OpsProofs9.v
theories/OpsProofs10.v
theories/OpsProofs11.v
theories/OpsProofs12.v
theories/OpsProofs13.v
theories/OpsProps.v
theories/MonProps.v
theories/ArrayModel.v
theories/ArraySpec.v
theories/ArrayProofs.v
theories/ArrayProofs2.v
theories/ArrayProofs3.v
theories/ArrayProofs4.v
theories/ArrayProps.v
theories/PutSpec.v
theories/PutProofs.v
theories/ProcProps.v
theories/ChanModel.v
theories/ChanProofs.v
theories/ChanProofs2.v
theories/ChanSpec.v
theories/ChanProofs3.v
theories/ChanProofs4.v
theories/ChanProofs5.v
theories/ChanProofs6.v
theories/ChanProofs7.v
theories/ChanProofs8.v
theories/ChanProofs9.v
theories/ChanProofs10.v
theories/ChanProofs11.v
theories/ChanProps.v
theories/ChanProofs12.v
theories/ChanProofs13.v
theories/ChanProofs14.v
theories/ChanProofs15.v
theories/LinkModel.v
theories/LinkSpec.v
theories/LinkProofs1.v
theories/LinkProofs2.v
theories/LinkProofs3.v
theories/LinkProofs4.v
theories/LinkProofs5.v
theories/LinkProofs6.v
theories/LinkProofs7.v
theories/LinkProofs8.v
theories/LinkProofs9.v
theories/LinkProofs10.v
theories/LinkProofs11.v
theories/LinkProps.v
theories/LinkLockModel.v
theories/LinkLockProofs.v
theories/LinkLockProps.v
theories/LinkProofs12.v
theories/StreamProofs.v
theories/StreamUnionProps.v
theories/TxModel.v
theories/TxProofs.v
theories/TxProps.v
theories/BoxModel.v
theories/BoxSpec.v
theories/BoxProofs.v
theories/BoxProps.v
theories/StaticModel.v
theories/StaticSpec.v
theories/StaticProofs.v
theories/StaticProps.v
theories/StaticLockModel.v
theories/StaticLockProofs.v
theories/StaticLockProps.v
theories/KeepModel.v
theories/KeepSpec.v
theories/KeepProofs.v
theories/KeepProps.v
theories/ArrayConvProps.v
theories/FifoModel.v
theories/FifoSpec.v
theories/FifoProofs.v
theories/FifoProps.v
theories/LifeModel.v
theories/LifeSpec.v
theories/LifeProofs.v
theories/LifeProps.v
theories/SigModel.v
theories/SigSpec.v
theories/SigProps.v
theories/ShowModel.v
theories/ShowSpec.v
theories/ShowProps.v
theories/RoleModel.v
theories/RoleSpec.v
theories/RoleProps.v
theories/AbiModel.v
theories/AbiSpec.v
theories/AbiProps.v
