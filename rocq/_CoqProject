-Q theories Verif
theories/ActorModel.v
theories/ActorPathModel.v
theories/ActorPathProofs.v
theories/ActorPathProps.v
theories/ActorProofs.v
theories/ActorProps.v
theories/AlignModel.v
theories/AlignProofs.v
theories/AlignProps.v
theories/AlignSpec.v
theories/AlikeModel.v
theories/AlikeProofs.v
theories/AlikeProps.v
theories/AnyModel.v
theories/AnyProofs.v
theories/AnyProps.v
theories/AnySpec.v
theories/ArrAlgo.v
theories/ArrModel.v
theories/ArrProofs.v
theories/ArrProps.v
theories/ArrRun.v
theories/ArrSpec.v
theories/AtomModel.v
theories/AtomProofs.v
theories/AtomProps.v
theories/AtomSpec.v
theories/AttrModel.v
theories/AttrProofs.v
theories/AttrProps.v
theories/AttrSpec.v
theories/BackModel.v
theories/BackProofs.v
theories/BackProps.v
theories/BackSpec.v
theories/BackTrip.v
theories/CastModel.v
theories/CastProofs.v
theories/CastProps.v
theories/CastSpec.v
theories/CmdModel.v
theories/CmdProofs.v
theories/CmdProps.v
theories/CmdSpec.v
theories/ConfigBuild.v
theories/ConfigCopy.v
theories/ConfigMerge.v
theories/ConfigModel.v
theories/ConfigPath.v
theories/ConfigProofs.v
theories/ConfigProps.v
theories/ConfigSpec.v
theories/ConfigWf.v
theories/ContModel.v
theories/ContProofs.v
theories/ContProps.v
theories/ContSpec.v
theories/ConvertModel.v
theories/ConvertProofs.v
theories/ConvertProps.v
theories/ConvertSpec.v
theories/CtxModel.v
theories/CtxProofs.v
theories/CtxProps.v
theories/CtxSpec.v
theories/CursModel.v
theories/CursProofs.v
theories/CursProps.v
theories/CursSpec.v
theories/DactModel.v
theories/DactProofs.v
theories/DactProps.v
theories/DarrModel.v
theories/DarrProofs.v
theories/DarrProps.v
theories/DarrSpec.v
theories/DconfModel.v
theories/DconfProofs.v
theories/DconfProps.v
theories/DconfSpec.v
theories/DdynModel.v
theories/DdynProofs.v
theories/DdynProps.v
theories/DebugModel.v
theories/DebugNdModel.v
theories/DebugNdProofs.v
theories/DebugNdProps.v
theories/DebugNdSpec.v
theories/DebugProofs.v
theories/DebugProps.v
theories/DebugSpec.v
theories/DialModel.v
theories/DialProofs.v
theories/DialProps.v
theories/DimsModel.v
theories/DimsProofs.v
theories/DimsProps.v
theories/DimsSpec.v
theories/DviewInv.v
theories/DviewModel.v
theories/DviewProofs.v
theories/DviewProps.v
theories/DviewSpec.v
theories/DynModel.v
theories/DynProofs.v
theories/DynProps.v
theories/DynSpec.v
theories/ExecModel.v
theories/ExecProps.v
theories/FiltModel.v
theories/FiltProofs.v
theories/FiltProps.v
theories/FiltSpec.v
theories/FlowModel.v
theories/FlowProofs.v
theories/FlowProps.v
theories/FlowSim.v
theories/FlowTerm.v
theories/FreeModel.v
theories/FreeProofs.v
theories/FreeProps.v
theories/FreeSpec.v
theories/GuardModel.v
theories/GuardProofs.v
theories/GuardProps.v
theories/HandleModel.v
theories/HandleProofs.v
theories/HandleProps.v
theories/HelperModel.v
theories/HelperProofs.v
theories/HelperProps.v
theories/HoldModel.v
theories/HoldProofs.v
theories/HoldProps.v
theories/HoldSpec.v
theories/IntervalMapModel.v
theories/IntervalMapProofs.v
theories/IntervalMapProps.v
theories/IoModel.v
theories/IoProofs.v
theories/IoProps.v
theories/IoSpec.v
theories/IterModel.v
theories/IterProofs.v
theories/IterProps.v
theories/IterSpec.v
theories/LastModel.v
theories/LastProofs.v
theories/LastProps.v
theories/LifeModel.v
theories/LifeProofs.v
theories/ListenModel.v
theories/ListenProofs.v
theories/ListenProps.v
theories/ListenSpec.v
theories/LogModel.v
theories/LogProofs.v
theories/LogProps.v
theories/LogSpec.v
theories/LooseModel.v
theories/LooseProofs.v
theories/LooseProps.v
theories/LutModel.v
theories/LutProofs.v
theories/LutProps.v
theories/LutSpec.v
theories/MailboxModel.v
theories/MailboxProofs.v
theories/MailboxProps.v
theories/MakeModel.v
theories/MakeProofs.v
theories/MakeProps.v
theories/MakeSpec.v
theories/MatchModel.v
theories/MatchProofs.v
theories/MatchProps.v
theories/MatchSpec.v
theories/MetaModel.v
theories/MetaProofs.v
theories/MetaProps.v
theories/MetaSpec.v
theories/MixModel.v
theories/MixProofs.v
theories/MixProps.v
theories/MixSpec.v
theories/NamesModel.v
theories/NamesProofs.v
theories/NamesProps.v
theories/NarrowProofs.v
theories/NdAccess.v
theories/NdIter.v
theories/NdModel.v
theories/NdProofs.v
theories/NdProps.v
theories/NdSampler.v
theories/NdSpec.v
theories/NdVecModel.v
theories/NdVecProofs.v
theories/NdVecProps.v
theories/NdVecSpec.v
theories/NestModel.v
theories/NestProofs.v
theories/NestProps.v
theories/NestSpec.v
theories/OptModel.v
theories/OptProofs.v
theories/OptProps.v
theories/OptSpec.v
theories/OwnModel.v
theories/OwnProofs.v
theories/OwnProps.v
theories/OwnSpec.v
theories/PinModel.v
theories/PinProofs.v
theories/PinProps.v
theories/PinSpec.v
theories/PoolModel.v
theories/PoolProofs.v
theories/PoolProps.v
theories/PortModel.v
theories/PortProofs.v
theories/PortProps.v
theories/PtrModel.v
theories/PtrProofs.v
theories/PtrProps.v
theories/PtrSpec.v
theories/RangeMisc.v
theories/RangeModel.v
theories/RangePipe.v
theories/RangeProofs.v
theories/RangeProps.v
theories/RangeSpec.v
theories/ReflModel.v
theories/ReflProofs.v
theories/ReflProps.v
theories/ReflSpec.v
theories/SchedModel.v
theories/SchedProofs.v
theories/SchedProps.v
theories/SelectModel.v
theories/SelectProofs.v
theories/SelectProps.v
theories/SelfModel.v
theories/SelfProofs.v
theories/SelfProps.v
theories/SelfSpec.v
theories/StoreModel.v
theories/StoreProofs.v
theories/StoreProps.v
theories/StoreSpec.v
theories/TalkLive.v
theories/TalkModel.v
theories/TalkProofs.v
theories/TalkProps.v
theories/TalkSpec.v
theories/TextModel.v
theories/TextProofs.v
theories/TextProps.v
theories/TextSpec.v
theories/TokenModel.v
theories/TokenProofs.v
theories/TokenProps.v
theories/TraitModel.v
theories/TraitProps.v
theories/TranModel.v
theories/TranProofs.v
theories/TranProps.v
theories/TranSpec.v
theories/TreeModel.v
theories/TreeProofs.v
theories/TreeProps.v
theories/TreeRegime.v
theories/TreeTerm.v
theories/TrivModel.v
theories/TrivNdModel.v
theories/TrivNdProofs.v
theories/TrivNdProps.v
theories/TrivNdSpec.v
theories/TrivProofs.v
theories/TrivProps.v
theories/TrivRun.v
theories/TrivSpec.v
theories/TwinModel.v
theories/TwinProofs.v
theories/TwinProps.v
theories/TwinSpec.v
theories/UtilModel.v
theories/UtilProofs.v
theories/UtilProps.v
theories/VaccModel.v
theories/VaccProofs.v
theories/VaccProps.v
theories/VaccSpec.v
theories/VarModel.v
theories/VarProofs.v
theories/VarProps.v
theories/VarSpec.v
theories/VdbgModel.v
theories/VdbgProofs.v
theories/VdbgProps.v
theories/VdbgSpec.v
theories/VecModel.v
theories/VecOps.v
theories/VecProofs.v
theories/VecProps.v
theories/VecRaw.v
theories/VecRun.v
theories/VecSpec.v
theories/VecWorld.v
theories/ViewModel.v
theories/ViewProofs.v
theories/ViewProps.v
theories/ViewSpec.v
theories/WholeModel.v
theories/WholeProofs.v
theories/WholeProps.v
theories/WholeSpec.v
theories/ZipModel.v
theories/ZipProofs.v
theories/ZipProps.v
theories/ZipSpec.v
