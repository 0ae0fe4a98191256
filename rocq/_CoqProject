-Q theories Verif
theories/GoBase.v
theories/QueueModel.v
theories/QueueSpec.v
theories/QueueProofs.v
theories/QueueCalls.v
theories/QueueProps.v
theories/RunModel.v
theories/RunSpec.v
theories/RunProofs.v
theories/RunBoundsProofs.v
theories/RunTimerProofs.v
theories/RunLinProofs.v
theories/RunLinFacts.v
theories/RunProps.v
theories/RunTriesSpec.v
theories/RunTriesProofs.v
theories/RunStopProofs.v
theories/RunTriesProps.v
theories/TokModel.v
theories/TokSpec.v
theories/TokProofs.v
theories/TokScanProofs.v
theories/TokPosProofs.v
theories/ValModel.v
theories/ValSpec.v
theories/ValProofs.v
theories/FoldModel.v
theories/FoldSpec.v
theories/FoldProofs.v
theories/NumModel.v
theories/NumSpec.v
theories/NumProofs.v
theories/NumCmpProofs.v
theories/NumFEProofs.v
theories/Utf8Spec.v
theories/Utf8Props.v
theories/ValProps.v
theories/GradeModel.v
theories/GradeSpec.v
theories/GradeProofs.v
theories/GradeScoreProofs.v
theories/GradeAggProofs.v
theories/GradeProps.v
theories/GradeCaseProps.v
theories/GradeTokProps.v
theories/MetaModel.v
theories/MetaSpec.v
theories/MetaProofs.v
theories/MetaProps.v
theories/EphModel.v
theories/EphSpec.v
theories/EphProofs.v
theories/EphProps.v
theories/OutModel.v
theories/OutSpec.v
theories/OutProofs.v
theories/OutProps.v
theories/GoStr.v
theories/BcFilterModel.v
theories/BcFilterSpec.v
theories/BcFilterProps.v
theories/BcModel.v
theories/BcSpec.v
theories/BcProofs.v
theories/BcProps.v
theories/SbModel.v
theories/SbSpec.v
theories/SbProofs.v
theories/SbProps.v
theories/TrModel.v
theories/TrSpec.v
theories/TrProps.v
theories/InModel.v
theories/InSpec.v
theories/InProofs.v
theories/InRunnerProofs.v
theories/InReload.v
theories/InGraderProofs.v
theories/InProps.v
theories/HrModel.v
theories/HrProps.v
theories/PoolModel.v
theories/PoolProps.v
theories/GPoolModel.v
theories/GPoolProps.v
theories/GPoolAlone.v
theories/GPoolSend.v
theories/PoolPreload.v
theories/LitModel.v
theories/LitSpec.v
theories/LitProofs.v
theories/LitProps.v
theories/UpModel.v
theories/UpProps.v
theories/UlModel.v
theories/UlSpec.v
theories/UlProofs.v
theories/UlSysProofs.v
theories/UlProps.v
theories/LsModel.v
theories/LsProps.v
theories/CiModel.v
theories/CiSpec.v
theories/CiProps.v
theories/CiCfgProps.v
theories/CiSysModel.v
theories/CiSysProps.v
theories/FeModel.v
theories/FeSpec.v
theories/FePathProps.v
theories/FeProofs.v
theories/FeProps.v
theories/FeFinProps.v
theories/RhModel.v
theories/RhSpec.v
theories/RhProps.v
theories/RhInProps.v
theories/EhModel.v
theories/EhSpec.v
theories/EhProps.v
theories/BoxModel.v
theories/BoxSpec.v
theories/BoxProofs.v
theories/BoxProps.v
theories/BoxExamples.v
theories/TrcModel.v
theories/TrcSpec.v
theories/TrcProofs.v
theories/TrcProps.v
theories/RrModel.v
theories/RrSpec.v
theories/RrProofs.v
theories/RrProps.v
theories/PpModel.v
theories/PpSpec.v
theories/PpProofs.v
theories/PpProps.v
theories/RunLiveSpec.v
theories/RunLiveProofs.v
theories/RunLiveProps.v
theories/GtModel.v
theories/GtSpec.v
theories/GtProofs.v
theories/GtLive.v
theories/GtProps.v
theories/IoModel.v
theories/IoSpec.v
theories/IoProofs.v
theories/IoProps.v
theories/StModel.v
theories/StSpec.v
theories/StProofs.v
theories/StProps.v
theories/QmModel.v
theories/QmSpec.v
theories/QmProofs.v
theories/QmProps.v
theories/BhModel.v
theories/BhSpec.v
theories/BhProofs.v
theories/BhProps.v
theories/CfModel.v
theories/CfSpec.v
theories/CfProofs.v
theories/CfProps.v
theories/MxModel.v
theories/MxSpec.v
theories/MxProofs.v
theories/MxProps.v
theories/OsModel.v
theories/OsSpec.v
theories/OsProofs.v
theories/OsProps.v
theories/SqModel.v
theories/SqSpec.v
theories/SqProofs.v
theories/SqProps.v
theories/CeModel.v
theories/CeSpec.v
theories/CeProofs.v
theories/CeProps.v
theories/VcModel.v
theories/VcSpec.v
theories/VcProofs.v
theories/VcProps.v
theories/LgModel.v
theories/LgSpec.v
theories/LgProofs.v
theories/LgProps.v
theories/DbModel.v
theories/DbSpec.v
theories/DbProps.v
theories/KeepModel.v
theories/KeepSpec.v
theories/KeepProofs.v
theories/KeepProps.v
theories/StopModel.v
theories/StopSpec.v
theories/StopProofs.v
theories/StopProps.v
