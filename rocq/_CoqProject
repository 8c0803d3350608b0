-Q theories Verif
theories/GoBase.v
theories/GoBaseFacts.v
theories/PlaylistModel.v
theories/PlaylistSpec.v
theories/PlaylistProofs.v
theories/PlaylistLoopProofs.v
theories/PlaylistProps.v
theories/PlaylistAliveProps.v
theories/ChanModel.v
theories/ChanSpec.v
theories/ChanProofs.v
theories/ChanProps.v
theories/QueueModel.v
theories/QueueSpec.v
theories/QueueProofs.v
theories/QueueWakeProofs.v
theories/QueueProps.v
theories/PlayerModel.v
theories/PlayerSpec.v
theories/PlayerProofs.v
theories/ScheduleModel.v
theories/ScheduleProofs.v
theories/PlayerProps.v
theories/PauseProps.v
theories/PcmModel.v
theories/PcmProofs.v
theories/GoFloat.v
theories/GoFloatFacts.v
theories/PcmVolumeProps.v
theories/PcmProps.v
theories/TimingModel.v
theories/TimingSpec.v
theories/TimingProofs.v
theories/TimingProps.v
theories/GoUtf8.v
theories/GoUtf8Facts.v
theories/WireModel.v
theories/WireSpec.v
theories/WireProofs.v
theories/WireProps.v
theories/WireMoreSpec.v
theories/WireMoreProofs.v
theories/WireMoreProps.v
theories/ProtoSpec.v
theories/ProtoProofs.v
theories/ProtoMore.v
theories/ProtoProps.v
theories/SenderModel.v
theories/SenderSpec.v
theories/SenderProofs.v
theories/SenderProps.v
theories/InfoerModel.v
theories/InfoerSpec.v
theories/InfoerProofs.v
theories/InfoerRunProofs.v
theories/InfoerMoreProofs.v
theories/InfoerExec.v
theories/InfoerProps.v
theories/ServerModel.v
theories/ServerSpec.v
theories/ServerProofs.v
theories/ServerProps.v
theories/ParserModel.v
theories/ParserSpec.v
theories/ParserProofs.v
theories/ParserUnparseProofs.v
theories/ParserProps.v
theories/CompleterModel.v
theories/CompleterSpec.v
theories/CompleterProofs.v
theories/CompleterProps.v
theories/GoFmt.v
theories/CommandsModel.v
theories/CommandsSpec.v
theories/CommandsProofs.v
theories/NumberSpec.v
theories/NumberProofs.v
theories/CommandsProps.v
theories/NumberProps.v
theories/LoggingModel.v
theories/LoggingSpec.v
theories/LoggingProofs.v
theories/LoggingProps.v
theories/AuthModel.v
theories/AuthSpec.v
theories/AuthProps.v
theories/FilesModel.v
theories/FilesSpec.v
theories/FilesProofs.v
theories/FilesProps.v
theories/VolumeModel.v
theories/VolumeProps.v
theories/FloatTextSpec.v
theories/FloatTextModel.v
theories/FloatTextProofs.v
theories/FloatTextProps.v
theories/DrawModel.v
theories/DrawSpec.v
theories/DrawProofs.v
theories/DrawBarProofs.v
theories/DrawProps.v
theories/DrawTextProps.v
theories/E2EModel.v
theories/E2ESpec.v
theories/E2EProofs.v
theories/E2EProps.v
theories/LifeModel.v
theories/LifeSpec.v
theories/LifeProps.v
theories/GlobSpec.v
theories/GlobProofs.v
theories/GlobProps.v
theories/SyncModel.v
theories/SyncSpec.v
theories/SyncProofs.v
theories/SyncProps.v
theories/ViewTold.v
theories/ViewSpec.v
theories/ViewProofs.v
theories/ViewProps.v
theories/JsonSpec.v
theories/JsonModel.v
theories/JsonProofs.v
theories/JsonDecodeProofs.v
theories/JsonProps.v
theories/CliModel.v
theories/CliSpec.v
theories/CliNumProofs.v
theories/CliDurProofs.v
theories/CliFracProofs.v
theories/CliDurationProofs.v
theories/CliProofs.v
theories/CliRunProofs.v
theories/CliProps.v
theories/HandoverModel.v
theories/HandoverSpec.v
theories/HandoverProofs.v
theories/HandoverProps.v
theories/SessionsModel.v
theories/SessionsSpec.v
theories/SessionsProofs.v
theories/SessionsProps.v
theories/AuditModel.v
theories/AuditSpec.v
theories/AuditProofs.v
theories/AuditProps.v
theories/HeardModel.v
theories/HeardSpec.v
theories/HeardProps.v
theories/ScreenModel.v
theories/ScreenSpec.v
theories/ScreenProofs.v
theories/ScreenProps.v
theories/GrammarModel.v
theories/GrammarSpec.v
theories/GrammarProofs.v
theories/GrammarLexProofs.v
theories/GrammarProps.v
theories/DescrModel.v
theories/DescrSpec.v
theories/DescrProofs.v
theories/DescrProps.v
theories/RetainSpec.v
theories/RetainProofs.v
theories/RetainProps.v
theories/ZlibModel.v
theories/ZlibSpec.v
theories/ZlibProofs.v
theories/ZlibCutProofs.v
theories/ZlibProps.v
theories/CostModel.v
theories/CostSpec.v
theories/CostProofs.v
theories/CostProps.v
theories/StartModel.v
theories/StartSpec.v
theories/StartProps.v
theories/SettingsModel.v
theories/SettingsProps.v
theories/PlaylistTightProps.v
theories/ShellTextSpec.v
theories/ShellTextProofs.v
theories/ShellTextProps.v
theories/ServerTightProps.v
theories/PlayerTightProps.v
theories/PauseTightProps.v
theories/OpenFilesModel.v
theories/OpenFilesSpec.v
theories/OpenFilesProofs.v
theories/OpenFilesProps.v
theories/SliceModel.v
theories/SliceSpec.v
theories/SliceProofs.v
theories/SliceProps.v
theories/CancelModel.v
theories/CancelSpec.v
theories/CancelProofs.v
theories/CancelProps.v
theories/RegistryModel.v
theories/RegistrySpec.v
theories/RegistryProofs.v
theories/RegistryProps.v
theories/PositionModel.v
theories/PositionSpec.v
theories/PositionProofs.v
theories/PositionProps.v
theories/HeaderModel.v
theories/HeaderSpec.v
theories/HeaderProofs.v
theories/HeaderProps.v
theories/SetVolumeModel.v
theories/SetVolumeSpec.v
theories/SetVolumeProofs.v
theories/SetVolumeProps.v
theories/CrowdModel.v
theories/CrowdSpec.v
theories/CrowdProofs.v
theories/CrowdProps.v
theories/ProgrammeSpec.v
theories/ProgrammeProofs.v
theories/ProgrammeProps.v
theories/TurnProofs.v
theories/TurnProps.v
theories/RecordedProps.v
theories/LatencyModel.v
theories/LatencySpec.v
theories/LatencyProofs.v
theories/LatencyProps.v
theories/ClockModel.v
theories/ClockSpec.v
theories/ClockProofs.v
theories/ClockProps.v
