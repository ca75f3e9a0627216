-Q theories Verif

theories/Base.v
theories/BoardModel.v
theories/BoardSpec.v
theories/BoardProofs.v
theories/BoardPlayProofs.v
theories/BoardMainProofs.v
theories/BoardProps.v
theories/Bytes.v
theories/SgfGrammarModel.v
theories/SgfGrammarSpec.v
theories/SgfGrammarProofs.v
theories/SgfParserProofs.v
theories/SgfErrorProofs.v
theories/SgfTextProofs.v
theories/SgfTreeConvModel.v
theories/SgfTreeConvProofs.v
theories/SgfGrammarProps.v
theories/PyStr.v
theories/CommonModel.v
theories/CommonSpec.v
theories/CommonProofs.v
theories/DiagramProofs.v
theories/CommonProps.v
theories/SgfPropsModel.v
theories/SgfPropsSpec.v
theories/SgfPropsProofs.v
theories/SgfValueSpec.v
theories/SgfValueProofs.v
theories/SgfTypeErrorProofs.v
theories/SgfValueProps.v
theories/Dict.v
theories/SchedSpec.v
theories/SchedModel.v
theories/SchedProofs.v
theories/GroupProofs.v
theories/SchedProps.v
theories/SgfTreeModel.v
theories/SgfTreeSpec.v
theories/SgfTreeProofs.v
theories/SgfTreeOpsProofs.v
theories/SgfNodeProofs.v
theories/SgfGameProofs.v
theories/SgfTreeMainProofs.v
theories/SgfNavProofs.v
theories/SgfSaveProofs.v
theories/SgfTreeProps.v
theories/SgfMovesModel.v
theories/SgfMovesSpec.v
theories/SgfMovesProofs.v
theories/SgfMovesProps.v
theories/GameplayModel.v
theories/GameplaySpec.v
theories/GameplayProofs.v
theories/GameplayRunProofs.v
theories/GameplayResultProofs.v
theories/GameplayProps.v
theories/GtpModel.v
theories/GtpSpec.v
theories/GtpProofs.v
theories/GtpChannelProofs.v
theories/GtpSessionProofs.v
theories/GtpArgSpec.v
theories/GtpArgProofs.v
theories/GtpProps.v
theories/GtpStateModel.v
theories/GtpStateSpec.v
theories/GtpStateProofs.v
theories/GtpLoadProofs.v
theories/GtpStateMainProofs.v
theories/GtpStateStepProofs.v
theories/GtpStateFinalProofs.v
theories/GtpStateProps.v
theories/TournModel.v
theories/TournSpec.v
theories/TournProofs.v
theories/TournConfProofs.v
theories/TournProps.v
theories/JobModel.v
theories/JobSpec.v
theories/JobProofs.v
theories/JobProps.v
theories/RingModel.v
theories/RingSpec.v
theories/RingProofs.v
theories/RingHistoryProofs.v
theories/RingTourn.v
theories/RingTournProofs.v
theories/RingProps.v
theories/ControllerModel.v
theories/ControllerSpec.v
theories/ControllerProofs.v
theories/ControllerProps.v
theories/GtpGameModel.v
theories/GtpGameSpec.v
theories/GtpScoreProofs.v
theories/GtpGameProofs.v
theories/GtpGameProps.v
theories/GtpTalkProofs.v
theories/GtpDialogueProofs.v
theories/GtpRunProofs.v
theories/MctsModel.v
theories/MctsSpec.v
theories/MctsCellProofs.v
theories/MctsTreeProofs.v
theories/MctsProofs.v
theories/MctsRing.v
theories/MctsLedgerProofs.v
theories/MctsProps.v
theories/CemModel.v
theories/CemSpec.v
theories/CemDistProofs.v
theories/CemProofs.v
theories/CemTunerProofs.v
theories/CemRing.v
theories/CemMachineProofs.v
theories/CemFloat.v
theories/CemProps.v
theories/SettingsModel.v
theories/SettingsSpec.v
theories/SettingsProofs.v
theories/SettingsLoadProofs.v
theories/SettingsConfigProofs.v
theories/SettingsMoreProofs.v
theories/SettingsProps.v
theories/ControlModel.v
theories/ControlSpec.v
theories/ControlProofs.v
theories/ControlPlayerProofs.v
theories/ControlGameProofs.v
theories/ControlMatchupProofs.v
theories/ControlAllProofs.v
theories/ControlCheckProofs.v
theories/ControlErrorProofs.v
theories/ControlTunerProofs.v
theories/ControlTunerSpecProofs.v
theories/ControlTunerUseProofs.v
theories/ControlProps.v
theories/GameSgfModel.v
theories/GameSgfSpec.v
theories/SgfChainProofs.v
theories/GameSgfProofs.v
theories/GameSgfDocProofs.v
theories/GameSgfReadProofs.v
theories/GameSgfMainProofs.v
theories/GameSgfProps.v
theories/EngineModel.v
theories/EngineSpec.v
theories/EngineProofs.v
theories/EngineDialogueProofs.v
theories/EngineProps.v
theories/JobSgfModel.v
theories/JobSgfSpec.v
theories/JobSgfProofs.v
theories/RunInvProofs.v
theories/JobSgfMainProofs.v
theories/JobPlayedProofs.v
theories/JobReadProofs.v
theories/JobSgfProps.v
theories/JobRunModel.v
theories/JobKeptProofs.v
theories/JobRunSpec.v
theories/JobLiveProofs.v
theories/JobTalkProofs.v
theories/JobStonesProofs.v
theories/JobBodyProofs.v
theories/JobEndProofs.v
theories/JobFileProofs.v
theories/JobRunProps.v
theories/SaveModel.v
theories/SaveSpec.v
theories/SaveProofs.v
theories/SaveMapProofs.v
theories/SaveMainProofs.v
theories/SaveReadProofs.v
theories/SaveStateProofs.v
theories/SaveFinalProofs.v
theories/SaveProps.v
theories/ProxyModel.v
theories/ProxySpec.v
theories/ProxyProofs.v
theories/ProxyRunProofs.v
theories/ProxyTalkProofs.v
theories/ProxyProps.v
theories/TableModel.v
theories/TableSpec.v
theories/TableProofs.v
theories/TableMainProofs.v
theories/TableReadProofs.v
theories/TableUniqueProofs.v
theories/TableProps.v
theories/ReportModel.v
theories/ReportSpec.v
theories/ReportTextProofs.v
theories/ReportTableProofs.v
theories/ReportSaysProofs.v
theories/ReportWholeProofs.v
theories/ReportHistoryProofs.v
theories/ReportProps.v
theories/SgfCharsetModel.v
theories/SgfCharsetSpec.v
theories/SgfCharsetProofs.v
theories/SgfCharsetReadProofs.v
theories/SgfCharsetTreeProofs.v
theories/SgfCharsetMainProofs.v
theories/SgfCharsetProps.v
theories/SgfLazyModel.v
theories/SgfLazySpec.v
theories/SgfLazyBuildProofs.v
theories/SgfLazyLoadProofs.v
theories/SgfLazyProofs.v
theories/SgfLazyOpsProofs.v
theories/SgfLazyMainProofs.v
theories/SgfLazyQueryProofs.v
theories/SgfLazyRunProofs.v
theories/SgfLazyProps.v
theories/RingFilesModel.v
theories/RingFilesSpec.v
theories/RingFilesProofs.v
theories/RingFilesProps.v
theories/RingConcModel.v
theories/RingConcSpec.v
theories/RingConcProofs.v
theories/RingConcStopProofs.v
theories/RingConcStateProofs.v
theories/RingConcProps.v
theories/RunLogModel.v
theories/RunLogSpec.v
theories/RunLogProofs.v
theories/RunLogRunProofs.v
theories/RunLogMainProofs.v
theories/RunLogStepProofs.v
theories/RunLogEndProofs.v
theories/RunLogProps.v
theories/CliModel.v
theories/CliSpec.v
theories/CliProofs.v
theories/CliStepProofs.v
theories/CliActProofs.v
theories/CliMainProofs.v
theories/CliTopProofs.v
theories/CliProps.v
theories/MctsReportModel.v
theories/MctsReportSpec.v
theories/MctsOrderProofs.v
theories/MctsReportProofs.v
theories/MctsReportMainProofs.v
theories/MctsReportProps.v
theories/CemReportModel.v
theories/CemReportSpec.v
theories/CemReportProofs.v
theories/CemReportProps.v
theories/ShowSgfModel.v
theories/ShowSgfSpec.v
theories/ShowSgfProofs.v
theories/ShowSgfProps.v
theories/SplitSgfModel.v
theories/SplitSgfSpec.v
theories/SplitSgfProofs.v
theories/SplitSgfProps.v
theories/TerminalModel.v
theories/TerminalSpec.v
theories/TerminalProps.v
theories/ClopModel.v
theories/ClopSpec.v
theories/ClopProofs.v
theories/ClopProps.v
theories/KgsModel.v
theories/KgsSpec.v
theories/KgsProofs.v
theories/KgsStartProofs.v
theories/KgsMainProofs.v
theories/KgsProps.v
theories/TightProps.v
theories/TwogtpModel.v
theories/TwogtpSpec.v
theories/TwogtpProofs.v
theories/TwogtpFileProofs.v
theories/TwogtpRunProofs.v
theories/TwogtpProps.v
theories/ForfeitModel.v
theories/ForfeitSpec.v
theories/ForfeitProofs.v
theories/ForfeitProps.v
theories/PipeModel.v
theories/PipeSpec.v
theories/PipeProofs.v
theories/PipeProps.v
theories/ScreenModel.v
theories/ScreenSpec.v
theories/ScreenProps.v
theories/MogoModel.v
theories/MogoProps.v
theories/TestPlayerModel.v
theories/TestPlayerSpec.v
theories/TestPlayerProofs.v
theories/TestPlayerTurns.v
theories/TestPlayerProps.v
theories/StatefulModel.v
theories/StatefulSpec.v
theories/StatefulProofs.v
theories/StatefulProps.v
theories/WorkersModel.v
theories/WorkersSpec.v
theories/WorkersProofs.v
theories/WorkersProps.v
theories/InteractiveModel.v
theories/InteractiveSpec.v
theories/InteractiveProofs.v
theories/InteractiveProps.v
theories/TightMoreProps.v
theories/InteractiveMoreProps.v
