-Q theories Verif
theories/ActivateModel.v
theories/ActivateProps.v
theories/AstLib.v
theories/Base.v
theories/BunchModel.v
theories/BunchProofs.v
theories/BunchProps.v
theories/BunchProps2.v
theories/BunchSpec.v
theories/BunchifyModel.v
theories/BunchifyProofs.v
theories/BunchifyProps.v
theories/BunchifySpec.v
theories/CliModel.v
theories/CliProps.v
theories/CollectorModel.v
theories/CollectorProofs.v
theories/CollectorProps.v
theories/CollectorSpec.v
theories/ColorEnds.v
theories/ColorModel.v
theories/ColorProofs.v
theories/ColorProps.v
theories/ColorSpec.v
theories/ColorStmt.v
theories/CompileModel.v
theories/CompileProps.v
theories/CompileSpec.v
theories/CtxModel.v
theories/CtxProofs.v
theories/CtxProofs10.v
theories/CtxProofs11.v
theories/CtxProofs2.v
theories/CtxProofs3.v
theories/CtxProofs4.v
theories/CtxProofs5.v
theories/CtxProofs6.v
theories/CtxProofs7.v
theories/CtxProofs8.v
theories/CtxProofs9.v
theories/CtxProps.v
theories/CtxSpec.v
theories/DebugColorModel.v
theories/DebugColorProofs.v
theories/DebugColorProps.v
theories/DebugColorSpec.v
theories/DebugColorStmt.v
theories/DebugModel.v
theories/DebugProofs.v
theories/DebugProps.v
theories/DebugSpec.v
theories/DialectModel.v
theories/DialectProofs.v
theories/DialectProps.v
theories/DialectSpec.v
theories/DialectTextModel.v
theories/DialectTextProps.v
theories/Dict.v
theories/DumpLayout.v
theories/DumpModel.v
theories/DumpProofs.v
theories/DumpProps.v
theories/DumpSpec.v
theories/ExpandModel.v
theories/ExpandProofs.v
theories/ExpandProofs2.v
theories/ExpandProps.v
theories/ExpandSpec.v
theories/ExpanderCheck.v
theories/ExpanderExamples.v
theories/ExpanderModel.v
theories/ExpanderProofs.v
theories/ExpanderProofs2.v
theories/ExpanderProofs3.v
theories/ExpanderProofs4.v
theories/ExpanderProofs5.v
theories/ExpanderProps.v
theories/ExpanderProps2.v
theories/ExpanderProps3.v
theories/ExpanderSpec.v
theories/FallbackModel.v
theories/FallbackProps.v
theories/FirstProofs.v
theories/FirstProps.v
theories/FixLocModel.v
theories/FixLocProofs.v
theories/FixLocProps.v
theories/FixLocSpec.v
theories/HeapAst.v
theories/HygieneModel.v
theories/HygieneProofs.v
theories/HygieneProps.v
theories/HygieneProps2.v
theories/ImportsModel.v
theories/ImportsProofs.v
theories/ImportsProps.v
theories/ImportsSpec.v
theories/IpyModel.v
theories/IpyProofs.v
theories/IpyProps.v
theories/KindProps.v
theories/KindSpec.v
theories/LocateModel.v
theories/LocateProps.v
theories/MainModel.v
theories/MainProps.v
theories/MainSpec.v
theories/MarkersModel.v
theories/MarkersProofs.v
theories/MarkersProps.v
theories/MarkersSpec.v
theories/MetaModel.v
theories/MetaProofs.v
theories/MetaProofs2.v
theories/MetaProofs3.v
theories/MetaProps.v
theories/MisplacedModel.v
theories/MisplacedProofs.v
theories/MisplacedProps.v
theories/ModulesModel.v
theories/ModulesProps.v
theories/NestCheck.v
theories/NestModel.v
theories/NestProofs.v
theories/NestProofs10.v
theories/NestProofs2.v
theories/NestProofs3.v
theories/NestProofs4.v
theories/NestProofs5.v
theories/NestProofs6.v
theories/NestProofs7.v
theories/NestProofs8.v
theories/NestProofs9.v
theories/NestProps.v
theories/NestSpec.v
theories/PhaseDebugModel.v
theories/PhaseDebugProps.v
theories/PhaseModel.v
theories/PhaseProofs.v
theories/PhaseProps.v
theories/PhaseSpec.v
theories/PostModel.v
theories/PostProps.v
theories/PyGrammar.v
theories/PyStmt.v
theories/PycModel.v
theories/PycProofs.v
theories/PycProps.v
theories/PycSpec.v
theories/PycacheModel.v
theories/PycacheProps.v
theories/QuoteModel.v
theories/QuoteProofs.v
theories/QuoteProofs2.v
theories/QuoteProofs3.v
theories/QuoteProps.v
theories/QuoteProps2.v
theories/QuoteSpec.v
theories/QuoteSpec2.v
theories/RenameModel.v
theories/RenameProofs.v
theories/RenameProps.v
theories/RenameSpec.v
theories/ReplModel.v
theories/ReplProps.v
theories/ReplProps2.v
theories/RuntimeModel.v
theories/RuntimeProofs.v
theories/RuntimeProps.v
theories/RuntimeSpec.v
theories/RuntimeStepModel.v
theories/RuntimeStepProps.v
theories/RuntimeStepSpec.v
theories/ShowModel.v
theories/ShowProofs.v
theories/ShowProps.v
theories/SpliceModel.v
theories/SpliceProofs.v
theories/SpliceProofs2.v
theories/SpliceProofs3.v
theories/SpliceProps.v
theories/SpliceSpec.v
theories/StatsModel.v
theories/StatsProofs.v
theories/StatsProps.v
theories/StatsSpec.v
theories/StepDialectModel.v
theories/StepDialectProofs.v
theories/StepDialectProps.v
theories/StepDialectSpec.v
theories/StepModel.v
theories/StepProofs.v
theories/StepProofs2.v
theories/StepProofs3.v
theories/StepProps.v
theories/StepSpec.v
theories/StmtBlock.v
theories/StmtConsume.v
theories/StmtEnds.v
theories/StmtLayout.v
theories/StmtParse.v
theories/StmtPat.v
theories/StmtProps.v
theories/StmtSpec.v
theories/StmtText.v
theories/StmtToks.v
theories/StmtWith.v
theories/SyspathModel.v
theories/SyspathProps.v
theories/UnparseEnds.v
theories/UnparseFstr.v
theories/UnparseLex.v
theories/UnparseModel.v
theories/UnparseParse.v
theories/UnparseProps.v
theories/UnparseSpec.v
theories/UnparseText.v
theories/UnparseToks.v
theories/UnparseTotal.v
theories/UtilsModel.v
theories/UtilsProofs.v
theories/UtilsProps.v
theories/UtilsSpec.v
theories/WalkerModel.v
theories/WalkerProofs.v
theories/WalkerProps.v
theories/WalkerProps2.v
theories/WalkerSpec.v
