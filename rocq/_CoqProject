-Q theories Verif
theories/Base.v
theories/Utf8Model.v
theories/Utf8Proofs.v
theories/SourceModel.v
theories/SourceSpec.v
theories/SourceProofs.v
theories/SourceProps.v
theories/UtilModel.v
theories/UtilSpec.v
theories/UtilProofs.v
theories/UtilProps.v
theories/ObjModel.v
theories/ObjSpec.v
theories/ObjProofs.v
theories/ObjProps.v
theories/JsonModel.v
theories/JsonSpec.v
theories/JsonProofs.v
theories/JsonProps.v
theories/CacheModel.v
theories/CacheSpec.v
theories/CacheProofs.v
theories/CacheProps.v
theories/DirModel.v
theories/DirSpec.v
theories/DirProofs.v
theories/DirProps.v
theories/TokenModel.v
theories/LexModel.v
theories/LexSpec.v
theories/LexProofs.v
theories/LexGapProofs.v
theories/LexProps.v
theories/LexStrProofs.v
theories/LexKindProofs.v
theories/LexStrProps.v
theories/LexTokSpec.v
theories/LexPunctProofs.v
theories/LexPunctProps.v
theories/LexNameSpec.v
theories/LexNameProofs.v
theories/LexNameProps.v
theories/LexTplSpec.v
theories/LexTplProofs.v
theories/LexTplProps.v
theories/LexNumSpec.v
theories/LexNumProofs.v
theories/LexNumProps.v
theories/LexReSpec.v
theories/LexReProofs.v
theories/LexReProps.v
theories/LexBufModel.v
theories/LexBufSpec.v
theories/LexBufProofs.v
theories/LexBufProps.v
theories/LexChkModel.v
theories/LexChkSpec.v
theories/LexChkProofs.v
theories/LexChkProps.v
theories/NumValModel.v
theories/NumValSpec.v
theories/NumValProps.v
theories/SymtabModel.v
theories/SymtabSpec.v
theories/SymtabProofs.v
theories/SymtabTabProofs.v
theories/SymtabProps.v
theories/ParseBase.v
theories/BinModel.v
theories/BinSpec.v
theories/BinProofs.v
theories/BinProps.v
theories/NodeModel.v
theories/WalkModel.v
theories/WalkSpec.v
theories/WalkProofs.v
theories/WalkProps.v
theories/ExecModel.v
theories/ExecSpec.v
theories/ExecProofs.v
theories/ExecJsProofs.v
theories/ExecProps.v
theories/FeatModel.v
theories/FeatSpec.v
theories/FeatProps.v
theories/DepModel.v
theories/DepSpec.v
theories/DepProps.v
theories/BranchModel.v
theories/BranchSpec.v
theories/BranchProps.v
theories/GraphModel.v
theories/GraphSpec.v
theories/GraphProps.v
theories/EarlyModel.v
theories/EarlySpec.v
theories/EarlyProofs.v
theories/EarlyProps.v
theories/LabelModel.v
theories/LabelSpec.v
theories/LabelProofs.v
theories/LabelProps.v
theories/ExprModel.v
theories/ExprSpec.v
theories/ExprProofs.v
theories/ExprPlaces.v
theories/ExprTargets.v
theories/ExprFuel.v
theories/ExprReads.v
theories/ExprProps.v
theories/StmtModel.v
theories/StmtSpec.v
theories/StmtReads.v
theories/StmtPlaces.v
theories/StmtTargets.v
theories/StmtEnds.v
theories/StmtProps.v
theories/WriteSpec.v
theories/WriteBin.v
theories/WriteFacts.v
theories/WriteParse.v
theories/WritePrint.v
theories/WriteProps.v
theories/StmtFuel.v
theories/FuelProps.v
theories/PanicSpec.v
theories/PanicSafe.v
theories/PanicProps.v
theories/FnModel.v
theories/FnSpec.v
theories/FnReads.v
theories/FnWorld.v
theories/FnPlaces.v
theories/FnProps.v
theories/FnFuel.v
theories/FnSafe.v
theories/FnRunProps.v
theories/ModProps.v
theories/JsxModel.v
theories/JsxSpec.v
theories/JsxReads.v
theories/JsxFuel.v
theories/JsxProps.v
theories/ImportModel.v
theories/ImportProofs.v
theories/ImportProps.v
theories/LexJsxSpec.v
theories/LexJsxProofs.v
theories/LexJsxProps.v
theories/EstreeModel.v
theories/EstreeSpec.v
theories/EstreeProofs.v
theories/EstreeTreeProofs.v
theories/EstreeProps.v
theories/FlowModel.v
theories/FlowSpec.v
theories/FlowProofs.v
theories/FlowFrag.v
theories/FlowSteps.v
theories/FlowCat.v
theories/FlowGlue.v
theories/FlowPool.v
theories/FlowFork.v
theories/FlowExprs.v
theories/FlowBin.v
theories/FlowGo.v
theories/FlowStmt.v
theories/FlowLoop.v
theories/FlowJoin.v
theories/FlowFor.v
theories/FlowDo.v
theories/FlowProg.v
theories/FlowProps.v
theories/QueryModel.v
theories/QuerySpec.v
theories/QueryProofs.v
theories/QueryProps.v
theories/TarModel.v
theories/TarSpec.v
theories/TarProofs.v
theories/TarProps.v
theories/OutModel.v
theories/OutSpec.v
theories/OutProofs.v
theories/OutProps.v
theories/TsUnionModel.v
theories/TsUnionSpec.v
theories/TsUnionProofs.v
theories/TsUnionProps.v
theories/TsListModel.v
theories/TsListSpec.v
theories/TsListProofs.v
theories/TsListProps.v
theories/TsModModel.v
theories/TsModSpec.v
theories/TsModProofs.v
theories/TsModProps.v
theories/TsCondModel.v
theories/TsCondSpec.v
theories/TsCondProps.v
theories/TsEndProps.v
theories/TsPostModel.v
theories/TsPostSpec.v
theories/TsPostProps.v
theories/TsAliasModel.v
theories/TsAliasProps.v
theories/TsRefModel.v
theories/TsRefProps.v
