-Q theories Verif
theories/GoBase.v
theories/GoFacts.v
theories/GoMap.v
theories/PieceTableModel.v
theories/PieceTableSpec.v
theories/PieceTableProofs.v
theories/PieceTableProps.v
theories/PieceSpaceSpec.v
theories/PieceSpaceProofs.v
theories/PieceSpaceProps.v
theories/DiffModel.v
theories/DiffSpec.v
theories/DiffProofs.v
theories/DiffPatchProofs.v
theories/DiffCmdProofs.v
theories/DiffProps.v
theories/DiffMoreModel.v
theories/DiffMoreSpec.v
theories/DiffMoreProofs.v
theories/DiffMoreProps.v
theories/TsortModel.v
theories/TsortSpec.v
theories/TsortProofs.v
theories/TsortProps.v
theories/CksumModel.v
theories/CksumSpec.v
theories/CksumProofs.v
theories/CksumOrderProofs.v
theories/CksumProps.v
theories/CmpModel.v
theories/CmpSpec.v
theories/CmpProofs.v
theories/CmpProps.v
theories/HeadModel.v
theories/HeadSpec.v
theories/HeadProofs.v
theories/HeadProps.v
theories/CatModel.v
theories/CatSpec.v
theories/CatProofs.v
theories/CatProps.v
theories/CutModel.v
theories/CutProps.v
theories/CutFlagModel.v
theories/CutSpec.v
theories/CutProofs.v
theories/CutLineProps.v
theories/NumFacts.v
theories/KillModel.v
theories/KillSpec.v
theories/KillProofs.v
theories/KillProps.v
theories/TestModel.v
theories/TestSpec.v
theories/TestProofs.v
theories/TestProps.v
theories/Utf8Facts.v
theories/FlagModel.v
theories/FlagSpec.v
theories/FlagProofs.v
theories/FlagProps.v
theories/RegexModel.v
theories/RegexSpec.v
theories/RegexProofs.v
theories/RegexProps.v
theories/LocaleModel.v
theories/LocaleSpec.v
theories/LocaleProofs.v
theories/LocaleProps.v
theories/EdModel.v
theories/EdSpec.v
theories/EdProofs.v
theories/EdProofs2.v
theories/EdProps.v
theories/RuneFacts.v
theories/RuneMore.v
theories/EdPegModel.v
theories/EdPegSpec.v
theories/EdPegProofs.v
theories/EdPegProofs2.v
theories/EdPegProofs3.v
theories/EdPegProofs4.v
theories/EdPegProofs5.v
theories/EdPegProofs6.v
theories/EdPegProofs7.v
theories/EdPegProps.v
theories/EdErrModel.v
theories/EdErrSpec.v
theories/EdErrProofs.v
theories/EdErrProofs2.v
theories/EdErrProofs3.v
theories/EdErrProofs4.v
theories/EdErrProps.v
theories/EdNyiSpec.v
theories/EdNyiProofs.v
theories/EdNyiProps.v
theories/EdLoopModel.v
theories/EdLoopSpec.v
theories/EdLoopProofs.v
theories/EdLoopProofs2.v
theories/EdLoopProofs3.v
theories/EdLoopProps.v
theories/EdFileSpec.v
theories/EdFileProofs.v
theories/EdFaultProofs.v
theories/EdFileProps.v
theories/LocGramSpec.v
theories/LocYaccModel.v
theories/LocYaccCert.v
theories/LocYaccProofs.v
theories/LocYaccGram.v
theories/LocYaccSound.v
theories/LocYaccComplete.v
theories/LocYaccValues.v
theories/LocParseSpec.v
theories/LocYaccFinal.v
theories/LocYaccRest.v
theories/LocYaccProps.v
theories/LocLexModel.v
theories/LocLexProofs.v
theories/LocDocSpec.v
theories/LocDocLex.v
theories/LocDocProofs.v
theories/LocDocFinal.v
theories/LocNumProofs.v
theories/LocHangSpec.v
theories/LocLexEnds.v
theories/LocLexMore.v
theories/LocLexBad.v
theories/LocHang.v
theories/LocMidSpec.v
theories/LocMidProofs.v
theories/LocDocProps.v
theories/LocTokSpec.v
theories/LocTokProps.v
theories/LocMidProps.v
theories/LocCollSpec.v
theories/LocCollProofs.v
theories/LocCollHang.v
theories/LocCollProps.v
theories/LocSchedModel.v
theories/LocSchedProofs.v
theories/LocSchedProps.v
theories/WriteModel.v
theories/WriteSpec.v
theories/WriteProofs.v
theories/WriteProps.v
theories/TsortQueueSpec.v
theories/TsortQueueProofs.v
theories/TsortQueueProps.v
theories/RegexMoreSpec.v
theories/RegexMoreProofs.v
theories/RegexMoreProps.v
theories/CmpMoreProofs.v
theories/CmpMoreProps.v
theories/EdTypedProps.v
theories/PieceHeapModel.v
theories/PieceHeapSpec.v
theories/PieceHeapProofs.v
theories/PieceHeapProps.v
theories/EdLastProps.v
theories/LocNumProps.v
theories/RegexPrintModel.v
theories/RegexGramSpec.v
theories/RegexGramProofs.v
theories/RegexGramProps.v
theories/CksumFlipSpec.v
theories/CksumFlipProofs.v
theories/CksumFlipProps.v
theories/CksumWindowProofs.v
theories/CksumWindowProps.v
theories/EdExactSpec.v
theories/EdExactProofs.v
theories/EdExactProps.v
theories/LocViaCert.v
theories/LocViaSpec.v
theories/LocViaProofs.v
theories/LocViaProps.v
theories/RegexCostModel.v
theories/RegexCostProofs.v
theories/RegexCostProps.v
theories/CommandsSpec.v
theories/CommandsProofs.v
theories/CommandsProps.v
theories/PieceReaderModel.v
theories/PieceReaderSpec.v
theories/PieceReaderProofs.v
theories/PieceReaderProps.v
theories/EdTreeModel.v
theories/EdTreeSpec.v
theories/EdTreeProofs.v
theories/EdTreeProps.v
theories/DiffShowModel.v
theories/DiffShowSpec.v
theories/DiffShowProps.v
theories/LocaleShellSpec.v
theories/LocaleShellProofs.v
theories/LocaleShellProps.v
theories/DiffInsertProofs.v
theories/DiffInsertProps.v
theories/CmpDiffSpec.v
theories/CmpDiffProofs.v
theories/CmpDiffProps.v
theories/TsortRunSpec.v
theories/TsortRunProofs.v
theories/TsortRunProps.v
theories/LocErrModel.v
theories/LocErrSpec.v
theories/LocErrProofs.v
theories/LocErrProps.v
theories/DiffRunSpec.v
theories/DiffFirstProofs.v
theories/DiffCostModel.v
theories/DiffCostProofs.v
theories/DiffSwapProofs.v
theories/DiffRunProps.v
theories/RegexEquivSpec.v
theories/RegexEquivProofs.v
theories/RegexEquivProps.v
theories/TsortSetSpec.v
theories/TsortSetProofs.v
theories/TsortSetProps.v
theories/FlagOrderSpec.v
theories/FlagOrderProofs.v
theories/FlagOrderProps.v
theories/CksumLinearSpec.v
theories/CksumLinearProofs.v
theories/CksumLinearProps.v
theories/HeadAgainProps.v
theories/CmpRecoverProofs.v
theories/CmpRecoverProps.v
theories/PieceUndoSpec.v
theories/PieceUndoProofs.v
theories/PieceUndoProps.v
theories/PieceSeamSpec.v
theories/PieceSeamProofs.v
theories/PieceSeamProps.v
theories/EdOutsideProofs.v
theories/EdOutsideProps.v
theories/EdOpenProofs.v
theories/EdOpenProps.v
theories/EdCommuteSpec.v
theories/EdCommuteProofs.v
theories/EdCommuteProps.v
theories/EdWriteProofs.v
theories/EdWriteProps.v
theories/CmpTriProps.v
theories/EdCurProps.v
theories/TestOrdProps.v
theories/CmpSumProps.v
theories/CksumErrProps.v
theories/HeadCmpProps.v
theories/CatGroupProps.v
