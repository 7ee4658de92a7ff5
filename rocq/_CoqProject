-Q theories Verif
theories/Base.v
theories/BaseLemmas.v
theories/TimeModel.v
theories/TimeSpec.v
theories/TimeProof.v
theories/TimeProps.v
theories/CtypeModel.v
theories/StrtolModel.v
theories/StrtolSpec.v
theories/StrtolProof.v
theories/StrtolProps.v
theories/SortModel.v
theories/SortProof.v
theories/SortProps.v
theories/X86.v
theories/CgModel.v
theories/ExprSpec.v
theories/ExprLemmas.v
theories/CgTree.v
theories/CgFuse.v
theories/MachSpec.v
theories/CgMach.v
theories/CgEmit.v
theories/CgSim.v
theories/CgCorrect.v
theories/CgProps.v
theories/StmtSpec.v
theories/StmtPre.v
theories/StmtModel.v
theories/StmtLab.v
theories/StmtLay.v
theories/StmtComp.v
theories/StmtCases.v
theories/StmtCheck.v
theories/StmtProps.v
theories/StrSpec.v
theories/StrModel.v
theories/StrLemmas.v
theories/StrTok.v
theories/StrProps.v
theories/HeapModel.v
theories/HeapSpec.v
theories/HeapLemmas.v
theories/HeapOps.v
theories/HeapState.v
theories/HeapClient.v
theories/HeapInv.v
theories/HeapCalls.v
theories/HeapProps.v
theories/FpModel.v
theories/FloatSpec.v
theories/FpLemmas.v
theories/FpProof.v
theories/FpCode.v
theories/FpMain.v
theories/NumModel.v
theories/NumSpec.v
theories/NumProof.v
theories/NumFloat.v
theories/NumProps.v
theories/TokCodes.v
theories/ParseModel.v
theories/ParseSpec.v
theories/ParseProof.v
theories/ParseRoom.v
theories/ParseProps.v
theories/FoldSpec.v
theories/FoldModel.v
theories/FoldProof.v
theories/FoldMain.v
theories/FoldTotal.v
theories/FoldProps.v
theories/DeclSpec.v
theories/DeclModel.v
theories/DeclProof.v
theories/DeclMain.v
theories/DeclProg.v
theories/DeclProps.v
theories/FrameSpec.v
theories/FrameModel.v
theories/FrameProof.v
theories/CallSpec.v
theories/CallModel.v
theories/CallProof.v
theories/FrameProps.v
theories/LexSpec.v
theories/LexModel.v
theories/PrepSpec.v
theories/LexProof.v
theories/PrepProof.v
theories/PrepProps.v
theories/IdentSpec.v
theories/IdentModel.v
theories/IdentProof.v
theories/IdentProps.v
theories/CharSpec.v
theories/CharModel.v
theories/CharProof.v
theories/CharProps.v
theories/ScopeSpec.v
theories/ScopeModel.v
theories/ScopeProof.v
theories/ScopeProps.v
theories/LinkModel.v
theories/LinkSpec.v
theories/LinkReloc.v
theories/LinkResolve.v
theories/LinkLayout.v
theories/LinkFind.v
theories/LinkPlace.v
theories/LinkImage.v
theories/LinkSpan.v
theories/LinkWhole.v
theories/LinkAddr.v
theories/LinkOut.v
theories/LinkElf.v
theories/LinkFields.v
theories/LinkProps.v
theories/StdioModel.v
theories/StdioSpec.v
theories/StdioProof.v
theories/StdioProps.v
theories/DoPrintModel.v
theories/DoPrintSpec.v
theories/DoPrintProof.v
theories/DoPrintProps.v
theories/CvtModel.v
theories/CvtSpec.v
theories/CvtProof.v
theories/CvtProof2.v
theories/CvtProps.v
theories/FltPrintModel.v
theories/FltPrintSpec.v
theories/FltPrintProof.v
theories/FltPrintProof2.v
theories/FltPrintProps.v
theories/InitSpec.v
theories/InitModel.v
theories/InitProof.v
theories/InitProof2.v
theories/InitProps.v
theories/StrtofSpec.v
theories/StrtofModel.v
theories/StrtofProof.v
theories/StrtofProof2.v
theories/StrtofProof3.v
theories/StrtofProps.v
theories/ScanModel.v
theories/ScanSpec.v
theories/ScanProof.v
theories/ScanProof2.v
theories/ScanProof3.v
theories/ScanProof4.v
theories/ScanProof5.v
theories/ScanProof6.v
theories/ScanProps.v
theories/DtorSpec.v
theories/DtorModel.v
theories/DtorRep.v
theories/DtorProof.v
theories/DtorProof2.v
theories/DtorProof3.v
theories/DtorProof4.v
theories/DtorProof5.v
theories/DtorProof6.v
theories/DtorProof7.v
theories/DtorProof8.v
theories/DtorProof9.v
theories/DtorProps.v
theories/MipsModel.v
theories/MipsSpec.v
theories/MipsCode.v
theories/MipsPrep.v
theories/MipsEmit.v
theories/MipsEmit2.v
theories/MipsGen.v
theories/MipsMach.v
theories/MipsSim.v
theories/MipsProps.v
theories/StrftimeModel.v
theories/StrftimeSpec.v
theories/StrftimeProof.v
theories/StrftimeProps.v
theories/MipsStmtModel.v
theories/MipsStmtPre.v
theories/MipsStmtLay.v
theories/MipsStmtLab.v
theories/MipsStmtComp.v
theories/MipsStmtCases.v
theories/MipsStmtProps.v
theories/MipsFnModel.v
theories/MipsFnSpec.v
theories/MipsFn31.v
theories/MipsFnProof.v
theories/MipsFnProps.v
theories/FnSpec.v
theories/FnModel.v
theories/FnProps.v
theories/HelpSpec.v
theories/HelpModel.v
theories/HelpProps.v
theories/MipsHelpModel.v
theories/MipsHelpProps.v
theories/RandSpec.v
theories/RandModel.v
theories/RandProps.v
theories/AsctimeSpec.v
theories/AsctimeModel.v
theories/AsctimeProps.v
theories/ArgSpec.v
theories/ArgModel.v
theories/ArgProps.v
theories/JmpSpec.v
theories/JmpModel.v
theories/JmpProps.v
theories/AtexitSpec.v
theories/AtexitModel.v
theories/AtexitProps.v
theories/LngSpec.v
theories/LngModel.v
theories/LngProps.v
