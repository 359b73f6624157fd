-Q theories Verif
theories/CppInt.v
theories/ArithModel.v
theories/ArithSpec.v
theories/ArithProofs.v
theories/PropertiesArith.v
theories/XilModel.v
theories/XilSpec.v
theories/XilProofs.v
theories/PropertiesXil.v
theories/ParserModel.v
theories/ParserSpec.v
theories/ParserProofs.v
theories/PropertiesParser.v
theories/StmtModel.v
theories/StmtSpec.v
theories/StmtCond.v
theories/StmtProofs.v
theories/StmtSim.v
theories/StmtSim2.v
theories/StmtTop.v
theories/StmtPlain.v
theories/PropertiesStmt.v
theories/ExcModel.v
theories/ExcSpec.v
theories/ExcProofs.v
theories/ExcSim.v
theories/ExcTop.v
theories/ExcExamples.v
theories/FrameModel.v
theories/FrameSpec.v
theories/FrameProofs.v
theories/PropertiesExc.v
theories/CommonModel.v
theories/CommonSpec.v
theories/CommonProofs.v
theories/PropertiesCommon.v
theories/ArrayModel.v
theories/ArraySpec.v
theories/ArrayProofs.v
theories/PropertiesArray.v
theories/LayoutModel.v
theories/LayoutSpec.v
theories/LayoutProofs.v
theories/LayoutExamples.v
theories/PropertiesLayout.v
theories/MemModel.v
theories/MemSpec.v
theories/MemProofs.v
theories/PropertiesMem.v
theories/HeapModel.v
theories/HeapSpec.v
theories/HeapProofs.v
theories/HeapAlloc.v
theories/PropertiesHeap.v
theories/BitModel.v
theories/BitSpec.v
theories/BitProofs.v
theories/PropertiesBit.v
theories/VecModel.v
theories/VecSpec.v
theories/VecProofs.v
theories/PropertiesVec.v
theories/TreeModel.v
theories/TreeSpec.v
theories/TreeProofs.v
theories/TreeExamples.v
theories/PropertiesTree.v
theories/PoolModel.v
theories/PoolSpec.v
theories/PoolProofs.v
theories/PropertiesPool.v
theories/MapModel.v
theories/MapSpec.v
theories/MapProofs.v
theories/PropertiesMap.v
theories/StrModel.v
theories/StrSpec.v
theories/StrProofs.v
theories/PropertiesStr.v
theories/LitModel.v
theories/LitSpec.v
theories/LitProofs.v
theories/PropertiesLit.v
theories/TokModel.v
theories/TokSpec.v
theories/TokProofs.v
theories/TokText.v
theories/TokRefute.v
theories/TokExamples.v
theories/TokFlag.v
theories/PropertiesTok.v
theories/LockModel.v
theories/LockSpec.v
theories/LockProofs.v
theories/LockExamples.v
theories/PropertiesLock.v
theories/SemModel.v
theories/SemSpec.v
theories/SemProofs.v
theories/PropertiesSem.v
theories/ExprModel.v
theories/ExprSpec.v
theories/ExprProofs.v
theories/ExprSim.v
theories/ExprMain.v
theories/ExprExamples.v
theories/PropertiesExpr.v
theories/VtblModel.v
theories/VtblSpec.v
theories/VtblProofs.v
theories/VtblIface.v
theories/VtblExamples.v
theories/PropertiesVtbl.v
theories/AsmHeapModel.v
theories/AsmHeapSpec.v
theories/AsmHeapProofs.v
theories/AsmHeapExamples.v
theories/AsmShareProofs.v
theories/PropertiesAsmHeap.v
theories/AsmFileModel.v
theories/AsmFileSpec.v
theories/AsmFileProofs.v
theories/AsmFileExamples.v
theories/PropertiesAsmFile.v
theories/OverModel.v
theories/OverSpec.v
theories/OverProofs.v
theories/OverChoiceProofs.v
theories/OverInferProofs.v
theories/OverMoreProofs.v
theories/OverExamples.v
theories/PropertiesOver.v
theories/AccessModel.v
theories/AccessSpec.v
theories/AccessProofs.v
theories/AccessExamples.v
theories/PropertiesAccess.v
theories/ScopeModel.v
theories/ScopeSpec.v
theories/ScopeProofs.v
theories/ScopeIndexProofs.v
theories/ScopeTableProofs.v
theories/ScopeWrapProofs.v
theories/ScopeExamples.v
theories/PropertiesScope.v
theories/NetModel.v
theories/NetSpec.v
theories/NetProofs.v
theories/NetTotalProofs.v
theories/NetCompleteProofs.v
theories/NetExamples.v
theories/PropertiesNet.v
theories/GramModel.v
theories/GramSpec.v
theories/GramLayProofs.v
theories/GramPathProofs.v
theories/GramEmptyProofs.v
theories/GramFlatProofs.v
theories/GramMergeProofs.v
theories/GramBeginProofs.v
theories/GramRuleProofs.v
theories/GramReviseProofs.v
theories/GramNetProofs.v
theories/GramTidyProofs.v
theories/GramMarkProofs.v
theories/GramProofs.v
theories/GramNameProofs.v
theories/GramExamples.v
theories/PropertiesGram.v
theories/MetaModel.v
theories/MetaSpec.v
theories/MetaProofs.v
theories/MetaWriteProofs.v
theories/MetaReadProofs.v
theories/MetaExamples.v
theories/PropertiesMeta.v
theories/TnameModel.v
theories/TnameSpec.v
theories/TnameProofs.v
theories/TnameExamples.v
theories/PropertiesTname.v
theories/RtgModel.v
theories/RtgSpec.v
theories/RtgProofs.v
theories/RtgExamples.v
theories/PropertiesRtg.v
theories/HostModel.v
theories/HostSpec.v
theories/HostProofs.v
theories/HostExamples.v
theories/PropertiesHost.v
theories/PathModel.v
theories/PathSpec.v
theories/PathProofs.v
theories/PathExamples.v
theories/PropertiesPath.v
theories/KonstModel.v
theories/KonstSpec.v
theories/KonstProofs.v
theories/KonstExamples.v
theories/PropertiesKonst.v
theories/CircModel.v
theories/CircSpec.v
theories/CircProofs.v
theories/CircExamples.v
theories/PropertiesCirc.v
theories/BuildModel.v
theories/BuildSpec.v
theories/BuildProofs.v
theories/BuildExamples.v
theories/PropertiesBuild.v
theories/CargModel.v
theories/CargSpec.v
theories/CargProofs.v
theories/CargExamples.v
theories/PropertiesCarg.v
theories/BodyModel.v
theories/BodySpec.v
theories/BodyProofs.v
theories/BodyExamples.v
theories/PropertiesBody.v
theories/ModiModel.v
theories/ModiSpec.v
theories/ModiProofs.v
theories/ModiExamples.v
theories/PropertiesModi.v
theories/OperModel.v
theories/OperSpec.v
theories/OperProofs.v
theories/OperExamples.v
theories/PropertiesOper.v
theories/WildModel.v
theories/WildSpec.v
theories/WildProofs.v
theories/WildExamples.v
theories/PropertiesWild.v
theories/LibModel.v
theories/LibSpec.v
theories/LibProofs.v
theories/LibExamples.v
theories/PropertiesLib.v
theories/EscModel.v
theories/EscSpec.v
theories/EscProofs.v
theories/EscExamples.v
theories/PropertiesEsc.v
theories/SidModel.v
theories/SidSpec.v
theories/SidProofs.v
theories/SidExamples.v
theories/PropertiesSid.v
theories/EntryModel.v
theories/EntrySpec.v
theories/EntryProofs.v
theories/EntryExamples.v
theories/PropertiesEntry.v
theories/DfltModel.v
theories/DfltSpec.v
theories/DfltProofs.v
theories/DfltExamples.v
theories/PropertiesDflt.v
