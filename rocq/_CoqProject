-Q theories Verif
theories/Base.v
theories/NumModel.v
theories/NumSpec.v
theories/NumProofs.v
theories/RealProofs.v
theories/MemModel.v
theories/MemProofs.v
theories/NumExtra.v
theories/PropertiesNum.v
theories/CmpModel.v
theories/CmpSpec.v
theories/CmpProofs.v
theories/CmpOrder.v
theories/PropertiesCmp.v
theories/SortModel.v
theories/SortProofs.v
theories/SortExtra.v
theories/PropertiesSort.v
theories/MapModel.v
theories/MapSpec.v
theories/MapTree.v
theories/MapProofs.v
theories/MapOps.v
theories/MapExtra.v
theories/MapKeys.v
theories/PropertiesMap.v
theories/BlkModel.v
theories/BlkProofs.v
theories/DynModel.v
theories/DynSpec.v
theories/DynProofs.v
theories/DynExtra.v
theories/PropertiesDyn.v
theories/StrModel.v
theories/StrSpec.v
theories/StrProofs.v
theories/StrExtra.v
theories/PropertiesStr.v
theories/HeapModel.v
theories/HeapSpec.v
theories/HeapProofs.v
theories/HeapLists.v
theories/HeapOps.v
theories/HeapAlloc.v
theories/HeapExtra.v
theories/HeapHist.v
theories/HeapWeak.v
theories/HeapFree.v
theories/PropertiesHeap.v
theories/LayModel.v
theories/LaySpec.v
theories/LayProofs.v
theories/PropertiesLay.v
theories/LexModel.v
theories/LexSpec.v
theories/LexProofs.v
theories/LexMore.v
theories/PropertiesLex.v
theories/PathModel.v
theories/PathSpec.v
theories/PathProofs.v
theories/PropertiesPath.v
theories/TypeModel.v
theories/TypeSpec.v
theories/TypeProofs.v
theories/TypeMore.v
theories/PropertiesType.v
theories/GenModel.v
theories/GenVm.v
theories/GenSpec.v
theories/GenProofs.v
theories/GenEmit.v
theories/GenSim.v
theories/GenActs.v
theories/GenRun.v
theories/GenStop.v
theories/PropertiesGen.v
theories/CtlModel.v
theories/CtlSpec.v
theories/CtlProofs.v
theories/CtlGen.v
theories/CtlRun.v
theories/CtlThm.v
theories/CtlSwitch.v
theories/PropertiesCtl.v
theories/DeclModel.v
theories/DeclSpec.v
theories/DeclProofs.v
theories/PropertiesDecl.v
theories/StorModel.v
theories/StorSpec.v
theories/StorProofs.v
theories/PropertiesStor.v
theories/IdModel.v
theories/IdSpec.v
theories/IdProofs.v
theories/IdMore.v
theories/PropertiesId.v
theories/FmtModel.v
theories/FmtSpec.v
theories/FmtProofs.v
theories/FmtPrint.v
theories/FmtScan.v
theories/FmtWord.v
theories/PropertiesFmt.v
theories/ReprModel.v
theories/ReprSpec.v
theories/ReprProofs.v
theories/PropertiesRepr.v
theories/ExprModel.v
theories/ExprSpec.v
theories/ExprProofs.v
theories/PropertiesExpr.v
theories/ApiModel.v
theories/ApiSpec.v
theories/ApiProofs.v
theories/PropertiesApi.v
theories/CallModel.v
theories/CallSpec.v
theories/CallProofs.v
theories/CallSim.v
theories/CallKeep.v
theories/CallThm.v
theories/CallFib.v
theories/CallEx.v
theories/CallStep.v
theories/PropertiesCall.v
theories/RefModel.v
theories/RefSpec.v
theories/RefProofs.v
theories/RefLoop.v
theories/RefDec.v
theories/RefWrite.v
theories/RefOps.v
theories/RefAssign.v
theories/RefItems.v
theories/RefThm.v
theories/PropertiesRef.v
theories/LibModel.v
theories/LibSpec.v
theories/LibProofs.v
theories/LibRand.v
theories/PropertiesLib.v
theories/EvalModel.v
theories/EvalSpec.v
theories/EvalProofs.v
theories/EvalStmt.v
theories/EvalSafe.v
theories/PropertiesEval.v
theories/ArgModel.v
theories/ArgSpec.v
theories/ArgProofs.v
theories/PropertiesArg.v
theories/IfaceModel.v
theories/IfaceSpec.v
theories/IfaceProofs.v
theories/IfaceMore.v
theories/PropertiesIface.v
theories/LoopModel.v
theories/LoopSpec.v
theories/LoopProofs.v
theories/LoopMore.v
theories/PropertiesLoop.v
theories/ConvModel.v
theories/ConvSpec.v
theories/ConvExec.v
theories/ConvProofs.v
theories/ConvLoop.v
theories/ConvMain.v
theories/PropertiesConv.v
theories/TempModel.v
theories/TempSpec.v
theories/TempBase.v
theories/TempScope.v
theories/TempExpr.v
theories/TempStmt.v
theories/TempMain.v
theories/PropertiesTemp.v
theories/SourceSpec.v
theories/SourceBase.v
theories/SourceBack.v
theories/SourceStmt.v
theories/SourceMain.v
theories/SourceDet.v
theories/SourceFwd.v
theories/SourceEnds.v
theories/PropertiesSource.v
theories/FileModel.v
theories/FileSpec.v
theories/FileProofs.v
theories/FileSafe.v
theories/ByteModel.v
theories/ByteProofs.v
theories/PropertiesFile.v
theories/TraceModel.v
theories/TraceSpec.v
theories/TraceProofs.v
theories/PropertiesTrace.v
theories/CloModel.v
theories/CloSpec.v
theories/CloMem.v
theories/CloRep.v
theories/CloVars.v
theories/CloProofs.v
theories/CloMore.v
theories/PropertiesClo.v
theories/PrecModel.v
theories/PrecSpec.v
theories/PrecProofs.v
theories/PrecMore.v
theories/PropertiesPrec.v
theories/ImportModel.v
theories/ImportSpec.v
theories/ImportProofs.v
theories/ImportMore.v
theories/PropertiesImport.v
theories/CompLitModel.v
theories/CompLitSpec.v
theories/CompLitCheck.v
theories/CompLitProofs.v
theories/CompLitMore.v
theories/PropertiesCompLit.v
theories/ProtoModel.v
theories/ProtoSpec.v
theories/ProtoProofs.v
theories/ProtoMore.v
theories/PropertiesProto.v
theories/TypeDeclModel.v
theories/TypeDeclSpec.v
theories/TypeDeclProofs.v
theories/TypeDeclSound.v
theories/PropertiesTypeDecl.v
theories/SpellModel.v
theories/SpellSpec.v
theories/SpellProofs.v
theories/SpellMore.v
theories/SpellEnds.v
theories/PropertiesSpell.v
theories/OperModel.v
theories/OperSpec.v
theories/OperProofs.v
theories/OperMore.v
theories/PropertiesOper.v
theories/AsmModel.v
theories/AsmSpec.v
theories/AsmProofs.v
theories/AsmMore.v
theories/PropertiesAsm.v
theories/LeakModel.v
theories/LeakSpec.v
theories/LeakProofs.v
theories/PropertiesLeak.v
theories/ExtModel.v
theories/ExtSpec.v
theories/ExtProofs.v
theories/ExtMore.v
theories/PropertiesExt.v
theories/BuiltinModel.v
theories/BuiltinSpec.v
theories/BuiltinProofs.v
theories/BuiltinMore.v
theories/PropertiesBuiltin.v
theories/OnFreeModel.v
theories/OnFreeSpec.v
theories/OnFreeProofs.v
theories/PropertiesOnFree.v
theories/ReflModel.v
theories/ReflSpec.v
theories/ReflProofs.v
theories/ReflMore.v
theories/PropertiesRefl.v
theories/DesigModel.v
theories/DesigSpec.v
theories/DesigProofs.v
theories/PropertiesDesig.v
theories/NamesModel.v
theories/NamesSpec.v
theories/NamesProofs.v
theories/PropertiesNames.v
theories/HookModel.v
theories/HookSpec.v
theories/HookProofs.v
theories/PropertiesHook.v
