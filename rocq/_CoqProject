-Q theories Verif
theories/AllocModel.v
theories/Arr.v
theories/AsmModel.v
theories/AstTextModel.v
theories/Base.v
theories/BufModel.v
theories/BufProofs.v
theories/BytesModel.v
theories/Capt.v
theories/CcallModel.v
theories/CmdModel.v
theories/CmpModel.v
theories/CodeGen.v
theories/CodeOk.v
theories/CompileEq.v
theories/CompileExt.v
theories/CompileModel.v
theories/CompileProofs.v
theories/CompileSeg.v
theories/CompileTotal.v
theories/ConcatModel.v
theories/ContModel.v
theories/DblModel.v
theories/DumpModel.v
theories/FileModel.v
theories/FloatModel.v
theories/FloatProofs.v
theories/GArr.v
theories/GcFinal.v
theories/GcInv.v
theories/GcModel.v
theories/GcProofs.v
theories/GcSpec.v
theories/GenLem.v
theories/GenOk.v
theories/GenOk2.v
theories/HistSpec.v
theories/InternModel.v
theories/JitArith.v
theories/JitLayout.v
theories/JitModel.v
theories/JitProofs.v
theories/JitRun.v
theories/JitSem.v
theories/JitSim.v
theories/JitUpModel.v
theories/KhashModel.v
theories/KhashProofs.v
theories/LayoutModel.v
theories/LoadModel.v
theories/NumModel.v
theories/NumProofs.v
theories/ObjModel.v
theories/ObjProofs.v
theories/ObjSpec.v
theories/PegModel.v
theories/PegProofs.v
theories/PegTerm.v
theories/PrintSpec.v
theories/PropAlloc.v
theories/PropAsm.v
theories/PropAstText.v
theories/PropBytes.v
theories/PropCcall.v
theories/PropCmd.v
theories/PropCmp.v
theories/PropCompile.v
theories/PropCompile2.v
theories/PropConcat.v
theories/PropCont.v
theories/PropDbl.v
theories/PropDump.v
theories/PropEnd.v
theories/PropFields.v
theories/PropFields2.v
theories/PropFile.v
theories/PropFloat.v
theories/PropGc.v
theories/PropHist.v
theories/PropInput.v
theories/PropIntern.v
theories/PropIvf.v
theories/PropJit.v
theories/PropJitShift.v
theories/PropJitUp.v
theories/PropLayout.v
theories/PropLoad.v
theories/PropMove.v
theories/PropNamed.v
theories/PropNum.v
theories/PropNumExact.v
theories/PropObj.v
theories/PropObj2.v
theories/PropObj3.v
theories/PropParse.v
theories/PropRand.v
theories/PropSave.v
theories/PropSig.v
theories/PropSigStr.v
theories/PropSigText.v
theories/PropSort.v
theories/PropSortExact.v
theories/PropTable.v
theories/PropTable2.v
theories/PropTuple.v
theories/PropTuple2.v
theories/PropTupleExact.v
theories/PropUtf8.v
theories/PropUtf8Exact.v
theories/PropWord.v
theories/RandModel.v
theories/SaveModel.v
theories/SigModel.v
theories/SigStrModel.v
theories/SigText.v
theories/Sim.v
theories/SimBase.v
theories/SimCall.v
theories/SimOp.v
theories/SimStep.v
theories/SimTop.v
theories/SortModel.v
theories/SortProofs.v
theories/SrcSpec.v
theories/SyntaxCall.v
theories/SyntaxExpr.v
theories/SyntaxLex.v
theories/SyntaxLick.v
theories/SyntaxLit.v
theories/SyntaxMain.v
theories/SyntaxModel.v
theories/SyntaxSig.v
theories/SyntaxTerm.v
theories/TableModel.v
theories/TableProofs.v
theories/TextSpec.v
theories/Toy.v
theories/TupleModel.v
theories/TupleProofs.v
theories/Utf8Model.v
theories/Utf8Proofs.v
theories/Utf8Spec.v
theories/VmModel.v
theories/VmMono.v
theories/WordModel.v
theories/WordProofs.v
theories/X86Model.v
