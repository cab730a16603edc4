-Q theories Verif
theories/Base/Int32.v
theories/Base/Mem.v
theories/Base/MemProofs.v
theories/Base/Os.v
theories/Base/Bits.v
theories/Ir/Ph2.v
theories/Ir/Regs.v
theories/Ir/Ph2Sem.v
theories/Ir/Layout.v
theories/Ir/ProgUtil.v
theories/Rv/RvISA.v
theories/Rv/RvEnc.v
theories/Rv/RvEncProofs.v
theories/Rv/RvGen.v
theories/Rv/RvExec.v
theories/Rv/RvOps.v
theories/Rv/RvSoft.v
theories/Rv/RvEmit.v
theories/Rv/RvSim.v
theories/Rv/RvProg.v
theories/Rv/RvInsn.v
theories/Properties/LayoutSpec.v
theories/Properties/RvProps.v
theories/Properties/RvWhole.v
theories/Arm/ArmISA.v
theories/Arm/ArmEnc.v
theories/Arm/ArmEncProofs.v
theories/Arm/ArmGen.v
theories/Arm/ArmExec.v
theories/Arm/ArmOps.v
theories/Arm/ArmSoft.v
theories/Arm/ArmEmit.v
theories/Arm/ArmSim.v
theories/Arm/ArmProg.v
theories/Arm/ArmInsn.v
theories/Properties/ArmProps.v
theories/Properties/ArmWhole.v
theories/Properties/Targets.v
theories/Opt/Peephole.v
theories/Opt/PeepholeProofs.v
theories/Properties/PeepholeProps.v
theories/Out/Elf.v
theories/Properties/ElfProps.v
theories/Data/Hashmap.v
theories/Properties/HashmapProps.v
theories/Data/Arena.v
theories/Properties/ArenaProps.v
theories/Data/SourceBuf.v
theories/Properties/SourceProps.v
theories/Data/Names.v
theories/Properties/NamesProps.v
theories/Lib/CMem.v
theories/Lib/LibcString.v
theories/Properties/LibcStringProps.v
theories/Lib/LibcFormat.v
theories/Lib/FormatSpec.v
theories/Lib/FormatProofs.v
theories/Lib/FormatProofs2.v
theories/Lib/FormatProofs3.v
theories/Properties/LibcFormatProps.v
theories/Lib/LibcMalloc.v
theories/Lib/MallocProofs.v
theories/Lib/MallocProofs2.v
theories/Lib/MallocProofs3.v
theories/Lib/MallocProofs4.v
theories/Lib/MallocProofs5.v
theories/Properties/LibcMallocProps.v
theories/Front/Lexer.v
theories/Front/LexSpec.v
theories/Front/LexProofs.v
theories/Front/LexProofs2.v
theories/Properties/LexerProps.v
theories/Front/Numeric.v
theories/Properties/NumericProps.v
theories/Front/CExpr.v
theories/Front/Chain.v
theories/Front/Parse.v
theories/Front/GlobalInit.v
theories/Front/GlobalInitProofs.v
theories/Front/Preproc.v
theories/Front/PreprocProofs.v
theories/Properties/ConstExprProps.v
theories/Tool/Driver.v
theories/Tool/Inliner.v
theories/Properties/DriverProps.v
theories/Properties/InlinerProps.v
theories/Front/Decls.v
theories/Properties/DeclProps.v
theories/Mid/Cfg.v
theories/Mid/Graph.v
theories/Mid/CfgProofs.v
theories/Mid/Dom.v
theories/Mid/DomProofs.v
theories/Mid/OrderProofs.v
theories/Mid/DomOrder.v
theories/Properties/CfgProps.v
theories/Properties/DomProps.v
theories/Mid/Insn.v
theories/Mid/Live.v
theories/Mid/LiveSpec.v
theories/Mid/LiveProofs.v
theories/Properties/LiveProps.v
theories/Mid/Edges.v
theories/Mid/EdgesSpec.v
theories/Mid/EdgesProofs.v
theories/Mid/Dce.v
theories/Mid/DceSpec.v
theories/Mid/DceProofs.v
theories/Mid/DceSweep.v
theories/Mid/DceGraph.v
theories/Mid/DceSim.v
theories/Mid/DceFacts.v
theories/Mid/DceTotal.v
theories/Properties/DceProps.v
theories/Mid/Fold.v
theories/Mid/FoldSpec.v
theories/Mid/FoldProofs.v
theories/Mid/FoldSim.v
theories/Properties/FoldProps.v
theories/Mid/Cse.v
theories/Mid/CseSpec.v
theories/Mid/CseStep.v
theories/Mid/CseForm.v
theories/Mid/CseLoop.v
theories/Properties/CseProps.v
theories/Mid/Alloc.v
theories/Mid/AllocSpec.v
theories/Mid/AllocStatic.v
theories/Mid/AllocInv.v
theories/Mid/AllocFunc.v
theories/Mid/AllocFrame.v
theories/Mid/AllocRoom.v
theories/Properties/AllocProps.v
theories/Properties/AllocExamples.v
theories/Front/ExprParse.v
theories/Front/ExprUnfold.v
theories/Front/ExprSpec.v
theories/Front/ExprRun.v
theories/Front/ExprPieces.v
theories/Front/ExprGroups.v
theories/Front/ExprEval.v
theories/Properties/ExprProps.v
theories/Front/StmtSpec.v
theories/Front/StmtParse.v
theories/Front/StmtPred.v
theories/Front/StackKeep.v
theories/Front/StmtRun.v
theories/Front/StmtEval.v
theories/Front/StackKeepStmt.v
theories/Front/StmtExec.v
theories/Front/CodeExec.v
theories/Properties/StmtProps.v
theories/Properties/StmtRefuted.v
theories/Mid/Ssa.v
theories/Mid/SsaSpec.v
theories/Mid/SsaTree.v
theories/Mid/SsaRename.v
theories/Mid/SsaWalk.v
theories/Mid/SsaSim.v
theories/Mid/SsaForm.v
theories/Mid/SsaOnce.v
theories/Mid/SsaReach.v
theories/Front/ParseShape.v
theories/Front/StmtShape.v
theories/Front/ReachShape.v
theories/Mid/SsaCheck.v
theories/Mid/SrunsDet.v
theories/Properties/SsaProps.v
theories/Properties/SsaFormProps.v
theories/Properties/SsaSourceProps.v
theories/Properties/ReachProps.v
theories/Lib/LibcFile.v
theories/Properties/FileProps.v
theories/Data/ErrorMsg.v
theories/Properties/ErrorProps.v
theories/Front/SwitchSpec.v
theories/Front/SwitchParse.v
theories/Front/SwitchEval.v
theories/Properties/SwitchProps.v
