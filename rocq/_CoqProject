-Q theories Verif

theories/Base.v
theories/NumModel.v
theories/NumSpec.v
theories/NumProofs.v
theories/NumProps.v
theories/DblSpec.v
theories/DblProofs.v
theories/DblRound.v
theories/DblArith.v
theories/DblSqrt.v
theories/DblProps.v
theories/FltModel.v
theories/FltSpec.v
theories/FltProofs.v
theories/FltOps.v
theories/FltRoot.v
theories/FltProps.v
theories/CmpSpec.v
theories/CmpProofs.v
theories/CmpProps.v
theories/DecModel.v
theories/DecSpec.v
theories/DecProofs.v
theories/DecProps.v
theories/WfSpec.v
theories/WfProofs.v
theories/WfProps.v
theories/WordProofs.v
theories/WordProps.v
theories/ArrModel.v
theories/ArrSpec.v
theories/ArrProofs.v
theories/ArrProps.v
theories/LoopModel.v
theories/LoopSpec.v
theories/LoopProofs.v
theories/LoopProps.v
theories/FldModel.v
theories/FldSpec.v
theories/FldProofs.v
theories/FldProps.v
theories/LkpModel.v
theories/LkpSpec.v
theories/LkpProofs.v
theories/LkpProps.v
theories/TxtModel.v
theories/TxtSpec.v
theories/TxtProofs.v
theories/TxtProps.v
theories/HeapModel.v
theories/HeapSpec.v
theories/HeapProofs.v
theories/HeapProps.v
theories/ArgModel.v
theories/ArgSpec.v
theories/ArgProofs.v
theories/ArgProps.v
theories/LexModel.v
theories/LexSpec.v
theories/LexProofs.v
theories/LexProps.v
theories/ParseModel.v
theories/ParseSpec.v
theories/ParseProofs.v
theories/ParseProps.v
theories/FrameModel.v
theories/FrameSpec.v
theories/FrameProofs.v
theories/FrameProps.v
theories/BcModel.v
theories/BcInterp.v
theories/BcSpec.v
theories/BcTab.v
theories/BcCode.v
theories/BcSim.v
theories/BcEval.v
theories/BcMono.v
theories/BcAdapt.v
theories/BcScope.v
theories/BcEmit.v
theories/BcInl.v
theories/BcJump.v
theories/BcRep.v
theories/BcGen.v
theories/BcExpr.v
theories/BcMsg.v
theories/BcBlk.v
theories/BcMeth.v
theories/BcRun.v
theories/BcNest.v
theories/BcHeight.v
theories/BcVars.v
theories/BcLex.v
theories/BcProps.v
theories/NtxModel.v
theories/NtxSpec.v
theories/NtxProofs.v
theories/NtxProps.v
theories/VmModel.v
theories/VmSpec.v
theories/VmRel.v
theories/VmInv.v
theories/VmNlr.v
theories/VmProps.v
theories/BcCatch.v
theories/VmCode.v
theories/VmBc.v
theories/VmBcProps.v
theories/BcTriv.v
theories/VmTriv.v
theories/VmTrivRun.v
theories/VmTrivProps.v
theories/AstModel.v
theories/AstSpec.v
theories/AstNode.v
theories/AstMerge.v
theories/AstGen.v
theories/AstRun.v
theories/AstSame.v
theories/AstProps.v
theories/AstCatch.v
theories/AstVm.v
theories/AstVmRel.v
theories/AstVmNlr.v
theories/AstVmProps.v
theories/AstVmCare.v
theories/AstVmBoth.v
theories/AstVmBothProps.v
theories/CtlModel.v
theories/CtlSpec.v
theories/CtlSim.v
theories/CtlRun.v
theories/CtlCall.v
theories/CtlLoop.v
theories/CtlProps.v
theories/ClsModel.v
theories/ClsSpec.v
theories/ClsGrow.v
theories/ClsEnd.v
theories/ClsHier.v
theories/ClsDecl.v
theories/ClsStart.v
theories/ClsBoot.v
theories/ClsSuper.v
theories/ClsProps.v
theories/PutModel.v
theories/PutProps.v
theories/ReflModel.v
theories/ReflSpec.v
theories/ReflProofs.v
theories/ReflProps.v
theories/CondModel.v
theories/CondProps.v
theories/ShellModel.v
theories/ShellSpec.v
theories/ShellProps.v
theories/PrmModel.v
theories/PrmSpec.v
theories/PrmProps.v
theories/ArityModel.v
theories/AritySpec.v
theories/ArityProps.v
theories/ErrModel.v
theories/ErrSpec.v
theories/ErrProofs.v
theories/ErrProps.v
theories/RwModel.v
theories/RwSpec.v
theories/RwProofs.v
theories/RwExec.v
theories/RwBuild.v
theories/RwProps.v
theories/DisModel.v
theories/DisSpec.v
theories/DisText.v
theories/DisProofs.v
theories/DisBack.v
theories/DisCode.v
theories/DisProps.v
theories/IoModel.v
theories/IoSpec.v
theories/IoProofs.v
theories/IoProps.v
theories/IdModel.v
theories/IdSpec.v
theories/IdProofs.v
theories/IdProps.v
theories/ExitModel.v
theories/ExitSpec.v
theories/ExitProofs.v
theories/ExitProps.v
theories/AcceptSpec.v
theories/AcceptProofs.v
theories/AcceptProps.v
theories/ModeSpec.v
theories/ModeProofs.v
theories/ModeProps.v
