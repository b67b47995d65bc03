-Q theories Verif
theories/M_Base.v
theories/M_Array.v
theories/SpecSeq.v
theories/L_Array.v
theories/P_Array.v
theories/M_Ptrset.v
theories/SpecSet.v
theories/L_Ptrset.v
theories/P_Ptrset.v
theories/M_Ir.v
theories/M_Edit.v
theories/M_EditHist.v
theories/SpecIr.v
theories/SpecEdit.v
theories/L_Edit.v
theories/L_Uses.v
theories/L_Hist.v
theories/P_Edit.v
theories/SpecWord.v
theories/SpecIsa.v
theories/M_Norm.v
theories/SpecFlat.v
theories/SpecNormCond.v
theories/L_Word.v
theories/SpecProg.v
theories/L_Norm.v
theories/L_Trans.v
theories/L_Prog.v
theories/SpecOut.v
theories/L_Out.v
theories/P_Norm.v
theories/M_Run.v
theories/SpecRun.v
theories/L_Run.v
theories/P_Run.v
theories/M_Opts.v
theories/SpecOpts.v
theories/L_Opts.v
theories/M_Log.v
theories/SpecLog.v
theories/L_Log.v
theories/P_Opts.v
theories/SpecCtor.v
theories/L_Ctor.v
theories/P_Ctor.v
theories/M_Layout.v
theories/SpecLayout.v
theories/L_Layout.v
theories/L_LayoutEx.v
theories/P_Layout.v
theories/M_GenBB.v
theories/SpecCfg.v
theories/L_GenBB.v
theories/L_GenBBEx.v
theories/L_Wide.v
theories/P_GenBB.v
theories/M_Lift.v
theories/SpecSsa.v
theories/SpecLift.v
theories/L_Lift.v
theories/L_LiftRead.v
theories/L_LiftFill.v
theories/L_LiftDfs.v
theories/L_LiftSim.v
theories/L_LiftRun.v
theories/L_LiftMain.v
theories/L_LiftSafe.v
theories/L_LiftTerm.v
theories/L_LiftAcc.v
theories/L_LiftProp.v
theories/SpecLiftOne.v
theories/L_LiftOne.v
theories/L_LiftEx.v
theories/L_LiftWit.v
theories/P_Lift.v
theories/M_Ra.v
theories/SpecRa.v
theories/L_RaGraph.v
theories/L_RaLive.v
theories/L_RaMain.v
theories/L_RaProp.v
theories/L_RaCheck.v
theories/L_RaWit.v
theories/P_Ra.v
theories/M_Pass.v
theories/M_Ecall.v
theories/M_Check.v
theories/SpecGs.v
theories/L_Gs.v
theories/SpecPass.v
theories/L_Sim.v
theories/L_PassDce.v
theories/L_PassAlloc.v
theories/L_PassThrow.v
theories/SpecCheck.v
theories/L_Check.v
theories/L_PassCompact.v
theories/L_PassWit.v
theories/P_Pass.v
theories/SpecStrict.v
theories/L_PassPhi.v
theories/L_PhiRun.v
theories/L_PhiPass.v
theories/L_LiftStrict.v
theories/L_Front.v
theories/L_PhiWit.v
theories/P_Phi.v
theories/SpecInstr.v
theories/L_Ins.v
theories/L_Div.v
theories/L_Count.v
theories/L_CountRun.v
theories/L_InstrWit.v
theories/P_Instr.v
theories/SpecWeave.v
theories/L_Weave.v
theories/L_WeaveDiv.v
theories/L_WeaveCount.v
theories/L_WeaveWit.v
theories/P_Weave.v
theories/SpecJump.v
theories/L_Jump.v
theories/L_JumpWit.v
theories/P_Jump.v
theories/SpecShadow.v
theories/L_Shadow.v
theories/L_ShadowRun.v
theories/L_ShadowWit.v
theories/P_Shadow.v
theories/SpecFrame.v
theories/L_Frame.v
theories/L_FrameWit.v
theories/P_Frame.v
theories/SpecShift.v
theories/L_Shift.v
theories/L_ShiftWit.v
theories/P_Shift.v
theories/SpecVirt.v
theories/L_Virt.v
theories/L_SsaOut.v
theories/L_VirtSame.v
theories/L_VirtCheck.v
theories/L_VirtWit.v
theories/P_Virt.v
theories/SpecPrep.v
theories/L_Prep.v
theories/L_PrepStr.v
theories/L_PrepInv.v
theories/L_PrepCall.v
theories/L_PrepThis.v
theories/L_PrepArg.v
theories/L_PrepConst.v
theories/L_PrepFlow.v
theories/L_PrepAll.v
theories/L_PrepEnd.v
theories/L_PrepInit.v
theories/L_PrepReady.v
theories/L_PrepSsa.v
theories/L_PrepMain.v
theories/L_PrepAsg.v
theories/L_LiftShape.v
theories/L_LiftLay.v
theories/L_Chain.v
theories/L_Back.v
theories/L_Whole.v
theories/L_End.v
theories/L_EndWit.v
theories/P_Prep.v
theories/SpecSpill.v
theories/SpecGuard.v
theories/L_Guard.v
theories/L_SpillNew.v
theories/L_SpillStr.v
theories/L_SpillMem.v
theories/L_SpillSim.v
theories/L_SpillKeep.v
theories/L_SpillVar.v
theories/L_SpillAll.v
theories/L_SpillPrep.v
theories/L_SpillWit.v
theories/P_Spill.v
theories/SpecRound.v
theories/L_Round.v
theories/L_RoundSpill.v
theories/L_RoundPass.v
theories/L_RoundPrep.v
theories/L_RoundCode.v
theories/L_RoundMain.v
theories/L_Skin.v
theories/L_SpillEnd.v
theories/L_Prune.v
theories/L_RoundWit.v
theories/P_Round.v
theories/M_Pipe.v
theories/L_Pipe.v
theories/L_PipeWit.v
theories/P_Pipe.v
theories/L_Ecall.v
theories/L_EcallWit.v
theories/P_Ecall.v
theories/SpecAccept.v
theories/L_Accept.v
theories/L_AcceptLift.v
theories/L_AcceptPipe.v
theories/L_AcceptWit.v
theories/P_Accept.v
theories/SpecInit.v
theories/L_InitFwd.v
theories/L_InitProg.v
theories/L_InitBwd.v
theories/L_InitWit.v
theories/P_Init.v
theories/M_Tool.v
theories/SpecTool.v
theories/L_Tool.v
theories/L_ToolCli.v
theories/P_Tool.v
theories/M_Release.v
theories/SpecRelease.v
theories/L_Release.v
theories/L_ReleaseOut.v
theories/L_ReleaseWit.v
theories/P_Release.v
theories/M_Disasm.v
theories/SpecDisasm.v
theories/L_Disasm.v
theories/L_DisasmList.v
theories/L_DisasmText.v
theories/P_Disasm.v
theories/M_Printk.v
theories/SpecPrintk.v
theories/L_Printk.v
theories/P_Printk.v
theories/M_Tag.v
theories/SpecTag.v
theories/L_Tag.v
theories/P_Tag.v
theories/L_LiftCfg.v
theories/P_LiftCfg.v
theories/SpecChecked.v
theories/L_LiftSame.v
theories/P_LiftSame.v
theories/L_LiftJump.v
theories/P_LiftJump.v
theories/L_LiftMsan.v
theories/P_LiftMsan.v
theories/L_LiftThrow.v
theories/P_LiftThrow.v
theories/L_LiftPrintk.v
theories/P_LiftPrintk.v
