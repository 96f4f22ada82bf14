-Q theories Verif
theories/Lib.v
theories/AllocModel.v
theories/AllocProofs.v
theories/PayloadModel.v
theories/PayloadSpec.v
theories/PayloadProofs.v
theories/RelocModel.v
theories/RelocProofs.v
theories/PropAlloc.v
theories/Word.v
theories/Machine.v
theories/MachineProofs.v
theories/MachineRefine.v
theories/VarModel.v
theories/VarSpec.v
theories/VarProofs.v
theories/SeqProofs.v
theories/NonSeqProofs.v
theories/VbufModel.v
theories/VbufProofs.v
theories/VbufWorld.v
theories/ExWorld.v
theories/SeqRefute.v
theories/PropVar.v
theories/WordX.v
theories/OpsModel.v
theories/OpsSpec.v
theories/OpsBase.v
theories/OpsProofs.v
theories/OpsArith.v
theories/OpsBits.v
theories/RunDec.v
theories/OpsXor.v
theories/OpsShift.v
theories/OpsCmp.v
theories/OpsFinal.v
theories/PropOps.v
theories/Dict.v
theories/BinModel.v
theories/BinProofs.v
theories/ChkModel.v
theories/ChkProofs.v
theories/BlockModel.v
theories/BlockProofs.v
theories/FlattenModel.v
theories/FlattenProofs.v
theories/NegateModel.v
theories/NegateProofs.v
theories/MpqModel.v
theories/MpqProofs.v
theories/PrpModel.v
theories/PrpProofs.v
theories/PropPure.v
theories/TblModel.v
theories/TblProofs.v
theories/TblLoad.v
theories/TblSave.v
theories/PropTbl.v
theories/PropNames.v
theories/ExTools.v
theories/FuncModel.v
theories/FuncSpec.v
theories/FuncProofs.v
theories/FuncBody.v
theories/PropFunc.v
theories/MulModel.v
theories/MulArith.v
theories/MulConst.v
theories/MulVar.v
theories/DivVar.v
theories/ShiftVar.v
theories/CalcModel.v
theories/CalcProofs.v
theories/PropMul.v
theories/ExCalc.v
theories/StruModel.v
theories/StruSpec.v
theories/StruProofs.v
theories/StruComp.v
theories/StruMain.v
theories/PropStru.v
theories/TrigModel.v
theories/TrigProofs.v
theories/PropTrig.v
theories/OnceModel.v
theories/PropOnce.v
theories/MathModel.v
theories/PropMath.v
theories/CollModel.v
theories/PropColl.v
theories/EpdModel.v
theories/PropEpd.v
theories/RandModel.v
theories/PropRand.v
theories/ParseModel.v
theories/PropParse.v
theories/ReadModel.v
theories/PropRead.v
theories/BwModel.v
theories/PropBw.v
theories/CurplModel.v
theories/PropCurpl.v
theories/InplModel.v
theories/PropInpl.v
theories/BlkModel.v
theories/PropBlk.v
theories/PropMem.v
theories/TrigoModel.v
theories/PropTrigo.v
theories/InjModel.v
theories/PropInj.v
theories/PackModel.v
theories/PropPack.v
theories/SecModel.v
theories/PropSec.v
theories/SwModel.v
theories/SwProofs.v
theories/SwTable.v
theories/SwMachine.v
theories/PropSw.v
theories/PatchModel.v
theories/PatchProofs.v
theories/PatchSem.v
theories/PropPatch.v
theories/VarrModel.v
theories/PropVarr.v
theories/PropPlace.v
theories/PropPlaceSw.v
theories/LogicModel.v
theories/LogicProofs.v
theories/LogicLeaf.v
theories/PropLogic.v
theories/CollectModel.v
theories/PropCollect.v
theories/TextModel.v
theories/PropText.v
theories/CpTextModel.v
theories/PropCpText.v
theories/StrnModel.v
theories/PropStrn.v
theories/SymExec.v
theories/LocModel.v
theories/PropLoc.v
theories/ReadGenModel.v
theories/PropReadGen.v
theories/LoopModel.v
theories/PropLoop.v
theories/MemberModel.v
theories/PropMember.v
theories/QgcModel.v
theories/PropQgc.v
theories/PlayerModel.v
theories/PropPlayer.v
theories/WireModel.v
theories/PropWire.v
theories/FixModel.v
theories/PropFix.v
theories/CpuModel.v
theories/PropCpu.v
theories/FptrModel.v
theories/PropFptr.v
theories/OnceCondModel.v
theories/PropOnceCond.v
theories/StatModel.v
theories/PropStat.v
theories/GrpModel.v
theories/PropGrp.v
theories/PnameModel.v
theories/PropPname.v
theories/SbufModel.v
theories/PropSbuf.v
theories/LineModel.v
theories/PropLine.v
theories/LmapModel.v
theories/PropLmap.v
theories/RlineModel.v
theories/PropRline.v
theories/LnotabModel.v
theories/PropLnotab.v
