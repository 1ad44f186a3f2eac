-Q theories Verif

theories/Enc.v
theories/EncSpec.v
theories/BitLemmas.v
theories/EncProofs.v
theories/EncProps.v
theories/PropEnc.v
theories/PRegSet.v
theories/PRegSetSpec.v
theories/PRegSetProofs.v
theories/PropPRegSet.v
theories/Slice.v
theories/SliceProofs.v
theories/Moves.v
theories/MovesSpec.v
theories/MovesProofs.v
theories/MovesProofs2.v
theories/RedundantMoves.v
theories/RedundantMovesSpec.v
theories/RedundantMovesProofs.v
theories/PropMoves.v
theories/Func.v
theories/Output.v
theories/OutputSpec.v
theories/OutputProofs.v
theories/PropOutput.v
theories/Checker.v
theories/CheckerSpec.v
theories/CheckerProofs.v
theories/CheckerFix.v
theories/CheckerSound.v
theories/CheckerSound2.v
theories/PropChecker.v
theories/GraphSpec.v
theories/Postorder.v
theories/PostorderProofs.v
theories/Domtree.v
theories/DomtreeProofs.v
theories/Cfg.v
theories/CfgSpec.v
theories/CfgProofs.v
theories/Ssa.v
theories/SsaSpec.v
theories/SsaProofs.v
theories/PropCfg.v
theories/IndexSet.v
theories/IndexSetSpec.v
theories/IndexSetProofs.v
theories/PropIndexSet.v
theories/Ring.v
theories/VRegSet.v
theories/VRegSetSpec.v
theories/VRegSetProofs.v
theories/PropVRegSet.v
theories/Lru.v
theories/LruSpec.v
theories/LruProofs.v
theories/PropLru.v
theories/FastIter.v
theories/PropFastIter.v
theories/Requirement.v
theories/RequirementSpec.v
theories/PropRequirement.v
theories/RegTraversal.v
theories/RegTraversalSpec.v
theories/RegTraversalProofs.v
theories/PropRegTraversal.v
theories/Keys.v
theories/KeysSpec.v
theories/PropKeys.v
theories/Ranges.v
theories/RangesSpec.v
theories/PropRanges.v
theories/Vecs.v
theories/Spill.v
theories/SpillSpec.v
theories/SpillProofs.v
theories/PropSpill.v
theories/SpillSets.v
theories/PropSpillSets.v
theories/Ion.v
theories/PRegs.v
theories/PRegsSpec.v
theories/PRegsProofs.v
theories/PropPRegs.v
theories/Process.v
theories/ProcessSpec.v
theories/ProcessInv.v
theories/CutsSpec.v
theories/Refine.v
theories/ProcessSplit.v
theories/SmbParts.v
theories/ProcessMin.v
theories/ProcessStep.v
theories/ProcessRound.v
theories/ProcessLoop.v
theories/ProcessEnd.v
theories/PropProcess.v
theories/PropCuts.v
theories/ClassFrame.v
theories/Classes.v
theories/ClassLoop.v
theories/PropClasses.v
theories/SpillRegsSpec.v
theories/Homed.v
theories/SpillRegs.v
theories/SpillRegsProofs.v
theories/PropSpillRegs.v
theories/LiveRangesFlags.v
theories/Start.v
theories/AfterLoop.v
theories/Merge.v
theories/MergeSpec.v
theories/MergeLists.v
theories/MergeProofs.v
theories/MergeBundles.v
theories/MergeAll.v
theories/PropMerge.v
theories/Liveness.v
theories/LivenessSpec.v
theories/LivenessProofs.v
theories/LivenessLoop.v
theories/PropLiveness.v
theories/LiveRanges.v
theories/LiveRangesSpec.v
theories/LiveRangesTable.v
theories/LiveRangesBlock.v
theories/LiveRangesOps.v
theories/LiveRangesInst.v
theories/LiveRangesBuild.v
theories/LiveRangesAll.v
theories/LiveRangesFinal.v
theories/PropLiveRanges.v
theories/MultiFixed.v
theories/MultiFixedSpec.v
theories/MultiFixedProofs.v
theories/MultiFixedAll.v
theories/MultiFixedReady.v
theories/MultiFixedMoves.v
theories/MultiFixedFunc.v
theories/MultiFixedValues.v
theories/PropMultiFixed.v
theories/ResolveMoves.v
theories/ResolveMovesSpec.v
theories/ResolveMovesProofs.v
theories/ResolveMovesClass.v
theories/ResolveMovesGroup.v
theories/ResolveMovesLoop.v
theories/PropResolveMoves.v
theories/Serialize.v
theories/PropSerialize.v
theories/DebugLoc.v
theories/PropDebugLoc.v
theories/Context.v
theories/PropContext.v
theories/PropStart.v
theories/Fastalloc.v
theories/FastallocSpec.v
theories/FastBase.v
theories/FastInst.v
theories/FastOps.v
theories/FastStart.v
theories/FastFin.v
theories/FastBranch.v
theories/FastEdge.v
theories/FastReload.v
theories/FastBlock.v
theories/FastSim.v
theories/FastRun.v
theories/FastProg.v
theories/FastProg2.v
theories/FastProg3.v
theories/FastProg4.v
theories/FastProg5.v
theories/FastProg6.v
theories/FastProg7.v
theories/FastProg8.v
theories/FastProgSpec.v
theories/FastProgRun.v
theories/PropFastProg.v
theories/FastMono.v
theories/PropFastMono.v
theories/PropFastalloc.v
theories/Apply.v
theories/ApplySpec.v
theories/ApplyDesc.v
theories/ApplyMoves.v
theories/ApplyStage.v
theories/ApplySim.v
theories/ApplyScan.v
theories/ApplyVregs.v
theories/ApplyAll.v
theories/PropApply.v
theories/IonRun.v
theories/IonSpec.v
theories/IonSlots.v
theories/IonPipe.v
theories/OperSpec.v
theories/IonTable.v
theories/IonGiven.v
theories/IonFunc.v
theories/PropIonRun.v
theories/PropIonFunc.v
theories/PropOper.v
theories/CheckerCompleteSpec.v
theories/CheckerComplete.v
theories/CheckerComplete2.v
theories/PropCheckerComplete.v
theories/Accept.v
theories/PropAccept.v
theories/RoomSpec.v
theories/NoRoom.v
theories/PropRoom.v
theories/Top.v
theories/TopSpec.v
theories/TopProofs.v
theories/TopRun.v
theories/PropTop.v
theories/WideSpec.v
theories/WideWords.v
theories/WideMoves.v
theories/IonWide.v
theories/PropWide.v
theories/FastWide.v
theories/PropFastWide.v
theories/DebugRun.v
theories/DebugRunSpec.v
theories/ApplyTrace.v
theories/PropDebugRun.v
theories/IonMono.v
theories/PropBuilds.v
