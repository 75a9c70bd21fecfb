-Q theories Verif

theories/Base.v
theories/Words.v
theories/Flag.v
theories/Bia.v
theories/Node.v
theories/Spec.v
theories/WordsP.v
theories/BiaP.v
theories/SpecP.v
theories/FlagP.v
theories/Inv.v
theories/NodeP.v
theories/InsertP.v
theories/TrieP.v
theories/Api.v
theories/ApiP.v
theories/Trans.v
theories/Transform.v
theories/LoopP.v
theories/SpecT.v
theories/TransformP.v
theories/TransApiP.v
theories/Reach.v
theories/ReachP.v
theories/MapP.v
theories/TransMapP.v
theories/JointMapP.v
theories/Joint.v
theories/SpecJ.v
theories/JoinP.v
theories/JointP.v
theories/JointMP.v
theories/JointLeafP.v
theories/JointNodeP.v
theories/JointApiP.v
theories/JointT.v
theories/JointTLeafP.v
theories/JointTP.v
theories/JointTApiP.v
theories/JointTMapP.v
theories/Sets.v
theories/Profile.v
theories/Hist.v
theories/HistP.v
theories/SpecS.v
theories/SetHist.v
theories/SetP.v
theories/StratP.v
theories/KeepP.v
theories/KeepMP.v
theories/SetStratP.v
theories/Versions.v
theories/VersionsP.v
theories/Cost.v
theories/CostP.v
theories/Depth.v
theories/Heap.v
theories/SpecH.v
theories/HeapP.v
theories/HeapOpP.v
theories/HeapHist.v
theories/HeapHistP.v
theories/HeapCostP.v
theories/HeapPtrP.v
theories/HeapPropP.v
theories/WordLaws.v
theories/PropWords.v
theories/Ex.v
theories/PropMap.v
theories/PropHist.v
theories/PropTransform.v
theories/PropJoint.v
theories/PropJointT.v
theories/PropSet.v
theories/PropStrategy.v
theories/PropKeep.v
theories/PropVersions.v
theories/PropHeap.v
theories/Stuck.v
theories/HangP.v
theories/PropStuck.v
theories/Weak.v
theories/WeakP.v
theories/WeakOpP.v
theories/WeakTransP.v
theories/WeakJointP.v
theories/WeakLeafP.v
theories/WeakMapP.v
theories/Built.v
theories/BuiltP.v
theories/RedP.v
theories/PropWeak.v
theories/HeapBulk.v
theories/HeapBulkP.v
theories/HeapJointP.v
theories/HeapLeafP.v
theories/HeapLeafTP.v
theories/HeapRun.v
theories/HeapRunP.v
theories/HeapPlaceP.v
theories/PropBulk.v
theories/SpecB.v
theories/HeapBoundP.v
theories/HeapBoundJP.v
theories/HeapBoundLP.v
theories/HeapBoundFP.v
theories/HeapBoundAP.v
theories/PropBound.v
theories/HeapStayP.v
theories/HeapStayAP.v
theories/HeapStayJP.v
theories/HeapStayJAP.v
theories/PropStay.v
theories/Raw.v
theories/RawP.v
theories/PropRaw.v
theories/Rc.v
theories/RcP.v
theories/RcHistP.v
theories/PropRc.v
theories/Eff.v
theories/EffT.v
theories/EffP.v
theories/EffTP.v
theories/EffJ.v
theories/EffJRun.v
theories/EffJP.v
theories/EffApi.v
theories/EffMapP.v
theories/EffOrdP.v
theories/EffSumP.v
theories/PropEff.v
theories/Foot.v
theories/FootP.v
theories/PropFoot.v
theories/Arcs.v
theories/ArcsP.v
theories/ArcsRcP.v
theories/PropArcs.v
theories/Conc.v
theories/ConcP.v
theories/PropConc.v
theories/Ask.v
theories/AskRun.v
theories/SpecAsk.v
theories/AskP.v
theories/AskOpP.v
theories/AskInsP.v
theories/AskCostP.v
theories/AskHashP.v
theories/Misuse.v
theories/AskApiP.v
theories/PropAsk.v
theories/EffSet.v
theories/EffSetP.v
theories/PropEffSet.v
theories/Brackets.v
theories/NaturalP.v
theories/BracketP.v
theories/PropBrackets.v
theories/BracketSP.v
theories/PropBracketS.v
theories/AskT.v
theories/SpecAskT.v
theories/AskTP.v
theories/AskTTP.v
theories/AskMP.v
theories/AskTopP.v
theories/AskTRun.v
theories/AskTSumP.v
theories/PropAskT.v
theories/AskJ.v
theories/PermP.v
theories/AskJP.v
theories/AskJOneP.v
theories/AskJLeafP.v
theories/AskJMLeafP.v
theories/AskJTravP.v
theories/AskJTreeP.v
theories/SpecAskJ.v
theories/AskJTopP.v
theories/AskJPlaceP.v
theories/AskJLooseP.v
theories/AskJRun.v
theories/AskTw.v
theories/AskTwRun.v
theories/AskTwLeafP.v
theories/AskTwTravP.v
theories/SpecAskTw.v
theories/AskTwTopP.v
theories/AskTwShapeP.v
theories/AskTwPlaceP.v
theories/AskJSumP.v
theories/AskTwSumP.v
theories/PropAskJ.v
theories/PropAskTw.v
theories/AskSet.v
theories/SpecAskSet.v
theories/HandleP.v
theories/AskSetP.v
theories/AskSetJP.v
theories/AskSetCP.v
theories/AskFuteP.v
theories/AskSetRun.v
theories/PropAskSet.v
theories/Debug.v
theories/SpecDebug.v
theories/DebugP.v
theories/DebugInjP.v
theories/BiaEqP.v
theories/PropDebug.v
theories/SpecCount.v
theories/AskCountP.v
theories/AskCountLP.v
theories/AskCountTP.v
theories/AskCountAP.v
theories/AskCountSP.v
theories/PropCount.v
theories/SpecConst.v
theories/SimP.v
theories/SimLP.v
theories/SimJP.v
theories/SimTP.v
theories/SimAP.v
theories/SimBP.v
theories/PropConst.v
theories/SimHP.v
theories/SpecConstSet.v
theories/SimSP.v
theories/SimSBP.v
theories/PropConstSet.v
theories/Fnv.v
theories/FnvP.v
theories/DepthJP.v
theories/FnvMapP.v
theories/PropFnv.v
theories/I32.v
theories/I32P.v
theories/Progs.v
theories/ProgsP.v
theories/ProgsP2.v
theories/PropProgs.v
theories/FnvSetP.v
theories/PropFnvSet.v
theories/SpecLoops.v
theories/Loops.v
theories/LoopsP.v
theories/LoopsAP.v
theories/PropLoops.v
theories/SpecLaws.v
theories/Laws.v
theories/LawsP.v
theories/PropLaws.v
theories/Sides.v
theories/SidesP.v
theories/PropSides.v
theories/Lean.v
theories/LeanP.v
theories/ShapeP.v
theories/PropShape.v
theories/SpecOrder.v
theories/OrderP.v
theories/PropOrder.v
theories/GroupP.v
theories/PropGroup.v
theories/SpecMem.v
theories/TidyP.v
theories/PropTidy.v
theories/StepMemP.v
theories/PropStepMem.v
