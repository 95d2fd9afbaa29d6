-Q theories Verif
theories/Base.v
theories/Event.v
theories/Watchpoint.v
theories/WatchpointFacts.v
theories/Paths.v
theories/PathsFacts.v
theories/Spec.v
theories/BasicsFacts.v
theories/Prop_Basics.v
theories/Loop.v
theories/LoopFacts.v
theories/Node.v
theories/NodeFacts.v
theories/NonRec.v
theories/Ex_NonRec.v
theories/Ex_Rec.v
theories/Ex_Units.v
theories/SpecTree.v
theories/WalkFacts.v
theories/RootFacts.v
theories/Prop_Node.v
theories/NonRecWp.v
theories/SpecOS.v
theories/SpecNonRec.v
theories/NonRecFacts.v
theories/NonRecOps.v
theories/NonRecReg.v
theories/NonRecStep.v
theories/NonRecDisp.v
theories/SpecNonRecOS.v
theories/NonRecOS.v
theories/NonRecStop.v
theories/NonRecCov.v
theories/NonRecRun.v
theories/Prop_NonRec.v
theories/Clean.v
theories/SpecClean.v
theories/CleanFacts.v
theories/Prop_Clean.v
theories/NonRecFwd.v
theories/Prop_Fwd.v
theories/Inotify.v
theories/SpecInotify.v
theories/InotifyFacts.v
theories/InotifyTab.v
theories/Prop_Inotify.v
theories/InotifyConc.v
theories/Prop_InotifyConc.v
theories/Prop_Linux.v
theories/Rec.v
theories/SpecRec.v
theories/RecFacts.v
theories/RecReg.v
theories/RecStop.v
theories/RecDisp.v
theories/RecStep.v
theories/RecTidy.v
theories/RecCopy.v
theories/RecOS.v
theories/RecOrder.v
theories/RecOSStop.v
theories/RecWatches.v
theories/RecMask.v
theories/RecRun.v
theories/RecORun.v
theories/Prop_Rec.v
theories/SpecStopNil.v
theories/StopNil.v
theories/RecStopNil.v
theories/Prop_StopNil.v
theories/Prop_RecOS.v
theories/Fsev.v
theories/SpecFsev.v
theories/FsevFacts.v
theories/Prop_Fsev.v
theories/Readdcw.v
theories/SpecReaddcw.v
theories/ReaddcwFacts.v
theories/ReaddcwLoop.v
theories/ReaddcwRun.v
theories/ReaddcwLife.v
theories/Prop_Readdcw.v
theories/ReaddcwClose.v
theories/SpecReaddcwClose.v
theories/ReaddcwCloseFacts.v
theories/ReaddcwCloseFrozen.v
theories/Prop_ReaddcwClose.v
theories/Trigger.v
theories/SpecTrigger.v
theories/TriggerFacts.v
theories/TriggerTab.v
theories/TriggerRun.v
theories/TriggerRoles.v
theories/TriggerScan.v
theories/TriggerClose.v
theories/TriggerEx.v
theories/Prop_Trigger.v
theories/SpecTriggerFds.v
theories/TriggerFds.v
theories/TriggerSent.v
theories/Prop_TriggerFds.v
theories/SpecTriggerNil.v
theories/Prop_TriggerNil.v
theories/TreeConc.v
theories/SpecTreeConc.v
theories/TreeConcFacts.v
theories/Prop_TreeConc.v
theories/Api.v
theories/SpecApi.v
theories/ApiFacts.v
theories/Prop_Api.v
theories/EventString.v
theories/Prop_String.v
theories/ReaddcwBuf.v
theories/SpecReaddcwBuf.v
theories/Prop_ReaddcwBuf.v
theories/SpecMac.v
theories/Prop_Mac.v
theories/MacConc.v
theories/SpecMacConc.v
theories/MacConcFacts.v
theories/Prop_MacConc.v
theories/SpecNrApi.v
theories/NrApiFacts.v
theories/SpecLinuxApi.v
theories/Prop_LinuxApi.v
theories/Prop_LinuxBack.v
theories/SpecWin.v
theories/Prop_Win.v
theories/SpecKq.v
theories/KqFacts.v
theories/Prop_Kq.v
theories/SpecStub.v
theories/Prop_Stub.v
theories/SpecMacApi.v
theories/Prop_MacApi.v
theories/SpecKqApi.v
theories/Prop_KqApi.v
theories/EventSys.v
theories/SpecSys.v
theories/Prop_Sys.v
theories/FenGen.v
theories/FenMem.v
theories/SpecFen.v
theories/FenFacts.v
theories/Prop_Fen.v
theories/WinPath.v
theories/SpecWinPath.v
theories/WinPathFacts.v
theories/Prop_WinPath.v
theories/WinApi.v
theories/SpecWinApi.v
theories/Prop_WinApi.v
theories/MacClose.v
theories/SpecMacClose.v
theories/MacCloseFacts.v
theories/Prop_MacClose.v
theories/TriggerClean.v
theories/SpecTriggerClean.v
theories/TriggerCleanFacts.v
theories/Prop_TriggerClean.v
theories/SpecLaws.v
theories/LawsFacts.v
theories/Prop_Laws.v
theories/RecLawsFacts.v
theories/Prop_LawsMac.v
theories/InotifyFds.v
theories/SpecInotifyFds.v
theories/Prop_InotifyFds.v
theories/TriggerInit.v
theories/SpecTriggerInit.v
theories/Prop_TriggerInit.v
theories/SpecTreeDeliver.v
theories/TreeDeliverFacts.v
theories/Prop_TreeDeliver.v
theories/InotifyPipe.v
theories/SpecInotifyPipe.v
theories/InotifyPipeFacts.v
theories/Prop_InotifyPipe.v
theories/NonRecBetween.v
theories/LinuxConc.v
theories/SpecLinuxConc.v
theories/LinuxConcFacts.v
theories/Prop_LinuxConc.v
theories/KqMon.v
theories/KqMonFacts.v
theories/KqCreate.v
theories/KqGone.v
theories/Prop_KqMon.v
theories/BsdConc.v
theories/BsdConcFacts.v
theories/Prop_BsdConc.v
theories/BsdGoneEx.v
theories/TreeClose.v
theories/Prop_TreeClose.v
theories/RdTreeClose.v
theories/Prop_RdTreeClose.v
