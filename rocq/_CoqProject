-Q theories Verif
theories/Base.v
theories/BaseLemmas.v
theories/Ballot.v
theories/QuorumSpec.v
theories/BallotProofs.v
theories/P_Ballot.v
theories/BallotBox.v
theories/BallotBoxSpec.v
theories/BallotBoxProofs.v
theories/P_BallotBox.v
theories/LogEntry.v
theories/ConfMgr.v
theories/ConfMgrSpec.v
theories/ConfMgrProofs.v
theories/P_ConfMgr.v
theories/Conf.v
theories/ConfSpec.v
theories/ConfProofs.v
theories/P_Conf.v
theories/LogRef.v
theories/LogRefProofs.v
theories/MemLog.v
theories/MemLogProofs.v
theories/P_MemLog.v
theories/MetaFile.v
theories/MetaFileSpec.v
theories/MetaFileProofs.v
theories/P_MetaFile.v
theories/MetaMixed.v
theories/MetaMixedSpec.v
theories/MetaMixedProofs.v
theories/P_MetaMixed.v
theories/Fsm.v
theories/FsmSpec.v
theories/FsmProofs.v
theories/FsmProofs2.v
theories/P_Fsm.v
theories/Throttle.v
theories/ThrottleSpec.v
theories/ThrottleProofs.v
theories/P_Throttle.v
theories/Route.v
theories/RouteSpec.v
theories/RouteProofs.v
theories/P_Route.v
theories/Timer.v
theories/TimerSpec.v
theories/TimerProofs.v
theories/P_Timer.v
theories/Node.v
theories/Cluster.v
theories/ClusterSpec.v
theories/ClusterElect.v
theories/LogPrefix.v
theories/ClusterLog.v
theories/ClusterGhost.v
theories/ClusterSafe.v
theories/ClusterInv.v
theories/NodeVoteSpec.v
theories/NodeVoteProofs.v
theories/ClusterRun.v
theories/P_Cluster.v
theories/P_ClusterRefuted.v
theories/PreVote.v
theories/PreVoteSpec.v
theories/PreVoteProofs.v
theories/PreVoteProofs2.v
theories/P_PreVote.v
theories/Apply.v
theories/ApplySpec.v
theories/ApplyProofs.v
theories/P_Apply.v
theories/ReadLog.v
theories/ReadLogSpec.v
theories/P_ReadLog.v
theories/ConfCtx.v
theories/ConfCtxSpec.v
theories/ConfCtxProofs.v
theories/ConfCtxProofs2.v
theories/P_ConfCtx.v
theories/SnapExec.v
theories/SnapExecSpec.v
theories/SnapExecProofs.v
theories/P_SnapExec.v
theories/SegCodec.v
theories/Segment.v
theories/SegSpec.v
theories/SegCodecProofs.v
theories/SegProofs.v
theories/SegProofs2.v
theories/P_Segment.v
theories/SegStore.v
theories/SegStoreSpec.v
theories/SegStoreProofs.v
theories/SegStoreProofs2.v
theories/SegStoreProofs3.v
theories/SegStoreProofs4.v
theories/SegStoreProofs5.v
theories/SegStoreProofs6.v
theories/P_SegStore.v
theories/LogMgr.v
theories/LogMgrSpec.v
theories/LogMgrProofs.v
theories/LogMgrProofs2.v
theories/LogMgrProofs3.v
theories/LogMgrProofs4.v
theories/LogMgrProofs5.v
theories/LogMgrProofs6.v
theories/LogMgrProofs7.v
theories/LogMgrProofs8.v
theories/LogMgrProofs9.v
theories/LogMgrProofs10.v
theories/LogMgrExec.v
theories/P_LogMgr.v
theories/Repl.v
theories/ReplSpec.v
theories/ReplProofs.v
theories/ReplProofs2.v
theories/ReplProofs3.v
theories/ReplProofs4.v
theories/ReplProofs5.v
theories/ReplProofs6.v
theories/ReplProofs7.v
theories/ReplProofs8.v
theories/P_Repl.v
theories/SnapStore.v
theories/SnapStoreSpec.v
theories/SnapStoreProofs.v
theories/P_SnapStore.v
theories/AECache.v
theories/AECacheSpec.v
theories/AECacheProofs.v
theories/P_AECache.v
theories/Copier.v
theories/CopierSpec.v
theories/CopierProofs.v
theories/CopierProofs2.v
theories/P_Copier.v
theories/Lease.v
theories/LeaseSpec.v
theories/LeaseProofs.v
theories/LeaseProofs2.v
theories/LeaseProofs3.v
theories/LeaseProofs4.v
theories/LeaseProofs5.v
theories/LeaseProofs6.v
theories/LeaseProofs7.v
theories/P_Lease.v
theories/Reconf.v
theories/ReconfStatic.v
theories/ReconfInv.v
theories/ReconfGhost.v
theories/ReconfNode.v
theories/ReconfVote.v
theories/ReconfLead.v
theories/ReconfStage.v
theories/ReconfWin.v
theories/ReconfFollow.v
theories/ReconfSpec.v
theories/ReconfTrace.v
theories/P_Reconf.v
theories/Compact.v
theories/CompactInv.v
theories/CompactSim.v
theories/CompactFollow.v
theories/CompactSnap.v
theories/CompactInst.v
theories/CompactRel.v
theories/CompactRun.v
theories/CompactSpec.v
theories/P_Compact.v
theories/SnapCopy.v
theories/SnapCopySpec.v
theories/SnapCopyProofs.v
theories/SnapCopyRun.v
theories/SnapCopyFrame.v
theories/SnapCopyMain.v
theories/SnapCopyLive.v
theories/P_SnapCopy.v
theories/NodeMgr.v
theories/NodeMgrSpec.v
theories/NodeMgrProofs.v
theories/NodeMgrMain.v
theories/P_NodeMgr.v
theories/LeadCb.v
theories/LeadCbSpec.v
theories/LeadCbProofs.v
theories/LeadCbStep.v
theories/LeadCbStep2.v
theories/LeadCbStep3.v
theories/LeadCbMain.v
theories/LeadCbReady.v
theories/P_LeadCb.v
theories/Xfer.v
theories/XferSpec.v
theories/XferProofs.v
theories/P_Xfer.v
theories/Cli.v
theories/CliSpec.v
theories/CliProofs.v
theories/P_Cli.v
theories/KvMeta.v
theories/KvMetaSpec.v
theories/KvMetaProofs.v
theories/P_KvMeta.v
theories/SegSync.v
theories/SegSyncSpec.v
theories/SegSyncProofs.v
theories/SegSyncProofs2.v
theories/SegSyncProofs3.v
theories/SegSyncProofs4.v
theories/SegSyncProofs5.v
theories/SegSyncProofs6.v
theories/P_SegSync.v
theories/Elect.v
theories/ElectSpec.v
theories/ElectProofs.v
theories/ElectProofs2.v
theories/ElectProofs3.v
theories/ElectProofs4.v
theories/ElectProofs5.v
theories/ElectProofs6.v
theories/ElectProofs7.v
theories/P_Elect.v
theories/ReadOnly.v
theories/ReadOnlySpec.v
theories/ReadOnlyProofs.v
theories/ReadOnlyProofs2.v
theories/P_ReadOnly.v
theories/BufFile.v
theories/BufFileSpec.v
theories/BufFileProofs.v
theories/P_BufFile.v
theories/Boot.v
theories/BootSpec.v
theories/BootProofs.v
theories/P_Boot.v
theories/StepDown.v
theories/StepDownSpec.v
theories/StepDownProofs.v
theories/P_StepDown.v
theories/LeaseReset.v
theories/LeaseResetSpec.v
theories/LeaseResetProofs.v
theories/P_LeaseReset.v
theories/Gc.v
theories/GcProofs.v
theories/P_Gc.v
