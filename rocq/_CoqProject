-Q theories Verif
theories/Base.v
theories/BaseLemmas.v
theories/EvData.v
theories/EvDataProofs.v
theories/EvDataSpec.v
theories/EvDataProofs2.v
theories/Prop_EvData.v
theories/Time.v
theories/TimeProofs.v
theories/Prop_Time.v
theories/RwLock.v
theories/RwLockTable.v
theories/RwLockProofs.v
theories/RwLockInv.v
theories/RwLockUpgr.v
theories/RwLockSpec.v
theories/RwLockMain.v
theories/Prop_RwLock.v
theories/ExtShm.v
theories/ExtShmSpec.v
theories/ExtShmProofs.v
theories/ExtShmHoles.v
theories/ExtShmAlloc.v
theories/ExtShmRealloc.v
theories/SubTab.v
theories/SubTabSpec.v
theories/TabProofs.v
theories/SubTabProofs.v
theories/OperTabProofs.v
theories/OperTabAdd.v
theories/OperTabDead.v
theories/SubSys.v
theories/SubSysSpec.v
theories/SubSysProofs.v
theories/Prop_ExtShm.v
theories/Prop_SubTab.v
theories/DsLock.v
theories/DsLockSpec.v
theories/DsLockProofs.v
theories/Prop_DsLock.v
theories/ModLock.v
theories/ModLockSpec.v
theories/ModLockProofs.v
theories/Prop_ModLock.v
theories/Deps.v
theories/DepsSpec.v
theories/DepsProofs.v
theories/Prop_Deps.v
theories/ChangeEv.v
theories/ChangeEvSpec.v
theories/ChangeEvProofs.v
theories/ChangeEvRun.v
theories/Prop_ChangeEv.v
theories/Change.v
theories/ChangeSpec.v
theories/ChangeProofs.v
theories/ChangeProofs2.v
theories/ChangeProofs3.v
theories/ChangeProofs4.v
theories/Prop_Change.v
theories/Apply.v
theories/ApplySpec.v
theories/ApplyProofs.v
theories/Prop_Apply.v
theories/Edit.v
theories/EditSpec.v
theories/EditProofs.v
theories/EditOps.v
theories/EditSem.v
theories/EditMain.v
theories/EditTotal.v
theories/EditDiff.v
theories/EditMin.v
theories/EditOrder.v
theories/EditSafe.v
theories/Prop_Edit.v
theories/Nacm.v
theories/NacmSpec.v
theories/NacmPath.v
theories/NacmDecide.v
theories/NacmTree.v
theories/Prop_Nacm.v
theories/NacmConf.v
theories/Prop_NacmConf.v
theories/Xpath.v
theories/XpathSpec.v
theories/XpathProofs.v
theories/XpathSim.v
theories/Prop_Xpath.v
theories/JsonStore.v
theories/JsonSpec.v
theories/JsonProofs.v
theories/Prop_JsonStore.v
theories/NtfJson.v
theories/NtfSpec.v
theories/NtfProofs.v
theories/NtfFiles.v
theories/NtfStore.v
theories/Prop_NtfJson.v
theories/NtfBuf.v
theories/NtfBufSpec.v
theories/NtfBufProofs.v
theories/NtfBufProgress.v
theories/Prop_NtfBuf.v
theories/RunCache.v
theories/RunCacheSpec.v
theories/RunCacheProofs.v
theories/Prop_RunCache.v
theories/Rpc.v
theories/RpcSpec.v
theories/RpcProofs.v
theories/RpcStep.v
theories/RpcInv.v
theories/RpcOnce.v
theories/RpcAcc.v
theories/Prop_Rpc.v
theories/OperPush.v
theories/OperPushSpec.v
theories/OperPushArr.v
theories/OperPushProofs.v
theories/OperPushStep.v
theories/Prop_OperPush.v
theories/EditAdd.v
theories/EditAddSpec.v
theories/EditAddBase.v
theories/EditAddInv.v
theories/EditAddPres.v
theories/EditAddSem.v
theories/EditAddDel.v
theories/EditAddStep.v
theories/EditAddStep2.v
theories/EditAddMain.v
theories/EditAddAlone.v
theories/EditAddPlain.v
theories/Prop_EditAdd.v
theories/ChangeIter.v
theories/ChangeIterSpec.v
theories/ChangeIterProofs.v
theories/ChangeIterPlay.v
theories/ChangeIterShape.v
theories/ChangeIterEn.v
theories/Prop_ChangeIter.v
theories/OperReq.v
theories/OperReqSpec.v
theories/OperReqProofs.v
theories/Prop_OperReq.v
theories/OperData.v
theories/OperDataSpec.v
theories/OperDataProofs.v
theories/OperDataParts.v
theories/Prop_OperData.v
theories/CbErr.v
theories/CbErrSpec.v
theories/CbErrProofs.v
theories/Prop_CbErr.v
theories/YangPush.v
theories/YangPushSpec.v
theories/YangPushProofs.v
theories/YangPushFollow.v
theories/YangPushShape.v
theories/YangPushLoop.v
theories/YangPushInv.v
theories/Prop_YangPush.v
theories/YpNacm.v
theories/Prop_YpNacm.v
theories/SnDeliver.v
theories/SnDeliverSpec.v
theories/SnDeliverProofs.v
theories/Prop_SnDeliver.v
theories/SnPipe.v
theories/Prop_SnPipe.v
theories/SubtreeFilter.v
theories/SubtreeFilterSpec.v
theories/SubtreeFilterProofs.v
theories/Prop_SubtreeFilter.v
theories/Periodic.v
theories/Prop_Periodic.v
theories/SnLife.v
theories/Prop_SnLife.v
theories/Enabled.v
theories/EnabledSpec.v
theories/EnabledProofs.v
theories/Prop_Enabled.v
theories/Values.v
theories/ValuesSpec.v
theories/ValuesProofs.v
theories/Prop_Values.v
theories/Install.v
theories/InstallSpec.v
theories/InstallProofs.v
theories/InstallProofs2.v
theories/InstallProofs3.v
theories/Prop_Install.v
theories/Context.v
theories/ContextSpec.v
theories/ContextProofs.v
theories/Prop_Context.v
theories/DbOrder.v
theories/DbOrderSpec.v
theories/DbOrderProofs.v
theories/Prop_DbOrder.v
theories/SubStruct.v
theories/SubStructSpec.v
theories/SubStructProofs.v
theories/Prop_SubStruct.v
theories/Candidate.v
theories/CandidateSpec.v
theories/CandidateProofs.v
theories/Prop_Candidate.v
theories/DbTree.v
theories/DbTreeSpec.v
theories/DbTreeProofs.v
theories/DbTreeStore.v
theories/DbTreeLoad.v
theories/DbTreeFilter.v
theories/Prop_DbTree.v
theories/OperPoll.v
theories/OperPollSpec.v
theories/OperPollProofs.v
theories/OperPollReports.v
theories/OperPollFresh.v
theories/Prop_OperPoll.v
theories/OperPollOwned.v
theories/GetData.v
theories/GetDataSpec.v
theories/GetDataProofs.v
theories/GetDataIn.v
theories/GetDataExact.v
theories/GetDataParents.v
theories/Prop_GetData.v
theories/Update.v
theories/UpdateSpec.v
theories/UpdateProofs.v
theories/UpdateAsk.v
theories/UpdateCommit.v
theories/Prop_Update.v
theories/ConnFile.v
theories/ConnFileSpec.v
theories/ConnFileProofs.v
theories/ConnFileMore.v
theories/Prop_ConnFile.v
theories/Rotate.v
theories/RotateSpec.v
theories/RotateStr.v
theories/RotateProofs.v
theories/RotateKeep.v
theories/Prop_Rotate.v
theories/Access.v
theories/AccessSpec.v
theories/AccessProofs.v
theories/AccessMore.v
theories/Prop_Access.v
theories/ConfNotif.v
theories/ConfNotifSpec.v
theories/ConfNotifProofs.v
theories/Prop_ConfNotif.v
theories/OperItems.v
theories/OperItemsSpec.v
theories/OperItemsProofs.v
theories/Prop_OperItems.v
theories/PluginD.v
theories/PluginDSpec.v
theories/PluginDProofs.v
theories/Prop_PluginD.v
theories/PollDiff.v
theories/PollDiffSpec.v
theories/PollDiffProofs.v
theories/Prop_PollDiff.v
theories/CfgEdit.v
theories/CfgEditSpec.v
theories/CfgEditProofs.v
theories/Prop_CfgEdit.v
