-Q theories Verif
theories/Base.v
theories/SignalModel.v
theories/SignalSpec.v
theories/SignalProofs.v
theories/SignalProofs2.v
theories/SignalProps.v
theories/SigOsModel.v
theories/SigOsSpec.v
theories/SigOsProofs.v
theories/SigOsProps.v
theories/AbortModel.v
theories/AbortProps.v
theories/SigRaceModel.v
theories/SigRaceSpec.v
theories/SigRaceProofs.v
theories/SigRaceSeq.v
theories/SigRaceKern.v
theories/SigRaceProps.v
theories/DelivModel.v
theories/DelivSpec.v
theories/DelivProofs.v
theories/DelivProps.v
theories/StartModel.v
theories/StartSpec.v
theories/StartProofs.v
theories/StartLemmas.v
theories/StartProps.v
theories/SigwaitModel.v
theories/SigwaitSpec.v
theories/SigwaitProofs.v
theories/SigwaitProps.v
theories/SigwaitLiveModel.v
theories/SigwaitLiveSpec.v
theories/SigwaitLiveProofs.v
theories/SigwaitLiveProps.v
theories/SigtimeModel.v
theories/SigtimeProps.v
theories/StringsModel.v
theories/StringsSpec.v
theories/StringsProofs.v
theories/StringsProps.v
theories/MpiModel.v
theories/MpiSpec.v
theories/MpiProofs.v
theories/MpiProps.v
theories/MpiRaceModel.v
theories/MpiRaceSpec.v
theories/MpiRaceProofs.v
theories/MpiRaceProps.v
theories/ExecModel.v
theories/ExecSpec.v
theories/ExecProofs.v
theories/ExecProps.v
theories/EnvRaceModel.v
theories/EnvRaceSpec.v
theories/EnvRaceProofs.v
theories/EnvRaceProps.v
theories/SystemModel.v
theories/SystemSpec.v
theories/SystemProofs.v
theories/SystemProps.v
theories/LoaderModel.v
theories/LoaderSpec.v
theories/LoaderProofs.v
theories/LoaderProps.v
theories/AttrModel.v
theories/AttrSpec.v
theories/AttrProofs.v
theories/AttrProps.v
theories/ShootModel.v
theories/ShootSpec.v
theories/ShootProofs.v
theories/ShootProps.v
theories/FenceModel.v
theories/FenceProps.v
theories/ScriptModel.v
theories/ScriptSpec.v
theories/ScriptProofs.v
theories/ScriptProps.v
theories/LockModel.v
theories/LockSpec.v
theories/LockProofs.v
theories/LockProps.v
theories/WeakModel.v
theories/WeakSpec.v
theories/WeakProofs.v
theories/WeakProps.v
theories/QueueModel.v
theories/QueueSpec.v
theories/QueueProofs.v
theories/QueueProps.v
theories/LifeModel.v
theories/LifeSpec.v
theories/LifeBase.v
theories/LifeOnce.v
theories/LifeProps.v
theories/LifeLock.v
theories/LifeNode.v
theories/LifeFacts.v
theories/LifeData.v
theories/LifeList.v
theories/LifeReg.v
theories/LifeMine.v
theories/LifeThread.v
theories/LifeCreate.v
theories/LifeThreadProps.v
theories/LifeExitSpec.v
theories/LifeOwn.v
theories/LifeBelong.v
theories/LifeExit.v
theories/LifeDone.v
theories/LifeEndSpec.v
theories/LifeReenter.v
theories/LifeRunB.v
theories/LifeExitProps.v
theories/LifeLibSpec.v
theories/LifeLib.v
theories/LifeLibProps.v
theories/LifeFiniSpec.v
theories/LifeFini.v
theories/LifeScan.v
theories/LifeFiniOnce.v
theories/LifeFiniMain.v
theories/LifeFreeze.v
theories/LifeFiniProps.v
theories/LifeShoot.v
theories/LifeWait.v
theories/LifeWaitEnd.v
theories/LifeWaitSpec.v
theories/LifeOwnFini.v
theories/LifeWaitProps.v
theories/LifeCloseSpec.v
theories/LifeClose.v
theories/LifeCloseProps.v
theories/LifeAliveSpec.v
theories/LifeAlive.v
theories/LifeAliveProps.v
theories/LifeBlockSpec.v
theories/LifeBlock.v
theories/LifeBlockProps.v
theories/LifeBcastSpec.v
theories/LifeBcast.v
theories/LifeBcastProps.v
theories/LifeBcastAllSpec.v
theories/LifeBcastAll.v
theories/LifeBcastAllProps.v
theories/LifeLockSpec.v
theories/LifeStuck.v
theories/LifeLockProps.v
theories/LifePost.v
theories/LifePostProps.v
theories/LifeInfoSpec.v
theories/LifeInfo.v
theories/LifeInfo2.v
theories/LifeInfo3.v
theories/LifeInfoProps.v
theories/LifeIgnoreSpec.v
theories/LifeIgnore.v
theories/LifeIgnoreProps.v
theories/LifeProcSpec.v
theories/LifeProc1.v
theories/LifeProc.v
theories/LifeProcProps.v
theories/LifeFork.v
theories/LifeForkProps.v
theories/LifeRealForkSpec.v
theories/LifeRealFork.v
theories/LifeRealForkProps.v
theories/LifeWasteSpec.v
theories/LifeWaste.v
theories/LifeWasteProps.v
theories/OnceModel.v
theories/OnceSpec.v
theories/OnceProofs.v
theories/OnceReturn.v
theories/OnceProps.v
theories/ErrnoModel.v
theories/ErrnoSpec.v
theories/ErrnoProps.v
theories/PendModel.v
theories/PendSpec.v
theories/PendProofs.v
theories/PendProps.v
theories/LifeSupSpec.v
theories/LifeSup.v
theories/LifeSupOnce.v
theories/LifeSupProps.v
theories/LifeDefaultSpec.v
theories/LifeDefault.v
theories/LifeDefaultProps.v
theories/LifeLastSpec.v
theories/LifeLast.v
theories/LifeLastProps.v
theories/LifeExecSpec.v
theories/LifeExecProps.v
theories/LifeBottom.v
theories/LifeBottomProps.v
theories/LifeStopSpec.v
theories/LifeStop.v
theories/LifeStopProps.v
theories/LifeErrModel.v
theories/LifeErrSpec.v
theories/LifeErr.v
theories/LifeErrProps.v
theories/LifeFree.v
theories/LifeFreeProps.v
theories/LifeJam.v
theories/LifeJamProps.v
theories/SysNestModel.v
theories/SysNestSpec.v
theories/SysNest.v
theories/SysNestProps.v
theories/LifeBoundSpec.v
theories/LifeBound.v
theories/LifeBoundProps.v
theories/LifeNestSpec.v
theories/LifeNest.v
theories/LifeNestProps.v
theories/LifeBornSpec.v
theories/LifeBorn.v
theories/LifeBornProps.v
theories/LifeChildAsk.v
theories/LifeChildAskProps.v
theories/JoinModel.v
theories/JoinSpec.v
theories/JoinProofs.v
theories/JoinValue.v
theories/JoinFull.v
theories/JoinPlain.v
theories/JoinProps.v
theories/SigForkModel.v
theories/SigForkSpec.v
theories/SigForkProofs.v
theories/SigForkKern.v
theories/SigForkProps.v
