-Q theories Verif
theories/AutoFutexModel.v
theories/AutoFutexProof.v
theories/AutoSemModel.v
theories/AutoSemProof.v
theories/ConfigModel.v
theories/CvAnyModel.v
theories/CvWaitModel.v
theories/DeadlineModel.v
theories/DelKey.v
theories/EintrModel.v
theories/EmuModel.v
theories/EmuThrow.v
theories/ErrModel.v
theories/EventSpec.v
theories/EventSpecFacts.v
theories/Events.v
theories/ExcModel.v
theories/Exec.v
theories/ExitHeld.v
theories/Fair.v
theories/FairAuto.v
theories/FairCv.v
theories/FairCvAny.v
theories/FairManual.v
theories/FairMon.v
theories/FairSem.v
theories/FairShared.v
theories/FairSpin.v
theories/FairWin.v
theories/FlagSpec.v
theories/FloatClock.v
theories/FloatDur.v
theories/FutexModel.v
theories/GuardModel.v
theories/HandleModel.v
theories/Hb.v
theories/HbAuto.v
theories/HbAutoSem.v
theories/HbManual.v
theories/HbSharedSpin.v
theories/HbSpin.v
theories/HbTokens.v
theories/HbWinMutex.v
theories/HeaderModel.v
theories/HeaderProof.v
theories/HooksModel.v
theories/HooksProof.v
theories/IfaceModel.v
theories/KernModel.v
theories/KernProof.v
theories/Lin.v
theories/LinCheck.v
theories/ListSum.v
theories/LockIface.v
theories/LockModel.v
theories/LockThreads.v
theories/ManualFutexModel.v
theories/ManualFutexProof.v
theories/ModKey.v
theories/ModModel.v
theories/ModProof.v
theories/Monitor.v
theories/MonitorProof.v
theories/MutexSpec.v
theories/MutexSpecFacts.v
theories/OnceCtx.v
theories/OnceKey.v
theories/OnceModel.v
theories/OnceMore.v
theories/OnceProof.v
theories/ProcExit.v
theories/ProcExitProof.v
theories/Progress.v
theories/PropsAutoFutex.v
theories/PropsAutoSem.v
theories/PropsBypass.v
theories/PropsConfig.v
theories/PropsCvAny.v
theories/PropsCvTruth.v
theories/PropsCvWait.v
theories/PropsDeadline.v
theories/PropsDestroy.v
theories/PropsEintr.v
theories/PropsEmu.v
theories/PropsEmuThrow.v
theories/PropsErr.v
theories/PropsExc.v
theories/PropsExitHeld.v
theories/PropsExpired.v
theories/PropsFairCv.v
theories/PropsFairCvAny.v
theories/PropsFairEmu.v
theories/PropsFairFutex.v
theories/PropsFairSem.v
theories/PropsFairShared.v
theories/PropsFairSpin.v
theories/PropsFairWin.v
theories/PropsFloatAny.v
theories/PropsFloatClock.v
theories/PropsFloatClockAny.v
theories/PropsFloatDur.v
theories/PropsFloatPoint.v
theories/PropsFloatSingle.v
theories/PropsFloatSingleAny.v
theories/PropsFutexApi.v
theories/PropsGuard.v
theories/PropsHandle.v
theories/PropsHb.v
theories/PropsHbEvents.v
theories/PropsHeader.v
theories/PropsHooks.v
theories/PropsIface.v
theories/PropsKern.v
theories/PropsLock.v
theories/PropsLockIface.v
theories/PropsLockMutexes.v
theories/PropsLockOrder.v
theories/PropsLockThreads.v
theories/PropsManualFutex.v
theories/PropsMod.v
theories/PropsModHandles.v
theories/PropsNoexcept.v
theories/PropsOnce.v
theories/PropsProcExit.v
theories/PropsProgress.v
theories/PropsRelWait.v
theories/PropsRelease.v
theories/PropsRes.v
theories/PropsSharedSpin.v
theories/PropsSpin.v
theories/PropsTime.v
theories/PropsTime32.v
theories/PropsTimed.v
theories/PropsTimer.v
theories/PropsTimerName.v
theories/PropsTss.v
theories/PropsTssFail.v
theories/PropsTssThrow.v
theories/PropsWeak.v
theories/PropsWeakAuto.v
theories/PropsWeakCv.v
theories/PropsWeakManual.v
theories/PropsWeakOnce.v
theories/PropsWeakSem.v
theories/PropsWeakWin.v
theories/PropsWinCv.v
theories/PropsWinMutex.v
theories/RelWaitModel.v
theories/ResModel.v
theories/RwSpec.v
theories/RwSpecFacts.v
theories/SharedSpinModel.v
theories/SharedSpinProof.v
theories/SpinModel.v
theories/SpinProof.v
theories/Thr.v
theories/Time32.v
theories/TimeModel.v
theories/TimedLoops.v
theories/TimerModel.v
theories/TimerName.v
theories/TssExit.v
theories/TssFail.v
theories/TssKeys.v
theories/TssModel.v
theories/TssOwn.v
theories/TssProof.v
theories/TssRace.v
theories/TssThrow.v
theories/Weak.v
theories/WeakAuto.v
theories/WeakAutoHb.v
theories/WeakCv.v
theories/WeakCvProof.v
theories/WeakManual.v
theories/WeakManualHb.v
theories/WeakOnce.v
theories/WeakSem.v
theories/WeakSemHb.v
theories/WeakShared.v
theories/WeakSpin.v
theories/WeakWin.v
theories/WeakWinHb.v
theories/WinCvHist.v
theories/WinCvMatch.v
theories/WinCvModel.v
theories/WinCvProof.v
theories/WinCvRing.v
theories/WinMutexModel.v
theories/WinMutexProof.v
theories/Word.v
