-Q theories Verif
theories/GoStr.v
theories/Utf8.v
theories/LevelModel.v
theories/LevelSpec.v
theories/LevelProofs.v
theories/CaseProofs.v
theories/P_Level.v
theories/Strconv.v
theories/StrconvProofs.v
theories/ConfModel.v
theories/ConfProofs.v
theories/P_Conf.v
theories/EventModel.v
theories/LayoutModel.v
theories/LayoutSpec.v
theories/LayoutProofs.v
theories/FormatSpec.v
theories/FormatProofs.v
theories/P_Layout.v
theories/OutputModel.v
theories/OutputSpec.v
theories/OutputProofs.v
theories/P_Output.v
theories/WorldModel.v
theories/PanicModel.v
theories/WorldSpec.v
theories/WorldBase.v
theories/PanicBase.v
theories/WorldInv.v
theories/WorldProofs.v
theories/P_Hier.v
theories/LogProofs.v
theories/P_Log.v
theories/ManagerSpec.v
theories/ManagerProofs.v
theories/P_Manager.v
theories/AsyncModel.v
theories/AsyncSpec.v
theories/AsyncProofs.v
theories/P_Async.v
theories/RollModel.v
theories/RollSpec.v
theories/RollProofs.v
theories/RollSizeProofs.v
theories/RollExec.v
theories/RollRunProofs.v
theories/RollDirProofs.v
theories/P_RollSize.v
theories/RollTimeProofs.v
theories/RollArchProofs.v
theories/P_RollTime.v
theories/ArchModel.v
theories/ArchSpec.v
theories/ArchProofs.v
theories/P_Archive.v
theories/RollSafeProofs.v
theories/RollConcModel.v
theories/RollConcSpec.v
theories/RollConcProofs.v
theories/P_Conc.v
theories/LockModel.v
theories/LockSpec.v
theories/LockProofs.v
theories/LockNameProofs.v
theories/LockRunProofs.v
theories/P_Lock.v
theories/EndModel.v
theories/EndSpec.v
theories/EndProofs.v
theories/P_End.v
theories/ConfSpec.v
theories/P_Settings.v
theories/CloseSpec.v
theories/CloseProofs.v
theories/P_Close.v
theories/SettleSpec.v
theories/SettleProofs.v
theories/P_Settle.v
theories/DefaultSpec.v
theories/P_Default.v
theories/AsyncEndModel.v
theories/AsyncEndSpec.v
theories/AsyncEndProofs.v
theories/P_AsyncEnd.v
theories/RaceModel.v
theories/RaceSpec.v
theories/RaceProofs.v
theories/P_Race.v
theories/ManySpec.v
theories/ManyModel.v
theories/ManyProofs.v
theories/ManyAsyncProofs.v
theories/P_Many.v
theories/RollCloseSpec.v
theories/P_RollClose.v
theories/SafeSpec.v
theories/SafeProofs.v
theories/P_Safe.v
theories/TestsLog.v
theories/TestsRoll.v
theories/SignalModel.v
theories/P_Signal.v
theories/AtomSpec.v
theories/AtomProofs.v
theories/AtomRunProofs.v
theories/P_Atom.v
theories/P_EndTime.v
theories/MemModel.v
theories/P_Mem.v
theories/ExplodeModel.v
theories/ExplodeSpec.v
theories/ExplodeProofs.v
theories/ExplodeSizeProofs.v
theories/ExplodeExec.v
theories/P_Explode.v
theories/ShareModel.v
theories/ShareSpec.v
theories/ShareProofs.v
theories/P_Share.v
theories/PanicSpec.v
theories/PanicProofs.v
theories/P_Panic.v
theories/CreatorSpec.v
theories/CreatorProofs.v
theories/P_Creator.v
theories/AliasModel.v
theories/AliasSpec.v
theories/AliasProofs.v
theories/P_Alias.v
theories/StopProofs.v
theories/P_Stop.v
theories/FrameSpec.v
theories/FrameProofs.v
theories/P_Frame.v
theories/MethodModel.v
theories/MethodSpec.v
theories/P_Method.v
theories/SameModel.v
theories/SameSpec.v
theories/SameProofs.v
theories/SameLogProofs.v
theories/SameMixProofs.v
theories/SameExec.v
theories/P_Same.v
theories/SameTimeModel.v
theories/SameTimeSpec.v
theories/SameTimeProofs.v
theories/SameTimeLogProofs.v
theories/P_SameTime.v
theories/DeferModel.v
theories/DeferSpec.v
theories/DeferProofs.v
theories/P_Defer.v
theories/LiveSpec.v
theories/LiveProofs.v
theories/P_Live.v
theories/WordModel.v
theories/WordSpec.v
theories/WordProofs.v
theories/P_Word.v
theories/ResSpec.v
theories/ResProofs.v
theories/P_Res.v
theories/IfaceModel.v
theories/IfaceSpec.v
theories/IfaceProofs.v
theories/P_Iface.v
theories/DocModel.v
theories/DocSpec.v
theories/DocProofs.v
theories/P_Doc.v
theories/P_AsyncTime.v
theories/DiskSpec.v
theories/P_Disk.v
theories/FaultSpec.v
theories/FaultTimeProofs.v
theories/P_Fault.v
theories/P_Crash.v
theories/LivesSpec.v
theories/P_Lives.v
theories/FullSpec.v
theories/P_Full.v
theories/P_Recover.v
