-Q theories Verif
theories/Outcome.v
theories/Coding.v
theories/CodingSpec.v
theories/CodingEnc.v
theories/CodingProofs.v
theories/CodingProps.v
theories/Slice.v
theories/SliceSpec.v
theories/SliceProofs.v
theories/SliceProps.v
theories/Hash.v
theories/HashSpec.v
theories/HashProofs.v
theories/HashProps.v
theories/Logging.v
theories/LoggingSpec.v
theories/LoggingProofs.v
theories/LoggingProps.v
theories/Random.v
theories/RandomProofs.v
theories/RandomProps.v
theories/Heap.v
theories/Status.v
theories/StatusSpec.v
theories/StatusProofs.v
theories/StatusProps.v
theories/Arena.v
theories/ArenaSpec.v
theories/ArenaProofs.v
theories/ArenaProps.v
theories/ArenaConc.v
theories/ArenaConcProps.v
theories/SkipList.v
theories/SkipListSpec.v
theories/SkipListProofs.v
theories/SkipListInsert.v
theories/SkipListSeq.v
theories/SkipListProps.v
theories/SkipListConc.v
theories/SkipListConcSpec.v
theories/SkipListConcProofs.v
theories/SkipListConcProps.v
theories/Cache.v
theories/CacheHeap.v
theories/CacheTable.v
theories/CacheShard.v
theories/CacheShardOps.v
theories/CacheShardLife.v
theories/CacheSpec.v
theories/CacheRun.v
theories/CacheGlobal.v
theories/CacheHist.v
theories/CacheHistStep.v
theories/CacheProofs.v
theories/CacheThms.v
theories/CacheProps.v
theories/Mutex.v
theories/NewIdConc.v
theories/CacheConc.v
theories/CacheConcProofs.v
theories/CacheConcProps.v
theories/CacheOom.v
theories/CacheOomSpec.v
theories/CacheOomProofs.v
theories/CacheDtorProofs.v
theories/CacheOomProps.v
theories/CacheFullProofs.v
theories/CacheFullProps.v
theories/MemEnvOom.v
theories/MemEnvOomProofs.v
theories/MemEnvOomProps.v
theories/CacheDel.v
theories/CacheDelProofs.v
theories/CacheDelProps.v
theories/MemEnv.v
theories/MemEnvSpec.v
theories/MemEnvMem.v
theories/MemEnvMap.v
theories/MemEnvProofs.v
theories/MemEnvProps.v
theories/MemEnvConc.v
theories/MemEnvConcProofs.v
theories/MemEnvConcProps.v
theories/EnvUtil.v
theories/EnvUtilSpec.v
theories/EnvUtilProofs.v
theories/EnvUtilProps.v
theories/PosixOs.v
theories/PosixFd.v
theories/PosixWritable.v
theories/PosixWritableSpec.v
theories/PosixWritableProofs.v
theories/PosixWritableProps.v
theories/PosixRead.v
theories/PosixReadSpec.v
theories/PosixReadProofs.v
theories/PosixReadProps.v
theories/LimiterConc.v
theories/LimiterConcProps.v
theories/FileLock.v
theories/FileLockSpec.v
theories/FileLockProofs.v
theories/FileLockProps.v
theories/Sched.v
theories/SchedProofs.v
theories/SchedProps.v
theories/Logger.v
theories/LoggerSpec.v
theories/LoggerProofs.v
theories/LoggerProps.v
theories/PosixFs.v
theories/PosixEnv.v
theories/PosixEnvSpec.v
theories/PosixFsProofs.v
theories/PosixEnvProofs.v
theories/PosixEnvSteps.v
theories/PosixEnvAcct.v
theories/PosixEnvResults.v
theories/PosixKernel.v
theories/PosixEnvSafe.v
theories/PosixEnvRun.v
theories/PosixEnvFacts.v
theories/PosixEnvProps.v
theories/PosixIoSpec.v
theories/PosixIoProofs.v
theories/PosixIoProps.v
theories/PosixMisc.v
theories/PosixMiscProps.v
theories/PosixConc.v
theories/PosixConcSeq.v
theories/PosixConcSpec.v
theories/PosixConcSafe.v
theories/PosixConcHeld.v
theories/PosixConcInv.v
theories/PosixConcProofs.v
theories/PosixConcTrace.v
theories/PosixConcFacts.v
theories/PosixConcReads.v
theories/PosixConcProps.v
theories/PosixConcWriteSpec.v
theories/PosixConcWr.v
theories/PosixConcWrites.v
theories/PosixConcFiles.v
theories/PosixConcSaved.v
theories/PosixConcWriteProps.v
theories/PosixConcObj.v
theories/PosixConcSync.v
theories/PosixConcSyncProps.v
theories/PosixConcStreamSpec.v
theories/PosixConcStream.v
theories/PosixConcStreamProps.v
theories/PosixConcDirSpec.v
theories/PosixConcDir.v
theories/PosixConcDirProps.v
theories/PosixConcCrashSpec.v
theories/PosixConcCrash.v
theories/PosixConcCrashProps.v
theories/PosixConcPubSpec.v
theories/PosixConcNames.v
theories/PosixConcPub.v
theories/PosixConcRun.v
theories/PosixConcPubProps.v
theories/EnvMisc.v
theories/EnvMiscProps.v
theories/TestUtil.v
theories/TestUtilProps.v
theories/LoggerConc.v
theories/LoggerConcSpec.v
theories/LoggerConcProofs.v
theories/LoggerConcProps.v
theories/SkipListArena.v
theories/SkipListArenaSpec.v
theories/SkipListArenaProofs.v
theories/SkipListArenaProps.v
theories/SkipListBytes.v
theories/SkipListBytesSpec.v
theories/SkipListBytesProofs.v
theories/SkipListBytesRun.v
theories/SkipListBytesOwner.v
theories/SkipListBytesProps.v
theories/ArenaOom.v
theories/ArenaOomProps.v
theories/StatusOom.v
theories/StatusOomSpec.v
theories/StatusOomProps.v
theories/SkipListOom.v
theories/SkipListOomProps.v
theories/SchedOom.v
theories/SchedOomProofs.v
theories/SchedOomProps.v
theories/LockOom.v
theories/LockOomSpec.v
theories/LockOomProofs.v
theories/LockOomProps.v
theories/PosixOom.v
theories/PosixOomProofs.v
theories/PosixOomProps.v
theories/PosixWritableOom.v
theories/PosixWritableOomSpec.v
theories/PosixWritableOomProofs.v
theories/PosixWritableOomProps.v
theories/EnvUtilOom.v
theories/EnvUtilOomProps.v
theories/LoggerOom.v
theories/LoggerOomProps.v
theories/SkipListOomConcSpec.v
theories/SkipListConcGen.v
theories/SkipListOomConcProofs.v
theories/SkipListOomConcProps.v
theories/CacheConcOom.v
theories/CacheConcOomProofs.v
theories/CacheConcOomProps.v
theories/CacheDelDtor.v
theories/CacheDelDtorProofs.v
theories/CacheDelDtorProps.v
theories/LoggerConcOom.v
theories/LoggerConcOomProps.v
