# DESIGN: a Rocq (Coq 8.16.1) model of irvingow/lsmdb

## Method

* One model file per source unit, `rocq/theories/<Unit>.v`, with computable
  definitions (or, for concurrent code, step relations) only; each definition
  cites the file and lines in /repo it models and says where it simplifies.
* A small independent specification per unit (`<Unit>Spec.v`, or the head of the
  Props file when it is a few lines), written from the English property.
* Proofs in `<Unit>Proofs.v` (and further files for the large units); the theorems
  that carry property numbers, and nothing else, in `<Unit>Props.v`, each with
  `Print Assumptions`, and with an `Example` showing that a concrete non-trivial
  case meets the hypotheses.
* Undefined behaviour, failed `assert()`s and loops that do not end are outcomes
  of the model (`Outcome.v`: `Ret a | UB | AssertFail | OutOfFuel`), never assumed
  away.  Asserts are on or off by a parameter `dbg`; theorems hold for both unless
  they say otherwise.  Loops take fuel; theorems say how much is enough.
* Unsigned integers are `N` with explicit `mod 2^32` / `mod 2^64` where the C++
  type wraps; bytes are `N` below 256 where that matters.
* Memory: byte memory is a list indexed by position (out of range = UB); linked
  structures live in explicit heaps (`Heap.v`, association lists; freed addresses
  are absent, touching them is UB; the allocator is an arbitrary function that
  picks a free non-null address, so addresses may be reused).
* Properties that turned out to be false of the code keep their English statement
  with the false part named; the witness is a theorem with suffix `_refuted` and
  the part that holds is proved beside it.

## What is modelled, per file of /repo

| file | model | not modelled |
|------|-------|--------------|
| util/coding.{h,cc} | Coding.v: all Put/Get/Encode/Decode/VarintLength functions, both GetLengthPrefixedSlice (byte by byte, so the same on hosts of every byte order) | |
| include/lsmdb/slice.h | Slice.v: all | |
| util/hash.{h,cc} | Hash.v | |
| util/logging.{h,cc} | Logging.v: AppendNumberTo, AppendEscapedStringTo, ConsumeDecimalNumber and wrappers | |
| util/random.h | Random.v | the constructor's reading of time |
| include/lsmdb/status.h, util/status.cc | Status.v: constructors, copy, move, assignment, destructor, ToString, with a heap of message arrays; StatusOom.v: new[] may throw | |
| util/arena.{h,cc} | Arena.v with every operator new[]/delete[] as event; ArenaConc.v: MemoryUsage from other threads; ArenaOom.v: new[] and push_back may throw | concurrent Allocate (not allowed by arena.h) |
| db/skiplist.h | SkipList.v (all functions, node heap, assert of line 249 kept), SkipListConc.v (readers against the writer's log of stores), SkipListArena.v (single-threaded, nodes and pointers as bytes in a shared arena), SkipListBytes.v (both: reader threads on those bytes), SkipListOom.v (NewNode may throw; with readers: SkipListOomConcProofs.v) | several writers (not allowed by skiplist.h) |
| util/cache.cc, include/lsmdb/cache.h | Cache.v: LRUHandle lists, HandleTable with Resize, LRUCache, ShardedLRUCache at pointer level; CacheConc.v, NewIdConc.v: threads; CacheDel.v: deleters that call the cache; CacheOom.v: Insert when memory runs out; CacheDelDtor.v: deleters that call the cache from its destructor; CacheConcOom.v: both threads and failing Inserts | |
| helpers/memenv/memenv.cc | MemEnv.v: FileState, three file classes, InMemoryEnv; MemEnvConc.v: threads; MemEnvOom.v: operator new may throw | LockFile and NewLogger under bad_alloc (nothing but the new object) |
| util/env.cc | EnvUtil.v: WriteStringToFile(Sync), ReadFileToString over an arbitrary environment; EnvMisc.v: Env::NewAppendableFile, Log; EnvUtilOom.v: the helpers with exceptions | |
| include/lsmdb/env.h, util/test_util.{h,cc} | EnvMisc.v: EnvWapper and ErrorEnv; TestUtil.v: RandomString, RandomKey, CompressibleString | gtest macros |
| util/env_posix.cc | PosixWritable.v, PosixRead.v, PosixEnv.v (whole environment, one caller), PosixConc.v (threads), LimiterConc.v, FileLock.v, Sched.v, SchedOom.v, LockOom.v, PosixOom.v and PosixWritableOom.v (exceptions), PosixMisc.v | StartThread and SleepForMicroseconds (one call each of the C++ library); F_FULLFSYNC builds; O_CLOEXEC |
| util/posix_logger.h | Logger.v, LoggerConc.v (threads; fwrite and fflush may fail), LoggerOom.v (failing allocations), LoggerConcOom.v (both) | |
| port/port_stdcxx.h, util/mutexlock.h | Mutex.v, Sched.v (Mutex, CondVar, MutexLock) | Snappy_*, CRC32C, GetHeapProfile (wrappers of absent libraries, constant without them) |
| db/lsmdb_util.cc, empty headers, noncopyable.h, export.h, thread_annotations.h, *_test.cc | - | no behaviour a property could be about |

## What is assumed of the outside (trusted base)

1. **Coq's kernel** (8.16.1), and the standard library.  `Print Assumptions` says
   "Closed under the global context" for every theorem named in MANIFEST.json: no
   axiom at all is used, neither ours nor the library's.  (coqchk's list for the
   whole development mentions the seven parameters of the module type in
   `Coq.ssr.ssrunder` - Under_rel, Under_relE, Under_rel_from_rel, under_rel_done,
   Over_rel, over_rel, over_rel_done - which come with the library files loaded; no
   theorem depends on them.)
2. **The reading of the C++ code into the model**: file and line citations.
3. **The C++ library and compiler**: std::string, vector, map, set, deque as
   specified; operator new delivers fresh memory and, except in the models named *Oom.v, does not fail; snprintf and
   vsnprintf as specified (Logger.v states the contract it uses); std::mutex and
   condition_variable as specified, with spurious wake-ups (Sched.v).
   Mutex.v proves that code whose shared accesses are all under a mutex may be taken
   to run each section in one step; CacheConc.v, MemEnvConc.v and FileLock.v use that.
4. **The memory model** (SkipListConc.v): an acquire load may return any value not
   older than what happens before it; reading a release store makes everything
   before that store happen before what follows; relaxed loads of max_height_ may
   return any value it ever had; unsynchronised reads of non-atomic memory are UB.
   LimiterConc.v: read-modify-writes of one atomic object are totally ordered.
   LoggerConc.v: stdio functions hold the lock of their stream while they run (POSIX
   flockfile).
5. **The operating system**: an arbitrary function from its state and a system call
   to a new state and an answer.  What a theorem needs of POSIX is a hypothesis of
   that theorem, defined in a specification file:
   * `os_ok` (PosixEnvSpec.v/PosixOs.v): descriptors handed out are not in use,
     calls do not claim to have transferred more than asked;
   * `kstep`, `conforms` (PosixFs.v, PosixEnvSafe.v): the file system.  Paths are
     compared as strings (no symbolic links, no two spellings), directories
     (also "." and "/") are names like others and are not renamed, no other process
     changes the files, names have no NUL byte, every call may fail at any time
     (answer -1, with ENOENT only when something is missing), reads and writes may
     be short, munmap of a whole mapping succeeds; readdir() gives every entry that
     stayed in the directory since opendir() exactly once and may or may not give
     (even twice) one that was added or removed meanwhile; `crash_disk`: after a crash a
     file has at least what was synced, and names that changed since the last fsync
     of their directory may be old or new; `crash` (PosixConcCrashSpec.v, C101): an
     entry on disk is one it had at some moment since which no newer one was forced
     to disk (anything, if the entry was never forced to disk), and a file forced to disk as a whole is there as it is;
   * `progressing`, `patient`: writes are not interrupted or answered 0 for ever -
     only for the theorems that say that calls return;
   * FileLock.v: fcntl record locks belong to the process and go when it closes any
     descriptor of the file; Sched.v: fairness `sfair`, only for C67_eventually_run.
6. **What callers must respect** is in the theorem statements: `legal`
   (MemEnvSpec.v, PosixEnvSpec.v), `may_call`/`in_range` (MemEnvConc.v): objects
   are used while they live and as what they are, sizes fit their types, and
   env.h's rule that a SequentialFile or WritableFile is used by one thread at a time.

## Per property

| id | model | how it is proved |
|----|-------|-------|
| C01-C08 | Coding.v | bit lemmas; induction on bytes and on fields of a record |
| C09-C10 | Slice.v | induction; lexicographic order as separate spec |
| C11-C12 | Hash.v | modular inverse of the multiplier, xor-shift is a bijection |
| C13-C15 | Logging.v | positional numbers by induction; per-byte case analysis |
| C16-C17 | Random.v | arithmetic; order of 16807 modulo 2^31-1 by factors of 2^31-2 |
| C18-C19 | Status.v | invariant over all histories of objects |
| C20-C23 | Arena.v | invariant over all histories and all answers of new[] |
| C24-C27 | SkipList.v | tower invariant; induction over insert histories with any heights |
| C28-C30 | SkipListConc.v | invariant over all interleavings and all stale reads |
| C31-C39, C41 | Cache.v | refinement to a per-shard list, then to a specification on histories of calls (CacheSpec.v) |
| C40, C42 | NewIdConc.v, CacheConc.v, Mutex.v | invariant over all schedules |
| C43-C51 | MemEnv.v | refinement to name -> file, file -> bytes, over all histories |
| C50, C51, C73 | MemEnvConc.v | linearisation: invariant over all schedules |
| C52, C53, C71 | EnvUtil.v | case analysis and induction over an arbitrary environment |
| C54-C59, C72 | PosixWritable.v | invariant over all call histories and kernel answers |
| C60, C63, C69, C70 | PosixRead.v | same |
| C61, C62 | LimiterConc.v | invariant over all interleavings |
| C64, C65 | FileLock.v | invariant over all interleavings of processes and threads |
| C66, C67 | Sched.v | invariant over all interleavings; progress by a variant under fairness |
| C68 | Logger.v | arithmetic on lengths, buffers as blocks |
| C74-C78, C80, C82 | PosixEnv.v, PosixFs.v | simulation between the environment's state, the kernel's and the history of calls |
| C79, C83-C86 | PosixMisc.v | direct |
| C81 | EnvUtil.v on PosixEnv.v | composition of C53/C71's runs with the simulation |
| C87-C88 | EnvMisc.v, MemEnv.v | direct; forwarding shown for every call |
| C89 | TestUtil.v | induction on the length |
| C90-C93 | PosixConc.v | invariant over all schedules at the grain of system calls |
| C94 | LoggerConc.v | invariant over all schedules |
| C95 | PosixConc.v | invariant over all schedules; a predicate on the programs of PosixWritableFile (PosixConcWr.v) says what each does with the bytes; statements about the trace only |
| C96 | PosixConc.v, PosixFs.v | C95 plus induction over the trace: descriptors of a writer stay on its file and at its end (or append); fsync() makes safe what is there and nothing takes it back |
| C97 | PosixConc.v, PosixFs.v | invariant over all schedules: which object a running call works on (PosixConcObj.v); the descriptor of the directory stays the caller's own until it is synced; an entry on disk stays there while it is not changed |
| C98 | PosixConc.v, PosixFs.v | invariant over all schedules: the offset of the descriptor is what the returned Reads and Skips say plus what the running call has done; its owner opened it once, so it stays on one file |
| C99 | SkipListArena.v, Arena.v | simulation: every step in byte memory is a step of SkipList.v (C24-C26), whose indices stand for the addresses; C20 keeps the nodes apart from one another and from the program's memory |
| C100 | PosixConc.v, PosixFs.v | induction over the trace since opendir(): the stream stays the caller's own, has delivered what the call has seen, and the entries before every change since then were those of a moment of the call; the concrete execution of the refuted part is in PosixConcDirProps.v |
| C101 | PosixConc.v, PosixFs.v, PosixConcCrashSpec.v | the entry f during RenameFile: induction over the trace since the call began; the bytes: C95/C96 (Sync has sent everything) and the invariant that what is on disk of a file is the beginning of it; the concrete execution of the refuted part is in PosixConcCrashProps.v |
| C102 | PosixConc.v, PosixFs.v, EnvUtil.v, PosixConcPubSpec.v | three phases of the two names (PosixConcPub.v): tmp not yet made, tmp the new file, f the new file; names stand for distinct files (PosixConcNames.v); the runs of the helpers are taken apart in PosixConcRun.v; then C98 (reads), C95/C96 (contents) and C101 (crashes) |
| C103 | CacheDel.v (threads as stacks of calls, sections and deleters; held mutexes; arbitrary deleter programs) | invariant by induction on the execution: sections form a legal history, mutexes held once (CacheDelProofs.v); nesting of labels; a thread waiting for its own mutex stays; waiting chain argument on mutex numbers for 'deadlock only downwards'; upward deleters by an invariant on the stacks; two concrete deadlocks |
| C104 | ArenaConc.v (Arena.v plus the modification order of memory_usage_ and what each thread must not read behind) | invariant: the values in modification order are the usage after each prefix of the calls, floors are above what a thread knows; C22 for each prefix |
| C105 | SkipListBytes.v (SkipListArena.v with a log of every action on memory; readers load bytes, races judged on bytes) | forward simulation of byte readers by the node readers of SkipListConc.v (C28-C30): nodes never move or change height, a later store that touches a node's bytes is an atomic store to one of its cells, last release store to a cell = last release store to the link |
| C106 | ArenaOom.v (Arena.v whose new[] and push_back may throw) | each throwing call leaves the state unchanged, so a history runs as the history of the calls that returned (Arena.v's invariant); the blocks of failed push_backs stay behind when the destructor's deletes are replayed |
| C107 | StatusOom.v (Status.v whose new[] may throw), StatusOomSpec.v | Status.v's invariant step by step; for the fatal case a counting invariant: more variables hold pointers than arrays exist, kept by every operation |
| C108 | SkipListOom.v (SkipList.v whose NewNode may throw) | a throwing insertion performs at most the store to max_height_, a ghost step that keeps the invariant of C24-C26 and all keys |
| C109 | CacheOom.v (Cache.v whose Insert's allocations may fail), CacheOomSpec.v | a throwing Insert is, on the shard invariant and on the history, an Insert whose handle is never released: the invariants of C31-C39 are kept and carry their lemmas over |
| C110 | Cache.v | the destructor loop on a shard invariant with held entries; ownership of addresses between shards gives what is freed |
| C111 | Cache.v | the doubling loop by induction on the exponent; the full shard from the shard invariant; the history leading there by induction on its length, with C35 and C36 |
| C112 | MemEnvOom.v (MemEnv.v whose operator new may throw) | each throwing call's state equals the state after the ordinary calls `as_if`, by equality of heaps (Ref and Unref cancel; the append loop on a prefix, by induction); C43-C51 then apply |
| C113 | SchedOom.v (Sched.v plus throws) | invariant: before a throw Sched.v's invariant, after it a `Jam` (mutex owned by a call that is over, nobody in Schedule, the background thread outside its locked section) from which at most one step leads |
| C114 | LockOom.v (FileLock.v plus throws) | every run maps to a FileLock.v run in which a lost lock is one nobody gives back and a call that threw in the table makes no more steps; C64 and C65 then apply; persistence of lost locks and of blocked calls by induction |
| C115 | PosixOom.v (opening calls of PosixRead.v and PosixMisc.v plus throws) | accounting invariant over histories: open descriptors and regions, read off the log, are a permutation of those of live files plus those recorded as lost; each call's logs compared with the call without exception |
| C116 | PosixWritableOom.v (PosixWritable.v whose PosixError may throw) | each call equals that of PosixWritable.v unless that returns an error; then its effect on (taken, buffered) is one of four cases; by induction over histories, with subsequences; false claims by computed sessions |
| C117 | EnvUtilOom.v (EnvUtil.v, calls of the environment and allocations may throw) | case analysis over the calls; induction over the rounds of reading; equality with EnvUtil.v when nothing throws; the false claim by a run |
| C118 | LoggerOom.v (Logger.v, memory may run out at lines 42, 43 and 61) | each call throws or equals that of Logger.v with a first part of the thread id; then C68; lengths of headers for the short lines |
| C119 | SkipListOom.v (writer), SkipListConc.v (readers) | the invariant of the readers for any writer whose stores are a trace (SkipListConcGen.v); the failing writer has such a trace, in which the nodes are the insertions that returned |
| C120 | CacheConcOom.v (CacheConc.v + CacheOom.v) | the invariant of C42 with "held" replaced by what users really hold; a throwing section extends the history by an Insert whose handle is nobody's; then C109 |
| C121 | CacheDelDtor.v (Cache.v's destructor + CacheDel.v's deleter programs; members destroyed in order) | the destructor with deleters follows the one without up to the first deleter that calls something (induction on the loop, then on the shards with C110's invariant); runs for the own shard |
| C122 | LoggerConcOom.v (LoggerConc.v + LoggerOom.v) | forgetting the calls that throw maps every execution to one of LoggerConc.v, in which the thread ids are the parts that got into the stream; C94 and C118 then apply; paths to a return are lifted step by step |

Nothing on the list is inexpressible in a model.

## Testing the theorems

`tools/mutate.py` edits the model in a scratch copy the way a bug would edit the
program, rebuilds everything that depends on it with broken proofs replaced by
axioms, and lists the theorems that no longer stand; `seeded/LOG.jsonl` is the record.
