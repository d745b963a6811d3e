PARTIAL = {
}
NOTES = {
 'C06': 'The _refuted theorem proves that every string of 2^32 bytes or more fails to read back.',
 'C07': 'Slice overload for every input; the pointer overload is proved equal to it when limit+2^32 does not wrap; the _refuted theorem is a concrete wrapping input.',
 'C15': 'The _refuted theorem gives two different strings with the same escape.',
 'C18': 'The _refuted theorems cover messages of 2^32-5..2^32-1 bytes (undefined behaviour) and of exactly 2^32 bytes (message lost).',
 'C20': 'The _refuted theorem: AllocateAligned of a size within 7 of 2^64 returns a region that is not there.',
 'C27': 'C27_assertions_on_refuted: with assertions on, every Insert of a fresh key into every reachable list aborts at skiplist.h:249; C27_insert_completes: with that assertion off (and the others on or off) none does.',
 'C39': 'The _refuted theorem: capacities above 2^64-16 give capacity 0.',
 'C42': 'The two _refuted theorems show that Prune and TotalCharge, which lock one shard after the other, do not take effect at one instant.',
 'C46': 'Positive part for an existing file; the two _refuted theorems prove the null entry for every reachable environment and every missing file.',
 'C47': 'The _refuted theorem proves, for every reachable environment, that renaming a file onto itself destroys it.',
 'C50': 'For one caller and for any number of threads (when no call is going on).',
 'C51': 'In-memory for one caller and for threads (C51_skip_with_threads, with the exact effect of a truncation in between; the _refuted theorem is such a run), POSIX for every OS behaviour.',
 'C56': 'The _refuted theorem: a Sync that returns OK after an earlier error does not mean the file is complete.',
 'C58': 'The _refuted theorem: a MANIFEST directly under / can never be synced.',
 'C60': 'Inside the file: all three variants. Past the end: the descriptor variants are cut at the end; three _refuted theorems for mmap.',
 'C62': 'The _refuted theorem is a run in which Acquire is refused although nothing is held.',
 'C64': 'The _refuted theorem: names are compared as strings, so two names of one file are two locks within a process.',
 'C65': 'Proved under the proviso; the two _refuted theorems are runs of two processes that both hold the lock when it is dropped.',
 'C68': 'The _refuted theorem: every message of INT_MAX-28..INT_MAX bytes makes the length arithmetic overflow.',
 'C71': 'The _refuted theorem: an environment that leaves the out-pointer unset on error makes ReadFileToString delete an unset pointer.',
 'C73': 'A Skip raced by a truncation is the one call whose result is not the sequential one (see C51).',
 'C75': 'The _refuted theorem: Append after Close returns OK and the data is lost.',
 'C76': 'Two _refuted theorems: readers without a slot follow the name, mapped readers fault after NewWritableFile.',
 'C77': 'The _refuted theorem: a readdir() error is taken for the end of the directory.',
 'C80': 'The _refuted theorem: a synced file that is no MANIFEST may lose its directory entry.',
 'C81': 'The _refuted theorem: a write that fails destroys the old contents.',
 'C83': 'The _refuted theorem: OK although mkdir failed.',
 'C85': 'The _refuted theorem: a limit of 5*2^31 descriptors gives a negative number.',
 'C87': 'The _refuted theorem: two callers hold a lock of the same name at once.',
 'C88': 'The _refuted theorem: *result is left unset on failure.',
 'C103': 'A deleter is an arbitrary tree of calls depending on results (CacheDel.v); the effect of a section comes before all its deleters. The deadlock-freedom theorems assume the clients and deleters respect the ranges and use only handles they hold (rules). Release, Prune and TotalCharge from a deleter are covered by C103_deadlock_only_downwards, not by the static condition upward. Deleters run by the destructor that call the cache are not modelled.',
 'C104': 'Relaxed atomics for the one shared word memory_usage_: modification order, coherence and happens-before (ArenaConc.v). Assumes legal calls and that new[] keeps its contract (allocs_ok).',
 'C105': 'The reader threads of C28-C30 on the bytes of C99: C28-C30 transferred by a simulation whose writer is the logged Insert of C99. Races are judged on bytes over the whole log. Release/acquire model as in C28; max_height_ relaxed; one writing thread, which never waits for readers. LP64, little-endian.',
 'C106': 'The arena of C21-C23 where new[] and the growth of blocks_ may throw. Refuted: a failing push_back leaks the block it was for (C106_vector_growth_leaks_refuted); C106_destroy shows that nothing else leaks.',
 'C107': 'The Status programs of C18-C19 where new[] may throw; the client catches and continues. Refuted for copy assignment over an error status: it deletes state_ before it copies, and C107_throwing_copy_assignment_is_fatal_refuted shows by counting arrays and pointers that every continuation deletes an array twice, for every allocator.',
 'C108': 'The skip list of C24-C27 where NewNode may throw after max_height_ was raised. Single-threaded.',
 'C109': 'The cache of C31-C41 where the allocations of Insert may fail (CacheOom.v). The history lists an Insert that left its entry behind as if it had returned a handle, marked in T as never given back. runs_f extends runs by such steps; the C31-C38 theorems restated here are the ones the property names.',
 'C110': 'cache_dtor of C41 without the premise that nothing is held.',
 'C113': 'Built on Sched.v: a step is a step of Sched.v, a throw at line 802 or 811, or std::terminate in the background thread. A throw by the work function that nothing catches ends the process (modelled: no step after it).',
 'C114': 'Built on FileLock.v (POSIX record locks, any number of processes). Processes do not end in the model: when one does, the kernel drops its locks. A lost lock is kept in g_live with its call number in l_lost; nobody can pass it to UnlockFile.',
 'C115': 'Built on PosixRead.v and PosixMisc.v. One request for memory per call and path, after everything else the call does there. The history theorems cover random-access files, on one thread; the other opening calls are covered call by call.',
 'C116': 'PosixWritable.v where PosixError may throw. bytes_taken: all the kernel has taken from the write calls of this object; C116_bytes_taken_are_in_the_file relates it to the file. The history theorem for Append that threw leaves open how much of its data is accepted; C116_effect says how much.',
 'C117': 'EnvUtil.v over an environment whose calls may throw. An exception out of a destructor (the answer to IDelete) is std::terminate (Killed). Reading runs with fuel, as in EnvUtil.v.',
 'C118': 'Logger.v with three allocations that may fail. Taken from the standard: formatted output swallows exceptions of the stream buffer (badbit), so the id may be cut at any place; from libstdc++: strings of up to 15 characters are stored in place. Several threads: C122.',
 'C122': 'LoggerConcOom.v: LoggerConc.v whose calls are those of LoggerOom.v. Built on C94 and C118. C122_calls_stay_defined is about release builds and leaves out texts of INT_MAX - 119 to INT_MAX bytes, as C68. ~PosixLogger is not called while a call is going on.',
 'C121': 'CacheDelDtor.v: the destructor of Cache.v with deleter programs (CacheDel.v). Proved for all reachable caches: the two cases where the deleters call nothing, or begin with a call whose member is gone. Deleters that call lower shards are modelled and shown to work by example only (ex_lower_shard); the three failures in the own shard are witnesses.',
 'C120': 'CacheConcOom.v: the steps of CacheConc.v and two for an Insert that throws (CacheOom.v). The numbers of the Inserts that threw are read off the trace. That malloc fails (undefined behaviour, C109) is excluded.',
 'C119': 'SkipListOom.v for the writer, SkipListConc.v for the readers. What an insertion that throws has stored is at most a larger max_height_. The readers of SkipListConcProofs.v are proved again for an arbitrary writer (SkipListConcGen.v). The bytes of the arena (C99) are not part of this.',
 'C112': 'A throwing call is compared with ordinary calls (as_if in MemEnvOom.v); its state is equal to theirs, not only indistinguishable. Memory that no object refers to any more is taken out of the modelled heap and counted. The three refuted theorems are about all reachable states with the names concerned. NewAppendableFile of a missing name is outside legal (C46).',
 'C111': 'That Insert returns below the bound is C33_no_undefined_behaviour. The model runs the loop with fuel 64; C111_growth_loop_never_ends says that no fuel is enough. The witness has a constant hash function.',
 'C102': 'That a client runs a helper of util/env.cc is said by running its model (EnvUtil.v) on the answers the calls of the trace got. Needs: no hard links to the files at the start. Empty contents are left out of the crash part: the crash model does not promise that an empty file stays empty.',
 'C101': 'Crash model: an entry on disk is one it had at some moment since which no newer one was forced; a file whose forced part is all its (non-empty) data is exactly that. The two entries of a rename reach the disk independently.',
 'C100': 'GetChildren cannot tell a failed readdir() from the end of the directory (it does not look at errno), so completeness needs that none failed.',
 'C99': 'LP64, little-endian; keys are trivially copyable. The assertion of skiplist.h:249 is off (C27). Removes the simplification of C24-C26 that addresses are indices.',
 'C98': 'Calls on one SequentialFile do not overlap, as env.h demands. A Skip of 2^63 or more moves back: the number is taken as a signed 64-bit number.',
 'C97': 'The directory must not be replaced during Sync (SyncDirIfManifest opens it by name) and the name must stand for the same file from the start of Sync on; without a concurrent rename or removal both hold.',
 'C96': 'Others must not write to or truncate the file (only_writer), or must all append (only_appends): POSIX lets two plain writers overwrite each other.',
 'C94': 'The _refuted theorem: two overlapping calls whose lines stand in the opposite order of their times.',
 'C91': 'The _refuted theorem is a run of two threads in which a rename between open() and stat() makes a Read leave its file.',
}
