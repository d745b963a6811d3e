#!/usr/bin/env python3
# Generates ../properties.jsonl (one JSON object per line). Edit P below, then run.
import json, os
P = []
def p(id, title, statement, quantifier, why, anchors):
    P.append(dict(id=id, title=title, statement=statement, quantifier=quantifier,
                  why_tests_cant=why, anchors=anchors))

# ---------------------------------------------------------------- coding
p("C01","Fixed-width integers round-trip, little-endian",
  "PutFixed32/PutFixed64 append exactly 4/8 bytes to the destination string, leave what was there before untouched, byte i of the appended block is floor(v/256^i) mod 256, and DecodeFixed32/64 applied to that block (whatever surrounds it) returns v. Conversely re-encoding a decoded block gives the same bytes.",
  "every uint32/uint64 value, every previous content of the string, every surrounding bytes",
  "2^32 / 2^64 values times arbitrary surrounding strings",
  ["util/coding.h: EncodeFixed32, EncodeFixed64, DecodeFixed32, DecodeFixed64","util/coding.cc: PutFixed32, PutFixed64"])
p("C02","Varints round-trip",
  "After PutVarint32(dst,v) (resp. PutVarint64), GetVarint32 (resp. GetVarint64) on a slice that starts with the appended bytes and continues with any other bytes returns true, yields v, and advances the slice by exactly the appended length, so that the slice then holds exactly the following bytes.",
  "every uint32/uint64 value and every following byte string",
  "all values and all suffixes; the encoders branch on magnitude",
  ["util/coding.cc: EncodeVarint32, EncodeVarint64, PutVarint32, PutVarint64, GetVarint32, GetVarint64, GetVarint32PtrFallback, GetVarint64Ptr","util/coding.h: GetVarint32Ptr"])
p("C03","Varint encodings are canonical and have the advertised length",
  "The varint encoding of v has exactly VarintLength(v) bytes (at most 5 for uint32, 10 for uint64, so the 5/10 byte stack buffers of PutVarint never overflow); all bytes but the last have the top bit set and the last has not; the base-128 digits, least significant first, are those of v with no leading zero digit; the 32-bit and the 64-bit encoder agree on every uint32.",
  "every uint32/uint64 value","2^64 values",
  ["util/coding.cc: EncodeVarint32, EncodeVarint64, PutVarint32, PutVarint64, VarintLength"])
p("C04","Varint decoding of arbitrary bytes: exact acceptance and value, no out-of-range read",
  "GetVarint32/64 on arbitrary bytes never read outside [p,limit). They succeed iff one of the first 5 (10) bytes before limit has its top bit clear; then the value is the base-128 number formed by the low 7 bits of the bytes up to and including the first such byte, reduced mod 2^32 (2^64), and exactly those bytes are consumed.",
  "every memory content, every p<=limit","unbounded set of (malformed) inputs",
  ["util/coding.h: GetVarint32Ptr","util/coding.cc: GetVarint32PtrFallback, GetVarint64Ptr, GetVarint32, GetVarint64"])
p("C05","A failing varint read changes nothing; truncated encodings are rejected",
  "When GetVarint32/64 return false the input slice and the output value are unchanged. Every proper prefix of an encoding is rejected.",
  "every input; every value and every cut point","all inputs and cut points",
  ["util/coding.cc: GetVarint32, GetVarint64"])
p("C06","Length-prefixed strings round-trip",
  "After PutLengthPrefixedSlice(dst,s), GetLengthPrefixedSlice on a slice beginning with the appended bytes returns true, yields a view whose bytes equal s and leaves exactly the following bytes. This holds for strings under 2^32 bytes; a longer string is never read back: its length is silently reduced mod 2^32.",
  "every byte string and every following bytes","unbounded strings; lengths beyond 4 GiB are not testable",
  ["util/coding.cc: PutLengthPrefixedSlice, GetLengthPrefixedSlice"])
p("C07","Length-prefixed decoding of arbitrary bytes stays inside the input",
  "GetLengthPrefixedSlice on arbitrary bytes never reads outside the input; it succeeds iff a varint32 length n is present and at least n bytes follow; the result view and the remaining view are then adjacent parts of the input. On failure neither the result changes nor is more than the length prefix consumed. The pointer overload (p, limit, result) agrees with it whenever adding a 32-bit length to an input address does not wrap around the address space; where it does wrap, it can accept a string that is not there.",
  "every memory content and slice","all malformed inputs",
  ["util/coding.cc: GetLengthPrefixedSlice (both overloads)"])
p("C08","Any record written field by field reads back field by field",
  "Writing any sequence of fields (fixed32, fixed64, varint32, varint64, length-prefixed string under 4 GiB) with the Put routines to a string and then reading fields of the same kinds in the same order gives back exactly the values and ends with an empty input; no encoding of a record is a proper prefix of another record of the same shape.",
  "every finite sequence of fields","unbounded sequences of unbounded fields",
  ["util/coding.cc","util/coding.h"])
# ---------------------------------------------------------------- slice
p("C09","Slice::compare is the unsigned lexicographic total order",
  "compare returns <0, 0, >0 exactly when the first string is lexicographically (bytes unsigned, a proper prefix being smaller) less than, equal to, greater than the second; hence it is antisymmetric, transitive and total; it is 0 iff operator== is true iff the byte strings are equal; operator!= is its negation.",
  "all pairs/triples of byte strings","unbounded strings",
  ["include/lsmdb/slice.h: compare, operator==, operator!="])
p("C10","Slice views: starts_with, remove_prefix, indexing",
  "starts_with(x) is true iff the slice equals x followed by some bytes; remove_prefix(n) with n<=size leaves exactly the last size-n bytes; s[i] for i<size is the i-th byte; none of these reads outside the slice; clear gives an empty slice.",
  "all slices, prefixes, indices","unbounded strings",
  ["include/lsmdb/slice.h: starts_with, remove_prefix, operator[], clear"])
# ---------------------------------------------------------------- hash
p("C11","Hash is a total 32-bit function of (bytes, seed) that never reads outside its input",
  "Hash(data,n,seed) reads only data[0..n-1] (so it depends only on those bytes, n and seed), returns a value below 2^32 and equals the murmur-like word/tail formula.",
  "every byte string, every seed","unbounded strings",
  ["util/hash.cc: Hash"])
p("C12","Hash is injective in the seed and in any single aligned word",
  "For fixed data two different seeds never collide; two equal-length inputs that differ only inside one 4-byte-aligned word (or only inside the 1-3 byte tail) never collide under the same seed.",
  "every string length, position, pair of words, pair of seeds","2^64 pairs per position",
  ["util/hash.cc: Hash"])
# ---------------------------------------------------------------- logging
p("C13","Decimal numbers print and parse back",
  "ConsumeDecimalNumber on NumberToString(n) followed by any bytes that do not start with a digit returns true, yields n and leaves exactly the following bytes; NumberToString produces no leading zero (except \"0\") and at most 20 digits, so its 30-byte buffer suffices.",
  "every uint64, every following text","2^64 values and arbitrary suffixes",
  ["util/logging.cc: AppendNumberTo, NumberToString, ConsumeDecimalNumber"])
p("C14","Decimal parsing: exact acceptance, exact overflow detection",
  "ConsumeDecimalNumber returns true iff the input starts with a digit and the number denoted by the maximal run of leading digits is at most 2^64-1; then it yields that number and consumes exactly that run. If there is no digit the input is unchanged. On overflow input and output are unchanged.",
  "every input byte string","unbounded digit runs incl. leading zeros; every boundary",
  ["util/logging.cc: ConsumeDecimalNumber"])
p("C15","EscapeString prints only printable ASCII and leaves printable text alone",
  "The output contains only bytes 0x20..0x7e; on printable input it is the identity; every other byte b becomes the four characters \\xhh with hh the lower-case hexadecimal of b; escaping distributes over concatenation; the output does not depend on whether char is signed. On strings without backslashes escaping loses nothing (equal outputs come from equal inputs); with backslashes it does, because backslash itself is not escaped.",
  "every byte string, both char signednesses","unbounded strings",
  ["util/logging.cc: AppendEscapedStringTo, EscapeString"])
# ---------------------------------------------------------------- random
p("C16","Random: exact recurrence and ranges",
  "After construction from any seed and any number of draws the state lies in [1,2^31-2], each Next() returns 16807*state mod (2^31-1); Uniform(n) is in [0,n-1] for n>0, OneIn(n) is the n-divisibility test on the next draw, Skewed(m) (0<=m<=30) makes two draws, keeps (first draw mod m+1) low bits of the second, and so is in [0,2^m-1].",
  "every 32-bit seed, every number of draws, every argument","all seeds and unbounded draw sequences",
  ["util/random.h: Random, Next, Uniform, OneIn, Skewed"])
p("C17","Random has full period",
  "From any seed the successive outputs of Next run through every number in [1,2^31-2] exactly once before repeating (the claim of the source comment).",
  "every seed, every value in the range","2^31 draws from each of 2^31 states",
  ["util/random.h: Next"])
# ---------------------------------------------------------------- status
p("C18","Status carries its code and message",
  "A status built by NotFound/Corruption/NotSupported/InvalidArgument/IOError(msg,msg2) answers true to exactly its own Is... predicate, ok() is false, and ToString() is the code's fixed label followed by msg, and by \": \" msg2 when msg2 is non-empty; OK() is ok(), answers false to every Is..., prints \"OK\". This holds when msg and msg2 are short enough for their total to be stored (below 2^32-7 bytes together); beyond that the message is truncated or the buffer overrun.",
  "every code and message pair","unbounded messages",
  ["include/lsmdb/status.h","util/status.cc: Status, ToString, CopyState"])
p("C19","Status copies are independent and never leaked or freed twice",
  "For every sequence of default-construct, make-error, copy-construct, copy-assign (incl. self and aliasing), move-construct, move-assign (incl. self-move) and destroy on any set of Status variables: no freed message is read or freed again, no live message is leaked or shared by two variables, a copy prints the same as its source at copy time, a moved-from status is OK after move construction, move assignment swaps.",
  "every finite history over any number of variables","unbounded histories and aliasing patterns",
  ["include/lsmdb/status.h: Status(const Status&), operator=, Status(Status&&), ~Status"])
# ---------------------------------------------------------------- arena
p("C20","Arena allocations never overlap and stay allocated",
  "For every sequence of Allocate(n>0) and AllocateAligned(n) calls (n below the overflow threshold) all returned regions [p,p+n) lie inside memory the arena obtained from the heap and not yet freed, and are pairwise disjoint.",
  "every finite allocation history and every behaviour of the heap allocator meeting its contract","unbounded histories; overlap depends on the whole history",
  ["util/arena.h: Allocate","util/arena.cc: AllocateFallback, AllocateAligned, AllocateNewBlock"])
p("C21","AllocateAligned returns 8-aligned pointers",
  "Every pointer AllocateAligned returns is a multiple of 8 (the internal assertion never fails), provided operator new[] returns 8-aligned blocks.",
  "every finite allocation history","alignment depends on the whole preceding history",
  ["util/arena.cc: AllocateAligned"])
p("C22","MemoryUsage accounts for every block",
  "MemoryUsage() always equals the total size of the blocks obtained plus 8 bytes per block, is at least the total number of bytes handed out, and never decreases.",
  "every finite allocation history","unbounded histories",
  ["util/arena.h: MemoryUsage","util/arena.cc: AllocateNewBlock"])
p("C23","Arena destruction frees each block exactly once, waste per block is bounded",
  "Destroying the arena frees every obtained block exactly once. When a call starts a new standard 4096-byte block at most 1023 bytes of the previous one are left unused (for AllocateAligned too, because blocks are 8-aligned); a request above 1024 bytes gets its own block and leaves the current one alone.",
  "every finite allocation history","unbounded histories",
  ["util/arena.cc: ~Arena, AllocateFallback"])
# ---------------------------------------------------------------- skiplist
p("C24","SkipList contains exactly what was inserted",
  "After any sequence of Inserts of pairwise distinct keys, Contains(k) is true iff k was inserted; no search reads an unset or out-of-range link, and every search terminates.",
  "every insertion history, every comparator that is a strict total order, every random height sequence",
  "unbounded histories times random heights",
  ["db/skiplist.h: Insert, Contains, FindGreaterOrEqual"])
p("C25","SkipList iteration visits all keys in order, forwards and backwards",
  "From SeekToFirst, repeated Next visits exactly the inserted keys in increasing order and then becomes invalid; from SeekToLast, repeated Prev visits them in decreasing order; Prev undoes Next where both are valid; SeekToFirst/SeekToLast are valid iff the list is non-empty.",
  "every insertion history and heights","unbounded histories",
  ["db/skiplist.h: Iterator, FindLessThan, FindLast"])
p("C26","SkipList Seek finds the first entry at or after the target",
  "Seek(t) positions the iterator at the smallest inserted key >= t, and makes it invalid iff there is none.",
  "every history, every target","unbounded histories",
  ["db/skiplist.h: Iterator::Seek, FindGreaterOrEqual"])
p("C27","Node heights are between 1 and 12; Insert completes, but only with assertions off",
  "Every inserted node has a height in 1..12, one more than the number of leading multiples of 4 among the next 11 draws. In a release build every Insert of a key not in the list completes. With assertions enabled every such Insert aborts, because RandomHeight asserts height < 0 (skiplist.h:249); that is the only assertion that fails.",
  "every random state","height distribution is random; the assertion is never exercised by the (empty) test",
  ["db/skiplist.h: RandomHeight, Insert"])
p("C28","Readers concurrent with the writer are memory safe and terminate",
  "With one writer inserting and any number of readers running Contains/Seek/iteration, for every interleaving at the granularity of single atomic loads and stores (including stale max-height reads) no reader reads an uninitialised or out-of-range link, and each search step strictly progresses.",
  "every interleaving, every number of readers, every insertion sequence","schedules cannot be enumerated",
  ["db/skiplist.h: Insert, FindGreaterOrEqual, Node::Next, Node::SetNext, max_height_"])
p("C29","Concurrent Contains is linearizable enough: true for keys inserted before, false for keys not inserted by the end",
  "In every interleaving a Contains(k) that starts after Insert(k) returned yields true; one that ends before Insert(k) was called yields false.",
  "every interleaving","schedules cannot be enumerated",
  ["db/skiplist.h: Insert, Contains"])
p("C30","Concurrent iteration is sorted, duplicate-free and misses nothing older",
  "In every interleaving an iteration started with SeekToFirst/Seek yields strictly increasing keys, only keys whose Insert had begun, and passes over no key whose Insert had returned before the step began.",
  "every interleaving","schedules cannot be enumerated",
  ["db/skiplist.h: Iterator::Next, Iterator::Seek, Insert"])
# ---------------------------------------------------------------- cache
p("C31","Lookup returns the most recently inserted value",
  "A successful Lookup(k) returns a handle whose Value is the value of the last Insert of k, and that Insert has been followed by no Erase(k); if the entry was neither erased, replaced nor evicted the Lookup succeeds.",
  "every legal history of cache calls, every key and hash collision pattern","unbounded histories, hash collisions and table resizes",
  ["util/cache.cc: ShardedLRUCache, LRUCache::Insert, Lookup, Erase, HandleTable"])
p("C32","The deleter runs exactly once per inserted entry, never while a handle is held",
  "For each Insert the deleter is called at most once, with exactly the inserted key and value, only after the entry left the cache and all handles to it were released; and it has been called as soon as both hold.",
  "every legal history","unbounded histories",
  ["util/cache.cc: LRUCache::Unref, FinishErase, Release"])
p("C33","A held handle stays valid",
  "Between the Insert/Lookup that returned it and its Release, a handle's entry is never freed and Value(handle) keeps returning the inserted value, whatever other calls intervene; no call ever touches freed memory.",
  "every legal history","unbounded histories",
  ["util/cache.cc: LRUCache::Ref, Unref, ShardedLRUCache::Value"])
p("C34","TotalCharge is the sum of the charges of the cached entries",
  "TotalCharge() equals the sum of the charges of the entries currently in the cache (mod 2^64).",
  "every legal history","unbounded histories",
  ["util/cache.cc: LRUCache::TotalCharge, Insert, FinishErase, ShardedLRUCache::TotalCharge"])
p("C35","Capacity is enforced at Insert",
  "When Insert returns, either the charges of the cached entries in the key's shard sum (mod 2^64) to at most the shard's capacity ceil(capacity/16), or every cached entry of that shard is held by a handle; Insert returns a fresh handle, held once, whose entry is cached (unless caching is off). (Nothing is evicted at Release, so TotalCharge may exceed the capacity between Inserts.)",
  "every legal history","unbounded histories",
  ["util/cache.cc: LRUCache::Insert"])
p("C36","Eviction is least-recently-released first and spares pinned entries",
  "Insert evicts only unpinned entries, in order of the time of their last release/insertion of unpinnedness, oldest first, and no more of them than needed to get within capacity.",
  "every legal history","unbounded histories",
  ["util/cache.cc: LRUCache::Insert, Ref, Unref, LRU_Append, LRU_Remove"])
p("C37","Prune removes exactly the unpinned entries; Erase removes exactly the key",
  "After Prune the cached entries are exactly those pinned before; Erase(k) removes the entry for k, if any, and no other.",
  "every legal history","unbounded histories",
  ["util/cache.cc: LRUCache::Prune, Erase"])
p("C38","Capacity 0 turns caching off",
  "With capacity 0 Lookup never succeeds, every Insert's handle is still usable until its Release, which runs the deleter.",
  "every legal history","unbounded histories",
  ["util/cache.cc: LRUCache::Insert"])
p("C39","The cache's total capacity is at least the requested capacity",
  "NewLRUCache(c) gives 16 shards of equal capacity whose sum is at least c and less than c+16. This holds for c <= 2^64-16; above, the rounding overflows, the capacity is 0 and caching is off.",
  "every size_t capacity","2^64 capacities",
  ["util/cache.cc: ShardedLRUCache::ShardedLRUCache"])
p("C40","NewId never repeats",
  "For any interleaving of calls from any number of threads the ids returned are pairwise different (for the first 2^64-1 calls), starting at 1.",
  "every interleaving","schedules",
  ["util/cache.cc: ShardedLRUCache::NewId"])
p("C41","Destroying the cache runs the deleter of every remaining entry exactly once",
  "If no handle is outstanding, destroying the cache calls the deleter exactly once for every entry still cached and frees every entry; nothing is leaked or freed twice.",
  "every legal history","unbounded histories",
  ["util/cache.cc: LRUCache::~LRUCache"])
p("C42","Cache calls from many threads behave as if executed one at a time",
  "For any threads issuing calls on one cache, every interleaving gives the same results and leaves the same cache as a sequential order of the calls' locked steps in which each step lies between the beginning and the return of its call: Insert, Lookup, Release, Value, Erase and NewId are one step each, so they are atomic; Prune and TotalCharge are sixteen steps, one per shard, and are not atomic as a whole. No interleaving deadlocks or leads to undefined behaviour.",
  "every interleaving, any number of threads, every hash function, capacity and allocator","schedules",
  ["util/cache.cc: MutexLock users, ShardedLRUCache"])
# ---------------------------------------------------------------- memenv
p("C43","In-memory files hold exactly the appended bytes",
  "Reading a file of the in-memory environment at any offset and length returns exactly the corresponding part of the concatenation of all data appended since it was last truncated, cut at end of file; the same for sequential reading; an offset beyond the end is an IOError.",
  "every sequence of appends of any sizes, every offset and length","block boundaries times unbounded contents",
  ["helpers/memenv/memenv.cc: FileState::Append, FileState::Read, SequentialFileImpl, RandomAccessFileImpl"])
p("C44","Open files survive removal and renaming",
  "A reader or writer opened before RemoveFile/RenameFile-over keeps working on the same contents; nothing is freed while an open file refers to it.",
  "every history of environment and file calls","unbounded histories",
  ["helpers/memenv/memenv.cc: FileState::Ref, Unref, RemoveFileInternal"])
p("C45","Creating a file truncates it; open readers see the new contents",
  "NewWritableFile on an existing name makes the file empty, keeping its identity: files opened earlier see the new contents (posix-like overwrite); on a new name it creates an empty file.",
  "every history","unbounded histories",
  ["helpers/memenv/memenv.cc: NewWritableFile, FileState::Truncate"])
p("C46","NewAppendableFile creates or extends the named file",
  "After NewAppendableFile(f) the file f exists and data appended through it is readable under f; other calls on f then behave normally. On the in-memory environment this holds when f exists. When it does not, the call says OK but the map keeps a null entry, so that the next open, size or removal of f, and the destruction of the environment, dereference null.",
  "every history","needs the right call on a missing file",
  ["helpers/memenv/memenv.cc: NewAppendableFile"])
p("C47","RenameFile moves contents",
  "RenameFile(a,b) with a existing makes b name a's file, removes a, leaves every other name alone and drops b's old file from the namespace; with a missing it fails and changes nothing. All this for a different from b; renaming a file onto itself returns OK and destroys it.",
  "every history, every pair of names","aliasing of names",
  ["helpers/memenv/memenv.cc: RenameFile"])
p("C48","GetChildren lists exactly the names below the directory",
  "GetChildren(d) returns, in sorted order without duplicates, exactly the strings c such that a file named d/c exists, and drops previous contents of the result vector.",
  "every set of names, every directory string","unbounded names",
  ["helpers/memenv/memenv.cc: GetChildren"])
p("C49","Existence, size and removal agree",
  "FileExists(f), GetFileSize(f).ok() and opening f for reading all succeed or all fail; GetFileSize equals the number of bytes appended since truncation; RemoveFile(f) succeeds iff f exists and makes it not exist, leaving others alone.",
  "every history without the C46/C47 defects","unbounded histories",
  ["helpers/memenv/memenv.cc: FileExists, GetFileSize, RemoveFile"])
p("C50","No file state is leaked or freed twice",
  "After any history in which every opened file is closed and the environment destroyed, every file state ever created was freed exactly once.",
  "every history without the C46/C47 defects","unbounded histories",
  ["helpers/memenv/memenv.cc: FileState, ~InMemoryEnv"])
p("C51","Skip moves forward by the given count",
  "In the in-memory environment SequentialFile::Skip(n) advances the position by min(n, remaining) and returns OK (an IOError if a truncation has left the position beyond the end); with a concurrent truncation between its two size reads it can push the position past the end. In the POSIX environment Skip(n) advances by n, past the end if need be (reads then deliver nothing), for n < 2^63; larger n move backwards.",
  "every n, every interleaving with truncation","schedules, huge n",
  ["helpers/memenv/memenv.cc: SequentialFileImpl::Skip","util/env_posix.cc: PosixSequentialFile::Skip"])
# ---------------------------------------------------------------- env utils
p("C52","WriteStringToFile / ReadFileToString round-trip",
  "On the in-memory environment WriteStringToFile(d,f) returns OK and a following ReadFileToString(f) returns OK and exactly d, for any size of d and any previous contents of f; other files are unchanged and no handle is leaked.",
  "every data, every prior state","unbounded data, chunk boundaries at 8192",
  ["util/env.cc: DoWriteStringToFile, ReadFileToString"])
p("C53","A failed WriteStringToFile leaves no partial file",
  "For every environment behaviour: if creating fails nothing else is called; if Append, Sync or Close fails the file is removed and the first error is returned; the file object is always deleted exactly once; Close is called before deletion iff no earlier error.",
  "every environment behaviour (all error combinations)","all failure combinations of an arbitrary Env",
  ["util/env.cc: DoWriteStringToFile"])
# ---------------------------------------------------------------- posix
p("C54","Buffered writes reach the file in order, completely",
  "If no call on a POSIX WritableFile has returned an error, then at every moment the bytes handed to the OS followed by the buffered bytes are exactly the concatenation of all appended data, and after a successful Flush, Sync or Close the buffer is empty; for every pattern of partial writes and EINTR.",
  "every append sequence, every behaviour of write()","unbounded sequences and short-write patterns",
  ["util/env_posix.cc: PosixWritableFile::Append, FlushBuffer, WriteUnbuffered, Flush, Sync, Close"])
p("C55","The write buffer never overflows",
  "No call writes outside the 65536-byte buffer, for any sizes and any errors.",
  "every append sequence incl. after errors","unbounded sequences",
  ["util/env_posix.cc: PosixWritableFile::Append"])
p("C56","A write error is reported, and what reached the OS is always a well-defined subsequence",
  "If write() fails for a reason other than EINTR the Append/Flush/Sync/Close in progress returns an error (NotFound iff ENOENT, else IOError); the buffered data is dropped, so later successful appends leave a gap.",
  "every error pattern","fault injection patterns",
  ["util/env_posix.cc: WriteUnbuffered, FlushBuffer, PosixError"])
p("C57","Synced data survives any crash",
  "After Sync() returns OK, every crash, whatever the OS did with unsynced pages, leaves a file whose contents start with all data appended before that Sync.",
  "every history, every crash point, every OS write-back choice","crash points",
  ["util/env_posix.cc: PosixWritableFile::Sync, SyncFd"])
p("C58","Syncing a MANIFEST makes the directory durable first",
  "For a file whose base name starts with MANIFEST, Sync syncs the containing directory before handing the buffered manifest bytes to the OS, and fails without doing so if the directory sync fails; for other files no directory is touched. For a MANIFEST directly under / the directory name computed is empty, so Sync asks to open the empty path, which no file system grants, and so never succeeds.",
  "every file name, every OS behaviour","all names",
  ["util/env_posix.cc: Sync, SyncDirIfManifest, IsManifest, Dirname, Basename"])
p("C59","Dirname and Basename split a path",
  "For a path with a '/', Dirname ++ \"/\" ++ Basename is the path and Basename contains no '/'; without '/', Dirname is \".\" and Basename the path.",
  "every string","unbounded strings",
  ["util/env_posix.cc: Dirname, Basename"])
p("C60","Random-access reads return file contents, however the file is opened, inside the file",
  "RandomAccessFile::Read(offset,n) with [offset, offset+n) inside the file returns OK and exactly those bytes, however the file was opened (mmap, permanent descriptor, temporary descriptor). Past the end the variants differ: with a descriptor the read is cut at the end of the file, with mmap it fails, reads outside the mapping if offset+n wraps around 2^64, and an empty file cannot be opened at all.",
  "every offset, length, file content, limiter state","boundaries and resource exhaustion states",
  ["util/env_posix.cc: PosixRandomAccessFile, PosixMmapReadableFile, NewRandomAccessFile"])
p("C61","The resource limiter never over-grants",
  "For any interleaving of Acquire/Release calls by any number of threads, at every moment the number of granted-and-not-released resources is at most the limit; when no call is in progress the internal counter plus the number of granted resources is the limit.",
  "every interleaving","schedules",
  ["util/env_posix.cc: Limiter"])
p("C62","The limiter grants when a resource is available",
  "An Acquire that runs while no other is under way returns true iff fewer than the limit are held. In general it returns true iff the resources held plus the Acquires about to be refused are fewer than the limit, so it can be refused although nothing is held.",
  "every history / interleaving","schedules",
  ["util/env_posix.cc: Limiter::Acquire"])
p("C63","Limiter slots and descriptors are not leaked by random-access files",
  "For every history of opening and closing random-access files and every OS failure pattern, the number of mmap slots (fd slots) in use equals the number of live mmap (permanent-fd) files, and every descriptor opened is closed or owned by exactly one live object.",
  "every history, every failure pattern","failure patterns",
  ["util/env_posix.cc: NewRandomAccessFile, PosixRandomAccessFile, PosixMmapReadableFile"])
p("C64","LockFile excludes other lockers in the same process",
  "Within one process at most one caller at a time holds the lock on a given file name; a second LockFile fails with IOError and does not disturb the table; after UnlockFile it can be locked again.",
  "every interleaving","schedules",
  ["util/env_posix.cc: LockFile, UnlockFile, PosixLockTable"])
p("C65","LockFile excludes other processes",
  "While a process holds a lock obtained by LockFile, no other process's LockFile on the same file succeeds, provided no process calls LockFile on a file it still has open through LockFile. Without the proviso it fails: a refused second LockFile in the holding process, or an UnlockFile racing a new LockFile, closes a descriptor of the file, which drops the process's record lock.",
  "every interleaving of processes","schedules across processes",
  ["util/env_posix.cc: LockFile, LockOrUnlock"])
p("C66","Scheduled work runs exactly once, in order, one at a time",
  "Every item passed to Schedule is executed exactly once, in the order the Schedule calls took the lock, by a single background thread, never two at the same time; at most one background thread is ever started.",
  "every interleaving of any number of scheduling threads","schedules",
  ["util/env_posix.cc: Schedule, BackgroundThreadMain"])
p("C67","No scheduled work is forgotten",
  "In no reachable state is the queue non-empty while the background thread sleeps on the condition variable without a wake-up pending, with spurious wake-ups allowed; from every reachable state the background thread can always proceed to execute all queued items.",
  "every interleaving","lost wake-ups are schedule dependent",
  ["util/env_posix.cc: Schedule, BackgroundThreadMain","port/port_stdcxx.h: CondVar"])
p("C68","Log messages are written whole, one line each",
  "Logv writes the header, the complete formatted message (of any length up to INT_MAX-119 bytes; from INT_MAX-28 to INT_MAX bytes the arithmetic overflows), and exactly one trailing newline added iff the text does not already end with one; it never writes outside its buffers.",
  "every message length and content","boundary at 512 bytes, unbounded lengths",
  ["util/posix_logger.h: PosixLogger::Logv"])
p("C69","System errors map to statuses",
  "PosixError(ctx, e) is NotFound iff e is ENOENT and IOError otherwise, with message ctx: strerror(e).",
  "every errno and context","all errno values",
  ["util/env_posix.cc: PosixError"])
p("C70","POSIX sequential read delivers the file",
  "Reading a POSIX sequential file repeatedly (any sizes, any short reads, any EINTR) delivers consecutive parts of the file from the start; ReadFileToString over it returns the whole file when no error occurs.",
  "every read-size sequence and OS behaviour","short-read patterns",
  ["util/env_posix.cc: PosixSequentialFile::Read","util/env.cc: ReadFileToString"])

p("C71","ReadFileToString on every environment",
  "On any environment that stores a file object with every OK and a pointer (or null) with every error, ReadFileToString returns the first error it was given, or OK only after a read that delivered nothing; the data it stores is exactly the concatenation of the successful reads, and the file object is deleted exactly once after its last use. (If the environment leaves the out-pointer unset on error the behaviour is undefined, which is proved too.)",
  "every environment: every sequence of statuses, read sizes and data","the environment is arbitrary, with unbounded numbers of reads",
  ["util/env.cc: ReadFileToString","include/lsmdb/env.h: NewSequentialFile"])

p("C72","A written file's descriptors are closed exactly once",
  "From creating a POSIX WritableFile to deleting it, whatever calls are made in whatever order (Close any number of times, calls after Close, Sync of a MANIFEST opening the directory) and whatever fails, every descriptor opened is closed exactly once and no descriptor that is not open is closed (close(-1) excepted, which only fails).",
  "every sequence of calls, every kernel behaviour","leaks and double closes appear only on particular error paths",
  ["util/env_posix.cc: PosixWritableFile::Close, ~PosixWritableFile, SyncDirIfManifest"])

p("C73","The in-memory environment is linearizable",
  "Whatever the schedule of any number of threads using one in-memory environment (file objects used while they live; a sequential file and a deletion not at the same time as another call on that object): every call takes effect at one instant between its beginning and its return, and all results are those of the calls made one after the other in that order, except that a Skip during which another thread truncates the file may return OK. No call executes anything undefined, and no deadlock arises: some thread can always go on.",
  "every number of threads, every schedule, every choice of calls, every file contents","schedules of unboundedly many threads and calls cannot be enumerated",
  ["helpers/memenv/memenv.cc: InMemoryEnv, FileState::Ref, FileState::Unref, FileState::Truncate, SequentialFileImpl::Skip"])
EP="util/env_posix.cc: "
HIST="every history of legal calls by one caller, every file system to start from, every POSIX kernel (failures, short reads and writes at any point), every buffer size and every number of slots for mappings and descriptors"
p("C74","POSIX environment: what calls say about names is true",
  "In every history of calls, each result is true of the names as the earlier successful calls left them: opening for reading, RemoveFile, GetFileSize, RenameFile, GetChildren and RemoveDir return OK only for a name that exists and NotFound only for one that does not, CreateDir returns OK only for a name that was free, FileExists says yes only if the name exists and no only if it does not (unless access() fails for another reason). FileExists, RemoveFile, GetFileSize, RenameFile, CreateDir and RemoveDir are one system call with the caller's arguments, whose answer is passed on.",
  HIST,"histories are unbounded and the kernel may fail at any point",
  [EP+"PosixEnv::FileExists, RemoveFile, GetFileSize, RenameFile, CreateDir, RemoveDir, NewSequentialFile, NewRandomAccessFile, NewWritableFile, NewAppendableFile, GetChildren"])
p("C75","POSIX environment: a file reads as what was appended to it",
  "As long as a file is written by one writer at a time whose calls succeed and which is flushed or closed before it is deleted: a Read that returns OK delivers bytes of the file at the reader's position (or the given offset), none only at the end, where the file is everything appended since it was last created or truncated by NewWritableFile (everything, for NewAppendableFile), less at most one buffer at its end that was not yet flushed; what was flushed is there, and with no writer left it is all there. GetFileSize is the length of that. A failed Read delivers nothing. A second part, that every Append that returned OK counts, is false: Append to a closed file returns OK and the data is lost.",
  HIST,"all interleavings of writers and readers over all files, and all short reads and writes, cannot be enumerated",
  [EP+"PosixWritableFile, PosixSequentialFile::Read, PosixSequentialFile::Skip, PosixRandomAccessFile::Read, PosixEnv::GetFileSize, NewWritableFile, NewAppendableFile"])
p("C76","POSIX environment: open readers keep their file",
  "Removing, renaming and replacing names does not disturb an open SequentialFile, nor a RandomAccessFile that has a descriptor: it goes on reading the file it was opened on. A mapped RandomAccessFile delivers exactly the bytes now in the file at any range the file had when it was opened, as long as NewWritableFile has not truncated it. False in general: a RandomAccessFile opened when no slot was free reads the file its name stands for at each Read, and a mapped one faults after NewWritableFile on the same name.",
  HIST,"depends on which slots earlier calls took and on every later change of names",
  [EP+"PosixRandomAccessFile, PosixMmapReadableFile::Read, PosixEnv::NewRandomAccessFile, RenameFile, RemoveFile"])
p("C77","POSIX environment: GetChildren lists the directory",
  "GetChildren that returns OK delivers each name in the directory once, and '.' and '..', and nothing else, provided no readdir() failed; when it returns an error it delivers nothing. False when readdir() fails: GetChildren returns OK with a list that is too short.",
  HIST,"directories of every size and failures at every entry",
  [EP+"PosixEnv::GetChildren"])
p("C78","POSIX environment: nothing leaks",
  "After every history the descriptors open beyond those open at the start are exactly those of the live sequential readers, of the live random-access readers that got a descriptor slot and of the writers not closed yet, each its own; the mappings are exactly those of the live mapped readers; no directory stream is open; and once every object is deleted, descriptors and mappings are as at the start. Descriptors and mappings of others are never touched.",
  HIST,"must hold after every history, with failures at every point",
  [EP+"PosixEnv, PosixSequentialFile, PosixRandomAccessFile, PosixMmapReadableFile, PosixWritableFile, GetChildren"])
p("C80","POSIX environment: what survives a crash",
  "After a crash at any point of any history, a file that is still there starts with everything appended to it before the last Sync that returned OK (if used as in C75); a directory entry that has not changed since a MANIFEST in the same directory was synced is as it was; so a MANIFEST that was synced is there under its name with all it contained. False for other files: a file whose Sync returned OK may be gone after a crash, as its directory entry was never synced.",
  HIST+", and every crash point and every state of the disk a crash may leave","crash points and disk states cannot be enumerated",
  [EP+"PosixWritableFile::Sync, SyncDirIfManifest, SyncFd"])
p("C82","POSIX environment: every legal call returns",
  "In every history on a kernel whose answers are right, no legal call executes undefined behaviour or fails an assert, with asserts on or off; and if the kernel does not stall writes or interrupt reads for ever, every call returns.",
  HIST,"must hold in every reachable state",
  [EP+"PosixEnv and its file classes"])
p("C79","POSIX NewLogger leaks nothing",
  "NewLogger returns a logger if and only if it returns OK; whatever fails, the descriptor it opened either belongs to the logger or has been closed; an error names the file. Deleting the logger closes what it opened.",
  "every file name, every outcome of open, fdopen and close","failures of fdopen and close cannot be provoked in a test",
  [EP+"PosixEnv::NewLogger","util/posix_logger.h: ~PosixLogger"])
p("C81","POSIX WriteStringToFile and ReadFileToString",
  "On the POSIX environment, for a file nobody is writing: WriteStringToFile that returns OK leaves the file with exactly the data (with Sync, also after a crash, for a file that is still there); ReadFileToString that returns OK delivers exactly what the file contains; so reading after writing delivers the data. ReadFileToString that fails delivers a part from the file's beginning. WriteStringToFile that fails has either not been able to open the file, or it has called RemoveFile for it at the end; neither touches any other name or file. Both return if the kernel makes progress. False: that a failed write leaves the old contents intact: they are destroyed.",
  HIST+", every data","short reads, short writes and failures at every point",
  ["util/env.cc: WriteStringToFile, WriteStringToFileSync, ReadFileToString",EP+"PosixEnv"])
p("C83","POSIX GetTestDirectory",
  "GetTestDirectory always returns OK, delivers TEST_TMPDIR if that is set and not empty, and else a name of its own for every user, /tmp/lsmdbtest- and the user's number, and asks the kernel once to create it. False: that the directory exists when it returns OK (the failure of mkdir is ignored).",
  "every environment variable, every user id, every kernel","every user id and every kernel answer",
  [EP+"PosixEnv::GetTestDirectory"])
p("C84","POSIX NowMicros",
  "NowMicros is the time of day in microseconds, without overflow up to the year 586524; a later time of day gives a larger number.",
  "every time of day","all time values",
  [EP+"PosixEnv::NowMicros"])
p("C85","How many read-only files are kept open",
  "The number is the limit set if one was set; else a fifth of the descriptors the process may have (50 if unknown, unlimited if unlimited), and it does not change later. False for limits of 5*2^31 and more: the number may come out negative, as it is truncated to int.",
  "every limit set, every rlimit","all 64-bit limits",
  [EP+"MaxOpenFiles"])
p("C86","The default environment is configured before its first use",
  "The limits the default environment works with are those set last before it was first asked for; setting one later aborts when asserts are on and has no effect on the environment when they are off; Env::Default() is always the same environment.",
  "every sequence of calls of SetReadOnlyFDLimit, SetReadOnlyMMapLimit, Env::Default","every order of the calls",
  [EP+"SingletonEnv, EnvPosixTestHelper::SetReadOnlyFDLimit, SetReadOnlyMMapLimit, Env::Default"])
p("C90","Threads on the POSIX environment never touch each other's descriptors, and nothing leaks",
  "When several threads call the POSIX environment at the same time (one thread at a time per object, except Read of a RandomAccessFile), every system call uses only an open descriptor, mapping or directory stream that the same call or the maker of its object opened (or -1); nothing undefined happens and no assert fails; descriptors open before are never touched; whatever else is open belongs to a call in progress or to a live object, at most one descriptor per object; when all calls have returned and all objects are deleted, everything is closed and all slots are free.",
  "any number of threads, any calls, every interleaving of their system calls and limiter operations, every answer of a POSIX file system","must hold for every interleaving",
  [EP+"PosixEnv and its file classes","util/env_posix.cc: Limiter"])
p("C91","A RandomAccessFile may be read by many threads at once",
  "A Read that returns OK while other threads read from the same object, write, rename, remove and create files delivers the bytes the file had at the offset at one moment while it ran; the file is the one the name stood for while the object was made (if the object has a descriptor or mapping) or while Read ran. A Read leaves the file only if the file, or another one that had the name while the object was made, had more bytes then. False: that a Read stays inside the file when nothing is truncated: NewRandomAccessFile opens the file and then takes the size of whatever has the name, so a rename in between maps more than the file has.",
  "any number of threads, every interleaving, every answer of a POSIX file system","must hold for every interleaving",
  [EP+"PosixRandomAccessFile::Read, PosixMmapReadableFile::Read, PosixEnv::NewRandomAccessFile"])
p("C92","The limits on read-only files hold under concurrency",
  "At no moment do more mappings exist than the mmap limit allows, and at no moment do more RandomAccessFiles have a descriptor of their own than the limit on these, whatever the threads do.",
  "any number of threads, every interleaving","must hold at every moment of every interleaving",
  ["util/env_posix.cc: Limiter::Acquire, Release",EP+"PosixEnv::NewRandomAccessFile"])
p("C93","Calls about names are atomic",
  "FileExists, RemoveFile, GetFileSize, RenameFile, CreateDir and RemoveDir make one system call, at one moment between their start and their return, and return its answer: with any number of threads they behave as if they ran one after the other.",
  "any number of threads, every interleaving, every answer of a POSIX file system","must hold for every interleaving",
  [EP+"PosixEnv::FileExists, RemoveFile, GetFileSize, RenameFile, CreateDir, RemoveDir"])
p("C87","In-memory environment: directories, locks, threads",
  "On the in-memory environment CreateDir, RemoveDir, LockFile, GetTestDirectory (which says /test), NewLogger always succeed; a lock may be given back exactly once; its logger writes nothing; the base environment sees exactly the calls of Schedule, StartThread, NowMicros and SleepForMicroseconds, in order, and their answers are passed on. False: that LockFile fails while somebody holds the lock: nobody is ever refused.",
  "every history of these calls, every base environment","must hold for every history and base environment",
  ["helpers/memenv/memenv.cc: InMemoryEnv::CreateDir, RemoveDir, LockFile, UnlockFile, GetTestDirectory, NewLogger; NoOpLogger","include/lsmdb/env.h: EnvWapper"])
p("C88","Environments built on another one",
  "A wrapper that overrides nothing behaves exactly as its target. The error-injecting environment behaves as its target, except that while its flag is set NewWritableFile and NewAppendableFile do not reach the target, return an error and a null file, and are counted. Log calls the logger once, or nothing if there is none. An environment without NewAppendableFile says NotSupported. False: that this last one stores nullptr in *result.",
  "every target environment, every sequence of calls and settings of the flag","must hold for every target and history",
  ["include/lsmdb/env.h: EnvWapper","util/test_util.h: ErrorEnv","util/env.cc: Env::NewAppendableFile, Log"])
p("C89","Generators of test data",
  "RandomString delivers the requested number of printable characters, and RandomKey the requested number of bytes out of ten, one draw of the generator each; CompressibleString returns, with exactly the requested length, and its contents are a random string of max(1, len * fraction) characters repeated.",
  "every generator state, every length, every fraction","all seeds and lengths",
  ["util/test_util.cc: RandomString, RandomKey, CompressibleString"])
p("C94","Threads may log at the same time",
  "When threads call Logv of one logger at the same time and no write fails, the log file is made of the lines of the calls (time, thread, message), whole and never mixed; when Logv returns its line is in the file; a call made after another had returned stands behind it; no call waits for ever. If writes fail, lines may be cut but are never mixed. False: that the lines stand in the order of the times in them.",
  "any number of threads and calls, every interleaving, every way the C library moves the bytes","must hold for every interleaving",
  ["util/posix_logger.h: PosixLogger::Logv, ~PosixLogger"])
p("C95","WritableFiles and threads: what reaches the kernel",
  "What calls on one WritableFile have written, with any number of other threads using the environment at the same time, is what was given to Append, in order, perhaps with parts left out; nothing is left out as long as every call returned OK. When a call returns OK, at most one buffer is still to be written, and nothing after Flush, Sync or Close. Deleting a file that was not closed writes the rest unless a write fails.",
  "any number of threads, every interleaving of their system calls, every answer of a POSIX file system (short writes, EINTR, errors)","must hold for every interleaving and every answer",
  [EP+"PosixWritableFile::Append, Flush, Sync, Close, WriteUnbuffered, FlushBuffer, ~PosixWritableFile"])
p("C96","WritableFiles and threads: what is in the files, and after a crash",
  "As long as nobody else writes to or truncates its file, a WritableFile's file holds what it held when it was opened (nothing, after NewWritableFile) and then what was written: all that was given to Append when Flush, Sync or Close returns OK. What had been given to Append when Sync returned OK is on the disk after every later crash. If all writers of a file were made by NewAppendableFile, nothing is overwritten: the file holds what it held and then the pieces written, those of each writer in order, and what was given to one of them before its Sync returned OK survives a crash.",
  "any number of threads, every interleaving, every answer of a POSIX file system, every moment of a crash","must hold for every interleaving and crash point",
  [EP+"PosixEnv::NewWritableFile, NewAppendableFile, PosixWritableFile"])
p("C97","MANIFEST files and threads: the name survives a crash",
  "When Sync of a WritableFile whose file name starts with MANIFEST returns OK, the directory of the file was forced to disk during the call: at one moment of the call all its entries were on disk. So, whatever other threads do, if the name has stood for the file since Sync began and the directory was not replaced during Sync, the name is found after every later crash, and the file behind it starts with all that had been given to Append when Sync was called (if nobody else writes to or truncates the file).",
  "any number of threads, every interleaving, every answer of a POSIX file system, every moment of a crash","must hold for every interleaving and crash point",
  [EP+"PosixWritableFile::Sync, SyncDirIfManifest, SyncFd, Dirname, IsManifest"])
p("C98","SequentialFiles and threads: one file, in order, without gaps",
  "All Reads of a SequentialFile give bytes of one file, the one that had the name at one moment of NewSequentialFile, whatever becomes of the name. Each Read gives bytes which that file had, at one moment of the Read, from the place the earlier Reads and Skips have led to; it is empty only if 0 bytes were asked for or the file ends there. So if nothing was skipped and the file does not change, the Reads together give the beginning of its contents, and an empty Read means that all of it was given.",
  "any number of threads, every interleaving of their system calls, every answer of a POSIX file system (short reads, EINTR, errors)","must hold for every interleaving and every answer",
  [EP+"PosixSequentialFile::Read, Skip, PosixEnv::NewSequentialFile"])
p("C99","The skip list inside a shared arena",
  "A SkipList keeps its nodes in memory from the arena it was given, which the rest of the program may use too. Whatever the program allocates from the arena and writes to what it was given, before, between and after the calls of the list, Contains answers true for exactly the keys inserted, iteration in both directions and Seek see them in order, and every call returns without touching memory outside the arena's blocks, misaligned or uninitialised. The list in turn changes no byte the program was given, and the program's requests are served with memory of its own. An iterator kept while insertions go on still has its key, and Next takes it to the least greater key then in the list.",
  "every comparator, key type of fixed size, interleaving of allocations, writes, construction and insertions, every answer of new[] its contract allows, every height drawn","must hold for every layout of the nodes and every history",
  ["db/skiplist.h: SkipList::Insert, Contains, NewNode, FindGreaterOrEqual, FindLessThan, FindLast, SkipList::Node, SkipList::Iterator","util/arena.cc: Arena::AllocateAligned"])
p("C100","GetChildren while other threads change the directory",
  "A GetChildren that returns OK returns only '.', '..' and names that were in the directory at one moment of the call; '.' and '..' and every name that was in the directory throughout the call are returned exactly once, unless a readdir() failed. One that fails returns no names, and NotFound means that the directory did not exist at one moment of the call. The result need not be the contents of the directory at any single moment (refuted).",
  "any number of threads creating, renaming and removing files meanwhile, every interleaving of their system calls, every answer of a POSIX file system (readdir may or may not give entries added or removed during the scan)","must hold for every interleaving and every answer",
  [EP+"PosixEnv::GetChildren"])
p("C101","Replacing a file by write, Sync and RenameFile is atomic, also for crashes",
  "A client writes a new file under a temporary name, Sync returns OK (as all calls on it before), and it calls RenameFile(tmp, f), f being on disk; nobody else changes the new file or, meanwhile, the two names. Whenever the machine crashes after the call -- during it or later --, f on disk is its old file, or the new file with all that was written before Sync (exactly that, if nothing was appended since and it is not empty); the old file, if nobody changes it, keeps what was on disk of it. Everybody who looks at f meanwhile sees the old or the new file, and the new one once RenameFile has returned OK. RenameFile returning OK does not mean that the replacement is on disk (refuted).",
  "any number of threads, every interleaving of their system calls, every answer of a POSIX file system, every crash point, every state of the disk a crash may leave","must hold for every crash point and interleaving",
  [EP+"PosixEnv::RenameFile",EP+"PosixWritableFile::Sync"])
p("C102","A client that writes a temporary file and renames it publishes its contents atomically",
  "A client runs WriteStringToFileSync(D, tmp) and, when that has returned OK, RenameFile(tmp, f), f being a file with the contents old; no other call opens for writing, removes, renames or replaces the two names. Then every ReadFileToString(f) that returns OK, whenever and by whichever thread it runs, returns old or D, all of it and nothing else, and D if it was called after RenameFile had returned OK; everybody who looks at f at any moment sees a file with old or with D; and whenever the machine crashes, f is afterwards a file with all of old or all of D, provided old was on disk and neither is empty.",
  "any number of threads, every interleaving of their system calls, every answer of a POSIX file system (short reads and writes, interrupts, failures), every crash point","must hold for every crash point and interleaving",
  ["util/env.cc: WriteStringToFileSync, DoWriteStringToFile, ReadFileToString",EP+"PosixEnv::RenameFile",EP+"PosixWritableFile",EP+"PosixSequentialFile"])
p("C103","Deleters that call the cache: what they see, and when everything stops",
"A deleter passed to Insert may call Insert, Lookup, Release, Value, Erase, NewId, Prune or TotalCharge of the same cache. Whatever the deleters call: the calls of all threads, a deleter's calls nested in the call that called it, take effect one after the other as the calls of one legal caller would, with that caller's results. But a deleter runs inside its call's critical section: a call from a deleter that needs the critical section its own thread is in never returns, and with several threads two deleters that use each other's shard stop both for ever (both refuted as 'a deleter may call the cache'). A deadlock needs a deleter's call for a shard not above one its thread is in; so deleters that call only Insert, Lookup and Erase for keys of higher-numbered shards, Value and NewId - in particular deleters that do not call the cache - never lead to a deadlock.",
"every capacity, every deleter behaviour (calls depending on earlier results), every number of threads, every interleaving, every depth of nesting; every allocator and hash function",
"the deadlocks need a deleter that happens to run under the right lock; tests use deleters that only record; no test enumerates deleters and schedules",
["util/cache.cc:263-276 Unref","util/cache.cc:310-424","port/port_stdcxx.h:47-60 Mutex","include/lsmdb/cache.h Cache::Insert"])

p("C104","MemoryUsage may be called from any thread while another allocates",
"Arena::MemoryUsage, called by any thread at any time while one thread calls Allocate and AllocateAligned, returns the size of all blocks (with 8 bytes each) that the first k allocation calls obtained, for some k that is at least the number of calls the reading thread has synchronised with and at most the number made so far; the allocating thread gets the present value. No thread ever sees the value fall, and it covers all bytes handed out by the calls the thread knows of (totals below 2^64).",
"every sequence of allocations, every interleaving with any number of reading threads, every value a relaxed load may return, every synchronisation between the threads",
"relaxed loads may return stale values that a test on one machine never shows; a test sees single interleavings",
["util/arena.h:31-33 MemoryUsage","util/arena.cc:60-66 AllocateNewBlock","util/arena.h:53-65 Allocate"])

p("C105","Skip list readers in other threads are safe at the level of bytes, in a list whose arena the owning thread also uses",
 "One thread owns an arena, builds a skip list in it and from then on inserts keys, allocates from the same arena for other purposes and writes to what it was given. Any number of other threads use the list through Contains and iterators without locking. No load they make is a data race, reads memory that is not theirs to read or that is not initialised, or fails an assertion; each operation ends after at most (number of insertions) + 13 loads; a valid iterator can always be asked for its key. Contains(k) is true if an equal key's Insert had returned before the call in the happens-before order, and false if none had been called by the time it returned; iterators land only on keys whose Insert had been called and pass over none whose Insert had returned.",
 "all comparators and trivially copyable key types up to 2^32 bytes, all programs of the owning thread before and after construction, all answers of new[], any number of readers, all interleavings and all values the release/acquire memory model allows a load to return",
 "no test reaches every interleaving, and on x86 the hardware hides missing release/acquire pairs and torn or racing byte accesses",
 ["db/skiplist.h:SkipList::Insert","db/skiplist.h:SkipList::NewNode","db/skiplist.h:SkipList::Node::Next","db/skiplist.h:SkipList::Node::SetNext","db/skiplist.h:SkipList::Iterator","db/skiplist.h:SkipList::Contains","util/arena.cc:Arena::AllocateAligned"])

p("C106","An arena survives std::bad_alloc",
"If Allocate or AllocateAligned throws std::bad_alloc (from new[] or from the growth of the block vector), the arena is exactly as if the call had not been made: the calls that return hand out the same disjoint, live regions, MemoryUsage counts the blocks obtained, and the destructor frees every block once. (False as stated when the block vector cannot grow: the new block is then lost for good.)",
"every history of Allocate/AllocateAligned calls with legal sizes, every pattern of failing new[] and failing push_back, every addresses handed out",
"tests cannot make the n-th new[] fail for every n and every history",
["util/arena.cc:AllocateNewBlock","util/arena.cc:AllocateFallback","util/arena.cc:AllocateAligned","util/arena.h:Allocate","util/arena.cc:~Arena"])
p("C107","A Status operation that throws std::bad_alloc changes nothing",
"A Status constructor, factory, copy or assignment that throws std::bad_alloc leaves every Status variable with its value, and nothing leaks. (False for copy assignment over an error status: the target keeps a pointer to its deleted message, and no continuation of the program that ends the lifetimes of its variables has defined behaviour.)",
"every program over Status variables (construct, copy, move, assign, destroy, including aliasing and self-assignment), every pattern of failing new[], every allocator, with and without assertions",
"needs allocation failure injected at every point of every program; the broken case is undefined behaviour that need not show",
["include/lsmdb/status.h:operator=","include/lsmdb/status.h:Status","util/status.cc:CopyState","util/status.cc:Status"])
p("C108","A skip list survives std::bad_alloc",
"If Insert throws because the arena has no memory, the list holds exactly the keys whose Insert returned: Contains, Seek and iteration in both directions answer accordingly, and the key can be inserted again later.",
"every history of insertions, every subset of them throwing, all heights 1..12 as well as the heights the generator draws, every comparator that is a total order, with and without assertions",
"a throwing Insert has already advanced the generator and raised the list's height; tests cannot fail every allocation of every history",
["db/skiplist.h:Insert","db/skiplist.h:NewNode","db/skiplist.h:RandomHeight"])
p("C109","The cache survives an Insert that throws std::bad_alloc",
"If an Insert throws because memory is short, every later legal call still has defined behaviour and returns, no deleter runs twice, wrongly or early, and TotalCharge stays the sum of the charges in the cache. An Insert that finds no memory for its entry changes nothing. One that finds none for a bigger hash table leaves its entry in the cache: Lookup finds it with its value, nothing is deleted or evicted for it, and since nobody got its handle it stays until its key is inserted or erased, its memory and value are never given back, and destroying the cache fails an assertion or leaks it. (So 'a throwing Insert has no effect' and 'a shard over capacity has no idle entry' are false of these runs. If malloc for the key's bytes fails, behaviour is undefined.)",
"every capacity, hash function and allocator, every history of legal calls, every set of Inserts failing in either way",
"allocation failure has to be injected at every point of every history; the leak shows only much later",
["util/cache.cc:LRUCache::Insert","util/cache.cc:HandleTable::Insert","util/cache.cc:HandleTable::Resize","util/cache.cc:~LRUCache"])
p("C110","Destroying a cache whose handles are still held spares exactly the held entries",
"If the cache is destroyed while handles are held, a build with assertions aborts exactly if an entry that is still cached is held. Otherwise the destructor runs the deleter of exactly the cached entries nobody holds, once each and with their Insert's arguments, and frees all memory but that of the held entries, whose handles still point to memory in use (and whose deleters never run).",
"every capacity, hash function and allocator, every history of legal calls, with and without assertions",
"quantifies over every history and every set of handles still held; a leak has no visible effect",
["util/cache.cc:~LRUCache","util/cache.cc:Unref","util/cache.cc:ShardedLRUCache"])
p("C111","A shard of the cache holds up to 2^31 entries, and no more",
"Insert returns as long as fewer than 2^31 entries exist, and the hash table of a shard then finds a size, a power of two, with at least one place per entry. ('Insert always returns' is false: in a shard that holds 2^31 entries the next Insert of a new key never returns, because the doubled 32-bit table size wraps to zero; 2^31 Inserts of charge 0 lead there.)",
"every capacity, hash function and allocator, every history; all numbers of entries",
"no test fills 2^31 entries, and none can show that a loop never ends",
["util/cache.cc:HandleTable::Resize","util/cache.cc:HandleTable::Insert","util/cache.cc:LRUCache::Insert"])
p("C112","The in-memory environment survives running out of memory, except that RenameFile and NewWritableFile may lose a file",
"If operator new throws std::bad_alloc inside a call on an in-memory environment, nothing undefined happens, no lock stays taken, and the environment is exactly as if a definite sequence of ordinary calls had been made instead: none for reads, queries, opening for reading and calls that fail for want of an error Status; an Append of a prefix ending at a multiple of 8192 bytes of the file for Append; creating and closing the file for a NewWritableFile that gets no file object (an existing file has lost its contents); removing the target for a RenameFile that gets no map node (the target is gone, the source keeps its name). So later calls behave as documented. The exception can come exactly where the call asks for memory. Only a failed insertion of a new name (one file object) and a failed growth of a file's table (one array) lose memory. After a NewAppendableFile for a new name failed, the name exists and every use of it is undefined.",
"every history of legal calls, every legal next call, every allocation in it that may fail, every allocator, builds with and without assertions",
"a test cannot make each single operator new fail after every history; the guarantee is about all later calls",
["helpers/memenv/memenv.cc:FileState::Append","helpers/memenv/memenv.cc:InMemoryEnv::NewWritableFile","helpers/memenv/memenv.cc:InMemoryEnv::RenameFile","helpers/memenv/memenv.cc:InMemoryEnv::NewAppendableFile","helpers/memenv/memenv.cc:InMemoryEnv::GetChildren"])
p("C113","After an exception in Schedule nothing unscheduled runs, but the environment never runs or accepts background work again",
"If starting the background thread, queueing the item, or the work itself throws, then still: the functions called are exactly the items whose Schedule calls did not fail, in order, each once, one at a time; the failed call's function is never called; what was scheduled before is done, running or still queued. Without an exception the runs are those of C66 and C67. But after an exception that leaves Schedule the internal mutex stays locked: no queued function is ever started, every later Schedule call of any thread blocks for ever, and the only thing that can still happen is that the function already running ends. (So the claim that a failed Schedule leaves the environment usable is false, for both places where it can fail.)",
"every interleaving of any number of threads calling Schedule, work functions that call it too, every point where an exception can be thrown, every continuation",
"a test cannot make the thread constructor or the queue's allocation throw at every point of every interleaving, and cannot observe 'for ever'",
["util/env_posix.cc:PosixEnv::Schedule","util/env_posix.cc:PosixEnv::BackgroundThreadMain","port/port_stdcxx.h:Mutex"])
p("C114","After running out of memory in LockFile a lock is never granted twice, but the name, or all locking in the process, is lost",
"Whatever allocation fails in LockFile: a process still has at most one lock object per name, other processes are still excluded (as in C65), and nobody's lock is taken away. But an exception after the record lock is taken leaves the name locked for ever: the caller has no object, the descriptor stays open, and no LockFile of that name in that process (nor, with one descriptor per file, of that file in another process) ever succeeds again. An exception in the table of locked names leaves that table's mutex locked: every later LockFile of any name in that process blocks for ever once the file is open, and every UnlockFile blocks for ever after giving up the record lock. (So the claims that a LockFile that failed for lack of memory can be repeated, and that it does not disturb other names, are false.) Without exceptions the runs are those of C64 and C65.",
"every interleaving of any number of processes and threads calling LockFile and UnlockFile, every allocation that may fail, every continuation",
"a test cannot fail each single allocation in every interleaving, and cannot observe that no later call ever returns",
["util/env_posix.cc:PosixLockTable::Insert","util/env_posix.cc:PosixEnv::LockFile","util/env_posix.cc:PosixEnv::UnlockFile"])
p("C115","Opening a file that runs out of memory never breaks anything, but what it had opened is lost",
"If memory runs out in NewRandomAccessFile, or in Read of a random-access file, then after every history of opening, reading and deleting such files: each live file has its own descriptor or mapping and nobody closes it; all other descriptors, mappings and limiter slots still in use are those a throwing call left behind, at most one of each kind per throwing call; the limits still hold. Without an exception the calls are those of C60 to C63. What is left behind is never closed, unmapped or given back, so after as many such failures as there are mmap slots no file is ever mapped again, although none is. (So the claim that a call that failed for lack of memory leaves nothing behind is false.) NewSequentialFile, NewWritableFile and NewAppendableFile leave the descriptor open (and the file truncated, for NewWritableFile), NewLogger the stream, GetChildren the directory stream.",
"every history of calls on one thread, every behaviour of the operating system, every call that may run out of memory, every continuation",
"a test cannot fail every allocation after every history, and cannot show that something is never closed by any continuation",
["util/env_posix.cc:PosixEnv::NewRandomAccessFile","util/env_posix.cc:PosixRandomAccessFile::Read","util/env_posix.cc:PosixEnv::NewSequentialFile","util/env_posix.cc:PosixEnv::NewWritableFile","util/env_posix.cc:PosixEnv::NewLogger","util/env_posix.cc:PosixEnv::GetChildren"])
p("C116","A writable file loses no buffered data to running out of memory, but may write it twice, and Close may not give up the descriptor",
"If memory runs out in a call on a writable file of the POSIX environment, then that is exactly where the call would have returned an error; other calls are unchanged. An exception alone loses nothing that is in the buffer: if no call returned an error, then after a Flush, Sync or Close that returned OK the file has, in order, all data of the Appends that returned and a first part of the data of each Append that threw. Each such exception may cause one more copy of at most one buffer of data in the file, and nothing else is added. Deleting the object ends the process exactly if the Close it makes would have to report an error and there is no memory for that. A Sync of a MANIFEST file whose directory cannot be synced leaves the directory's descriptor open. (So three claims are false: that each byte appended is written at most once; that after a Close the object no longer uses the descriptor: a Close that threw because close() failed leaves an object whose later writes and whose destructor go to whatever file has the number by then; that deleting a writable file never ends the process.)",
"every history of Append, Flush, Sync and Close, every behaviour of the operating system, every call that may run out of memory, every buffer size",
"a test cannot fail the allocation of each single error status after every history and with every pattern of partial writes",
["util/env_posix.cc:PosixWritableFile::Append","util/env_posix.cc:PosixWritableFile::FlushBuffer","util/env_posix.cc:PosixWritableFile::Close","util/env_posix.cc:PosixWritableFile::Sync","util/env_posix.cc:PosixWritableFile::SyncDirIfManifest"])
p("C117","Exceptions through the file helpers: ReadFileToString always deletes its file, WriteStringToFile cleans up only when it returns",
"ReadFileToString deletes the file object it got exactly once, as the last thing it does, whatever throws in it (a call of the environment, the allocation of the buffer, the growth of *data); *data then has what was read before, in order, and everything that was read unless an exception left. WriteStringToFile left by an exception got it from the last call it made. If that is NewWritableFile, nothing else was called; if it is RemoveFile, the object has been deleted; if it is Append, Sync or Close, the object is never deleted and the file not removed (so the claim that WriteStringToFile deletes the object and removes the file whenever it does not succeed is false). Without exceptions both are as in C53 and C71.",
"every environment, every state of it, every call that may throw, every round in which memory may run out, every contents",
"a test cannot make every call of every environment throw; the leak of the object is not visible to a test that only looks at statuses",
["util/env.cc:DoWriteStringToFile","util/env.cc:WriteStringToFile","util/env.cc:ReadFileToString"])
p("C118","A log call that runs out of memory writes all of its line or nothing, and a short line needs no memory",
"Whatever allocation of a log call of the POSIX logger fails, the call either throws and then has written nothing and holds no memory, or writes one line in one piece, flushes it and frees its buffer; the line has the whole message after a header whose thread id may have been cut short. With a thread id of up to 15 characters a line of up to 510 characters is logged however little memory there is. With enough memory everything is as in C68. (So three claims are false: that each line tells the thread - without memory for the stream the thread id is empty, and no exception says so; that no message is lost to lack of memory - a longer line needs a second buffer, and a longer thread id needs one for its string.)",
"every message, every time of day, every thread id, every pattern of failing allocations, every behaviour of the two formatting passes",
"a test cannot fail each single allocation inside a call, nor see that nothing was written for every length of message",
["util/posix_logger.h:PosixLogger::Logv"])
p("C119","Readers of the skip list are not disturbed by insertions that run out of memory",
"While one thread inserts and any insertion may throw because there is no memory for its node, concurrent readers see no undefined behaviour and no failed assertion, each of their operations ends after at most (number of keys stored) + 13 loads, and Contains and the iterators answer as they do beside insertions that succeed (C29, C30), counting only insertions that do not throw: a key all of whose insertions threw is never found and no iterator ever stands on it, at any moment. The thread that inserts may go on, also with the same key. Where nothing throws this is C28 to C30.",
"every history of insertions, every choice of those that throw, all heights, every number of readers and their operations, every interleaving and every stale value release/acquire semantics allows",
"a test would have to fail the allocation of one node at the moment when a reader is between two loads of a search",
["db/skiplist.h:SkipList::Insert","db/skiplist.h:SkipList::NewNode","db/skiplist.h:SkipList::Contains","db/skiplist.h:SkipList::Iterator"])
p("C120","One cache used by several threads stays correct when some of their Inserts run out of memory",
"While several threads call one cache and any Insert may throw std::bad_alloc for want of memory for its entry or for a bigger table, every execution is explained by a history of one caller (C42), in which the Inserts that threw after putting their entry into the table stand as Inserts whose handle nobody gets: what all other threads see is what C109 says of that history. The shard stays usable: no thread is ever stuck or at undefined behaviour. An Insert that threw for want of its entry changed nothing; one that threw for want of a bigger table has left its entry where every thread finds it, and the entry is never freed. Where nothing throws these are the executions of C42.",
"every number of threads, every program of theirs, every interleaving, every choice of Inserts that throw, every hash function and allocator",
"a test would have to fail one allocation of one thread between chosen steps of the others",
["util/cache.cc:LRUCache::Insert","util/cache.cc:HandleTable::Resize","util/cache.cc:ShardedLRUCache","util/mutexlock.h:MutexLock"])
p("C121","What a deleter called by the cache's destructor may do with the cache",
"Destroying the cache calls the deleters of its idle entries while the cache is being taken apart: last_id_ and id_mutex_ go first, then the shards from the last to the first. If these deleters call nothing of the cache, the destructor frees the entries as C110 says. A deleter that begins with NewId, or with Insert, Lookup or Erase of a key in a higher shard than its own (the calls that are safe from deadlock in C103), makes the destruction undefined behaviour. Nor is its own shard safe: looking its own key up gives a handle to the entry that is freed next; giving that handle back runs the deleter a second time with the shard's mutex held, so that the destructor never ends; looking up a key of the same shard whose entry has been destroyed reads freed memory.",
"every reachable cache, hash function, allocator and family of deleters (the failures in the own shard: by example)",
"undefined behaviour in a destructor usually seems to work in a test; which shard a key is in depends on its hash",
["util/cache.cc:LRUCache::~LRUCache","util/cache.cc:LRUCache::Unref","util/cache.cc:ShardedLRUCache"])
p("C122","A log shared by threads loses only the lines of the calls that throw",
"While several threads log through one POSIX logger and any of their calls may run out of memory, the calls that throw leave no byte in the log and disturb nobody: as long as no fwrite and no fflush fails, the lines of all calls that do not throw are in the file, whole, one after the other, each once, in the order of calls that did not overlap; when no call is going on the file is exactly these lines. Each shows the time of its call, its thread (or a first part of the id, if its stream had no memory for more) and the whole message. Only a call with a thread id of more than 15 characters or a line of more than 510 can throw. No call is undefined behaviour (release builds), none waits for one that throws, every call that does not throw can return. With enough memory this is C94.",
"every number of threads and calls, every interleaving with the parts of other calls' fwrite and fflush, every choice of allocations that fail, every message and thread id",
"a test would have to fail the allocation of one call while another is inside fwrite, in every combination",
["util/posix_logger.h:PosixLogger::Logv","util/posix_logger.h:PosixLogger::~PosixLogger"])
out = os.path.join(os.path.dirname(os.path.abspath(__file__)), "..", "properties.jsonl")
with open(out, "w") as f:
    for q in P: f.write(json.dumps(q) + "\n")
print(len(P))
