(** CacheOom.v -- LRUCache::Insert when memory runs out.

    Cache.v lets every allocation of Insert succeed.  Here one of them fails:
    operator new for the entry (also: the copy of the std::function that is passed as
    deleter), malloc for the key's bytes, or operator new[] for the bigger table in
    HandleTable::Resize.  The first and the last throw std::bad_alloc, which nothing in
    util/cache.cc catches, so what Insert had changed by then stays changed; the mutex
    is released by the destructor of MutexLock (util/mutexlock.h:32). *)
From Coq Require Import List Arith NArith Lia Bool.
From Verif Require Import Outcome Heap Cache CacheSpec CacheRun.
Import ListNotations.
Local Open Scope outcome_scope.

(** The allocation that fails. *)
Inductive fault := FEntry | FKey | FTable.

(** How Insert ends: it returns a handle, or it throws; [lost]: the entry it leaves
    behind in the cache, whose handle nobody gets. *)
Inductive ending := Returns (h : nat) | Throws (lost : option nat).

(** HandleTable::Insert, cache.cc:98-116, whose Resize throws at cache.cc:156.  The
    last component of the result: Resize was called. *)
Definition table_insert_f (dbg : bool) (m : mem) (t : htable) (h : nat) : outcome (mem * htable * nat * bool) :=
  let! k := key_of dbg m h in
  let! n := get m h in
  let! ptr := find_pointer dbg m t k (n_hash n) in
  let! old := load_loc m (t_table t) ptr in
  let! nh := (if old =? 0 then Ret 0 else let! o := get m old in Ret (n_next_hash o)) in
  let! m := upd m h (set_next_hash nh) in
  let! mt := store_loc m (t_table t) ptr h in
  let m := fst mt in let tab := snd mt in
  if old =? 0 then
    let elems := u32 (t_elems t + 1) in
    let t := mk_htable (t_length t) elems tab in
    Ret (m, t, old, N.ltb (t_length t) elems)
  else Ret (m, mk_htable (t_length t) (t_elems t) tab, old, false).

(** LRUCache::Insert, cache.cc:305-348, when Resize throws: FinishErase (cache.cc:329)
    and the eviction loop (cache.cc:335-343) are not reached. *)
Definition shard_insert_f (alc : allocator) (dbg : bool) (m : mem) (s : shard)
    (key : bytes) (hash value charge deleter : N) : outcome (mem * shard * ending) :=
  let e := alc (dom (m_heap m)) in
  let m := mk_mem (hput (m_heap m) e
             (mk_node value deleter 0 0 0 charge false 1 hash key)) (m_log m) in
  let! (m, s, threw) :=
    (if N.ltb 0 (s_capacity s) then
       let! n := get m e in
       let! m := upd m e (set_refs (u32 (n_refs n + 1))) in
       let! m := upd m e (set_in_cache true) in
       let! m := LRU_Append m (s_in_use s) e in
       let s := set_usage (u64 (s_usage s + charge)) s in
       let! (m, t, old, threw) := table_insert_f dbg m (s_table s) e in
       if threw then Ret (m, set_table t s, true)
       else
         let! f := FinishErase dbg m (set_table t s) old in
         Ret (fst (fst f), snd (fst f), false)
     else Ret (m, s, false)) in
  if threw then Ret (m, s, Throws (Some e))
  else
    let! ms := evict_loop (S (length (m_heap m))) dbg m s in
    Ret (fst ms, snd ms, Returns e).

Section Sharded.
  Variable hashf : bytes -> N.
  Variable alc : allocator.
  Variable dbg : bool.

  (** ShardedLRUCache::Insert, cache.cc:400-405, of a key when the allocation [f]
      fails.  malloc's result is not checked (cache.cc:320-321): memcpy writes through
      the null pointer, which is undefined (for the empty key too). *)
  Definition cache_insert_f (c : cache) (f : fault) (key : bytes) (value charge deleter : N) : outcome (cache * ending) :=
    match f with
    | FEntry => Ret (c, Throws None)
    | FKey => UB
    | FTable =>
        let hash := hashf key in
        let! s := the_shard c (Shard hash) in
        let! r := shard_insert_f alc dbg (c_mem c) s key hash value charge deleter in
        Ret (mk_cache (fst (fst r)) (set_nth (Shard hash) (snd (fst r)) (c_shards c)) (c_last_id c), snd r)
    end.

  (** The states a legal user can reach from NewLRUCache(cap) when Inserts may meet
      std::bad_alloc.  [T]: the numbers of the Inserts that threw and left an entry
      behind; in the history they stand as if they had returned the handle -- but the
      user has not got it: see [olegal] in CacheOomSpec.v. *)
  Variable olegal : history -> list nat -> call -> Prop.
  Inductive oreach (cap : N) : history -> list nat -> cache -> Prop :=
  | oreach_new c : cache_new alc dbg cap = Ret c -> oreach cap [] [] c
  | oreach_call H T c x c' ev :
      oreach cap H T c -> olegal H T x -> exec hashf alc dbg c x = Ret (c', ev) -> oreach cap (ev :: H) T c'
  | oreach_clean H T c f k v ch d c' :
      oreach cap H T c -> olegal H T (CInsert k v ch d) ->
      cache_insert_f (clear_log c) f k v ch d = Ret (c', Throws None) -> oreach cap H T c'
  | oreach_lost H T c f k v ch d c' a :
      oreach cap H T c -> olegal H T (CInsert k v ch d) ->
      cache_insert_f (clear_log c) f k v ch d = Ret (c', Throws (Some a)) ->
      oreach cap (mk_event (CInsert k v ch d) (RHandle a) (m_log (c_mem c')) :: H) (length H :: T) c'.
End Sharded.
