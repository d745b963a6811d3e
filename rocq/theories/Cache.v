(** Cache.v -- model of util/cache.cc (the sharded LRU cache).

    Pointer level: every LRUHandle (also the dummy list heads, which are
    members of the shards) is an object in a heap, with the fields of
    cache.cc:46-75; touching an object that is not live is [UB], assert()s are
    kept ([dbg]).  Locking is added in CacheConc.v; here a call runs alone.

    Simplifications, stated once: key_data/key_length are one byte list owned
    by the node (malloc/memcpy/free of the key are part of new/delete); values
    and deleters are opaque numbers, and a deleter call is recorded in a log
    together with the address of the entry it is called for; a deleter does not
    call back into the cache (it would dead-lock on the mutex). *)
From Coq Require Import List Arith NArith Lia Bool.
From Verif Require Import Outcome Heap.
Import ListNotations.
Local Open Scope outcome_scope.

Definition bytes := list N.

Fixpoint bytes_eqb (a b : bytes) : bool :=
  match a, b with
  | [], [] => true
  | x :: a', y :: b' => N.eqb x y && bytes_eqb a' b'
  | _, _ => false
  end.

(** struct LRUHandle, cache.cc:46-75.  Pointers are [nat], null is 0. *)
Record node := mk_node {
  n_value : N; n_deleter : N;
  n_next_hash : nat; n_next : nat; n_prev : nat;
  n_charge : N; n_in_cache : bool; n_refs : N; n_hash : N; n_key : bytes }.

(** LRUHandle(), cache.cc:47-58 *)
Definition node0 : node := mk_node 0 0 0 0 0 0 false 0 0 [].

Definition set_next_hash p n := mk_node (n_value n) (n_deleter n) p (n_next n) (n_prev n)
  (n_charge n) (n_in_cache n) (n_refs n) (n_hash n) (n_key n).
Definition set_next p n := mk_node (n_value n) (n_deleter n) (n_next_hash n) p (n_prev n)
  (n_charge n) (n_in_cache n) (n_refs n) (n_hash n) (n_key n).
Definition set_prev p n := mk_node (n_value n) (n_deleter n) (n_next_hash n) (n_next n) p
  (n_charge n) (n_in_cache n) (n_refs n) (n_hash n) (n_key n).
Definition set_in_cache b n := mk_node (n_value n) (n_deleter n) (n_next_hash n) (n_next n) (n_prev n)
  (n_charge n) b (n_refs n) (n_hash n) (n_key n).
Definition set_refs r n := mk_node (n_value n) (n_deleter n) (n_next_hash n) (n_next n) (n_prev n)
  (n_charge n) (n_in_cache n) r (n_hash n) (n_key n).

(** A call of a deleter: the entry it is called for, and (deleter, key, value). *)
Record dcall := mk_dcall { d_addr : nat; d_deleter : N; d_key : bytes; d_value : N }.

(** Memory: the live objects and the deleter calls made so far (newest last). *)
Record mem := mk_mem { m_heap : heap node; m_log : list dcall }.

(** p->field (read) and p->field = x (write). *)
Definition get (m : mem) (p : nat) : outcome node :=
  match hget (m_heap m) p with Some n => Ret n | None => UB end.
Definition upd (m : mem) (p : nat) (f : node -> node) : outcome mem :=
  match hget (m_heap m) p with
  | Some n => Ret (mk_mem (hput (m_heap m) p (f n)) (m_log m))
  | None => UB
  end.

(** LRUHandle::key, cache.cc:77-83 *)
Definition key_of (dbg : bool) (m : mem) (p : nat) : outcome bytes :=
  let! n := get m p in
  let! _ := assert_ dbg (negb (n_next n =? p)) in
  Ret (n_key n).

(** class HandleTable, cache.cc:89-179: length_, elems_, table_. *)
Record htable := mk_htable { t_length : N; t_elems : N; t_table : list nat }.

(** An LRUHandle** : the address of a bucket or of a next_hash field. *)
Inductive loc := Bucket (i : nat) | NextHash (p : nat).

Definition load_loc (m : mem) (tab : list nat) (l : loc) : outcome nat :=
  match l with
  | Bucket i => match nth_error tab i with Some p => Ret p | None => UB end
  | NextHash p => let! n := get m p in Ret (n_next_hash n)
  end.

Fixpoint set_nth {A} (i : nat) (x : A) (l : list A) : list A :=
  match l, i with
  | [], _ => []
  | _ :: t, O => x :: t
  | y :: t, S i' => y :: set_nth i' x t
  end.

Definition store_loc (m : mem) (tab : list nat) (l : loc) (x : nat) : outcome (mem * list nat) :=
  match l with
  | Bucket i => if i <? length tab then Ret (m, set_nth i x tab) else UB
  | NextHash p => let! m := upd m p (set_next_hash x) in Ret (m, tab)
  end.

(** hash & (length_ - 1), uint32_t *)
Definition bucket (hash len : N) : nat := N.to_nat (N.land hash (u32 (len + (2 ^ 32 - 1)))).

(** HandleTable::FindPointer, cache.cc:135-149; the loop carries [fuel]. *)
Fixpoint find_loop (fuel : nat) (dbg : bool) (m : mem) (tab : list nat)
    (key : bytes) (hash : N) (l : loc) : outcome loc :=
  match fuel with
  | O => OutOfFuel
  | S fuel' =>
      let! p := load_loc m tab l in
      if p =? 0 then Ret l
      else
        let! n := get m p in
        if negb (N.eqb (n_hash n) hash) then find_loop fuel' dbg m tab key hash (NextHash p)
        else
          let! k := key_of dbg m p in
          if negb (bytes_eqb key k) then find_loop fuel' dbg m tab key hash (NextHash p)
          else Ret l
  end.

Definition find_pointer (dbg : bool) (m : mem) (t : htable) (key : bytes) (hash : N) : outcome loc :=
  find_loop (S (length (m_heap m))) dbg m (t_table t) key hash (Bucket (bucket hash (t_length t))).

(** HandleTable::Lookup, cache.cc:94-96 *)
Definition table_lookup (dbg : bool) (m : mem) (t : htable) (key : bytes) (hash : N) : outcome nat :=
  let! l := find_pointer dbg m t key hash in
  load_loc m (t_table t) l.

(** HandleTable::Resize, cache.cc:151-178.
    The first loop: new_length = 4; while (new_length < elems_) new_length *= 2.
    (A uint32_t: 2^31 doubles to 0 and then stays 0.) *)
Fixpoint grow (fuel : nat) (nl elems : N) : outcome N :=
  match fuel with
  | O => OutOfFuel
  | S fuel' => if N.ltb nl elems then grow fuel' (u32 (nl * 2)) elems else Ret nl
  end.

(** The inner while loop, cache.cc:163-173 *)
Fixpoint rehash_chain (fuel : nat) (m : mem) (nt : list nat) (nl : N) (p : nat) (count : N)
    : outcome (mem * list nat * N) :=
  match fuel with
  | O => OutOfFuel
  | S fuel' =>
      if p =? 0 then Ret (m, nt, count)
      else
        let! n := get m p in
        let next := n_next_hash n in
        let b := bucket (n_hash n) nl in
        let! old := load_loc m nt (Bucket b) in
        let! m := upd m p (set_next_hash old) in
        let! mt := store_loc m nt (Bucket b) p in
        rehash_chain fuel' (fst mt) (snd mt) nl next (u32 (count + 1))
  end.

(** The outer for loop, cache.cc:160-174 *)
Fixpoint rehash (m : mem) (old nt : list nat) (nl count : N) : outcome (mem * list nat * N) :=
  match old with
  | [] => Ret (m, nt, count)
  | p :: rest =>
      let! r := rehash_chain (S (length (m_heap m))) m nt nl p count in
      rehash (fst (fst r)) rest (snd (fst r)) nl (snd r)
  end.

(** The loops read table_[i] for i < length_: [t_table] is that array. *)
Definition resize (dbg : bool) (m : mem) (t : htable) : outcome (mem * htable) :=
  let! nl := grow 64 4 (t_elems t) in
  let nt := repeat 0 (N.to_nat nl) in
  let! r := rehash m (t_table t) nt nl 0 in
  let! _ := assert_ dbg (N.eqb (t_elems t) (snd r)) in
  Ret (fst (fst r), mk_htable nl (t_elems t) (snd (fst r))).

(** HandleTable::HandleTable, cache.cc:91 *)
Definition table_new (dbg : bool) (m : mem) : outcome (mem * htable) :=
  resize dbg m (mk_htable 0 0 []).

(** HandleTable::Insert, cache.cc:98-116 *)
Definition table_insert (dbg : bool) (m : mem) (t : htable) (h : nat) : outcome (mem * htable * nat) :=
  let! k := key_of dbg m h in
  let! n := get m h in
  let! ptr := find_pointer dbg m t k (n_hash n) in
  let! old := load_loc m (t_table t) ptr in
  let! nh := (if old =? 0 then Ret 0 else let! o := get m old in Ret (n_next_hash o)) in
  let! m := upd m h (set_next_hash nh) in
  let! mt := store_loc m (t_table t) ptr h in
  let m := fst mt in let tab := snd mt in
  if old =? 0 then
    let elems := u32 (t_elems t + 1) in
    let t := mk_htable (t_length t) elems tab in
    if N.ltb (t_length t) elems then
      let! r := resize dbg m t in Ret (fst r, snd r, old)
    else Ret (m, t, old)
  else Ret (m, mk_htable (t_length t) (t_elems t) tab, old).

(** HandleTable::Remove, cache.cc:118-126 *)
Definition table_remove (dbg : bool) (m : mem) (t : htable) (key : bytes) (hash : N)
    : outcome (mem * htable * nat) :=
  let! ptr := find_pointer dbg m t key hash in
  let! result := load_loc m (t_table t) ptr in
  if result =? 0 then Ret (m, t, result)
  else
    let! r := get m result in
    let! mt := store_loc m (t_table t) ptr (n_next_hash r) in
    Ret (fst mt, mk_htable (t_length t) (u32 (t_elems t + (2 ^ 32 - 1))) (snd mt), result).

(** class LRUCache, cache.cc:182-228 (one shard).  [s_lru] and [s_in_use] are
    the addresses &lru_ and &in_use_ of its two list heads. *)
Record shard := mk_shard {
  s_capacity : N; s_usage : N; s_lru : nat; s_in_use : nat; s_table : htable }.
Definition set_table t s := mk_shard (s_capacity s) (s_usage s) (s_lru s) (s_in_use s) t.
Definition set_usage u s := mk_shard (s_capacity s) u (s_lru s) (s_in_use s) (s_table s).

(** LRUCache::LRU_Remove, cache.cc:275-279 *)
Definition LRU_Remove (m : mem) (e : nat) : outcome mem :=
  let! n := get m e in
  let! m := upd m (n_next n) (set_prev (n_prev n)) in
  let! n := get m e in
  upd m (n_prev n) (set_next (n_next n)).

(** LRUCache::LRU_Append, cache.cc:281-289 *)
Definition LRU_Append (m : mem) (list e : nat) : outcome mem :=
  let! m := upd m e (set_next list) in
  let! l := get m list in
  let! m := upd m e (set_prev (n_prev l)) in
  let! n := get m e in
  let! m := upd m (n_prev n) (set_next e) in
  let! n := get m e in
  upd m (n_next n) (set_prev e).

(** LRUCache::Ref, cache.cc:252-259 *)
Definition Ref (m : mem) (s : shard) (e : nat) : outcome mem :=
  let! n := get m e in
  let! m := (if N.eqb (n_refs n) 1 && n_in_cache n then
               let! m := LRU_Remove m e in LRU_Append m (s_in_use s) e
             else Ret m) in
  let! n := get m e in
  upd m e (set_refs (u32 (n_refs n + 1))).

(** LRUCache::Unref, cache.cc:261-273.  "delete e" removes the object. *)
Definition Unref (dbg : bool) (m : mem) (s : shard) (e : nat) : outcome mem :=
  let! n := get m e in
  let! _ := assert_ dbg (N.ltb 0 (n_refs n)) in
  let! m := upd m e (set_refs (u32 (n_refs n + (2 ^ 32 - 1)))) in
  let! n := get m e in
  if N.eqb (n_refs n) 0 then
    let! _ := assert_ dbg (negb (n_in_cache n)) in
    let! k := key_of dbg m e in
    Ret (mk_mem (hdel (m_heap m) e) (m_log m ++ [mk_dcall e (n_deleter n) k (n_value n)]))
  else if n_in_cache n && N.eqb (n_refs n) 1 then
    let! m := LRU_Remove m e in LRU_Append m (s_lru s) e
  else Ret m.

(** LRUCache::Lookup, cache.cc:291-298 *)
Definition shard_lookup (dbg : bool) (m : mem) (s : shard) (key : bytes) (hash : N)
    : outcome (mem * nat) :=
  let! e := table_lookup dbg m (s_table s) key hash in
  if e =? 0 then Ret (m, e)
  else let! m := Ref m s e in Ret (m, e).

(** LRUCache::Release, cache.cc:300-303 *)
Definition shard_release (dbg : bool) (m : mem) (s : shard) (e : nat) : outcome mem :=
  Unref dbg m s e.

(** LRUCache::FinishErase, cache.cc:353-366 *)
Definition FinishErase (dbg : bool) (m : mem) (s : shard) (e : nat) : outcome (mem * shard * bool) :=
  if e =? 0 then Ret (m, s, false)
  else
    let! n := get m e in
    let! _ := assert_ dbg (n_in_cache n) in
    let! m := LRU_Remove m e in
    let! m := upd m e (set_in_cache false) in
    let! n := get m e in
    let s := set_usage (u64 (s_usage s + (2 ^ 64 - n_charge n))) s in
    let! m := Unref dbg m s e in
    Ret (m, s, true).

(** LRUCache::Erase, cache.cc:368-371 *)
Definition shard_erase (dbg : bool) (m : mem) (s : shard) (key : bytes) (hash : N)
    : outcome (mem * shard) :=
  let! r := table_remove dbg m (s_table s) key hash in
  let! f := FinishErase dbg (fst (fst r)) (set_table (snd (fst r)) s) (snd r) in
  Ret (fst f).

(** The body shared by the loops of Insert (cache.cc:337-342) and Prune
    (cache.cc:377-382): drop lru_.next. *)
Definition drop_oldest (dbg : bool) (m : mem) (s : shard) (old : nat) : outcome (mem * shard) :=
  let! n := get m old in
  let! _ := assert_ dbg (N.eqb (n_refs n) 1) in
  let! k := key_of dbg m old in
  let! r := table_remove dbg m (s_table s) k (n_hash n) in
  let! f := FinishErase dbg (fst (fst r)) (set_table (snd (fst r)) s) (snd r) in
  let! _ := assert_ dbg (snd f) in
  Ret (fst f).

(** The eviction loop of LRUCache::Insert, cache.cc:335-343 *)
Fixpoint evict_loop (fuel : nat) (dbg : bool) (m : mem) (s : shard) : outcome (mem * shard) :=
  match fuel with
  | O => OutOfFuel
  | S fuel' =>
      if N.ltb (s_capacity s) (s_usage s) then
        let! l := get m (s_lru s) in
        if n_next l =? s_lru s then Ret (m, s)
        else let! r := drop_oldest dbg m s (n_next l) in
             evict_loop fuel' dbg (fst r) (snd r)
      else Ret (m, s)
  end.

(** LRUCache::Prune, cache.cc:373-384 *)
Fixpoint prune_loop (fuel : nat) (dbg : bool) (m : mem) (s : shard) : outcome (mem * shard) :=
  match fuel with
  | O => OutOfFuel
  | S fuel' =>
      let! l := get m (s_lru s) in
      if n_next l =? s_lru s then Ret (m, s)
      else let! r := drop_oldest dbg m s (n_next l) in
           prune_loop fuel' dbg (fst r) (snd r)
  end.
Definition shard_prune (dbg : bool) (m : mem) (s : shard) : outcome (mem * shard) :=
  prune_loop (S (length (m_heap m))) dbg m s.

(** LRUCache::Insert, cache.cc:305-348.  [alc] is operator new. *)
Definition shard_insert (alc : allocator) (dbg : bool) (m : mem) (s : shard)
    (key : bytes) (hash value charge deleter : N) : outcome (mem * shard * nat) :=
  let e := alc (dom (m_heap m)) in
  let m := mk_mem (hput (m_heap m) e
             (mk_node value deleter 0 0 0 charge false 1 hash key)) (m_log m) in
  let! ms :=
    (if N.ltb 0 (s_capacity s) then
       let! n := get m e in
       let! m := upd m e (set_refs (u32 (n_refs n + 1))) in
       let! m := upd m e (set_in_cache true) in
       let! m := LRU_Append m (s_in_use s) e in
       let s := set_usage (u64 (s_usage s + charge)) s in
       let! r := table_insert dbg m (s_table s) e in
       let! f := FinishErase dbg (fst (fst r)) (set_table (snd (fst r)) s) (snd r) in
       Ret (fst f)
     else Ret (m, s)) in
  let! ms := evict_loop (S (length (m_heap (fst ms)))) dbg (fst ms) (snd ms) in
  Ret (fst ms, snd ms, e).

(** LRUCache::~LRUCache, cache.cc:238-250, then the members are destroyed:
    table_'s array and the two list heads (which are LRUHandle objects). *)
Fixpoint dtor_loop (fuel : nat) (dbg : bool) (m : mem) (s : shard) (e : nat) : outcome mem :=
  match fuel with
  | O => OutOfFuel
  | S fuel' =>
      if e =? s_lru s then Ret m
      else
        let! n := get m e in
        let next := n_next n in
        let! _ := assert_ dbg (n_in_cache n) in
        let! m := upd m e (set_in_cache false) in
        let! n := get m e in
        let! _ := assert_ dbg (N.eqb (n_refs n) 1) in
        let! m := Unref dbg m s e in
        dtor_loop fuel' dbg m s next
  end.
Definition shard_dtor (dbg : bool) (m : mem) (s : shard) : outcome mem :=
  let! u := get m (s_in_use s) in
  let! _ := assert_ dbg (n_next u =? s_in_use s) in
  let! l := get m (s_lru s) in
  let! m := dtor_loop (S (length (m_heap m))) dbg m s (n_next l) in
  Ret (mk_mem (hdel (hdel (m_heap m) (s_in_use s)) (s_lru s)) (m_log m)).

(** LRUCache::LRUCache, cache.cc:230-236; the shard object (hence its two list
    heads) is placed by operator new. *)
Definition shard_new (alc : allocator) (dbg : bool) (m : mem) : outcome (mem * shard) :=
  let l := alc (dom (m_heap m)) in
  let m := mk_mem (hput (m_heap m) l node0) (m_log m) in
  let u := alc (dom (m_heap m)) in
  let m := mk_mem (hput (m_heap m) u node0) (m_log m) in
  let! r := table_new dbg m in
  let m := fst r in
  let! m := upd m l (set_next l) in
  let! m := upd m l (set_prev l) in
  let! m := upd m u (set_next u) in
  let! m := upd m u (set_prev u) in
  Ret (m, mk_shard 0 0 l u (snd r)).

(** kNumShards, cache.cc:386-387 *)
Definition kNumShardBits : N := 4.
Definition kNumShards : nat := 16.

(** class ShardedLRUCache, cache.cc:391-449 *)
Record cache := mk_cache { c_mem : mem; c_shards : list shard; c_last_id : N }.

(** ShardedLRUCache::Shard, cache.cc:448 *)
Definition Shard (hash : N) : nat := N.to_nat (N.shiftr hash (32 - kNumShardBits)).

(** per_shard, cache.cc:394: size_t arithmetic *)
Definition per_shard (capacity : N) : N := (u64 (capacity + 15) / 16)%N.

(** The constructor, cache.cc:393-398: 16 shards are built, then SetCapacity
    (cache.cc:188) is called on each. *)
Fixpoint shards_new (alc : allocator) (dbg : bool) (n : nat) (m : mem) : outcome (mem * list shard) :=
  match n with
  | O => Ret (m, [])
  | S n' =>
      let! r := shard_new alc dbg m in
      let! q := shards_new alc dbg n' (fst r) in
      Ret (fst q, snd r :: snd q)
  end.
Definition set_capacity c s := mk_shard c (s_usage s) (s_lru s) (s_in_use s) (s_table s).
Definition cache_new (alc : allocator) (dbg : bool) (capacity : N) : outcome cache :=
  let! r := shards_new alc dbg kNumShards (mk_mem [] []) in
  Ret (mk_cache (fst r) (map (set_capacity (per_shard capacity)) (snd r)) 0).

Section Sharded.
  (** HashSlice, cache.cc:444-446.  The theorems hold for every hash function
      with 32-bit results; the code's is Hash(data, size, 0), see Hash.v. *)
  Variable hashf : bytes -> N.
  Variable alc : allocator.
  Variable dbg : bool.

  (** shard_[i] *)
  Definition the_shard (c : cache) (i : nat) : outcome shard :=
    match nth_error (c_shards c) i with Some s => Ret s | None => UB end.

  (** ShardedLRUCache::Insert, cache.cc:400-405 *)
  Definition cache_insert (c : cache) (key : bytes) (value charge deleter : N) : outcome (cache * nat) :=
    let hash := hashf key in
    let! s := the_shard c (Shard hash) in
    let! r := shard_insert alc dbg (c_mem c) s key hash value charge deleter in
    Ret (mk_cache (fst (fst r)) (set_nth (Shard hash) (snd (fst r)) (c_shards c)) (c_last_id c), snd r).

  (** ShardedLRUCache::Lookup, cache.cc:406-409 *)
  Definition cache_lookup (c : cache) (key : bytes) : outcome (cache * nat) :=
    let hash := hashf key in
    let! s := the_shard c (Shard hash) in
    let! r := shard_lookup dbg (c_mem c) s key hash in
    Ret (mk_cache (fst r) (c_shards c) (c_last_id c), snd r).

  (** ShardedLRUCache::Release, cache.cc:410-413 *)
  Definition cache_release (c : cache) (h : nat) : outcome cache :=
    let! n := get (c_mem c) h in
    let! s := the_shard c (Shard (n_hash n)) in
    let! m := shard_release dbg (c_mem c) s h in
    Ret (mk_cache m (c_shards c) (c_last_id c)).

  (** ShardedLRUCache::Erase, cache.cc:414-417 *)
  Definition cache_erase (c : cache) (key : bytes) : outcome cache :=
    let hash := hashf key in
    let! s := the_shard c (Shard hash) in
    let! r := shard_erase dbg (c_mem c) s key hash in
    Ret (mk_cache (fst r) (set_nth (Shard hash) (snd r) (c_shards c)) (c_last_id c)).

  (** ShardedLRUCache::Value, cache.cc:418-420 *)
  Definition cache_value (c : cache) (h : nat) : outcome N :=
    let! n := get (c_mem c) h in Ret (n_value n).

  (** ShardedLRUCache::NewId, cache.cc:421-424 *)
  Definition cache_newid (c : cache) : cache * N :=
    let i := u64 (c_last_id c + 1) in (mk_cache (c_mem c) (c_shards c) i, i).

  (** ShardedLRUCache::Prune, cache.cc:425-429 *)
  Fixpoint prune_from (m : mem) (l : list shard) : outcome (mem * list shard) :=
    match l with
    | [] => Ret (m, [])
    | s :: t =>
        let! r := shard_prune dbg m s in
        let! q := prune_from (fst r) t in
        Ret (fst q, snd r :: snd q)
    end.
  Definition cache_prune (c : cache) : outcome cache :=
    let! r := prune_from (c_mem c) (c_shards c) in
    Ret (mk_cache (fst r) (snd r) (c_last_id c)).

  (** The body of the loops of Prune (cache.cc:427) and TotalCharge
      (cache.cc:434): one shard, under that shard's mutex. *)
  Definition cache_prune_shard (c : cache) (i : nat) : outcome cache :=
    let! s := the_shard c i in
    let! r := shard_prune dbg (c_mem c) s in
    Ret (mk_cache (fst r) (set_nth i (snd r) (c_shards c)) (c_last_id c)).
  Definition cache_shard_charge (c : cache) (i : nat) : outcome N :=
    let! s := the_shard c i in Ret (s_usage s).

  (** ShardedLRUCache::TotalCharge, cache.cc:431-437, over LRUCache::TotalCharge,
      cache.cc:198-201 *)
  Definition cache_total_charge (c : cache) : N :=
    fold_left (fun total s => u64 (total + s_usage s)) (c_shards c) 0%N.

  (** ~ShardedLRUCache, cache.cc:399: the array shard_ is destroyed, last
      element first. *)
  Fixpoint dtors (m : mem) (l : list shard) : outcome mem :=
    match l with
    | [] => Ret m
    | s :: t => let! m := shard_dtor dbg m s in dtors m t
    end.
  Definition cache_dtor (c : cache) : outcome mem := dtors (c_mem c) (rev (c_shards c)).
End Sharded.
