(** CacheDelDtor.v -- the cache's destructor when deleters call the cache.

    ~ShardedLRUCache (util/cache.cc:399) destroys the members last declared first:
    last_id_ and id_mutex_ (cache.cc:440-441), then shard_[15] down to shard_[0]
    (cache.cc:439).  ~LRUCache (cache.cc:238-250) calls the deleters of the entries of
    its lru_ list with no mutex held, and it unlinks nothing: an entry stays in the
    list and in the hash table after its memory is free.  Calling a member function of
    an object whose destructor runs is allowed as long as the members it touches exist:
    using a destroyed member is [UB].  One thread: nobody else may use the cache now.

    A call made by a deleter takes the mutex of its shard, and the deleters that this
    call runs are called with it held, as in CacheDel.v; a call that needs a mutex held
    by the same thread never returns ([Stuck]). *)
From Coq Require Import List Arith NArith Bool.
From Verif Require Import Outcome Heap Cache CacheSpec CacheRun CacheDel.
Import ListNotations.
Local Open Scope outcome_scope.

(** How a piece of the destructor ends: it comes back, or waits for ever. *)
Inductive back (A : Type) := Back (a : A) | Stuck.
Arguments Back {A} a.
Arguments Stuck {A}.
Definition bback {A B} (x : outcome (back A)) (f : A -> outcome (back B)) : outcome (back B) :=
  let! r := x in match r with Back a => f a | Stuck => Ret Stuck end.

Definition with_mem (c : cache) (m : mem) : cache := mk_cache m (c_shards c) (c_last_id c).

Section DelDtor.
  Variable hashf : bytes -> N.
  Variable alc : allocator.
  Variable dbg : bool.
  (** the deleters *)
  Variable del : N -> bytes -> N -> dprog.

  (** The mutex a section needs and the member it touches: shard_[j] has the number j,
      id_mutex_ and last_id_ have 16; Value reads the entry only. *)
  Definition member (c : cache) (x : call) : outcome (option nat) :=
    match x with
    | CInsert k _ _ _ | CLookup k | CErase k => Ret (Some (Shard (hashf k)))
    | CRelease h => let! n := get (c_mem c) h in Ret (Some (Shard (n_hash n)))
    | CPruneShard j | CShardCharge j => Ret (Some j)
    | CNewId => Ret (Some 16)
    | _ => Ret None
    end.
  (** The call itself, its deleter calls added to the log. *)
  Definition exec_log (c : cache) (x : call) : outcome (cache * event) :=
    let! (c', ev) := exec hashf alc dbg c x in
    Ret (with_mem c' (mk_mem (m_heap (c_mem c')) (m_log (c_mem c) ++ ev_del ev)), ev).

  (** [i]: the shard that is being destroyed; those above it are gone.  [locked]: the
      mutexes the thread holds.  [fuel] bounds how deep deleters are nested. *)
  Fixpoint run_del (fuel i : nat) (locked : list nat) (c : cache) (q : dprog) {struct fuel} : outcome (back cache) :=
    match fuel with
    | O => OutOfFuel
    | S fuel' =>
        let deleters := fix deleters (m : nat) (c : cache) (ds : list dcall) : outcome (back cache) :=
          match ds with
          | [] => Ret (Back c)
          | d :: ds' => bback (run_del fuel' i (m :: locked) c (del (d_deleter d) (d_key d) (d_value d))) (fun c => deleters m c ds')
          end in
        let section (c : cache) (x : call) : outcome (back (cache * result)) :=
          let! mb := member c x in
          match mb with
          | None => let! (c, ev) := exec_log c x in Ret (Back (c, ev_res ev))
          | Some m =>
              if i <? m then UB
              else if existsb (Nat.eqb m) locked then Ret Stuck
              else
                let! (c, ev) := exec_log c x in
                bback (deleters m c (ev_del ev)) (fun c => Ret (Back (c, ev_res ev)))
          end in
        (* cache.cc:425-429 and 431-437: one section for every shard *)
        let prune := fix prune (l : list nat) (c : cache) : outcome (back (cache * result)) :=
          match l with
          | [] => Ret (Back (c, RNone))
          | j :: l' => bback (section c (CPruneShard j)) (fun r => prune l' (fst r))
          end in
        let charge := fix charge (l : list nat) (total : N) (c : cache) : outcome (back (cache * result)) :=
          match l with
          | [] => Ret (Back (c, RNum total))
          | j :: l' => bback (section c (CShardCharge j))
                         (fun r => charge l' (u64 (total + match snd r with RNum n => n | _ => 0 end)) (fst r))
          end in
        (fix go (q : dprog) (c : cache) : outcome (back cache) :=
          match q with
          | DEnd => Ret (Back c)
          | DCall x k =>
              bback (match x with
                     | CPrune => prune (seq 0 kNumShards) c
                     | CTotalCharge => charge (seq 0 kNumShards) 0%N c
                     | _ => section c x
                     end) (fun r => go (k (snd r)) (fst r))
          end) q c
    end.

  (** LRUCache::Unref, cache.cc:261-273, called by the destructor of shard [i]: the
      deleter runs, then the entry is freed. *)
  Definition Unref_d (fuel i : nat) (c : cache) (s : shard) (e : nat) : outcome (back cache) :=
    let m := c_mem c in
    let! n := get m e in
    let! _ := assert_ dbg (N.ltb 0 (n_refs n)) in
    let! m := upd m e (set_refs (u32 (n_refs n + (2 ^ 32 - 1)))) in
    let! n := get m e in
    if N.eqb (n_refs n) 0 then
      let! _ := assert_ dbg (negb (n_in_cache n)) in
      let! k := key_of dbg m e in
      let m := mk_mem (m_heap m) (m_log m ++ [mk_dcall e (n_deleter n) k (n_value n)]) in
      bback (run_del fuel i [] (with_mem c m) (del (n_deleter n) k (n_value n))) (fun c =>
        let! _ := get (c_mem c) e in
        Ret (Back (with_mem c (mk_mem (hdel (m_heap (c_mem c)) e) (m_log (c_mem c))))))
    else if n_in_cache n && N.eqb (n_refs n) 1 then
      let! m := LRU_Remove m e in let! m := LRU_Append m (s_lru s) e in Ret (Back (with_mem c m))
    else Ret (Back (with_mem c m)).

  (** The loop of LRUCache::~LRUCache, cache.cc:241-249.  Of [s] only the addresses of
      the two list heads are used: they do not change. *)
  Fixpoint dtor_loop_d (depth fuel i : nat) (c : cache) (s : shard) (e : nat) : outcome (back cache) :=
    match fuel with
    | O => OutOfFuel
    | S fuel' =>
        if e =? s_lru s then Ret (Back c)
        else
          let m := c_mem c in
          let! n := get m e in
          let next := n_next n in
          let! _ := assert_ dbg (n_in_cache n) in
          let! m := upd m e (set_in_cache false) in
          let! n := get m e in
          let! _ := assert_ dbg (N.eqb (n_refs n) 1) in
          bback (Unref_d depth i (with_mem c m) s e) (fun c => dtor_loop_d depth fuel' i c s next)
    end.

  (** ~LRUCache of shard [i], cache.cc:238-250; then its table's array and list heads. *)
  Definition shard_dtor_d (depth fuel i : nat) (c : cache) : outcome (back cache) :=
    let! s := the_shard c i in
    let! u := get (c_mem c) (s_in_use s) in
    let! _ := assert_ dbg (n_next u =? s_in_use s) in
    let! l := get (c_mem c) (s_lru s) in
    bback (dtor_loop_d depth fuel i c s (n_next l)) (fun c =>
      Ret (Back (with_mem c (mk_mem (hdel (hdel (m_heap (c_mem c)) (s_in_use s)) (s_lru s)) (m_log (c_mem c)))))).

  (** ~ShardedLRUCache: shard_[n-1] down to shard_[0]. *)
  Fixpoint dtors_d (depth fuel n : nat) (c : cache) : outcome (back cache) :=
    match n with
    | O => Ret (Back c)
    | S i => bback (shard_dtor_d depth fuel i c) (fun c => dtors_d depth fuel i c)
    end.
  Definition cache_dtor_d (depth fuel : nat) (c : cache) : outcome (back cache) := dtors_d depth fuel kNumShards c.
End DelDtor.

(** ** Reading of the theorems *)

(** A call whose first member touched is gone when a shard [s] is being destroyed:
    NewId, and Insert, Lookup and Erase of a key in a higher shard. *)
Definition gone (hashf : bytes -> N) (s : nat) (x : call) : Prop :=
  match x with
  | CNewId => True
  | CInsert k _ _ _ | CLookup k | CErase k => s < Shard (hashf k)
  | _ => False
  end.
