(** CacheRun.v -- running a sequence of calls on the modelled cache. *)
From Coq Require Import List Arith NArith Bool.
From Verif Require Import Outcome Heap Cache CacheSpec.
Import ListNotations.
Local Open Scope outcome_scope.

Section Run.
  Variable hashf : bytes -> N.
  Variable alc : allocator.
  Variable dbg : bool.

  (** One call through the Cache interface (include/cache.h), dispatching to
      the methods of ShardedLRUCache, cache.cc:391-437. *)
  Definition dispatch (c : cache) (x : call) : outcome (cache * result) :=
    match x with
    | CInsert k v ch d => let! r := cache_insert hashf alc dbg c k v ch d in Ret (fst r, RHandle (snd r))
    | CLookup k => let! r := cache_lookup hashf dbg c k in Ret (fst r, RHandle (snd r))
    | CRelease h => let! c := cache_release dbg c h in Ret (c, RNone)
    | CValue h => let! v := cache_value c h in Ret (c, RNum v)
    | CErase k => let! c := cache_erase hashf dbg c k in Ret (c, RNone)
    | CPrune => let! c := cache_prune dbg c in Ret (c, RNone)
    | CTotalCharge => Ret (c, RNum (cache_total_charge c))
    | CNewId => let r := cache_newid c in Ret (fst r, RNum (snd r))
    | CPruneShard i => let! c := cache_prune_shard dbg c i in Ret (c, RNone)
    | CShardCharge i => let! n := cache_shard_charge c i in Ret (c, RNum n)
    end.

  (** The deleter calls made during the call are collected from an empty log. *)
  Definition clear_log (c : cache) : cache :=
    mk_cache (mk_mem (m_heap (c_mem c)) []) (c_shards c) (c_last_id c).
  Definition exec (c : cache) (x : call) : outcome (cache * event) :=
    let! r := dispatch (clear_log c) x in
    Ret (fst r, mk_event x (snd r) (m_log (c_mem (fst r)))).

  (** The states a legal user can reach from NewLRUCache(cap), with the history
      of calls leading there. *)
  Inductive reach (cap : N) : history -> cache -> Prop :=
  | reach_new c : cache_new alc dbg cap = Ret c -> reach cap [] c
  | reach_call H c x c' ev :
      reach cap H c -> legal H x -> exec c x = Ret (c', ev) -> reach cap (ev :: H) c'.
End Run.
