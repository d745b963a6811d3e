(** CacheConcOom.v -- several threads calling one cache while memory runs out.

    The steps are those of CacheConc.v; in addition the section of an Insert may throw
    std::bad_alloc (CacheOom.v: operator new for the entry or for the bigger table,
    util/cache.cc:305-348).  The exception leaves LRUCache::Insert and
    ShardedLRUCache::Insert (cache.cc:400-405), the destructor of MutexLock unlocks the
    shard (util/mutexlock.h:32) and the thread is out of the call; nothing catches it
    before the caller.  The malloc for the key's bytes (cache.cc:320) is taken to
    succeed: its failure is undefined behaviour (C109).  A throw and the section it ends
    are one step, like every section under one mutex (Mutex.v).  In Release, Value,
    Erase, Lookup, NewId, Prune and TotalCharge nothing allocates. *)
From Coq Require Import List Arith NArith Bool.
From Verif Require Import Outcome Heap Cache CacheSpec CacheRun CacheOom CacheOomSpec CacheConc.
Import ListNotations.

(** What an observer records; [Threw left]: the Insert the thread is in has thrown;
    [left]: it left its entry in the cache (noted as the section that would have
    returned the handle), or nothing. *)
Inductive flab := FL (l : lab) | Threw (left : option event).
Definition ftrace := list (nat * flab).

(** The sections that had an effect, newest first ... *)
Definition fsections (tr : ftrace) : history :=
  flat_map (fun p => match snd p with FL (Sec ev) => [ev] | Threw (Some ev) => [ev] | _ => [] end) tr.
(** ... and the numbers of those that are Inserts that threw. *)
Fixpoint fthrown (tr : ftrace) : list nat :=
  match tr with
  | [] => []
  | (_, Threw (Some _)) :: tr' => length (fsections tr') :: fthrown tr'
  | _ :: tr' => fthrown tr'
  end.

(** CacheConc.may_call with what the users really hold. *)
Definition may_call_f (H : history) (T : list nat) (tp : list pst) (x : call) : Prop :=
  match x with
  | CRelease h | CValue h => pend tp h < user_held H T h
  | CPruneShard _ | CShardCharge _ => False
  | _ => True
  end.

Section Conc.
  Variable hashf : bytes -> N.
  Variable alc : allocator.
  Variable dbg : bool.

  Inductive fstep (H : history) (T : list nat) (t : nat) (cf : cconf) : option flab -> cconf -> Prop :=
  | fs_step o cf' : cstep hashf alc dbg H t cf o cf' ->
      (forall x, o = Some (Beg x) -> may_call_f H T (ct cf) x) ->
      fstep H T t cf (option_map FL o) cf'
  | fs_clean f k v ch d c' : nth_error (ct cf) t = Some (Start (CInsert k v ch d)) ->
      in_range H (CInsert k v ch d) ->
      cache_insert_f hashf alc dbg (clear_log (cc cf)) f k v ch d = Ret (c', Throws None) ->
      fstep H T t cf (Some (Threw None)) (mk_cconf c' (set_nth t Idle (ct cf)))
  | fs_lost f k v ch d c' a : nth_error (ct cf) t = Some (Start (CInsert k v ch d)) ->
      in_range H (CInsert k v ch d) ->
      cache_insert_f hashf alc dbg (clear_log (cc cf)) f k v ch d = Ret (c', Throws (Some a)) ->
      fstep H T t cf (Some (Threw (Some (mk_event (CInsert k v ch d) (RHandle a) (m_log (c_mem c'))))))
        (mk_cconf c' (set_nth t Idle (ct cf))).

  Definition add_flab (t : nat) (o : option flab) (tr : ftrace) : ftrace :=
    match o with Some l => (t, l) :: tr | None => tr end.

  (** All executions of [n] threads on a new cache. *)
  Inductive fruns (cap : N) (n : nat) : ftrace -> cconf -> Prop :=
  | fr_new c : cache_new alc dbg cap = Ret c -> fruns cap n [] (mk_cconf c (repeat Idle n))
  | fr_step tr cf t o cf' : fruns cap n tr cf -> fstep (fsections tr) (fthrown tr) t cf o cf' ->
      fruns cap n (add_flab t o tr) cf'.
End Conc.

(** ** How one thread's calls must look *)
Definition fproj (t : nat) (tr : ftrace) : list flab :=
  map snd (filter (fun p => fst p =? t) (rev tr)).
Definition fsecs (secs : list event) : list flab := map (fun ev => FL (Sec ev)) secs.

(** Calls one after the other that returned, or are Inserts that threw; then perhaps
    an unfinished one. *)
Inductive fcalls_done : list flab -> Prop :=
| fd_nil : fcalls_done []
| fd_call l x secs r : fcalls_done l -> call_done x secs r ->
    fcalls_done (l ++ FL (Beg x) :: fsecs secs ++ [FL (Rtn r)])
| fd_threw l k v ch d left : fcalls_done l ->
    match left with
    | None => True
    | Some ev => ev_call ev = CInsert k v ch d /\ ev_del ev = [] /\ exists a, ev_res ev = RHandle a
    end ->
    fcalls_done (l ++ [FL (Beg (CInsert k v ch d)); Threw left]).
Definition fthread_ok (l : list flab) : Prop :=
  fcalls_done l \/ exists l0 x secs, fcalls_done l0 /\ l = l0 ++ FL (Beg x) :: fsecs secs.
