(** CacheConc.v -- several threads calling one cache.

    A call is a sequence of steps, each of which is a section under one mutex
    (taken as one step: Mutex.v shows why) or one unlocked read:
    - Insert, Lookup, Erase: one section under the shard's mutex (cache.cc:400-409, 414-417);
      the hash is computed from the argument before;
    - Release: an unlocked read of the handle's hash, then a section (cache.cc:410-413);
    - Value: one unlocked read (cache.cc:418-420);
    - NewId: one section under id_mutex_ (cache.cc:421-424);
    - Prune and TotalCharge: sixteen sections, one per shard (cache.cc:425-437).
    Between any two steps any other thread may run. *)
From Coq Require Import List Arith NArith Bool.
From Verif Require Import Outcome Heap Cache CacheSpec CacheRun.
Import ListNotations.
Local Open Scope outcome_scope.

(** What a thread is doing. *)
Inductive pst :=
| Idle
| Start (x : call)                    (* has called x, nothing done yet *)
| ReadHash (h : nat) (s : nat)        (* Release(h) after reading the hash: shard s *)
| Pruning (i : nat)                   (* Prune before shard i *)
| Charging (i : nat) (acc : N)        (* TotalCharge before shard i *)
| Done (x : call) (r : result).       (* about to return *)

(** What an observer records: a call begins, a section takes effect, a call
    returns; with the thread's number; newest first. *)
Inductive lab := Beg (x : call) | Sec (ev : event) | Rtn (r : result).
Definition trace := list (nat * lab).
Definition sections (tr : trace) : history :=
  flat_map (fun p => match snd p with Sec ev => [ev] | _ => [] end) tr.

Record cconf := mk_cconf { cc : cache; ct : list pst }.

(** Threads that are using handle [h] right now. *)
Definition uses (h : nat) (p : pst) : bool :=
  match p with
  | Start (CRelease h') | Start (CValue h') | ReadHash h' _ => h' =? h
  | _ => false
  end.
Definition pend (tp : list pst) (h : nat) : nat := length (filter (uses h) tp).

(** A thread may release or read a handle only if there is a reference to it
    that nobody is already using. *)
Definition may_call (H : history) (tp : list pst) (x : call) : Prop :=
  match x with
  | CRelease h | CValue h => pend tp h < held H h
  | CPruneShard _ | CShardCharge _ => False
  | _ => True
  end.
(** The counters' ranges (see CacheSpec.legal). *)
Definition in_range (H : history) (x : call) : Prop :=
  match x with CInsert _ _ _ _ | CLookup _ => legal H x | _ => True end.
(** Calls that are a single step. *)
Definition single (x : call) : bool :=
  match x with CInsert _ _ _ _ | CLookup _ | CErase _ | CNewId | CValue _ => true | _ => false end.

Section Conc.
  Variable hashf : bytes -> N.
  Variable alc : allocator.
  Variable dbg : bool.

  (** The locked part of Release, shard_[s].Release(handle), cache.cc:412 and 250-253. *)
  Definition release_at (c : cache) (s h : nat) : outcome cache :=
    let! sh := the_shard c s in
    let! m := shard_release dbg (c_mem c) sh h in
    Ret (mk_cache m (c_shards c) (c_last_id c)).

  Inductive cstep (H : history) (t : nat) (cf : cconf) : option lab -> cconf -> Prop :=
  | c_call x : nth_error (ct cf) t = Some Idle -> may_call H (ct cf) x ->
      cstep H t cf (Some (Beg x)) (mk_cconf (cc cf) (set_nth t (Start x) (ct cf)))
  | c_single x c' ev : nth_error (ct cf) t = Some (Start x) -> single x = true -> in_range H x ->
      exec hashf alc dbg (cc cf) x = Ret (c', ev) ->
      cstep H t cf (Some (Sec ev)) (mk_cconf c' (set_nth t (Done x (ev_res ev)) (ct cf)))
  | c_readhash h n : nth_error (ct cf) t = Some (Start (CRelease h)) -> get (c_mem (cc cf)) h = Ret n ->
      cstep H t cf None (mk_cconf (cc cf) (set_nth t (ReadHash h (Shard (n_hash n))) (ct cf)))
  | c_release h s c' : nth_error (ct cf) t = Some (ReadHash h s) -> release_at (clear_log (cc cf)) s h = Ret c' ->
      cstep H t cf (Some (Sec (mk_event (CRelease h) RNone (m_log (c_mem c')))))
        (mk_cconf c' (set_nth t (Done (CRelease h) RNone) (ct cf)))
  | c_prune0 : nth_error (ct cf) t = Some (Start CPrune) ->
      cstep H t cf None (mk_cconf (cc cf) (set_nth t (Pruning 0) (ct cf)))
  | c_prune i c' ev : nth_error (ct cf) t = Some (Pruning i) -> i < kNumShards ->
      exec hashf alc dbg (cc cf) (CPruneShard i) = Ret (c', ev) ->
      cstep H t cf (Some (Sec ev)) (mk_cconf c' (set_nth t (Pruning (S i)) (ct cf)))
  | c_prune_end i : nth_error (ct cf) t = Some (Pruning i) -> kNumShards <= i ->
      cstep H t cf None (mk_cconf (cc cf) (set_nth t (Done CPrune RNone) (ct cf)))
  | c_charge0 : nth_error (ct cf) t = Some (Start CTotalCharge) ->
      cstep H t cf None (mk_cconf (cc cf) (set_nth t (Charging 0 0) (ct cf)))
  | c_charge i acc c' ev m : nth_error (ct cf) t = Some (Charging i acc) -> i < kNumShards ->
      exec hashf alc dbg (cc cf) (CShardCharge i) = Ret (c', ev) -> ev_res ev = RNum m ->
      cstep H t cf (Some (Sec ev)) (mk_cconf c' (set_nth t (Charging (S i) (u64 (acc + m))) (ct cf)))
  | c_charge_end i acc : nth_error (ct cf) t = Some (Charging i acc) -> kNumShards <= i ->
      cstep H t cf None (mk_cconf (cc cf) (set_nth t (Done CTotalCharge (RNum acc)) (ct cf)))
  | c_return x r : nth_error (ct cf) t = Some (Done x r) ->
      cstep H t cf (Some (Rtn r)) (mk_cconf (cc cf) (set_nth t Idle (ct cf))).

  Definition add_lab (t : nat) (o : option lab) (tr : trace) : trace :=
    match o with Some l => (t, l) :: tr | None => tr end.

  (** All executions of [n] threads on a new cache. *)
  Inductive cruns (cap : N) (n : nat) : trace -> cconf -> Prop :=
  | cr_new c : cache_new alc dbg cap = Ret c -> cruns cap n [] (mk_cconf c (repeat Idle n))
  | cr_step tr cf t o cf' : cruns cap n tr cf -> cstep (sections tr) t cf o cf' ->
      cruns cap n (add_lab t o tr) cf'.
End Conc.

(** ** How one thread's calls must look *)

(** The sections of a finished call and its result. *)
Definition call_done (x : call) (secs : list event) (r : result) : Prop :=
  match x with
  | CPrune => map ev_call secs = map CPruneShard (seq 0 16) /\ r = RNone
  | CTotalCharge => map ev_call secs = map CShardCharge (seq 0 16) /\
      exists ns, map ev_res secs = map RNum ns /\ r = RNum (sumN ns mod 2 ^ 64)
  | _ => exists ev, secs = [ev] /\ ev_call ev = x /\ ev_res ev = r
  end.
(** Thread [t]'s part of the trace, oldest first. *)
Definition proj (t : nat) (tr : trace) : list lab :=
  map snd (filter (fun p => fst p =? t) (rev tr)).
(** Finished calls one after the other, then perhaps an unfinished one. *)
Inductive calls_done : list lab -> Prop :=
| cd_nil : calls_done []
| cd_call l x secs r : calls_done l -> call_done x secs r ->
    calls_done (l ++ Beg x :: map Sec secs ++ [Rtn r]).
Definition thread_ok (l : list lab) : Prop :=
  calls_done l \/ exists l0 x secs, calls_done l0 /\ l = l0 ++ Beg x :: map Sec secs.
