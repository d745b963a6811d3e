(** CacheDel.v -- deleters that call the cache.

    A deleter is an arbitrary function (cache.h: std::function); it runs in
    LRUCache::Unref (util/cache.cc:263-276), which Insert, Erase, Release and Prune of a
    shard call with the shard's mutex locked (MutexLock in cache.cc:310-414).  If it
    calls functions of the same cache, those are made inside the section that called it.
    std::mutex is not recursive (port/port_stdcxx.h:47-60).

    The steps of a call are those of CacheConc.v, but now a section is not over when it
    has taken effect: the thread holds the mutex until the deleters called in it have
    returned.  Simplification: the effect on the shard comes before all its deleters,
    not around them; nobody else can look at the shard before the mutex is unlocked.
    (Memory of an entry counts as free when its deleter runs, not a moment later: the
    allocator, which is arbitrary, has more choice than it really has.) *)
From Coq Require Import List Arith NArith Bool.
From Verif Require Import Outcome Heap Cache CacheSpec CacheRun CacheConc.
Import ListNotations.

(** What a deleter does: calls of the cache, each depending on the results so far. *)
Inductive dprog := DEnd | DCall (x : call) (k : result -> dprog).

(** A thread is a stack, the innermost thing first: a call that is not inside a
    section; a call inside a section under mutex [m], which has the deleters [ds] left to
    run and goes on as [p]; a running deleter.  Mutexes 0 to 15 are those of the shards,
    16 is id_mutex_ (cache.cc:440-441). *)
Inductive item := KCall (p : pst) | KIn (m : nat) (ds : list dcall) (p : pst) | KDel (q : dprog).
Record dconf := mk_dconf { dc : cache; dt : list (list item) }.

(** The mutex a call needs for its next step. *)
Definition wants (hashf : bytes -> N) (p : pst) : option nat :=
  match p with
  | Start (CInsert k _ _ _) | Start (CLookup k) | Start (CErase k) => Some (Shard (hashf k))
  | Start CNewId => Some 16
  | ReadHash _ s => Some s
  | Pruning i | Charging i _ => if i <? kNumShards then Some i else None
  | _ => None
  end.
(** The mutexes a thread holds. *)
Fixpoint holds (st : list item) : list nat :=
  match st with [] => [] | KIn m _ _ :: st' => m :: holds st' | _ :: st' => holds st' end.
Definition free (cf : dconf) (m : nat) : Prop := forall st, In st (dt cf) -> ~ In m (holds st).
(** All calls in progress. *)
Definition calls_in (st : list item) : list pst :=
  flat_map (fun k => match k with KCall p | KIn _ _ p => [p] | KDel _ => [] end) st.
Definition in_progress (cf : dconf) : list pst := flat_map calls_in (dt cf).

Section Del.
  Variable hashf : bytes -> N.
  Variable alc : allocator.
  Variable dbg : bool.
  (** the deleters: what deleter number [d] does when called with a key and a value *)
  Variable del : N -> bytes -> N -> dprog.

  (** One step of one call, as in CacheConc.v. *)
  Definition cstep1 (H : history) (c : cache) (p : pst) (o : option lab) (c' : cache) (p' : pst) : Prop :=
    cstep hashf alc dbg H 0 (mk_cconf c [p]) o (mk_cconf c' [p']).
  Definition put (cf : dconf) (t : nat) (c : cache) (st : list item) : dconf := mk_dconf c (set_nth t st (dt cf)).

  Inductive dstep (H : history) (t : nat) (cf : dconf) : option lab -> dconf -> Prop :=
  (* a client's call *)
  | d_call x : nth_error (dt cf) t = Some [] -> may_call H (in_progress cf) x ->
      dstep H t cf (Some (Beg x)) (put cf t (dc cf) [KCall (Start x)])
  (* a step without effect *)
  | d_quiet p st p' : nth_error (dt cf) t = Some (KCall p :: st) -> cstep1 H (dc cf) p None (dc cf) p' ->
      dstep H t cf None (put cf t (dc cf) (KCall p' :: st))
  (* Value: a read, takes no mutex *)
  | d_read h st c' ev p' : nth_error (dt cf) t = Some (KCall (Start (CValue h)) :: st) -> cstep1 H (dc cf) (Start (CValue h)) (Some (Sec ev)) c' p' ->
      dstep H t cf (Some (Sec ev)) (put cf t c' (KCall p' :: st))
  (* the mutex is taken, the section takes effect *)
  | d_section p st m c' ev p' : nth_error (dt cf) t = Some (KCall p :: st) -> wants hashf p = Some m -> free cf m ->
      cstep1 H (dc cf) p (Some (Sec ev)) c' p' ->
      dstep H t cf (Some (Sec ev)) (put cf t c' (KIn m (ev_del ev) p' :: st))
  (* its deleters are called *)
  | d_delete m d ds p st : nth_error (dt cf) t = Some (KIn m (d :: ds) p :: st) ->
      dstep H t cf None (put cf t (dc cf) (KDel (del (d_deleter d) (d_key d) (d_value d)) :: KIn m ds p :: st))
  (* the mutex is given back *)
  | d_unlock m p st : nth_error (dt cf) t = Some (KIn m [] p :: st) ->
      dstep H t cf None (put cf t (dc cf) (KCall p :: st))
  (* a deleter's call, and its return *)
  | d_nested x k st : nth_error (dt cf) t = Some (KDel (DCall x k) :: st) -> may_call H (in_progress cf) x ->
      dstep H t cf (Some (Beg x)) (put cf t (dc cf) (KCall (Start x) :: KDel (DCall x k) :: st))
  | d_back x r y k st : nth_error (dt cf) t = Some (KCall (Done x r) :: KDel (DCall y k) :: st) ->
      dstep H t cf (Some (Rtn r)) (put cf t (dc cf) (KDel (k r) :: st))
  (* the deleter is done *)
  | d_end st : nth_error (dt cf) t = Some (KDel DEnd :: st) ->
      dstep H t cf None (put cf t (dc cf) st)
  (* the client's call returns *)
  | d_return x r : nth_error (dt cf) t = Some [KCall (Done x r)] ->
      dstep H t cf (Some (Rtn r)) (put cf t (dc cf) []).

  (** All executions of [n] threads on a new cache. *)
  Inductive druns (cap : N) (n : nat) : trace -> dconf -> Prop :=
  | dr_new c : cache_new alc dbg cap = Ret c -> druns cap n [] (mk_dconf c (repeat [] n))
  | dr_step tr cf t o cf' : druns cap n tr cf -> dstep (sections tr) t cf o cf' ->
      druns cap n (add_lab t o tr) cf'.
  (** How an execution goes on. *)
  Inductive dmore (tr : trace) (cf : dconf) : trace -> dconf -> Prop :=
  | dm_here : dmore tr cf tr cf
  | dm_step tr1 cf1 t o cf2 : dmore tr cf tr1 cf1 -> dstep (sections tr1) t cf1 o cf2 -> dmore tr cf (add_lab t o tr1) cf2.
End Del.

(** ** Rules and deadlocks *)

(** The clients and the deleters respect the rules at this point: the counters are in
    range, and a deleter uses a handle only if there is a reference that nobody uses. *)
Definition rules (tr : trace) (cf : dconf) : Prop :=
  (forall x, In (Start x) (in_progress cf) -> in_range (sections tr) x) /\
  (forall st x k, In (KDel (DCall x k) :: st) (dt cf) -> may_call (sections tr) (in_progress cf) x).
(** Some thread waits for a mutex that is not above one it holds. *)
Definition downwards (hashf : bytes -> N) (cf : dconf) : Prop :=
  exists t p st m m', nth_error (dt cf) t = Some (KCall p :: st) /\ wants hashf p = Some m' /\ In m (holds st) /\ m' <= m.
(** No thread that is inside a call can make a step. *)
Definition stuck (hashf : bytes -> N) (alc : allocator) (dbg : bool) (del : N -> bytes -> N -> dprog) (tr : trace) (cf : dconf) : Prop :=
  forall t st, nth_error (dt cf) t = Some st -> st <> [] -> forall o cf', ~ dstep hashf alc dbg del (sections tr) t cf o cf'.
(** A deleter called in shard [s] that calls upwards only: Insert, Lookup and Erase of
    keys in shards above [s], Value and NewId. *)
Definition above (hashf : bytes -> N) (s : nat) (x : call) : Prop :=
  match x with
  | CInsert k _ _ _ | CLookup k | CErase k => s < Shard (hashf k)
  | CValue _ | CNewId => True
  | _ => False
  end.
Fixpoint upward (hashf : bytes -> N) (s : nat) (q : dprog) : Prop :=
  match q with DEnd => True | DCall x k => above hashf s x /\ forall r, upward hashf s (k r) end.

(** ** How one thread's calls must look *)

(** A call that has not returned: its sections so far, the deleters called by its last
    section that have still to run, and what is left of the one running now. *)
Record frame := mk_frame { f_call : call; f_secs : list event; f_todo : list dcall; f_now : option dprog }.

(** [nested del l o]: the thread's labels [l], oldest first, are calls that begin, have
    their sections and return, one client's call after the other; [o]: the calls not yet
    returned, innermost first.  After a section the deleters it called run one after the
    other, with their arguments, before the call goes on; a deleter's calls begin and
    return inside, and it gets their results. *)
Inductive nested (del : N -> bytes -> N -> dprog) : list lab -> list frame -> Prop :=
| ne_nil : nested del [] []
| ne_begin l x : nested del l [] -> nested del (l ++ [Beg x]) [mk_frame x [] [] None]
| ne_section l x s o ev : nested del l (mk_frame x s [] None :: o) -> nested del (l ++ [Sec ev]) (mk_frame x (s ++ [ev]) (ev_del ev) None :: o)
| ne_deleter l x s d ds o : nested del l (mk_frame x s (d :: ds) None :: o) ->
    nested del l (mk_frame x s ds (Some (del (d_deleter d) (d_key d) (d_value d))) :: o)
| ne_call l x s ds y k o : nested del l (mk_frame x s ds (Some (DCall y k)) :: o) ->
    nested del (l ++ [Beg y]) (mk_frame y [] [] None :: mk_frame x s ds (Some (DCall y k)) :: o)
| ne_back l y s' r x s ds k o : nested del l (mk_frame y s' [] None :: mk_frame x s ds (Some (DCall y k)) :: o) -> call_done y s' r ->
    nested del (l ++ [Rtn r]) (mk_frame x s ds (Some (k r)) :: o)
| ne_end l x s ds o : nested del l (mk_frame x s ds (Some DEnd) :: o) -> nested del l (mk_frame x s ds None :: o)
| ne_return l x s r : nested del l [mk_frame x s [] None] -> call_done x s r -> nested del (l ++ [Rtn r]) [].
