(** SkipListConc.v -- readers of db/skiplist.h running concurrently with the
    single writer, at the granularity of single atomic loads and stores, under
    release/acquire semantics.

    The writer's stores form the log [W] (SkipList.v: SNew / SMax / SLink).
    At any time [now] of them have been performed.  A reader has a [view] T: the
    first T stores happen before everything it does next.  An acquire load of a
    link may return the value the cell has after any prefix of n stores,
    T <= n <= now (coherence forbids older ones; nothing forbids stale ones);
    if the store read from is a release store, the view rises to include it.
    A relaxed load of max_height_ may return any value it ever had.  Non-atomic
    accesses (node keys, and the existence of the link cell itself) are checked
    against the view: reading what does not happen-before is UB (a data race or
    uninitialised read).  Sequential consistency is the special case T = n = now. *)
From Coq Require Import List Arith ZArith NArith Lia Bool.
From Verif Require Import Outcome Random SkipList.
Import ListNotations.
Local Open Scope outcome_scope.

Section Conc.
  Context {K : Type}.
  Variable cmp : K -> K -> Z.
  Variable dbg : bool.          (* assertion-enabled build *)
  Variable m0 : mem K.          (* memory after construction *)
  Variable W : list (store K).  (* the writer's stores, in program order *)

  (** Memory after the stores [ws]. *)
  Fixpoint replay (m : mem K) (ws : list (store K)) : outcome (mem K) :=
    match ws with
    | [] => Ret m
    | w :: r => let! m := apply_store m w in replay m r
    end.
  Definition mem_at (n : nat) : outcome (mem K) := replay m0 (firstn n W).

  (** The last of the stores [ws] (numbered from [i]) to link [l] of node [x]:
      its number + 1 if it is a release store, 0 if it is relaxed or there is
      none (the constructor's value). *)
  Fixpoint last_release (ws : list (store K)) (i acc x l : nat) : nat :=
    match ws with
    | [] => acc
    | SLink b x' l' _ :: r =>
        last_release r (S i) (if (x' =? x) && (l' =? l) then (if b then S i else 0) else acc) x l
    | _ :: r => last_release r (S i) acc x l
    end.

  (** x->Next(level): acquire load, skiplist.h:150-155.  [n] is the prefix
      read from.  Returns the value and the new view. *)
  Definition load_link (view n x level : nat) : outcome (link * nat) :=
    let! mv := mem_at view in
    let! _ := Next mv x level in             (* the cell's initialisation happens-before *)
    let! mn := mem_at n in
    let! v := Next mn x level in
    Ret (v, Nat.max view (last_release (firstn n W) 0 0 x level)).

  (** The operations of a reader (skiplist.h:190-239, 379-382); OFirst .. OPrev
      act on the reader's iterator. *)
  Inductive op :=
  | OContains (k : K) | OSeek (k : K) | OFirst | OLast | ONext | OPrev.

  Inductive pc :=
  | PIdle                                   (* between operations *)
  | PHeight                                 (* about to load max_height_ *)
  | PFge (key : K) (x level : nat)          (* loop of FindGreaterOrEqual *)
  | PFlt (key : K) (x level : nat)          (* loop of FindLessThan *)
  | PFlast (x level : nat)                  (* loop of FindLast *)
  | PNext0 (x : nat)                        (* about to load x->Next(0) *)
  | PDone.                                  (* the operation has returned *)

  Record reader := {
    r_view : nat;
    r_pc : pc;
    r_op : op;               (* current or last operation *)
    r_it : Iterator;         (* the iterator's node_ *)
    r_res : bool;            (* result of the last Contains *)
    (* bookkeeping for the theorems *)
    r_from : Iterator;       (* r_it when the operation started *)
    r_start : nat;           (* view when it started *)
    r_end : nat;             (* number of stores performed when it returned *)
    r_steps : nat            (* loads performed by it *)
  }.

  Definition new_reader : reader :=
    {| r_view := 0; r_pc := PIdle; r_op := OFirst; r_it := None; r_res := false;
       r_from := None; r_start := 0; r_end := 0; r_steps := 0 |}.

  (** Start of an operation: skiplist.h:207-239, 379-382 up to the first load.
      Next and Prev require Valid(). *)
  Definition start (r : reader) (o : op) : outcome reader :=
    let mk p := {| r_view := r_view r; r_pc := p; r_op := o; r_it := r_it r; r_res := r_res r;
                   r_from := r_it r; r_start := r_view r; r_end := 0; r_steps := 0 |} in
    match o with
    | OContains _ | OSeek _ | OLast => Ret (mk PHeight)
    | OFirst => Ret (mk (PNext0 0))
    | ONext => let! a := iter_node dbg (r_it r) in Ret (mk (PNext0 a))
    | OPrev => let! a := iter_node dbg (r_it r) in Ret (mk PHeight)
    end.

  Definition goto (r : reader) (view : nat) (p : pc) : reader :=
    {| r_view := view; r_pc := p; r_op := r_op r; r_it := r_it r; r_res := r_res r;
       r_from := r_from r; r_start := r_start r; r_end := r_end r; r_steps := S (r_steps r) |}.

  (** The operation returns, leaving the iterator at [it] / returning [b]. *)
  Definition finish (r : reader) (view now : nat) (it : Iterator) (b : bool) : reader :=
    {| r_view := view; r_pc := PDone; r_op := r_op r; r_it := it; r_res := b;
       r_from := r_from r; r_start := r_start r; r_end := now; r_steps := S (r_steps r) |}.

  (** FindGreaterOrEqual has found [v]: rest of Contains (skiplist.h:380-381)
      or Seek (skiplist.h:225). *)
  Definition found (r : reader) (view now : nat) (mv : mem K) (v : link) : outcome reader :=
    match r_op r with
    | OContains key =>
        match v with
        | None => Ret (finish r view now (r_it r) false)
        | Some a => let! ka := key_of mv a in Ret (finish r view now (r_it r) (cmp key ka =? 0)%Z)
        end
    | _ => Ret (finish r view now v (r_res r))
    end.

  (** head_ means "none" for Prev and SeekToLast: skiplist.h:218-220, 236-238 *)
  Definition not_head (x : nat) : Iterator := if x =? 0 then None else Some x.

  (** One atomic load of a reader inside an operation, from the prefix of [n]
      stores, together with the local computation that follows it. *)
  Definition rstep (now n : nat) (r : reader) : outcome reader :=
    match r_pc r with
    | PIdle | PDone => UB
    | PHeight =>                            (* skiplist.h:101-103, 264-265, 290-291, 312-313 *)
        let! mn := mem_at n in
        let level := max_height_ mn - 1 in
        match r_op r with
        | OContains k | OSeek k => Ret (goto r (r_view r) (PFge k 0 level))
        | OLast => Ret (goto r (r_view r) (PFlast 0 level))
        | OPrev =>
            let! a := iter_node dbg (r_it r) in
            let! mv := mem_at (r_view r) in
            let! k := key_of mv a in
            Ret (goto r (r_view r) (PFlt k 0 level))
        | OFirst | ONext => UB
        end
    | PFge key x level =>                   (* skiplist.h:266-284 *)
        let! (v, view) := load_link (r_view r) n x level in
        let! mv := mem_at view in
        let! after := KeyIsAfterNode cmp mv key v in
        match v, after with
        | Some y, true => Ret (goto r view (PFge key y level))
        | _, _ =>
            match level with
            | O => found r view now mv v
            | S level' => Ret (goto r view (PFge key x level'))
            end
        end
    | PFlt key x level =>                   (* skiplist.h:292-306 *)
        let! m := mem_at (r_view r) in
        let! kx := key_of m x in
        let! _ := assert_ dbg ((x =? 0) || (cmp kx key <? 0)%Z) in
        let! (v, view) := load_link (r_view r) n x level in
        let! mv := mem_at view in
        let! ge := (match v with
                    | None => Ret true
                    | Some y => let! ky := key_of mv y in Ret (0 <=? cmp ky key)%Z
                    end) in
        match v, ge with
        | Some y, false => Ret (goto r view (PFlt key y level))
        | _, _ =>
            match level with
            | O => Ret (finish r view now (not_head x) (r_res r))
            | S level' => Ret (goto r view (PFlt key x level'))
            end
        end
    | PFlast x level =>                     (* skiplist.h:314-329 *)
        let! (v, view) := load_link (r_view r) n x level in
        match v with
        | Some y => Ret (goto r view (PFlast y level))
        | None =>
            match level with
            | O => Ret (finish r view now (not_head x) (r_res r))
            | S level' => Ret (goto r view (PFlast x level'))
            end
        end
    | PNext0 x =>                           (* skiplist.h:209, 230 *)
        let! (v, view) := load_link (r_view r) n x 0 in
        Ret (finish r view now v (r_res r))
    end.

  (** ** The system: one writer, any number of readers, any interleaving *)
  Record config := { c_now : nat; c_readers : list reader }.

  Definition in_op (r : reader) : bool :=
    match r_pc r with PIdle | PDone => false | _ => true end.

  (** A load may read from the prefix of n stores. *)
  Definition may_read (now n : nat) (r : reader) : Prop :=
    n <= now /\ (r_pc r <> PHeight -> r_view r <= n).

  Definition set_view (r : reader) (v : nat) : reader :=
    {| r_view := v; r_pc := r_pc r; r_op := r_op r; r_it := r_it r; r_res := r_res r;
       r_from := r_from r; r_start := r_start r; r_end := r_end r; r_steps := r_steps r |}.

  (** The client's contract for starting an operation. *)
  Definition may_start (r : reader) (o : op) : Prop :=
    in_op r = false /\ match o with ONext | OPrev => Valid (r_it r) = true | _ => True end.

  Inductive cstep : config -> config -> Prop :=
  | cs_write now rs : now < length W ->
      cstep {| c_now := now; c_readers := rs |} {| c_now := S now; c_readers := rs |}
  | cs_sync now rs i r v :       (* some other synchronisation with the writer *)
      nth_error rs i = Some r -> r_view r <= v <= now ->
      cstep {| c_now := now; c_readers := rs |}
            {| c_now := now; c_readers := set_nth rs i (set_view r v) |}
  | cs_start now rs i r o r' :
      nth_error rs i = Some r -> may_start r o -> start r o = Ret r' ->
      cstep {| c_now := now; c_readers := rs |} {| c_now := now; c_readers := set_nth rs i r' |}
  | cs_read now rs i r n r' :
      nth_error rs i = Some r -> in_op r = true -> may_read now n r -> rstep now n r = Ret r' ->
      cstep {| c_now := now; c_readers := rs |} {| c_now := now; c_readers := set_nth rs i r' |}.

  Inductive reachable (readers : nat) : config -> Prop :=
  | reach_init : reachable readers {| c_now := 0; c_readers := repeat new_reader readers |}
  | reach_step c c' : reachable readers c -> cstep c c' -> reachable readers c'.
End Conc.
Arguments reader : clear implicits.
Arguments op : clear implicits.
Arguments pc : clear implicits.
Arguments config : clear implicits.
