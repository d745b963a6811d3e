(** Arena.v -- model of util/arena.h and util/arena.cc.

    Addresses are [N] (0 = nullptr).  The arena talks to operator new[] and
    delete[]; each call of the arena makes at most one new[], whose answer is
    given with the call ([ans]), and the calls made are recorded as events.
    bad_alloc is not modelled.  size_t arithmetic is mod 2^64. *)
From Coq Require Import List Arith NArith Lia Bool.
From Verif Require Import Outcome.
Import ListNotations.
Local Open Scope N_scope.
Local Open Scope outcome_scope.

Inductive event :=
| New (size base : N)
| Del (base : N).

(** arena.h:40-50 *)
Record arena := {
  alloc_ptr : N;
  alloc_bytes_remaining : N;
  blocks : list N;           (* oldest first *)
  memory_usage : N
}.

(** arena.cc:9 *)
Definition kBlockSize : N := 4096.

(** arena.cc:11-12 *)
Definition arena0 : arena :=
  {| alloc_ptr := 0; alloc_bytes_remaining := 0; blocks := []; memory_usage := 0 |}.

(** arena.cc:60-66; sizeof(char ptr) = 8 *)
Definition AllocateNewBlock (s : arena) (block_bytes ans : N) : arena * N * list event :=
  ({| alloc_ptr := alloc_ptr s;
      alloc_bytes_remaining := alloc_bytes_remaining s;
      blocks := blocks s ++ [ans];
      memory_usage := u64 (memory_usage s + u64 (block_bytes + 8)) |},
   ans, [New block_bytes ans]).

(** arena.cc:20-37 *)
Definition AllocateFallback (s : arena) (bytes ans : N) : arena * N * list event :=
  if kBlockSize / 4 <? bytes then
    AllocateNewBlock s bytes ans
  else
    let '(s1, r, ev) := AllocateNewBlock s kBlockSize ans in
    ({| alloc_ptr := r + bytes;
        alloc_bytes_remaining := kBlockSize - bytes;
        blocks := blocks s1;
        memory_usage := memory_usage s1 |}, r, ev).

(** arena.h:53-65 *)
Definition Allocate (dbg : bool) (s : arena) (bytes ans : N) : outcome (arena * N * list event) :=
  let! _ := assert_ dbg (0 <? bytes) in
  if bytes <=? alloc_bytes_remaining s then
    Ret ({| alloc_ptr := alloc_ptr s + bytes;
            alloc_bytes_remaining := alloc_bytes_remaining s - bytes;
            blocks := blocks s;
            memory_usage := memory_usage s |}, alloc_ptr s, [])
  else Ret (AllocateFallback s bytes ans).

(** arena.cc:39-58, with align = 8 *)
Definition AllocateAligned (dbg : bool) (s : arena) (bytes ans : N)
  : outcome (arena * N * list event) :=
  let align := 8 in
  let current_mod := N.land (alloc_ptr s) (align - 1) in
  let slop := if current_mod =? 0 then 0 else align - current_mod in
  let needed := u64 (bytes + slop) in
  let '(s1, result, ev) :=
    (if needed <=? alloc_bytes_remaining s then
       ({| alloc_ptr := alloc_ptr s + needed;
           alloc_bytes_remaining := alloc_bytes_remaining s - needed;
           blocks := blocks s;
           memory_usage := memory_usage s |}, alloc_ptr s + slop, [])
     else AllocateFallback s bytes ans) in
  let! _ := assert_ dbg (N.land result (align - 1) =? 0) in
  Ret (s1, result, ev).

(** arena.h:31-33 *)
Definition MemoryUsage (s : arena) : N := memory_usage s.

(** arena.cc:14-18 *)
Definition Destroy (s : arena) : list event := map Del (blocks s).

(** ** Histories *)
Inductive aop := OpAllocate (bytes : N) | OpAllocateAligned (bytes : N).

Definition op_bytes (o : aop) : N :=
  match o with OpAllocate b => b | OpAllocateAligned b => b end.

Definition astep (dbg : bool) (s : arena) (o : aop) (ans : N) : outcome (arena * N * list event) :=
  match o with
  | OpAllocate b => Allocate dbg s b ans
  | OpAllocateAligned b => AllocateAligned dbg s b ans
  end.

(** Run a history of calls (each with the answer operator new[] would give);
    yields the final arena, the regions (pointer, length) handed out, in
    order, and the new[] events, in order. *)
Fixpoint arun (dbg : bool) (s : arena) (ops : list (aop * N))
  : outcome (arena * list (N * N) * list event) :=
  match ops with
  | [] => Ret (s, [], [])
  | (o, ans) :: r =>
      let! (s1, p, ev) := astep dbg s o ans in
      let! (s2, rs, evs) := arun dbg s1 r in
      Ret (s2, (p, op_bytes o) :: rs, ev ++ evs)
  end.
