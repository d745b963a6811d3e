(** ArenaOom.v -- util/arena.h and util/arena.cc when memory runs out.

    Arena.v lets every operator new[] succeed.  Here a call may meet std::bad_alloc at
    the two places of AllocateNewBlock where one can come from: [new char[block_bytes]]
    and the growth of the vector blocks_.  The calls do not catch it, so it reaches the
    caller; what they had changed by then stays changed. *)
From Coq Require Import List Arith NArith Lia Bool.
From Verif Require Import Outcome Arena.
Import ListNotations.
Local Open Scope N_scope.
Local Open Scope outcome_scope.

(** What a call meets if it asks for memory: the answer of new[] ([None]: it throws),
    and whether blocks_.push_back succeeds (it may throw when the vector has to grow;
    std::vector is then as before). *)
Record memory := mk_memory { m_new : option N; m_push : bool }.

(** arena.cc:60-66.  A result [None]: std::bad_alloc. *)
Definition oAllocateNewBlock (s : arena) (block_bytes : N) (a : memory) : arena * option N * list event :=
  match m_new a with
  | None => (s, None, [])
  | Some b =>
      if m_push a then
        ({| alloc_ptr := alloc_ptr s;
            alloc_bytes_remaining := alloc_bytes_remaining s;
            blocks := blocks s ++ [b];
            memory_usage := u64 (memory_usage s + u64 (block_bytes + 8)) |}, Some b, [New block_bytes b])
      else (s, None, [New block_bytes b])
  end.

(** arena.cc:20-37: the assignment to alloc_ptr_ is after the call that throws *)
Definition oAllocateFallback (s : arena) (bytes : N) (a : memory) : arena * option N * list event :=
  if kBlockSize / 4 <? bytes then oAllocateNewBlock s bytes a
  else
    match oAllocateNewBlock s kBlockSize a with
    | (s1, None, ev) => (s1, None, ev)
    | (s1, Some r, ev) =>
        ({| alloc_ptr := r + bytes;
            alloc_bytes_remaining := kBlockSize - bytes;
            blocks := blocks s1;
            memory_usage := memory_usage s1 |}, Some r, ev)
    end.

(** arena.h:53-65 *)
Definition oAllocate (dbg : bool) (s : arena) (bytes : N) (a : memory) : outcome (arena * option N * list event) :=
  let! _ := assert_ dbg (0 <? bytes) in
  if bytes <=? alloc_bytes_remaining s then
    Ret ({| alloc_ptr := alloc_ptr s + bytes;
            alloc_bytes_remaining := alloc_bytes_remaining s - bytes;
            blocks := blocks s;
            memory_usage := memory_usage s |}, Some (alloc_ptr s), [])
  else Ret (oAllocateFallback s bytes a).

(** arena.cc:39-58, with align = 8 *)
Definition oAllocateAligned (dbg : bool) (s : arena) (bytes : N) (a : memory) : outcome (arena * option N * list event) :=
  let align := 8 in
  let current_mod := N.land (alloc_ptr s) (align - 1) in
  let slop := if current_mod =? 0 then 0 else align - current_mod in
  let needed := u64 (bytes + slop) in
  let '(s1, result, ev) :=
    (if needed <=? alloc_bytes_remaining s then
       ({| alloc_ptr := alloc_ptr s + needed;
           alloc_bytes_remaining := alloc_bytes_remaining s - needed;
           blocks := blocks s;
           memory_usage := memory_usage s |}, Some (alloc_ptr s + slop), [])
     else oAllocateFallback s bytes a) in
  match result with
  | None => Ret (s1, None, ev)
  | Some r => let! _ := assert_ dbg (N.land r (align - 1) =? 0) in Ret (s1, Some r, ev)
  end.

Definition ostep (dbg : bool) (s : arena) (o : aop) (a : memory) : outcome (arena * option N * list event) :=
  match o with
  | OpAllocate b => oAllocate dbg s b a
  | OpAllocateAligned b => oAllocateAligned dbg s b a
  end.

(** A history of calls: the arena afterwards, what each call returned ([None]: it
    threw), the new[]s that succeeded. *)
Fixpoint orun (dbg : bool) (s : arena) (ops : list (aop * memory)) : outcome (arena * list (option N) * list event) :=
  match ops with
  | [] => Ret (s, [], [])
  | (o, a) :: r =>
      let! (s1, p, ev) := ostep dbg s o a in
      let! (s2, ps, evs) := orun dbg s1 r in
      Ret (s2, p :: ps, ev ++ evs)
  end.

(** ** What the statements speak of *)

(** The regions handed out: pointer and length for each call that returned. *)
Fixpoint handed (ops : list (aop * memory)) (ps : list (option N)) : list (N * N) :=
  match ops, ps with
  | (o, _) :: r, Some p :: t => (p, op_bytes o) :: handed r t
  | _ :: r, None :: t => handed r t
  | _, _ => []
  end.
(** No call met a failing blocks_.push_back. *)
Definition vector_never_fails (ops : list (aop * memory)) : Prop := Forall (fun oa => m_push (snd oa) = true) ops.

(** [l] is made of [a] and [b], each in its order. *)
Inductive interleaved {A} : list A -> list A -> list A -> Prop :=
| il_nil : interleaved [] [] []
| il_left x a b l : interleaved a b l -> interleaved (x :: a) b (x :: l)
| il_right x a b l : interleaved a b l -> interleaved a (x :: b) (x :: l).
