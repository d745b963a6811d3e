(** ArenaConc.v -- Arena::MemoryUsage called from other threads.

    Allocate and AllocateAligned may be called by one thread at a time (the owner, thread
    0); MemoryUsage reads one std::atomic<size_t> with memory_order_relaxed
    (util/arena.h:31-33) that AllocateNewBlock changes with one relaxed fetch_add
    (util/arena.cc:60-66).  That is all the threads share, so a whole Allocate call
    counts as one step.

    The memory model, for one atomic object: its values in modification order; a relaxed
    load may return any of them that is not older than one the thread has read, or knows
    to be written (happens-before).  Knowledge passes between threads when they
    synchronise by other means (a mutex, a release/acquire pair: [u_sync]). *)
From Coq Require Import List Arith NArith Lia Bool.
From Verif Require Import Outcome Arena ArenaSpec.
Import ListNotations.

(** What happened, newest first. *)
Inductive uev :=
| Did (o : aop) (ans p : N)      (* the owner's call, with the answer of new[] if it was asked, returned p *)
| Read (t : nat) (v : N)         (* MemoryUsage in thread t returned v *)
| Synced (t t' : nat).           (* what t knows, t' knows from here on *)

Record uconf := mk_uconf {
  u_arena : arena;               (* the owner's object *)
  u_vals : list N;               (* memory_usage_ in modification order, oldest first *)
  u_floor : nat -> nat           (* index of the newest value each thread must not go behind *)
}.
Definition upd1 (f : nat -> nat) (t n : nat) : nat -> nat := fun x => if x =? t then n else f x.

(** util/arena.cc:11-12: memory_usage_(0) *)
Definition uconf0 : uconf := mk_uconf arena0 [0%N] (fun _ => 0).

Inductive ustep (dbg : bool) (c : uconf) : uev -> uconf -> Prop :=
(* the owner allocates; if there is a new block, memory_usage_ has a new value *)
| u_alloc o ans s' p ev : astep dbg (u_arena c) o ans = Ret (s', p, ev) ->
    ustep dbg c (Did o ans p)
      (mk_uconf s' (match ev with [] => u_vals c | _ => u_vals c ++ [memory_usage s'] end)
         (match ev with [] => u_floor c | _ => upd1 (u_floor c) 0 (length (u_vals c)) end))
(* util/arena.h:31-33 *)
| u_read t i v : u_floor c t <= i -> nth_error (u_vals c) i = Some v ->
    ustep dbg c (Read t v) (mk_uconf (u_arena c) (u_vals c) (upd1 (u_floor c) t i))
| u_sync t t' : ustep dbg c (Synced t t') (mk_uconf (u_arena c) (u_vals c) (upd1 (u_floor c) t' (Nat.max (u_floor c t) (u_floor c t')))).

Inductive uruns (dbg : bool) : list uev -> uconf -> Prop :=
| ur_new : uruns dbg [] uconf0
| ur_step tr c e c' : uruns dbg tr c -> ustep dbg c e c' -> uruns dbg (e :: tr) c'.

(** ** What the statements speak of *)

(** The owner's calls, oldest first. *)
Fixpoint ops_of (tr : list uev) : list (aop * N) :=
  match tr with [] => [] | Did o ans _ :: r => ops_of r ++ [(o, ans)] | _ :: r => ops_of r end.
(** How many of the owner's calls thread [t] knows to have happened. *)
Fixpoint known (tr : list uev) (t : nat) : nat :=
  match tr with
  | [] => 0
  | Did _ _ _ :: r => if t =? 0 then length (ops_of r) + 1 else known r t
  | Synced a b :: r => if t =? b then Nat.max (known r a) (known r b) else known r t
  | _ :: r => known r t
  end.
(** Every call is legal and new[] answers as its contract says. *)
Definition allocs_ok (dbg : bool) (tr : list uev) : Prop :=
  Forall (fun oa => legal (fst oa)) (ops_of tr) /\
  forall s rs evs, arun dbg arena0 (ops_of tr) = Ret (s, rs, evs) -> answers_ok [] evs.
(** The size of the blocks the first [k] calls obtained, with 8 bytes for each block. *)
Definition total_after (dbg : bool) (ops : list (aop * N)) (k : nat) : N :=
  match arun dbg arena0 (firstn k ops) with
  | Ret (_, _, evs) => (sum (block_sizes evs) + 8 * N.of_nat (length (block_sizes evs)))%N
  | _ => 0%N
  end.
(** The bytes they handed out. *)
Definition handed_out (ops : list (aop * N)) (k : nat) : N := sum (map (fun oa => op_bytes (fst oa)) (firstn k ops)).
