(** LimiterConc.v -- model of class Limiter, util/env_posix.cc:72-98, used by any
    number of threads.  The counter is one std::atomic<int>; the read-modify-write
    operations on one atomic object happen in one total order whatever the memory
    order argument (C++11 [atomics.order]), so interleaving whole fetch_add and
    fetch_sub operations is exact.  Atomic arithmetic wraps (two's complement). *)
From Coq Require Import List Arith ZArith Lia Bool.
From Verif Require Import PosixRead.
Import ListNotations.

Definition int32 (z : Z) : Z := ((z + 2 ^ 31) mod 2 ^ 32 - 2 ^ 31)%Z.

(** What callers see, newest first. *)
Inductive levent := EGrant (t : nat) | EDeny (t : nat) | ERelease (t : nat).

(** The counter; the threads that are inside Acquire after a fetch_sub that found
    nothing (between lines 81 and 84); the history. *)
Record lstate := mk_l { l_cnt : Z; l_undo : list nat; l_hist : list levent }.

(** Atomic steps. *)
Inductive lact :=
| ASub (t : nat)     (* Acquire: lines 80-82, return true if the old value was positive *)
| AUndo (t : nat)    (* Acquire: lines 84-85 *)
| ARelease (t : nat) (* Release: line 90 *).

(** Granted and not released. *)
Definition held (h : list levent) : Z :=
  fold_right (fun e z => match e with EGrant _ => (z + 1)%Z | EDeny _ => z | ERelease _ => (z - 1)%Z end) 0%Z h.

(** [nt] threads; a thread inside Acquire does nothing else; Release is called only
    for something granted (the comment at line 88-89). *)
Definition enabled (nt : nat) (s : lstate) (a : lact) : Prop :=
  match a with
  | ASub t => t < nt /\ ~ In t (l_undo s)
  | AUndo t => In t (l_undo s)
  | ARelease t => t < nt /\ ~ In t (l_undo s) /\ (0 < held (l_hist s))%Z
  end.
Definition leff (s : lstate) (a : lact) : lstate :=
  match a with
  | ASub t =>
      let old := l_cnt s in
      let cnt := int32 (old - 1) in
      if (0 <? old)%Z then mk_l cnt (l_undo s) (EGrant t :: l_hist s)
      else mk_l cnt (t :: l_undo s) (l_hist s)
  | AUndo t => mk_l (int32 (l_cnt s + 1)) (filter (fun x => negb (x =? t)) (l_undo s)) (EDeny t :: l_hist s)
  | ARelease t => mk_l (int32 (l_cnt s + 1)) (l_undo s) (ERelease t :: l_hist s)
  end.

(** Limiter(max_acquires), line 75, and every interleaving from there. *)
Inductive lreach (nt : nat) (limit : Z) : lstate -> Prop :=
| lr_init : lreach nt limit (mk_l limit [] [])
| lr_step s a : lreach nt limit s -> enabled nt s a -> lreach nt limit (leff s a).

(** A call of Acquire that no other thread disturbs. *)
Definition acquire_alone (s : lstate) (t : nat) : lstate * bool :=
  let s' := leff s (ASub t) in
  if existsb (Nat.eqb t) (l_undo s') then (leff s' (AUndo t), false) else (s', true).
