(** LockOomSpec.v -- what callers of LockFile can observe. *)
From Coq Require Import List Arith NArith ZArith Lia Bool.
From Verif Require Import Outcome Status MemEnv PosixOs FileLock FileLockSpec LockOom.
Import ListNotations.

(** LockFile has returned OK and given out a lock object, not yet given back. *)
Definition has_object (l : lstate) (p : nat) (name : str) : Prop :=
  exists id fd, In (id, mk_lock p fd name) (g_live (l_g l)) /\ ~ In id (l_lost l).
(** LockFile has ended in an exception after taking the lock. *)
Definition lost_lock (l : lstate) (p : nat) (name : str) : Prop :=
  exists id fd, In (id, mk_lock p fd name) (g_live (l_g l)) /\ In id (l_lost l).
(** A LockFile call of process [p] that has opened the file and not returned. *)
Definition lock_waiting (l : lstate) (id p : nat) (name : str) : Prop :=
  exists fd, aget (g_ops (l_g l)) id = Some (PInsert p name fd) /\ ~ In id (l_over l).
