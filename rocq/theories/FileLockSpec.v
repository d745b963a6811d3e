(** FileLockSpec.v -- what callers of LockFile can observe. *)
From Coq Require Import List Arith NArith ZArith Lia Bool.
From Verif Require Import Outcome Status MemEnv PosixOs FileLock.
Import ListNotations.

(** Process [p] holds the lock on [name]: LockFile handed out a lock object and
    UnlockFile has not been called with it (or has failed). *)
Definition holds (g : gstate) (p : nat) (name : str) : Prop := exists id fd, In (id, mk_lock p fd name) (g_live g).
(** A lock object exists that UnlockFile has not yet taken out of the table. *)
Definition busy (g : gstate) (p : nat) (name : str) : Prop :=
  exists id fd, In (id, mk_lock p fd name) (g_live g) \/ (exists lid, In (id, PUnlk lid (mk_lock p fd name)) (g_ops g)) \/ In (id, PRemove (mk_lock p fd name)) (g_ops g).
(** Steps of anyone but call [id]. *)
Inductive others (ino : str -> nat) (strerror : Z -> str) (id : nat) : gstate -> gstate -> Prop :=
| ot_refl g : others ino strerror id g g
| ot_step g g1 a g2 r : others ino strerror id g g1 -> (forall ans, a <> AStep id ans) -> gstep ino strerror g1 a = Some (g2, r) -> others ino strerror id g g2.

(** No restriction on callers; and: a process starts LockFile only when it has no
    descriptor of that file open (so it has no lock on it, and no other call on
    it under way). *)
Definition anything (g : gstate) (a : act) : Prop := True.
Definition one_descriptor (ino : str -> nat) (g : gstate) (a : act) : Prop :=
  match a with ALock p name _ => forall fd, ~ In (p, fd, ino name) (g_fds g) | _ => True end.
