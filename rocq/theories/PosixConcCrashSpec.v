(** PosixConcCrashSpec.v -- what may be on the disk after a crash at the end of a
    trace (newest first), and what it means that other threads keep away from names. *)
From Coq Require Import List Arith NArith ZArith Lia Bool.
From Verif Require Import Outcome Status MemEnv PosixOs PosixWritable PosixRead PosixEnv PosixFs PosixEnvSpec PosixConc PosixConcSpec PosixConcWriteSpec.
Import ListNotations.

(** The entry [p] on disk is one it had at some moment since which no newer one
    was forced to disk -- or anything, if none was ever forced to disk. *)
Definition entry_on_disk (v0 : view) (tr : trace) (p : str) (x : option nat) : Prop :=
  (exists later earlier, tr = later ++ earlier /\ x = v_name (now v0 earlier) p /\
    forall l2 l1, later = l2 ++ l1 -> l1 <> [] -> v_sure (now v0 (l1 ++ earlier)) p = false) \/
  (forall later earlier, tr = later ++ earlier -> v_sure (now v0 earlier) p = false).
(** A file on disk starts with what was forced to disk; if this is all it had, it
    is just that.  (An empty file is excluded: it may have been cut a moment ago.) *)
Definition file_on_disk (v : view) (i : nat) (data : list N) : Prop :=
  begins data (v_safe v i) /\ (v_safe v i = v_data v i -> v_data v i <> [] -> data = v_data v i).
Definition crash (v0 : view) (tr : trace) (name : str -> option nat) (disk : nat -> list N) : Prop :=
  (forall p, entry_on_disk v0 tr p (name p)) /\
  (forall p i, name p = Some i -> file_on_disk (now v0 tr) i (disk i)).

(** In the last part [later] of the trace no call but [r] changed the entry [p]. *)
Definition only_call (v0 : view) (later earlier : trace) (r : nat) (p : str) : Prop :=
  forall l2 n c a v l1, later = l2 ++ (Act n c a, v) :: l1 -> n <> r -> v_name v p = v_name (now v0 (l1 ++ earlier)) p.
(** ... nothing changed file [i]. *)
Definition unchanged (v0 : view) (later earlier : trace) (i : nat) : Prop :=
  forall l2 n c a v l1, later = l2 ++ (Act n c a, v) :: l1 -> ~ changes (now v0 (l1 ++ earlier)) c a i.
