(** PosixConcDirSpec.v -- what is said about GetChildren while other threads change
    the directory, in terms of the trace alone (newest first). *)
From Coq Require Import List Arith NArith ZArith Lia Bool.
From Verif Require Import Outcome Status MemEnv PosixOs PosixWritable PosixRead PosixEnv PosixFs PosixEnvSpec PosixConc PosixConcSpec.
Import ListNotations.

(** Something was so at every moment of call [n], from its beginning to its return. *)
Definition throughout (v0 : view) (tr : trace) (n : nat) (P : view -> Prop) : Prop :=
  forall later earlier, tr = later ++ earlier -> in_progress earlier n -> P (now v0 earlier).
(** No readdir() of call [n] failed: readdir() answers 0 both at the end of the
    directory and on an error, and tells them apart by errno. *)
Definition readdir_never_failed (tr : trace) (n : nat) : Prop :=
  forall b a, In (CReaddir b, a) (acts tr n) -> a_ret a = 0%Z -> a_errno a = 0%Z.
