(** PosixIoSpec.v -- the POSIX environment as the environment the helpers of
    env.cc run on (EnvUtil.v), with the history of calls kept beside it. *)
From Coq Require Import List Arith NArith ZArith Bool.
From Verif Require Import Outcome Status MemEnv PosixOs PosixWritable PosixRead PosixEnv PosixFs PosixEnvSpec EnvUtil.
Import ListNotations.
Local Open Scope outcome_scope.

(** The same calls, by their names in PosixEnv.v. *)
Definition as_pcall (c : io_call) : pcall :=
  match c with
  | INewWritable f => PNewWrite f | INewSequential f => PNewSeq f | IRemove f => PRemove f
  | IAppend o d => PWAppend o d | ISync o => PWSync o | IClose o => PWClose o
  | IRead o n => PSRead o n | IDelete o => PDelete o
  end.
(** What such a call returns; a sequential reader has no mapping. *)
Definition plain (q : presult) : result :=
  match q with
  | QStat s => RStat s
  | QData s (Bytes d) => RData s d
  | QData s _ => RData s []
  | QBool b => RBool b | QNames s l => RNames s l | QSize s n => RSize s n
  end.
(** The pointer is set to the new object, or to null on failure
    (env_posix.cc:507, 511, 558, 562). *)
Definition as_answer (c : io_call) (n : nat) (r : result) : io_res :=
  match r with
  | RStat st =>
      mk_io st (match c with
                | INewWritable _ | INewSequential _ => match st with SOk => PObj n | _ => PNull end
                | _ => PUnset end) []
  | RData st d => mk_io st PUnset d
  | _ => mk_io SOk PUnset []
  end.
Definition posix_io (dbg : bool) (B : nat) (strerror : Z -> str) (S : Type) (os : S -> syscall -> S * answer) (fuel : nat)
    (s : history * penv S) (c : io_call) : outcome ((history * penv S) * io_res) :=
  let '(H, e) := s in
  let! (e', q) := pcall_ dbg B strerror S os fuel e (length H) (as_pcall c) in
  Ret ((mk_pev (as_pcall c) (plain q) :: H, e'), as_answer c (length H) (plain q)).

(** Nobody has the file [f] open for writing, and it was used as it should
    ([clean] in PosixEnvSpec.v) so far. *)
Definition idle (v0 : view) (H : history) (f : str) : Prop :=
  forall i, bound (v_next v0) (v_name v0) H f = Some i ->
    clean (v_next v0) (v_name v0) (v_data v0) H i /\ writer (v_next v0) (v_name v0) H i = None.
