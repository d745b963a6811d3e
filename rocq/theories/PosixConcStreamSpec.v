(** PosixConcStreamSpec.v -- what is said about SequentialFiles used by several
    threads on the POSIX environment, in terms of the trace alone (newest first). *)
From Coq Require Import List Arith NArith ZArith Lia Bool.
From Verif Require Import Outcome Status MemEnv PosixOs PosixWritable PosixRead PosixEnv PosixFs PosixEnvSpec PosixConc PosixConcSpec.
Import ListNotations.

(** How far the callers have moved in the SequentialFile [h]: the bytes that Reads
    have returned and what Skips that returned OK were given (a number from 2^63 on
    moves back: it is taken as a signed 64-bit number). *)
Definition skip_by (k : N) : Z := if (k <? 2 ^ 63)%N then Z.of_N k else (Z.of_N k - 2 ^ 64)%Z.
Fixpoint moved (tr : trace) (h : nat) : Z :=
  match tr with
  | [] => 0
  | (End n r, _) :: tr' =>
      (moved tr' h +
       match call_no tr' n, r with
       | Some (PSRead h' _), RData SOk d => if (h' =? h)%nat then Z.of_nat (length d) else 0
       | Some (PSSkip h' k), RStat SOk => if (h' =? h)%nat then skip_by k else 0
       | _, _ => 0
       end)%Z
  | _ :: tr' => moved tr' h
  end.
(** The bytes the Reads have returned, in order. *)
Fixpoint got (tr : trace) (h : nat) : list N :=
  match tr with
  | [] => []
  | (End n (RData SOk d), _) :: tr' =>
      got tr' h ++ match call_no tr' n with Some (PSRead h' _) => if h' =? h then d else [] | _ => [] end
  | _ :: tr' => got tr' h
  end.
Definition never_skipped (tr : trace) (h : nat) : Prop := forall n k, call_no tr n <> Some (PSSkip h k).
