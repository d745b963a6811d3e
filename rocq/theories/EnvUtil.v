(** EnvUtil.v -- model of util/env.cc: WriteStringToFile, WriteStringToFileSync
    and ReadFileToString, running on an arbitrary environment.

    An environment is any function [io] from its state and a call to the new
    state and an answer; a pointer stored through an out-parameter is [PObj o],
    [PNull], or [PUnset] when the environment left it uninitialised.  Using or
    deleting an unset pointer, or calling a method on null, is [UB]; deleting
    null is nothing.  The list [tr] is the calls made so far with their answers,
    oldest first. *)
From Coq Require Import List Arith NArith Bool.
From Verif Require Import Outcome Status MemEnv.
Import ListNotations.
Local Open Scope outcome_scope.

Inductive ptr := PObj (o : nat) | PNull | PUnset.
Inductive io_call :=
| INewWritable (f : str) | INewSequential (f : str) | IRemove (f : str)
| IAppend (o : nat) (d : list N) | ISync (o : nat) | IClose (o : nat)
| IRead (o : nat) (n : N)
| IDelete (o : nat).
Record io_res := mk_io { io_status : status; io_ptr : ptr; io_data : list N }.
Definition trace := list (io_call * io_res).

Definition ok (s : status) : bool := match s with SOk => true | SErr _ _ _ => false end.

Section Run.
  Variable S : Type.
  Variable io : S -> io_call -> outcome (S * io_res).

  Definition call (s : S) (tr : trace) (c : io_call) : outcome (S * trace * io_res) :=
    let! r := io s c in Ret (fst r, tr ++ [(c, snd r)], snd r).
  (** using a pointer as an object *)
  Definition deref (p : ptr) : outcome nat := match p with PObj o => Ret o | _ => UB end.
  (** delete p *)
  Definition del (s : S) (tr : trace) (p : ptr) : outcome (S * trace) :=
    match p with
    | PObj o => let! r := call s tr (IDelete o) in Ret (fst r)
    | PNull => Ret (s, tr)
    | PUnset => UB
    end.

  (** DoWriteStringToFile, env.cc:46-64 *)
  Definition do_write (s : S) (data : list N) (f : str) (should_sync : bool) : outcome (S * trace * status) :=
    let! (s, tr, r) := call s [] (INewWritable f) in
    if negb (ok (io_status r)) then Ret (s, tr, io_status r)
    else
      let! file := deref (io_ptr r) in
      let! (s, tr, r) := call s tr (IAppend file data) in
      let! (s, tr, r) := if ok (io_status r) && should_sync then call s tr (ISync file) else Ret (s, tr, r) in
      let! (s, tr, r) := if ok (io_status r) then call s tr (IClose file) else Ret (s, tr, r) in
      let! (s, tr) := del s tr (PObj file) in
      let! (s, tr) := if negb (ok (io_status r)) then let! x := call s tr (IRemove f) in Ret (fst x) else Ret (s, tr) in
      Ret (s, tr, io_status r).
  (** env.cc:66-69 and 71-74 *)
  Definition write_string_to_file (s : S) (data : list N) (f : str) := do_write s data f false.
  Definition write_string_to_file_sync (s : S) (data : list N) (f : str) := do_write s data f true.

  (** The loop of ReadFileToString, env.cc:85-95; at most [fuel] rounds. *)
  Fixpoint read_loop (fuel : nat) (s : S) (tr : trace) (file : nat) (data : list N) : outcome (S * trace * status * list N) :=
    match fuel with
    | O => OutOfFuel
    | Datatypes.S fuel' =>
        let! (s, tr, r) := call s tr (IRead file 8192) in
        if negb (ok (io_status r)) then Ret (s, tr, io_status r, data)
        else
          let data := data ++ io_data r in
          match io_data r with
          | [] => Ret (s, tr, io_status r, data)
          | _ => read_loop fuel' s tr file data
          end
    end.
  (** ReadFileToString, env.cc:77-97; the unique_ptr deletes the file on every path. *)
  Definition read_file (fuel : nat) (s : S) (f : str) : outcome (S * trace * status * list N) :=
    let! (s, tr, r) := call s [] (INewSequential f) in
    if negb (ok (io_status r)) then
      let! (s, tr) := del s tr (io_ptr r) in Ret (s, tr, io_status r, [])
    else
      let! file := deref (io_ptr r) in
      let! (s, tr, st, data) := read_loop fuel s tr file [] in
      let! (s, tr) := del s tr (PObj file) in
      Ret (s, tr, st, data).
End Run.
