(** EnvUtilOom.v -- util/env.cc:46-97 (WriteStringToFile, WriteStringToFileSync,
    ReadFileToString) when exceptions are thrown in them.

    As EnvUtil.v, over an arbitrary environment whose calls may throw ([XThrow]).
    Destructors are noexcept: [XThrow] as the answer to IDelete is
    std::terminate.  WriteStringToFile itself asks for no memory;
    ReadFileToString does at env.cc:84 (the buffer) and 90 (data->append).
    std::unique_ptr deletes its file when an exception leaves the function; the
    plain pointer of DoWriteStringToFile does not. *)
From Coq Require Import List Arith NArith Bool.
From Verif Require Import Outcome Status MemEnv EnvUtil.
Import ListNotations.
Local Open Scope outcome_scope.

Inductive xio := XAns (r : io_res) | XThrow.
Definition xtrace := list (io_call * xio).
(** How a call ends: it returns, an exception leaves it, the process ends. *)
Inductive xend (A : Type) := Done (a : A) | Threw | Killed.
Arguments Done {A}. Arguments Threw {A}. Arguments Killed {A}.

Section Run.
  Variable S : Type.
  Variable io : S -> io_call -> outcome (S * xio).

  Definition call_x (s : S) (tr : xtrace) (c : io_call) : outcome (S * xtrace * xio) :=
    let! r := io s c in Ret (fst r, tr ++ [(c, snd r)], snd r).

  (** DoWriteStringToFile, env.cc:46-64 *)
  Definition do_write_x (s : S) (data : list N) (f : str) (should_sync : bool) : outcome (S * xtrace * xend status) :=
    let! (s, tr, r) := call_x s [] (INewWritable f) in
    match r with XThrow => Ret (s, tr, Threw) | XAns r =>
    if negb (ok (io_status r)) then Ret (s, tr, Done (io_status r))
    else
      let! file := deref (io_ptr r) in
      let! (s, tr, r) := call_x s tr (IAppend file data) in
      match r with XThrow => Ret (s, tr, Threw) | XAns r =>
      let! (s, tr, r) := if ok (io_status r) && should_sync then call_x s tr (ISync file) else Ret (s, tr, XAns r) in
      match r with XThrow => Ret (s, tr, Threw) | XAns r =>
      let! (s, tr, r) := if ok (io_status r) then call_x s tr (IClose file) else Ret (s, tr, XAns r) in
      match r with XThrow => Ret (s, tr, Threw) | XAns r =>
      let! (s, tr, d) := call_x s tr (IDelete file) in
      match d with XThrow => Ret (s, tr, Killed) | XAns _ =>
      if negb (ok (io_status r)) then
        let! (s, tr, d) := call_x s tr (IRemove f) in
        match d with XThrow => Ret (s, tr, Threw) | XAns _ => Ret (s, tr, Done (io_status r)) end
      else Ret (s, tr, Done (io_status r))
      end end end end
    end.

  (** The loop of ReadFileToString, env.cc:85-95; at most [fuel] rounds.
      [short k]: data->append has no memory in round [k]. *)
  Fixpoint read_loop_x (short : nat -> bool) (fuel k : nat) (s : S) (tr : xtrace) (file : nat) (data : list N) : outcome (S * xtrace * xend status * list N) :=
    match fuel with
    | O => OutOfFuel
    | Datatypes.S fuel' =>
        let! (s, tr, r) := call_x s tr (IRead file 8192) in
        match r with XThrow => Ret (s, tr, Threw, data) | XAns r =>
        if negb (ok (io_status r)) then Ret (s, tr, Done (io_status r), data)
        else if short k then Ret (s, tr, Threw, data)
        else
          let data := data ++ io_data r in
          match io_data r with
          | [] => Ret (s, tr, Done (io_status r), data)
          | _ => read_loop_x short fuel' (Datatypes.S k) s tr file data
          end
        end
    end.
  (** ReadFileToString, env.cc:77-97.  [no_space]: line 84 throws. *)
  Definition read_file_x (no_space : bool) (short : nat -> bool) (fuel : nat) (s : S) (f : str) : outcome (S * xtrace * xend status * list N) :=
    let! (s, tr, r) := call_x s [] (INewSequential f) in
    match r with XThrow => Ret (s, tr, Threw, []) | XAns r =>
    if negb (ok (io_status r)) then
      match io_ptr r with
      | PUnset => UB
      | PNull => Ret (s, tr, Done (io_status r), [])
      | PObj o => let! (s, tr, d) := call_x s tr (IDelete o) in
                  Ret (s, tr, match d with XThrow => Killed | XAns _ => Done (io_status r) end, [])
      end
    else
      let! file := deref (io_ptr r) in
      let! (s, tr, st, data) := if no_space then Ret (s, tr, Threw, []) else read_loop_x short fuel 0 s tr file [] in
      let! (s, tr, d) := call_x s tr (IDelete file) in
      Ret (s, tr, match d with XThrow => Killed | XAns _ => st end, data)
    end.
End Run.

(** An environment that never throws. *)
Definition lift {S} (io : S -> io_call -> outcome (S * io_res)) : S -> io_call -> outcome (S * xio) :=
  fun s c => let! r := io s c in Ret (fst r, XAns (snd r)).
Definition lift_trace (tr : trace) : xtrace := map (fun e => (fst e, XAns (snd e))) tr.
