(** SchedOom.v -- PosixEnv::Schedule and BackgroundThreadMain when an exception is
    thrown in them: util/env_posix.cc:795-832, on top of Sched.v.

    background_work_mutex_ is taken and released by plain Lock() and Unlock()
    calls (lines 797, 812, 817, 829), not by a guard object.  Three places can
    throw: the constructor of std::thread at line 802 (std::bad_alloc, or
    std::system_error when the system has no more threads), the emplace at line
    811 (a node or block of the queue), and in the background thread the copy of
    the std::function at line 825 and the function itself at line 830, where
    nothing catches the exception and std::terminate ends the process.  The copies
    of the std::function made by the callers before line 797 and at line 811 are
    counted with the caller and with the emplace. *)
From Coq Require Import List Arith Lia Bool.
From Verif Require Import Sched.
Import ListNotations.

Record ostate := mk_o {
  o_s : sstate;
  o_failed : list nat;     (* items whose Schedule call has ended in an exception *)
  o_dead : bool }.         (* std::terminate has been called *)

Inductive oact :=
| OStep (a : sact)         (* a step without an exception *)
| OThrow (a : actor)       (* line 802 or 811 throws in the Schedule call of [a] *)
| OTerminate (i : nat).    (* line 825 or 830 throws in background thread [i] *)

(** Line 802 or 811 throws: the call is over, the mutex stays as it is.  At line
    802 started_background_thread_ is already true and there is no thread.  The
    ghost list [s_locked] goes back to the items whose calls have not failed. *)
Definition othrow (s : sstate) (a : actor) : option (sstate * nat) :=
  match s_call s a with
  | SStart x =>
      if s_started s then None
      else Some (mk_s (s_queue s) (s_mu s) true (s_bgs s) (aupd (s_call s) a SIdle) (s_crash s) (removelast (s_locked s)) (s_ran s) (s_done s), x)
  | SPush x =>
      Some (mk_s (s_queue s) (s_mu s) (s_started s) (s_bgs s) (aupd (s_call s) a SIdle) (s_crash s) (removelast (s_locked s)) (s_ran s) (s_done s), x)
  | _ => None
  end.

(** Lines 825 and 830. *)
Definition can_terminate (s : sstate) (i : nat) : bool :=
  match nth_error (s_bgs s) i with
  | Some BPop => true
  | Some (BRun _) => match s_call s (Bg i) with SIdle => true | _ => false end
  | _ => false
  end.

Definition ostep (o : ostate) (a : oact) : option ostate :=
  if o_dead o then None else
  match a with
  | OStep b => match sstep (o_s o) b with Some s' => Some (mk_o s' (o_failed o) false) | None => None end
  | OThrow c => match othrow (o_s o) c with Some (s', x) => Some (mk_o s' (o_failed o ++ [x]) false) | None => None end
  | OTerminate i => if can_terminate (o_s o) i then Some (mk_o (o_s o) (o_failed o) true) else None
  end.

Definition oinit : ostate := mk_o s0 [] false.
Inductive osteps : ostate -> list oact -> ostate -> Prop :=
| os_nil o : osteps o [] o
| os_cons o a o1 acts o' : ostep o a = Some o1 -> osteps o1 acts o' -> osteps o (a :: acts) o'.
Definition oreach (o : ostate) : Prop := exists acts, osteps oinit acts o.
