(** Sched.v -- model of PosixEnv::Schedule and BackgroundThreadMain,
    util/env_posix.cc:795-832, with port::Mutex and port::CondVar
    (port/port_stdcxx.h:46-76) as std::mutex and std::condition_variable are
    specified: wait() releases the mutex and blocks in one step, returns after a
    notification or for no reason, and takes the mutex again before returning;
    notify_one() wakes one waiting thread if there is one.

    Any number of threads call Schedule; the work functions, run by the
    background thread, may call it too.  An item is a number standing for the
    function and its argument.  Steps are single statements. *)
From Coq Require Import List Arith Lia Bool.
Import ListNotations.

(** Threads: the callers, and the background threads (there could be several as
    far as the model is concerned). *)
Inductive actor := Ext (t : nat) | Bg (i : nat).
Definition actor_eqb (a b : actor) : bool :=
  match a, b with Ext x, Ext y => x =? y | Bg x, Bg y => x =? y | _, _ => false end.

(** Inside Schedule: about to do line 800, 807, 811, 812. *)
Inductive spc := SIdle | SStart (x : nat) | SSignal (x : nat) | SPush (x : nat) | SUnlock.
(** Inside BackgroundThreadMain. *)
Inductive bgpc :=
| BLock          (* line 817 *)
| BCheck         (* line 820: is the queue empty? (mutex held) *)
| BWait          (* line 821: blocked in wait() (mutex released) *)
| BWoken         (* line 821: woken, has to take the mutex again *)
| BPop           (* lines 824-827 *)
| BUnlock (x : nat) (* line 829 *)
| BRun (x : nat) (* line 830: running the function *).

Record sstate := mk_s {
  s_queue : list nat;              (* background_work_queue_ *)
  s_mu : option actor;             (* background_work_mutex_ *)
  s_started : bool;                (* started_background_thread_ *)
  s_bgs : list bgpc;               (* the background threads started so far *)
  s_call : actor -> spc;
  s_crash : bool;                  (* front() or pop() on an empty queue *)
  (* what happened, oldest first *)
  s_locked : list nat;             (* items, in the order their Schedule calls took the mutex *)
  s_ran : list nat;                (* items whose function has been called *)
  s_done : list nat }.             (* items whose function has returned *)

Inductive sact :=
| CallSchedule (a : actor) (x : nat)   (* Schedule(x) is called and takes the mutex, line 797 *)
| SchedStep (a : actor) (w : nat)      (* next statement of Schedule; notify_one picks waiter [w] *)
| BgStep (i : nat)                     (* next step of background thread i *)
| Spurious (i : nat).                  (* wait() of background thread i returns without notification *)

Definition aupd (f : actor -> spc) (a : actor) (x : spc) : actor -> spc := fun b => if actor_eqb b a then x else f b.
Fixpoint set_nth (l : list bgpc) (i : nat) (b : bgpc) : list bgpc :=
  match l, i with [], _ => [] | _ :: l', 0 => b :: l' | c :: l', S i' => c :: set_nth l' i' b end.
Definition is_wait (b : bgpc) : bool := match b with BWait => true | _ => false end.

Definition set_call (s : sstate) (a : actor) (c : spc) : sstate :=
  mk_s (s_queue s) (s_mu s) (s_started s) (s_bgs s) (aupd (s_call s) a c) (s_crash s) (s_locked s) (s_ran s) (s_done s).
Definition set_bg (s : sstate) (q : list nat) (mu : option actor) (i : nat) (b : bgpc) : sstate :=
  mk_s q mu (s_started s) (set_nth (s_bgs s) i b) (s_call s) (s_crash s) (s_locked s) (s_ran s) (s_done s).

(** env_posix.cc:797: who can call Schedule now: a thread that is not in it yet; a
    background thread while it runs a function. *)
Definition can_call (s : sstate) (a : actor) : bool :=
  match s_call s a with
  | SIdle => match a with Ext _ => true | Bg i => match nth_error (s_bgs s) i with Some (BRun _) => true | _ => false end end
  | _ => false
  end.

Definition sched_step (s : sstate) (a : actor) (w : nat) : option sstate :=
  match s_call s a with
  | SIdle => None
  | SStart x =>                     (* lines 800-804 *)
      Some (set_call (if s_started s then s
                      else mk_s (s_queue s) (s_mu s) true (s_bgs s ++ [BLock]) (s_call s) (s_crash s) (s_locked s) (s_ran s) (s_done s)) a (SSignal x))
  | SSignal x =>                    (* lines 807-809 *)
      match s_queue s with
      | [] =>
          match nth_error (s_bgs s) w with
          | Some BWait => Some (set_call (set_bg s (s_queue s) (s_mu s) w BWoken) a (SPush x))
          | _ => if existsb is_wait (s_bgs s) then None else Some (set_call s a (SPush x))
          end
      | _ :: _ => Some (set_call s a (SPush x))
      end
  | SPush x =>                      (* line 811 *)
      Some (set_call (mk_s (s_queue s ++ [x]) (s_mu s) (s_started s) (s_bgs s) (s_call s) (s_crash s) (s_locked s) (s_ran s) (s_done s)) a SUnlock)
  | SUnlock =>                      (* line 812 *)
      Some (set_call (mk_s (s_queue s) None (s_started s) (s_bgs s) (s_call s) (s_crash s) (s_locked s) (s_ran s) (s_done s)) a SIdle)
  end.

Definition bg_step (s : sstate) (i : nat) : option sstate :=
  match nth_error (s_bgs s) i with
  | None => None
  | Some b =>
      match b with
      | BLock | BWoken => match s_mu s with None => Some (set_bg s (s_queue s) (Some (Bg i)) i BCheck) | Some _ => None end
      | BCheck => match s_queue s with
                  | [] => Some (set_bg s (s_queue s) None i BWait)
                  | _ :: _ => Some (set_bg s (s_queue s) (s_mu s) i BPop)
                  end
      | BWait => None
      | BPop => match s_queue s with
                | [] => Some (mk_s (s_queue s) (s_mu s) (s_started s) (s_bgs s) (s_call s) true (s_locked s) (s_ran s) (s_done s))
                | x :: q => Some (set_bg s q (s_mu s) i (BUnlock x))
                end
      | BUnlock x => Some (mk_s (s_queue s) None (s_started s) (set_nth (s_bgs s) i (BRun x)) (s_call s) (s_crash s) (s_locked s) (s_ran s ++ [x]) (s_done s))
      | BRun x => match s_call s (Bg i) with
                  | SIdle => Some (mk_s (s_queue s) (s_mu s) (s_started s) (set_nth (s_bgs s) i BLock) (s_call s) (s_crash s) (s_locked s) (s_ran s) (s_done s ++ [x]))
                  | _ => None
                  end
      end
  end.

Definition sstep (s : sstate) (a : sact) : option sstate :=
  match a with
  | CallSchedule a x =>
      if can_call s a then
        match s_mu s with
        | None => Some (mk_s (s_queue s) (Some a) (s_started s) (s_bgs s) (aupd (s_call s) a (SStart x)) (s_crash s) (s_locked s ++ [x]) (s_ran s) (s_done s))
        | Some _ => None
        end
      else None
  | SchedStep a w => sched_step s a w
  | BgStep i => bg_step s i
  | Spurious i => match nth_error (s_bgs s) i with Some BWait => Some (set_bg s (s_queue s) (s_mu s) i BWoken) | _ => None end
  end.

(** The constructor, env_posix.cc:789-793. *)
Definition s0 : sstate := mk_s [] None false [] (fun _ => SIdle) false [] [] [].
Inductive sreach : sstate -> Prop :=
| sr_start : sreach s0
| sr_step s a s' : sreach s -> sstep s a = Some s' -> sreach s'.
