(** LoggerConcOom.v -- threads that call Logv of one PosixLogger while memory may
    run out, util/posix_logger.h:24-118.

    As LoggerConc.v, but each call is Logv_x of LoggerOom.v: with the memory it finds
    it performs its events or throws.  Both places where it may throw (lines 43 and
    61) come before the first event that touches the FILE, and after the clock was
    read (line 31): a call that throws is made at one moment and left at a later one;
    between them it does nothing another thread could see. *)
From Coq Require Import List Arith NArith ZArith Bool.
From Verif Require Import Outcome Logging Logger LoggerConc LoggerOom.
Import ListNotations.

(** A call: who, when, the thread id it has, the memory it finds, what there is to print. *)
Record xcall := mk_xcall { x_thread : nat; x_sec : Z; x_usec : Z; x_tid : list N; x_mem : logmem; x_r1 : vsres; x_r2 : vsres }.
(** [x_log]: threads, FILE, clock and the calls that will return or have returned;
    [x_info]: who made them and with what memory, in the same order; [x_doomed]: the
    calls on their way to a throw; [x_thrown]: the calls that threw, oldest first. *)
Record xconf := mk_xconf { x_log : lconf; x_info : list xcall; x_doomed : nat -> option xcall; x_thrown : list xcall }.
Definition dset (f : nat -> option xcall) (t : nat) (p : option xcall) : nat -> option xcall := fun x => if Nat.eqb x t then p else f x.

Section Logger.
  Variable dbg : bool.
  Variable local : Z -> tm.

  Inductive xstep : xconf -> xconf -> Prop :=
  (** everything but the beginning of a call and the end of the logger, as without throws *)
  | x_go l l' inf d th : lstep dbg local l l' -> l_calls l' = l_calls l -> l_open l' = l_open l ->
      xstep (mk_xconf l inf d th) (mk_xconf l' inf d th)
  (** ~PosixLogger, line 29: not while a call is going on *)
  | x_close l l' inf d th : lstep dbg local l l' -> l_open l' <> l_open l -> (forall t, d t = None) ->
      xstep (mk_xconf l inf d th) (mk_xconf l' inf d th)
  (** Logv is called, lines 31-69, and has enough memory *)
  | x_begin cs ths lk b f c fl tr inf d th t tid mem stack r1 r2 evs : ths t = LIdle -> d t = None -> length stack = 512%nat ->
      Logv_x dbg mem stack (local (fst c)) (snd c) tid r1 r2 = Ret (LReturned evs) ->
      xstep (mk_xconf (mk_lconf cs ths lk b f c fl true tr) inf d th)
            (mk_xconf (mk_lconf (cs ++ [mk_lcall t (fst c) (snd c) (id_stream (m_id mem) tid) r1 r2 evs])
                                (lset ths t (LRun (length cs) evs)) lk b f c fl true (LBegin (length cs) :: tr))
                      (inf ++ [mk_xcall t (fst c) (snd c) tid mem r1 r2]) d th)
  (** Logv is called, lines 31-61, and has not *)
  | x_doom l inf d th t tid mem stack r1 r2 : l_open l = true -> l_thr l t = LIdle -> d t = None -> length stack = 512%nat ->
      Logv_x dbg mem stack (local (fst (l_clock l))) (snd (l_clock l)) tid r1 r2 = Ret LThrew ->
      xstep (mk_xconf l inf d th)
            (mk_xconf l inf (dset d t (Some (mk_xcall t (fst (l_clock l)) (snd (l_clock l)) tid mem r1 r2))) th)
  (** the exception leaves Logv *)
  | x_throw l inf d th t c : d t = Some c ->
      xstep (mk_xconf l inf d th) (mk_xconf l inf (dset d t None) (th ++ [c])).

  Inductive xreach (clock : Z * Z) : xconf -> Prop :=
  | xr_start : xreach clock (mk_xconf (mk_lconf [] (fun _ => LIdle) None [] [] clock false true []) [] (fun _ => None) [])
  | xr_step x x' : xreach clock x -> xstep x x' -> xreach clock x'.
  Inductive xsteps : xconf -> xconf -> Prop :=
  | xs_refl x : xsteps x x
  | xs_step x x1 x2 : xstep x x1 -> xsteps x1 x2 -> xsteps x x2.
End Logger.
