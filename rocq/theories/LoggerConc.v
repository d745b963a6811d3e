(** LoggerConc.v -- threads that call Logv of one PosixLogger,
    util/posix_logger.h:24-118.

    What a call does by itself is Logv of Logger.v: it reads the clock, formats, and
    then performs the events [LNew], [LFwrite], [LFflush], [LDelete].  The logger has
    no lock; all that its callers share is the FILE.  Of the C library the model
    takes over what POSIX (flockfile) says: every stdio function holds the lock of
    the stream while it runs.  Inside it the bytes move, in any portions and at any
    moments, from the caller to the stream's buffer and from there to the file.
    fwrite may fail after having taken a part, fflush may fail and drop any part of
    the buffer from its end; Logv looks at neither result (lines 105-106). *)
From Coq Require Import List Arith NArith ZArith Bool.
From Verif Require Import Outcome Logging Logger.
Import ListNotations.

(** One call: who, when (gettimeofday), and what it found to print. *)
Record lcall := mk_lcall { c_thread : nat; c_sec : Z; c_usec : Z; c_tid : list N; c_r1 : vsres; c_r2 : vsres; c_does : list log_event }.
(** A thread: no call; between two events; in fwrite with [rest] to hand over; in
    fflush.  [k] is the number of the call. *)
Inductive lpc :=
| LIdle
| LRun (k : nat) (evs : list log_event)
| LWriting (k : nat) (rest : list N) (evs : list log_event)
| LFlushing (k : nat) (evs : list log_event).
Inductive lev := LBegin (k : nat) | LEnd (k : nat).
(** [l_buf], [l_file]: the stream's buffer and the file; [l_clock]: the time of day;
    [l_failed]: some fwrite or fflush has failed; [l_open]: the logger exists;
    [l_trace]: calls and returns, newest first. *)
Record lconf := mk_lconf {
  l_calls : list lcall; l_thr : nat -> lpc; l_lock : option nat; l_buf : list N; l_file : list N;
  l_clock : Z * Z; l_failed : bool; l_open : bool; l_trace : list lev }.
Definition lset (f : nat -> lpc) (t : nat) (p : lpc) : nat -> lpc := fun x => if Nat.eqb x t then p else f x.
Definition time_le (a b : Z * Z) : Prop := (fst a < fst b \/ (fst a = fst b /\ snd a <= snd b))%Z.

Section Logger.
  Variable dbg : bool.
  (** localtime_r *)
  Variable local : Z -> tm.

  Inductive lstep : lconf -> lconf -> Prop :=
  (** time passes *)
  | l_tick cs th lk b f c c' fl op tr : time_le c c' ->
      lstep (mk_lconf cs th lk b f c fl op tr) (mk_lconf cs th lk b f c' fl op tr)
  (** Logv is called and goes on to its first event, lines 31-69.  The clock is read here. *)
  | l_begin cs th lk b f c fl tr t tid stack r1 r2 evs : th t = LIdle -> length stack = 512%nat ->
      Logv dbg stack (local (fst c)) (snd c) tid r1 r2 = Ret evs ->
      lstep (mk_lconf cs th lk b f c fl true tr)
            (mk_lconf (cs ++ [mk_lcall t (fst c) (snd c) tid r1 r2 evs]) (lset th t (LRun (length cs) evs)) lk b f c fl true (LBegin (length cs) :: tr))
  (** line 61 and line 110 *)
  | l_new cs th lk b f c fl op tr t k n evs : th t = LRun k (LNew n :: evs) ->
      lstep (mk_lconf cs th lk b f c fl op tr) (mk_lconf cs (lset th t (LRun k evs)) lk b f c fl op tr)
  | l_delete cs th lk b f c fl op tr t k evs : th t = LRun k (LDelete :: evs) ->
      lstep (mk_lconf cs th lk b f c fl op tr) (mk_lconf cs (lset th t (LRun k evs)) lk b f c fl op tr)
  (** std::fwrite, line 105: takes the lock; bytes into the buffer; gives the lock back *)
  | l_fwrite cs th b f c fl op tr t k d evs : th t = LRun k (LFwrite d :: evs) ->
      lstep (mk_lconf cs th None b f c fl op tr) (mk_lconf cs (lset th t (LWriting k d evs)) (Some t) b f c fl op tr)
  | l_put cs th lk b f c fl op tr t k d1 d2 evs : th t = LWriting k (d1 ++ d2) evs ->
      lstep (mk_lconf cs th lk b f c fl op tr) (mk_lconf cs (lset th t (LWriting k d2 evs)) lk (b ++ d1) f c fl op tr)
  | l_written cs th lk b f c fl op tr t k evs : th t = LWriting k [] evs ->
      lstep (mk_lconf cs th lk b f c fl op tr) (mk_lconf cs (lset th t (LRun k evs)) None b f c fl op tr)
  | l_write_fails cs th lk b f c fl op tr t k d evs : th t = LWriting k d evs ->
      lstep (mk_lconf cs th lk b f c fl op tr) (mk_lconf cs (lset th t (LRun k evs)) None b f c true op tr)
  (** write(2) by whoever holds the lock *)
  | l_drain cs th t b1 b2 f c fl op tr :
      lstep (mk_lconf cs th (Some t) (b1 ++ b2) f c fl op tr) (mk_lconf cs th (Some t) b2 (f ++ b1) c fl op tr)
  (** std::fflush, line 106 *)
  | l_fflush cs th b f c fl op tr t k evs : th t = LRun k (LFflush :: evs) ->
      lstep (mk_lconf cs th None b f c fl op tr) (mk_lconf cs (lset th t (LFlushing k evs)) (Some t) b f c fl op tr)
  | l_flushed cs th lk f c fl op tr t k evs : th t = LFlushing k evs ->
      lstep (mk_lconf cs th lk [] f c fl op tr) (mk_lconf cs (lset th t (LRun k evs)) None [] f c fl op tr)
  | l_flush_fails cs th lk b1 b2 f c fl op tr t k evs : th t = LFlushing k evs ->
      lstep (mk_lconf cs th lk (b1 ++ b2) f c fl op tr) (mk_lconf cs (lset th t (LRun k evs)) None b1 f c true op tr)
  (** Logv returns *)
  | l_end cs th lk b f c fl op tr t k : th t = LRun k [] ->
      lstep (mk_lconf cs th lk b f c fl op tr) (mk_lconf cs (lset th t LIdle) lk b f c fl op (LEnd k :: tr))
  (** ~PosixLogger, line 29: fclose writes what is in the buffer (it may fail, too).
      Not while a call is going on. *)
  | l_close cs th b f c fl tr : (forall t, th t = LIdle) ->
      lstep (mk_lconf cs th None b f c fl true tr) (mk_lconf cs th None [] (f ++ b) c fl false tr)
  | l_close_fails cs th b1 b2 f c fl tr : (forall t, th t = LIdle) ->
      lstep (mk_lconf cs th None (b1 ++ b2) f c fl true tr) (mk_lconf cs th None [] (f ++ b1) c true false tr).

  Inductive lreach (clock : Z * Z) : lconf -> Prop :=
  | lr_start : lreach clock (mk_lconf [] (fun _ => LIdle) None [] [] clock false true [])
  | lr_step cf cf' : lreach clock cf -> lstep cf cf' -> lreach clock cf'.
End Logger.
