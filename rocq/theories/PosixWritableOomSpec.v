(** PosixWritableOomSpec.v -- what is left of C54 to C56 when a call on a
    writable file is left by an exception ([None] for its status). *)
From Coq Require Import List Arith NArith ZArith Lia Bool.
From Verif Require Import Outcome Status MemEnv PosixOs PosixWritable PosixWritableSpec PosixWritableOom.
Import ListNotations.

(** Bytes the kernel took in a stretch of its log. *)
Definition bytes_taken (l : log) : list N := concat (map taken l).

(** The effect of one call on (bytes the kernel has taken, bytes in the buffer):
    [b] in the buffer before, [x] taken during the call, [b'] in the buffer
    after. *)
Inductive effect (B : nat) (b : list N) (o : wop) : option status -> list N -> list N -> Prop :=
| ef_ok x b' : x ++ b' = b ++ op_data o -> (flushes o -> b' = []) -> effect B b o (Some SOk) x b'
| ef_error k m1 m2 x b' : subseq (x ++ b') (b ++ op_data o) -> effect B b o (Some (SErr k m1 m2)) x b'
  (* Flush, Sync, Close: part of the buffer was written, and all of it is kept *)
| ef_flush n : flushes o -> effect B b o None (firstn n b) b
  (* Sync, Close: all was written, and then fsync() or close() failed *)
| ef_written : o = OpSync \/ o = OpClose -> effect B b o None b []
  (* Append: the buffer was filled up and could not be emptied; the rest [d2] is dropped *)
| ef_append_kept d1 d2 n : o = OpAppend (d1 ++ d2) -> length (b ++ d1) = B -> effect B b o None (firstn n (b ++ d1)) (b ++ d1)
  (* Append: the buffer was emptied, and the rest written in part *)
| ef_append_direct d1 d2 : o = OpAppend (d1 ++ d2) -> B <= length (b ++ d1) -> effect B b o None (b ++ d1) [].

(** The part of the data each call took charge of: all of it if it returned OK, a
    first part if it threw. *)
Inductive taken_on : list wop -> list (option status) -> list N -> Prop :=
| to_nil : taken_on [] [] []
| to_ok o ops sts d : taken_on ops sts d -> taken_on (o :: ops) (Some SOk :: sts) (op_data o ++ d)
| to_threw o ops sts d1 d2 d : op_data o = d1 ++ d2 -> taken_on ops sts d -> taken_on (o :: ops) (None :: sts) (d1 ++ d).

(** The data appended by [ops], with a second copy [e] of at most [B] bytes of
    what was appended so far inserted for each call that threw. *)
Inductive with_repeats (B : nat) : list N -> list wop -> list (option status) -> list N -> Prop :=
| wr_nil seen : with_repeats B seen [] [] []
| wr_cons seen o ops st sts e out : (st <> None -> e = []) -> length e <= B -> subseq e (seen ++ op_data o) ->
    with_repeats B (seen ++ op_data o) ops sts out -> with_repeats B seen (o :: ops) (st :: sts) (op_data o ++ e ++ out).

Definition throws (sts : list (option status)) : nat := length (filter (fun s => match s with None => true | _ => false end) sts).

(** A file is created, and used by [ops]. *)
Definition session_x {S} (dbg : bool) (B : nat) (strerror : Z -> str) (os : S -> syscall -> S * answer)
    (fuel : nat) (w0 : world S) (name : str) (fl : oflags) (ops : list (wop * bool))
    (w2 : world S) (f2 : wfile) (fd : Z) (l : log) (sts : list (option status)) : Prop :=
  exists w1 f a,
    new_writable dbg B strerror S os w0 name fl = Ret (w1, Some f, SOk) /\
    w_log w1 = w_log w0 ++ [(COpen name fl, a)] /\ fd = a_ret a /\
    wrun_x B strerror S os fuel w1 f ops = Ret (w2, f2, sts) /\
    w_log w2 = w_log w1 ++ l.
