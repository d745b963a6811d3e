(** PosixOs.v -- the operating system as util/env_posix.cc sees it.

    The kernel is an arbitrary function [os] from its state and a system call to
    its new state and an answer: any partial writes, any errors, any
    interruptions, any descriptor numbers.  The part of POSIX a theorem relies
    on is a hypothesis of that theorem ([os_ok] below, or in its statement).
    [w_log] records the calls made, with their answers, oldest first. *)
From Coq Require Import List Arith NArith ZArith Lia Bool.
From Verif Require Import Outcome Status MemEnv.
Import ListNotations.
Local Open Scope outcome_scope.

(** Flags that matter (O_CLOEXEC is left out): how a file is opened. *)
Inductive oflags := RdOnly | WrTrunc | WrAppend | RdWrCreat.

Inductive syscall :=
| COpen (path : str) (fl : oflags)
| CClose (fd : Z)
| CWrite (fd : Z) (data : list N)
| CRead (fd : Z) (n : N)
| CPread (fd : Z) (n : N) (off : Z)
| CLseek (fd : Z) (off : Z)
| CFsync (fd : Z)
| CSetlk (fd : Z) (lock : bool)
| CStat (path : str)
| CMmap (fd : Z) (len : N)
| CMunmap (base : N) (len : N)
| CAccess (path : str)
| CUnlink (path : str)
| CMkdir (path : str)
| CRmdir (path : str)
| CRename (from to : str)
| COpendir (path : str)
| CReaddir (d : N)
| CClosedir (d : N)
| CFdopen (fd : Z)
| CFwrite (fp : N) (data : list N)
| CFflush (fp : N)
| CFclose (fp : N).

(** What a call returns: its result, errno, and bytes / a size / a pointer
    delivered through memory. *)
Record answer := mk_answer { a_ret : Z; a_errno : Z; a_data : list N; a_val : N }.
Definition event : Type := syscall * answer.
Definition log := list event.

Definition ENOENT : Z := 2.
Definition EINTR : Z := 4.
Definition EINVAL : Z := 22.

Section Os.
  Variable S : Type.
  Variable os : S -> syscall -> S * answer.
  Record world := mk_world { w_st : S; w_log : log }.

  Definition sys (w : world) (c : syscall) : world * answer :=
    let r := os (w_st w) c in (mk_world (fst r) (w_log w ++ [(c, snd r)]), snd r).
End Os.
Arguments mk_world {S}.
Arguments w_st {S}.
Arguments w_log {S}.
Arguments sys {S}.

(** env_posix.cc:58-64; [strerror] is the library's table of messages. *)
Definition PosixError (strerror : Z -> str) (context : str) (error_number : Z) : status :=
  if (error_number =? ENOENT)%Z then SErr NotFound context (strerror error_number)
  else SErr IOError context (strerror error_number).
