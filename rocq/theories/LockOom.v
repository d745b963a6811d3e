(** LockOom.v -- LockFile and UnlockFile when memory runs out in them:
    util/env_posix.cc:477-491 (PosixLockTable), 633-669, on top of FileLock.v.

    Two places matter.
    - locked_files_.insert (line 479) allocates a node if the name is new.
      mutex_ is taken and released by plain Lock() and Unlock() calls (lines 478,
      480, 484, 486): an exception leaves it locked, and the descriptor opened at
      line 636 open.
    - operator new (or the copy of the name into the object) at line 654 comes
      after the name is in the table and the record lock is taken: an exception
      undoes neither, and nobody has a FileLock to give to UnlockFile.
    The messages built for an error status (lines 638, 644, 651) are built when
    everything else is done: an exception there only replaces the status, so it is
    not a separate step here.  The copy built by UnlockFile for its error message
    (line 663) likewise.

    Representation: a call that has ended in an exception in the table stays in
    [g_ops] at PInsert, but is in [l_over] and makes no step (its descriptor is
    open, which is what an entry of [g_ops] at PInsert stands for); a lock whose
    object could not be made stays in [g_live], but is in [l_lost] and cannot be
    passed to UnlockFile. *)
From Coq Require Import String List Arith NArith ZArith Lia Bool.
From Verif Require Import Outcome Status StatusSpec MemEnv PosixOs FileLock.
Import ListNotations.

Record lstate := mk_l {
  l_g : gstate;
  l_lost : list nat;          (* calls that threw at line 654 *)
  l_over : list nat;          (* calls that threw at line 479 *)
  l_stuck : nat -> bool }.    (* processes whose lock table mutex is locked for ever *)

Inductive lact :=
| LStep (a : act)             (* a step without an exception *)
| LThrowInsert (id : nat)     (* line 479 throws in call [id] *)
| LThrowNew (id : nat)        (* line 654 throws in call [id], fcntl having succeeded *).

(** How a step ends: the call goes on, returns a status, or ends in an exception. *)
Inductive lres := LMore | LRet (s : status) | LExc.
Definition lres_of (r : option status) : lres := match r with Some s => LRet s | None => LMore end.

Definition memb (i : nat) (l : list nat) : bool := existsb (Nat.eqb i) l.
(** The steps that take the lock table's mutex: lines 478, 484. *)
Definition table_user (c : pc) : option nat :=
  match c with PInsert p _ _ => Some p | PUndo p _ _ => Some p | PRemove o => Some (lk_proc o) | _ => None end.

Section Model.
  Variable ino : str -> nat.
  Variable strerror : Z -> str.

  Definition lstep (l : lstate) (a : lact) : option (lstate * lres) :=
    match a with
    | LStep b =>
        let blocked :=
          match b with
          | ALock _ _ _ => false
          | AUnlock id => memb id (l_lost l)                       (* no such object *)
          | AStep id _ =>
              memb id (l_over l) ||
              match aget (g_ops (l_g l)) id with
              | Some c => match table_user c with Some p => l_stuck l p | None => false end   (* lines 478, 484 wait *)
              | None => false
              end
          end in
        if blocked then None
        else match gstep ino strerror (l_g l) b with
             | Some (g', r) => Some (mk_l g' (l_lost l) (l_over l) (l_stuck l), lres_of r)
             | None => None
             end
    | LThrowInsert id =>
        if memb id (l_over l) then None else
        match aget (g_ops (l_g l)) id with
        | Some (PInsert p name fd) =>
            if l_stuck l p || t_has (g_table (l_g l) p) name then None
            else Some (mk_l (l_g l) (l_lost l) (id :: l_over l) (fupd (l_stuck l) p true), LExc)
        | _ => None
        end
    | LThrowNew id =>
        match aget (g_ops (l_g l)) id with
        | Some (PSetlk p name fd) =>
            match gstep ino strerror (l_g l) (AStep id 0) with
            | Some (g', Some SOk) => Some (mk_l g' (id :: l_lost l) (l_over l) (l_stuck l), LExc)
            | _ => None
            end
        | _ => None
        end
    end.

  Definition l0 : lstate := mk_l g0 [] [] (fun _ => false).
  Definition lallow (allowed : gstate -> act -> Prop) (l : lstate) (a : lact) : Prop :=
    match a with LStep b => allowed (l_g l) b | LThrowInsert _ => True | LThrowNew id => allowed (l_g l) (AStep id 0) end.
  Inductive lsteps (allowed : gstate -> act -> Prop) : lstate -> list lact -> lstate -> Prop :=
  | ls_nil l : lsteps allowed l [] l
  | ls_cons l a l1 r acts l' : lallow allowed l a -> lstep l a = Some (l1, r) -> lsteps allowed l1 acts l' -> lsteps allowed l (a :: acts) l'.
  Definition lreach (allowed : gstate -> act -> Prop) (l : lstate) : Prop := exists acts, lsteps allowed l0 acts l.
End Model.
