(** FileLock.v -- model of LockFile and UnlockFile: util/env_posix.cc:440-490
    (LockOrUnlock, PosixFileLock, PosixLockTable), 633-655 (LockFile), 657-669
    (UnlockFile), in any number of processes with any number of threads each.

    The kernel part is POSIX record locks on whole files (fcntl F_SETLK, F_WRLCK):
    a lock belongs to a process, conflicts with other processes only, and is
    dropped when the process closes *any* descriptor of the file.  Which file
    (inode) a name denotes is fixed ([ino]): nobody renames or removes lock files.
    Every call is a sequence of steps, one per system call or mutex section;
    steps of different calls interleave freely.  PosixLockTable's mutex sections
    are single steps (Mutex.v). *)
From Coq Require Import String List Arith NArith ZArith Lia Bool.
From Verif Require Import Outcome Status StatusSpec MemEnv PosixOs.
Import ListNotations.

(** Association lists. *)
Fixpoint aget {A} (l : list (nat * A)) (k : nat) : option A :=
  match l with [] => None | (j, x) :: l' => if j =? k then Some x else aget l' k end.
Definition adel {A} (l : list (nat * A)) (k : nat) : list (nat * A) := filter (fun x => negb (fst x =? k)) l.

Definition str_eqb (a b : str) : bool := if list_eq_dec N.eq_dec a b then true else false.
Definition fupd {B} (f : nat -> B) (i : nat) (x : B) : nat -> B := fun j => if j =? i then x else f j.

(** A PosixFileLock object, env_posix.cc:453-466, and the process it is in. *)
Record lockobj := mk_lock { lk_proc : nat; lk_fd : Z; lk_name : str }.

(** Where a call is. *)
Inductive pc :=
| PInsert (p : nat) (name : str) (fd : Z)              (* LockFile: opened, before line 642 *)
| PReject (p : nat) (name : str) (fd : Z)              (* Insert said no, before line 643 *)
| PSetlk (p : nat) (name : str) (fd : Z)               (* before line 647 *)
| PFail (p : nat) (name : str) (fd : Z) (err : Z)      (* fcntl failed, before line 649 *)
| PUndo (p : nat) (name : str) (err : Z)               (* closed, before line 650 *)
| PUnlk (id : nat) (o : lockobj)                       (* UnlockFile, before line 662 *)
| PRemove (o : lockobj)                                (* before line 665 *)
| PClose (o : lockobj)                                 (* before line 666 *).

Record gstate := mk_g {
  g_fds : list (nat * Z * nat);       (* kernel: open descriptors (process, fd, file) *)
  g_lock : nat -> option nat;         (* kernel: which process has the record lock of a file *)
  g_table : nat -> list str;          (* locked_files_ of each process *)
  g_live : list (nat * lockobj);      (* FileLock objects handed out, under the number of the call *)
  g_ops : list (nat * pc);            (* calls under way *)
  g_next : nat }.

(** What happens next: a thread of process [p] calls LockFile (and open() answers
    with a descriptor or an errno), or UnlockFile, or call [id] makes its next
    step ([ans] is the errno of a system call that fails, 0 if it need not). *)
Inductive act :=
| ALock (p : nat) (name : str) (ans : Z + Z)
| AUnlock (id : nat)
| AStep (id : nat) (ans : Z).

Section Model.
  Variable ino : str -> nat.
  Variable strerror : Z -> str.
  Notation PosixError := (PosixError strerror).

  Definition msg_lock (name : str) : str := bytes_of "lock " ++ name.
  Definition msg_unlock (name : str) : str := bytes_of "unlock " ++ name.
  Definition held_by_process : str := bytes_of "already held by process".

  (** ** Kernel *)
  Definition fd_used (fds : list (nat * Z * nat)) (p : nat) (fd : Z) : bool :=
    existsb (fun x => (fst (fst x) =? p) && Z.eqb (snd (fst x)) fd) fds.
  Definition file_of (fds : list (nat * Z * nat)) (p : nat) (fd : Z) : option nat :=
    match find (fun x => (fst (fst x) =? p) && Z.eqb (snd (fst x)) fd) fds with Some x => Some (snd x) | None => None end.
  Definition has_lock (lk : nat -> option nat) (i p : nat) : bool := match lk i with Some q => q =? p | None => false end.
  (** close(fd) in process [p]: the process loses its record lock on the file. *)
  Definition k_close (g : gstate) (p : nat) (fd : Z) : list (nat * Z * nat) * (nat -> option nat) :=
    (filter (fun x => negb ((fst (fst x) =? p) && Z.eqb (snd (fst x)) fd)) (g_fds g),
     match file_of (g_fds g) p fd with
     | Some i => if has_lock (g_lock g) i p then fupd (g_lock g) i None else g_lock g
     | None => g_lock g
     end).

  (** ** PosixLockTable, lines 475-491 *)
  Definition t_has (t : list str) (name : str) : bool := existsb (str_eqb name) t.
  Definition t_erase (t : list str) (name : str) : list str := filter (fun x => negb (str_eqb name x)) t.

  Definition set_ops (g : gstate) (ops : list (nat * pc)) : gstate := mk_g (g_fds g) (g_lock g) (g_table g) (g_live g) ops (g_next g).

  (** LockFile up to line 640, the call numbered [g_next g]. *)
  Definition start_lock (g : gstate) (p : nat) (name : str) (ans : Z + Z) : option (gstate * option status) :=
    match ans with
    | inr err => Some (mk_g (g_fds g) (g_lock g) (g_table g) (g_live g) (g_ops g) (S (g_next g)), Some (PosixError name err))
    | inl fd =>
        if (fd <? 0)%Z || fd_used (g_fds g) p fd then None else
        Some (mk_g ((p, fd, ino name) :: g_fds g) (g_lock g) (g_table g) (g_live g) ((g_next g, PInsert p name fd) :: g_ops g) (S (g_next g)), None)
    end.
  (** UnlockFile is called with a live lock (once). *)
  Definition start_unlock (g : gstate) (id : nat) : option (gstate * option status) :=
    match aget (g_live g) id with
    | Some o => Some (mk_g (g_fds g) (g_lock g) (g_table g) (adel (g_live g) id) ((g_next g, PUnlk id o) :: g_ops g) (S (g_next g)), None)
    | None => None
    end.

  (** The next step of a call; [Some status]: the call returns. *)
  Definition op_step (g : gstate) (id : nat) (c : pc) (ans : Z) : option (gstate * option status) :=
    let rest := adel (g_ops g) id in
    match c with
    | PInsert p name fd =>                               (* line 642 *)
        if t_has (g_table g p) name then Some (set_ops g ((id, PReject p name fd) :: rest), None)
        else Some (mk_g (g_fds g) (g_lock g) (fupd (g_table g) p (name :: g_table g p)) (g_live g) ((id, PSetlk p name fd) :: rest) (g_next g), None)
    | PReject p name fd =>                               (* lines 643-644 *)
        let '(fds, lk) := k_close g p fd in
        Some (mk_g fds lk (g_table g) (g_live g) rest (g_next g), Some (SErr IOError (msg_lock name) held_by_process))
    | PSetlk p name fd =>                                (* line 647; on success 654-655 *)
        match file_of (g_fds g) p fd with
        | None => Some (set_ops g ((id, PFail p name fd ans) :: rest), None)      (* EBADF: does not happen *)
        | Some i =>
            let conflict := match g_lock g i with Some q => negb (q =? p) | None => false end in
            if conflict then (if Z.eqb ans 0 then None else Some (set_ops g ((id, PFail p name fd ans) :: rest), None))
            else if Z.eqb ans 0
            then Some (mk_g (g_fds g) (fupd (g_lock g) i (Some p)) (g_table g) ((id, mk_lock p fd name) :: g_live g) rest (g_next g), Some SOk)
            else Some (set_ops g ((id, PFail p name fd ans) :: rest), None)
        end
    | PFail p name fd err =>                             (* line 649 *)
        let '(fds, lk) := k_close g p fd in
        Some (mk_g fds lk (g_table g) (g_live g) ((id, PUndo p name err) :: rest) (g_next g), None)
    | PUndo p name err =>                                (* lines 650-651 *)
        Some (mk_g (g_fds g) (g_lock g) (fupd (g_table g) p (t_erase (g_table g p) name)) (g_live g) rest (g_next g),
              Some (PosixError (msg_lock name) err))
    | PUnlk lid o =>                                     (* lines 662-664 *)
        if Z.eqb ans 0 then
          match file_of (g_fds g) (lk_proc o) (lk_fd o) with
          | Some i => Some (mk_g (g_fds g) (if has_lock (g_lock g) i (lk_proc o) then fupd (g_lock g) i None else g_lock g)
                                 (g_table g) (g_live g) ((id, PRemove o) :: rest) (g_next g), None)
          | None => None
          end
        else Some (mk_g (g_fds g) (g_lock g) (g_table g) ((lid, o) :: g_live g) rest (g_next g), Some (PosixError (msg_unlock (lk_name o)) ans))
    | PRemove o =>                                       (* line 665 *)
        Some (mk_g (g_fds g) (g_lock g) (fupd (g_table g) (lk_proc o) (t_erase (g_table g (lk_proc o)) (lk_name o))) (g_live g)
                   ((id, PClose o) :: rest) (g_next g), None)
    | PClose o =>                                        (* lines 666-668 *)
        let '(fds, lk) := k_close g (lk_proc o) (lk_fd o) in
        Some (mk_g fds lk (g_table g) (g_live g) rest (g_next g), Some SOk)
    end.

  Definition gstep (g : gstate) (a : act) : option (gstate * option status) :=
    match a with
    | ALock p name ans => start_lock g p name ans
    | AUnlock id => start_unlock g id
    | AStep id ans => match aget (g_ops g) id with Some c => op_step g id c ans | None => None end
    end.

  Definition g0 : gstate := mk_g [] (fun _ => None) (fun _ => []) [] [] 0.
  (** All interleavings; [allowed] may restrict what callers do. *)
  Inductive greach (allowed : gstate -> act -> Prop) : gstate -> Prop :=
  | gr_start : greach allowed g0
  | gr_step g a g' r : greach allowed g -> allowed g a -> gstep g a = Some (g', r) -> greach allowed g'.
End Model.
