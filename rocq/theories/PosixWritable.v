(** PosixWritable.v -- model of PosixWritableFile, util/env_posix.cc:246-438, and
    of the two Env calls that create one, 548-574.

    [B] is kWritableFileBufferSize (65536, env_posix.cc:56): nothing depends on
    its value.  buf_ is a block of [B] cells, uninitialised at first; reading an
    uninitialised cell or writing past the block is [UB].  Slice arguments and
    the strings are their contents.  The build is one without F_FULLFSYNC;
    fsync and fdatasync are one call here. *)
From Coq Require Import List Arith NArith ZArith Lia Bool.
From Verif Require Import Outcome Status MemEnv PosixOs.
Import ListNotations.
Local Open Scope outcome_scope.

Definition kWritableFileBufferSize : nat := N.to_nat 65536.

(** env_posix.cc:431-437 *)
Record wfile := mk_wfile {
  f_buf : block; f_pos : nat; f_fd : Z;
  f_manifest : bool; f_name : str; f_dir : str }.

Definition slash : N := 47%N.
Definition dot : str := [46%N].
Definition manifest_prefix : str := (* "MANIFEST" *) [77;65;78;73;70;69;83;84]%N.

(** std::string::rfind(char): the index of the last occurrence *)
Fixpoint rfind (c : N) (l : str) : option nat :=
  match l with
  | [] => None
  | x :: l' => match rfind c l' with
               | Some i => Some (Datatypes.S i)
               | None => if N.eqb x c then Some 0 else None
               end
  end.
(** std::string::find(char, from) == npos *)
Definition absent_from (c : N) (l : str) (from : nat) : bool :=
  match rfind c (skipn from l) with None => true | Some _ => false end.

(** Slice::starts_with, slice.h:81-83, on contents *)
Fixpoint str_eqb (a b : str) : bool :=
  match a, b with
  | [], [] => true
  | x :: a', y :: b' => N.eqb x y && str_eqb a' b'
  | _, _ => false
  end.
Definition starts_with (s x : str) : bool :=
  Nat.leb (length x) (length s) && str_eqb (firstn (length x) s) x.

Section Model.
  Variable dbg : bool.

  (** env_posix.cc:394-404 *)
  Definition Dirname (filename : str) : outcome str :=
    match rfind slash filename with
    | None => Ret dot
    | Some separator_pos =>
        let! _ := assert_ dbg (absent_from slash filename (separator_pos + 1)) in
        Ret (firstn separator_pos filename)
    end.
  (** env_posix.cc:411-423 *)
  Definition Basename (filename : str) : outcome str :=
    match rfind slash filename with
    | None => Ret filename
    | Some separator_pos =>
        let! _ := assert_ dbg (absent_from slash filename (separator_pos + 1)) in
        Ret (firstn (length filename - separator_pos - 1) (skipn (separator_pos + 1) filename))
    end.
  (** env_posix.cc:426-428 *)
  Definition IsManifest (filename : str) : outcome bool :=
    let! b := Basename filename in Ret (starts_with b manifest_prefix).

  Variable B : nat.
  Variable strerror : Z -> str.
  Variable S : Type.
  Variable os : S -> syscall -> S * answer.
  Notation world := (world S).
  Notation sys := (sys os).
  Notation PosixError := (PosixError strerror).

  (** The constructor, env_posix.cc:248-253.  IsManifest(filename) runs before
      the string is moved from: members are initialised in order of declaration. *)
  Definition new_wfile (filename : str) (fd : Z) : outcome wfile :=
    let! m := IsManifest filename in
    let! d := Dirname filename in
    Ret (mk_wfile (repeat None B) 0 fd m filename d).

  (** WriteUnbuffered, env_posix.cc:331-344; at most [fuel] calls of write().  If
      the kernel claimed to have written more than it was given, size would wrap
      and the next write() would read past the data: [UB]. *)
  Fixpoint write_unbuffered (fuel : nat) (w : world) (fd : Z) (filename : str) (data : list N) : outcome (world * status) :=
    match data with
    | [] => Ret (w, SOk)
    | _ =>
        match fuel with
        | O => OutOfFuel
        | Datatypes.S fuel' =>
            let '(w, a) := sys w (CWrite fd data) in
            if (a_ret a <? 0)%Z then
              if (a_errno a =? EINTR)%Z then write_unbuffered fuel' w fd filename data
              else Ret (w, PosixError filename (a_errno a))
            else if (Z.of_nat (length data) <? a_ret a)%Z then UB
            else write_unbuffered fuel' w fd filename (skipn (Z.to_nat (a_ret a)) data)
        end
    end.

  Definition set_buf (f : wfile) (b : block) (p : nat) : wfile :=
    mk_wfile b p (f_fd f) (f_manifest f) (f_name f) (f_dir f).
  Definition set_fd (f : wfile) (fd : Z) : wfile :=
    mk_wfile (f_buf f) (f_pos f) fd (f_manifest f) (f_name f) (f_dir f).

  (** FlushBuffer, env_posix.cc:325-329 *)
  Definition flush_buffer (fuel : nat) (w : world) (f : wfile) : outcome (world * wfile * status) :=
    let! data := bread_n (f_buf f) 0 (f_pos f) in
    let! (w, st) := write_unbuffered fuel w (f_fd f) (f_name f) data in
    Ret (w, set_buf f (f_buf f) 0, st).

  (** Append, env_posix.cc:262-289.  kWritableFileBufferSize - pos_ would wrap if
      pos_ were larger than the buffer: [UB]. *)
  Definition append (fuel : nat) (w : world) (f : wfile) (data : list N) : outcome (world * wfile * status) :=
    if B <? f_pos f then UB else
    let copy_size := Nat.min (length data) (B - f_pos f) in
    let! buf := bput_bytes (f_buf f) (f_pos f) (firstn copy_size data) in
    let write_data := skipn copy_size data in
    let f := set_buf f buf (f_pos f + copy_size) in
    match write_data with
    | [] => Ret (w, f, SOk)
    | _ =>
        let! (w, f, st) := flush_buffer fuel w f in
        match st with
        | SErr _ _ _ => Ret (w, f, st)
        | SOk =>
            if length write_data <? B then
              let! buf := bput_bytes (f_buf f) 0 write_data in
              Ret (w, set_buf f buf (length write_data), SOk)
            else
              let! (w, st) := write_unbuffered fuel w (f_fd f) (f_name f) write_data in
              Ret (w, f, st)
        end
    end.

  (** Close, env_posix.cc:291-301 *)
  Definition close (fuel : nat) (w : world) (f : wfile) : outcome (world * wfile * status) :=
    let! (w, f, st) := flush_buffer fuel w f in
    let '(w, a) := sys w (CClose (f_fd f)) in
    let st := match st with
              | SOk => if (a_ret a <? 0)%Z then PosixError (f_name f) (a_errno a) else SOk
              | _ => st
              end in
    Ret (w, set_fd f (-1), st).

  (** Flush, env_posix.cc:303 *)
  Definition flush (fuel : nat) (w : world) (f : wfile) := flush_buffer fuel w f.

  (** SyncFd, env_posix.cc:368-389 *)
  Definition sync_fd (w : world) (fd : Z) (fd_path : str) : world * status :=
    let '(w, a) := sys w (CFsync fd) in
    (w, if (a_ret a =? 0)%Z then SOk else PosixError fd_path (a_errno a)).

  (** SyncDirIfManifest, env_posix.cc:346-360 *)
  Definition sync_dir_if_manifest (w : world) (f : wfile) : world * status :=
    if negb (f_manifest f) then (w, SOk) else
    let '(w, a) := sys w (COpen (f_dir f) RdOnly) in
    if (a_ret a <? 0)%Z then (w, PosixError (f_dir f) (a_errno a))
    else
      let fd := a_ret a in
      let '(w, st) := sync_fd w fd (f_dir f) in
      let '(w, _) := sys w (CClose fd) in
      (w, st).

  (** Sync, env_posix.cc:305-322 *)
  Definition sync (fuel : nat) (w : world) (f : wfile) : outcome (world * wfile * status) :=
    let '(w, st) := sync_dir_if_manifest w f in
    match st with
    | SErr _ _ _ => Ret (w, f, st)
    | SOk =>
        let! (w, f, st) := flush_buffer fuel w f in
        match st with
        | SErr _ _ _ => Ret (w, f, st)
        | SOk => let '(w, st) := sync_fd w (f_fd f) (f_name f) in Ret (w, f, st)
        end
    end.

  (** The destructor, env_posix.cc:255-260 *)
  Definition destroy (fuel : nat) (w : world) (f : wfile) : outcome world :=
    if (0 <=? f_fd f)%Z then let! (w, _, _) := close fuel w f in Ret w else Ret w.

  (** NewWritableFile and NewAppendableFile, env_posix.cc:548-560 and 562-574 *)
  Definition new_writable (w : world) (filename : str) (fl : oflags) : outcome (world * option wfile * status) :=
    let '(w, a) := sys w (COpen filename fl) in
    if (a_ret a <? 0)%Z then Ret (w, None, PosixError filename (a_errno a))
    else let! f := new_wfile filename (a_ret a) in Ret (w, Some f, SOk).
  Definition NewWritableFile (w : world) (filename : str) := new_writable w filename WrTrunc.
  Definition NewAppendableFile (w : world) (filename : str) := new_writable w filename WrAppend.

  (** What a caller can do with the object until it deletes it. *)
  Inductive wop := OpAppend (d : list N) | OpFlush | OpSync | OpClose.
  Definition wstep (fuel : nat) (w : world) (f : wfile) (o : wop) : outcome (world * wfile * status) :=
    match o with
    | OpAppend d => append fuel w f d
    | OpFlush => flush fuel w f
    | OpSync => sync fuel w f
    | OpClose => close fuel w f
    end.
  Fixpoint wrun (fuel : nat) (w : world) (f : wfile) (ops : list wop) : outcome (world * wfile * list status) :=
    match ops with
    | [] => Ret (w, f, [])
    | o :: ops' =>
        let! (w, f, st) := wstep fuel w f o in
        let! (w, f, sts) := wrun fuel w f ops' in
        Ret (w, f, st :: sts)
    end.
End Model.
