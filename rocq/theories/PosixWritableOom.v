(** PosixWritableOom.v -- PosixWritableFile when memory runs out:
    util/env_posix.cc:246-389.

    The only memory its member functions ask for is that of an error Status
    (PosixError, lines 59-64), and no call builds more than one.  [fails]: that
    request throws.  [None] in place of a status: the call was left by the
    exception.  Assertions do not matter here: the member functions modelled have
    none. *)
From Coq Require Import List Arith NArith ZArith Lia Bool.
From Verif Require Import Outcome Status MemEnv PosixOs PosixWritable.
Import ListNotations.
Local Open Scope outcome_scope.

Section Model.
  Variable B : nat.
  Variable strerror : Z -> str.
  Variable S : Type.
  Variable os : S -> syscall -> S * answer.
  Notation world := (world S).
  Notation sys := (sys os).
  Notation PosixError := (PosixError strerror).

  (** PosixError, env_posix.cc:59-64, may throw *)
  Definition error_x (fails : bool) (ctx : str) (e : Z) : option status := if fails then None else Some (PosixError ctx e).

  (** WriteUnbuffered, env_posix.cc:331-344 *)
  Fixpoint write_unbuffered_x (fails : bool) (fuel : nat) (w : world) (fd : Z) (filename : str) (data : list N) : outcome (world * option status) :=
    match data with
    | [] => Ret (w, Some SOk)
    | _ =>
        match fuel with
        | O => OutOfFuel
        | Datatypes.S fuel' =>
            let '(w, a) := sys w (CWrite fd data) in
            if (a_ret a <? 0)%Z then
              if (a_errno a =? EINTR)%Z then write_unbuffered_x fails fuel' w fd filename data
              else Ret (w, error_x fails filename (a_errno a))                                  (* line 338 *)
            else if (Z.of_nat (length data) <? a_ret a)%Z then UB
            else write_unbuffered_x fails fuel' w fd filename (skipn (Z.to_nat (a_ret a)) data)
        end
    end.

  (** FlushBuffer, env_posix.cc:325-329: pos_ = 0 is not reached *)
  Definition flush_buffer_x (fails : bool) (fuel : nat) (w : world) (f : wfile) : outcome (world * wfile * option status) :=
    let! data := bread_n (f_buf f) 0 (f_pos f) in
    let! (w, st) := write_unbuffered_x fails fuel w (f_fd f) (f_name f) data in
    match st with
    | None => Ret (w, f, None)
    | Some st => Ret (w, set_buf f (f_buf f) 0, Some st)
    end.

  (** Append, env_posix.cc:262-289 *)
  Definition append_x (fails : bool) (fuel : nat) (w : world) (f : wfile) (data : list N) : outcome (world * wfile * option status) :=
    if B <? f_pos f then UB else
    let copy_size := Nat.min (length data) (B - f_pos f) in
    let! buf := bput_bytes (f_buf f) (f_pos f) (firstn copy_size data) in
    let write_data := skipn copy_size data in
    let f := set_buf f buf (f_pos f + copy_size) in
    match write_data with
    | [] => Ret (w, f, Some SOk)
    | _ =>
        let! (w, f, st) := flush_buffer_x fails fuel w f in
        match st with
        | None => Ret (w, f, None)
        | Some (SErr _ _ _) => Ret (w, f, st)
        | Some SOk =>
            if length write_data <? B then
              let! buf := bput_bytes (f_buf f) 0 write_data in
              Ret (w, set_buf f buf (length write_data), Some SOk)
            else
              let! (w, st) := write_unbuffered_x fails fuel w (f_fd f) (f_name f) write_data in
              Ret (w, f, st)
        end
    end.

  (** Close, env_posix.cc:291-301: an exception at line 292 comes before close(),
      one at line 295 after close() and before fd_ = -1 *)
  Definition close_x (fails : bool) (fuel : nat) (w : world) (f : wfile) : outcome (world * wfile * option status) :=
    let! (w, f, st) := flush_buffer_x fails fuel w f in
    match st with
    | None => Ret (w, f, None)
    | Some st =>
        let '(w, a) := sys w (CClose (f_fd f)) in
        let st := match st with
                  | SOk => if (a_ret a <? 0)%Z then error_x fails (f_name f) (a_errno a) else Some SOk
                  | _ => Some st
                  end in
        match st with
        | None => Ret (w, f, None)
        | Some st => Ret (w, set_fd f (-1), Some st)
        end
    end.

  (** Flush, env_posix.cc:303 *)
  Definition flush_x (fails : bool) (fuel : nat) (w : world) (f : wfile) := flush_buffer_x fails fuel w f.

  (** SyncFd, env_posix.cc:368-389 *)
  Definition sync_fd_x (fails : bool) (w : world) (fd : Z) (fd_path : str) : world * option status :=
    let '(w, a) := sys w (CFsync fd) in
    (w, if (a_ret a =? 0)%Z then Some SOk else error_x fails fd_path (a_errno a)).

  (** SyncDirIfManifest, env_posix.cc:346-360: an exception at line 356 comes
      before close() *)
  Definition sync_dir_if_manifest_x (fails : bool) (w : world) (f : wfile) : world * option status :=
    if negb (f_manifest f) then (w, Some SOk) else
    let '(w, a) := sys w (COpen (f_dir f) RdOnly) in
    if (a_ret a <? 0)%Z then (w, error_x fails (f_dir f) (a_errno a))
    else
      let fd := a_ret a in
      let '(w, st) := sync_fd_x fails w fd (f_dir f) in
      match st with
      | None => (w, None)
      | Some st => let '(w, _) := sys w (CClose fd) in (w, Some st)
      end.

  (** Sync, env_posix.cc:305-322 *)
  Definition sync_x (fails : bool) (fuel : nat) (w : world) (f : wfile) : outcome (world * wfile * option status) :=
    let '(w, st) := sync_dir_if_manifest_x fails w f in
    match st with
    | None => Ret (w, f, None)
    | Some (SErr _ _ _) => Ret (w, f, st)
    | Some SOk =>
        let! (w, f, st) := flush_buffer_x fails fuel w f in
        match st with
        | None => Ret (w, f, None)
        | Some (SErr _ _ _) => Ret (w, f, st)
        | Some SOk => let '(w, st) := sync_fd_x fails w (f_fd f) (f_name f) in Ret (w, f, st)
        end
    end.

  (** The destructor, env_posix.cc:255-260; it is noexcept, so an exception out of
      Close ends the process: [true]. *)
  Definition destroy_x (fails : bool) (fuel : nat) (w : world) (f : wfile) : outcome (world * bool) :=
    if (0 <=? f_fd f)%Z then
      let! (w, _, st) := close_x fails fuel w f in
      Ret (w, match st with None => true | Some _ => false end)
    else Ret (w, false).

  Definition wstep_x (fails : bool) (fuel : nat) (w : world) (f : wfile) (o : wop) : outcome (world * wfile * option status) :=
    match o with
    | OpAppend d => append_x fails fuel w f d
    | OpFlush => flush_x fails fuel w f
    | OpSync => sync_x fails fuel w f
    | OpClose => close_x fails fuel w f
    end.
  (** The caller catches the exceptions and goes on. *)
  Fixpoint wrun_x (fuel : nat) (w : world) (f : wfile) (ops : list (wop * bool)) : outcome (world * wfile * list (option status)) :=
    match ops with
    | [] => Ret (w, f, [])
    | (o, fails) :: ops' =>
        let! (w, f, st) := wstep_x fails fuel w f o in
        let! (w, f, sts) := wrun_x fuel w f ops' in
        Ret (w, f, st :: sts)
    end.
End Model.
