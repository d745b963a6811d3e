(** PosixRead.v -- model of the reading half of util/env_posix.cc: Limiter
    (70-98; threads: LimiterConc.v), PosixSequentialFile (104-139),
    PosixRandomAccessFile (146-200), PosixMmapReadableFile (207-244),
    NewSequentialFile and NewRandomAccessFile (502-546), GetFileSize (616-624).

    A Slice that points into the caller's scratch buffer is the bytes put
    there.  A Slice into a mapped region is its address and length ([View]);
    what using it yields is [use]. *)
From Coq Require Import List Arith NArith ZArith Lia Bool.
From Verif Require Import Outcome Status MemEnv PosixOs.
Import ListNotations.
Local Open Scope outcome_scope.

(** Conversion to off_t, a signed 64-bit integer (two's complement). *)
Definition off_t (x : N) : Z := if (x <? 2 ^ 63)%N then Z.of_N x else (Z.of_N x - 2 ^ 64)%Z.

(** ** Limiter::Acquire and Release, env_posix.cc:77-90, one caller at a time *)
Definition acquire (allowed : Z) : Z * bool :=
  let old := allowed in
  let allowed := (allowed - 1)%Z in
  if (0 <? old)%Z then (allowed, true) else ((allowed + 1)%Z, false).
Definition release (allowed : Z) : Z := (allowed + 1)%Z.

(** ** Results of a Read *)
Inductive rslice :=
| Untouched                       (* *result not assigned *)
| Bytes (d : list N)              (* bytes in the caller's scratch *)
| View (base : N) (off n : N).    (* [base+off, base+off+n) of a mapping *)

(** Using a result while the region at [base] maps the bytes [region]. *)
Definition use (region : list N) (r : rslice) : outcome (list N) :=
  match r with
  | Untouched => UB
  | Bytes d => Ret d
  | View _ off n => if (off + n <=? N.of_nat (length region))%N
                    then Ret (firstn (N.to_nat n) (skipn (N.to_nat off) region)) else UB
  end.

Record seqfile := mk_seq { sq_fd : Z; sq_name : str }.
Inductive ranfile :=
| RPerm (fd : Z) (name : str)                       (* has_permanent_fd_ *)
| RTemp (name : str)                                (* fd_ = -1 *)
| RMmap (base : N) (len : N) (name : str).
(** mmap_limiter_ and fd_limiter_ of the environment *)
Record limits := mk_limits { l_mmap : Z; l_fd : Z }.

Section Model.
  Variable dbg : bool.
  Variable strerror : Z -> str.
  Variable S : Type.
  Variable os : S -> syscall -> S * answer.
  Notation world := (world S).
  Notation sys := (sys os).
  Notation PosixError := (PosixError strerror).

  (** NewSequentialFile, env_posix.cc:502-512 *)
  Definition new_sequential (w : world) (name : str) : world * option seqfile * status :=
    let '(w, a) := sys w (COpen name RdOnly) in
    if (a_ret a <? 0)%Z then (w, None, PosixError name (a_errno a))
    else (w, Some (mk_seq (a_ret a) name), SOk).

  (** PosixSequentialFile::Read, env_posix.cc:111-127; at most [fuel] calls of
      read().  More than [n] bytes would overrun scratch. *)
  Fixpoint seq_read (fuel : nat) (w : world) (f : seqfile) (n : N) : outcome (world * status * rslice) :=
    match fuel with
    | O => OutOfFuel
    | Datatypes.S fuel' =>
        let '(w, a) := sys w (CRead (sq_fd f) n) in
        if (a_ret a <? 0)%Z then
          if (a_errno a =? EINTR)%Z then seq_read fuel' w f n
          else Ret (w, PosixError (sq_name f) (a_errno a), Untouched)
        else if (Z.of_N n <? a_ret a)%Z then UB
        else Ret (w, SOk, Bytes (firstn (Z.to_nat (a_ret a)) (a_data a)))
    end.
  (** PosixSequentialFile::Skip, env_posix.cc:129-134 *)
  Definition seq_skip (w : world) (f : seqfile) (n : N) : world * status :=
    let '(w, a) := sys w (CLseek (sq_fd f) (off_t n)) in
    if (a_ret a =? -1)%Z then (w, PosixError (sq_name f) (a_errno a)) else (w, SOk).
  (** ~PosixSequentialFile, env_posix.cc:109 *)
  Definition seq_delete (w : world) (f : seqfile) : world := fst (sys w (CClose (sq_fd f))).

  (** GetFileSize, env_posix.cc:616-624 *)
  Definition get_file_size (w : world) (name : str) : world * N * status :=
    let '(w, a) := sys w (CStat name) in
    if negb (a_ret a =? 0)%Z then (w, 0%N, PosixError name (a_errno a)) else (w, a_val a, SOk).

  (** The constructor of PosixRandomAccessFile, env_posix.cc:150-159 *)
  Definition new_pread (w : world) (lim : limits) (name : str) (fd : Z) : world * limits * ranfile :=
    let '(l, has_permanent_fd) := acquire (l_fd lim) in
    let lim := mk_limits (l_mmap lim) l in
    if has_permanent_fd then (w, lim, RPerm fd name)
    else let '(w, _) := sys w (CClose fd) in (w, lim, RTemp name).

  (** NewRandomAccessFile, env_posix.cc:514-546.  MAP_FAILED is an answer of -1. *)
  Definition new_random (w : world) (lim : limits) (name : str) : world * limits * option ranfile * status :=
    let '(w, a) := sys w (COpen name RdOnly) in
    let fd := a_ret a in
    if (fd <? 0)%Z then (w, lim, None, PosixError name (a_errno a))
    else
      let '(l, got) := acquire (l_mmap lim) in
      let lim := mk_limits l (l_fd lim) in
      if negb got then
        let '(w, lim, f) := new_pread w lim name fd in (w, lim, Some f, SOk)
      else
        let '(w, file_size, st) := get_file_size w name in
        let '(w, result, st) :=
          match st with
          | SOk =>
              let '(w, m) := sys w (CMmap fd file_size) in
              if negb (a_ret m =? -1)%Z then (w, Some (RMmap (a_val m) file_size name), SOk)
              else (w, None, PosixError name (a_errno m))
          | SErr _ _ _ => (w, None, st)
          end in
        let '(w, _) := sys w (CClose fd) in
        let lim := match st with SOk => lim | SErr _ _ _ => mk_limits (release (l_mmap lim)) (l_fd lim) end in
        (w, lim, result, st).

  (** The two Read functions, env_posix.cc:168-193 and 227-237.  [offset] is a
      uint64_t and [n] a size_t: offset + n wraps. *)
  Definition ran_read (w : world) (f : ranfile) (offset n : N) : outcome (world * status * rslice) :=
    match f with
    | RMmap base len name =>
        if (len <? u64 (offset + n))%N then Ret (w, PosixError name EINVAL, Bytes [])
        else Ret (w, SOk, View base offset n)
    | RPerm fd name =>
        let! _ := assert_ dbg (negb (fd =? -1)%Z) in
        let '(w, a) := sys w (CPread fd n (off_t offset)) in
        if (Z.of_N n <? a_ret a)%Z then UB else
        Ret (w, if (a_ret a <? 0)%Z then PosixError name (a_errno a) else SOk, Bytes (firstn (Z.to_nat (a_ret a)) (a_data a)))
    | RTemp name =>
        let '(w, o) := sys w (COpen name RdOnly) in
        if (a_ret o <? 0)%Z then Ret (w, PosixError name (a_errno o), Untouched)
        else
          let fd := a_ret o in
          let! _ := assert_ dbg (negb (fd =? -1)%Z) in
          let '(w, a) := sys w (CPread fd n (off_t offset)) in
          if (Z.of_N n <? a_ret a)%Z then UB else
          let st := if (a_ret a <? 0)%Z then PosixError name (a_errno a) else SOk in
          let! _ := assert_ dbg (negb (fd =? -1)%Z) in
          let '(w, _) := sys w (CClose fd) in
          Ret (w, st, Bytes (firstn (Z.to_nat (a_ret a)) (a_data a)))
    end.

  (** The two destructors, env_posix.cc:160-166 and 222-225 *)
  Definition ran_delete (w : world) (lim : limits) (f : ranfile) : outcome (world * limits) :=
    match f with
    | RPerm fd _ =>
        let! _ := assert_ dbg (negb (fd =? -1)%Z) in
        let '(w, _) := sys w (CClose fd) in Ret (w, mk_limits (l_mmap lim) (release (l_fd lim)))
    | RTemp _ => Ret (w, lim)
    | RMmap base len _ => let '(w, _) := sys w (CMunmap base len) in Ret (w, mk_limits (release (l_mmap lim)) (l_fd lim))
    end.

  (** ** Callers: open, read and delete random-access files in any order.  Live
      objects are kept in a list under the number of the call that made them. *)
  Inductive rcall := RNew (name : str) | RRead (o : nat) (offset n : N) | RDelete (o : nat).
  Record renv := mk_renv { r_world : world; r_lim : limits; r_live : list (nat * ranfile); r_next : nat }.
  Fixpoint rlookup (l : list (nat * ranfile)) (o : nat) : option ranfile :=
    match l with [] => None | (p, f) :: l' => if p =? o then Some f else rlookup l' o end.
  Definition rdrop (l : list (nat * ranfile)) (o : nat) : list (nat * ranfile) := filter (fun x => negb (fst x =? o)) l.
  (** [None]: the call is not allowed (the object is not live). *)
  Definition rstep (e : renv) (c : rcall) : option (outcome renv) :=
    match c with
    | RNew name =>
        let '(w, lim, f, _) := new_random (r_world e) (r_lim e) name in
        Some (Ret (mk_renv w lim (match f with Some f => (r_next e, f) :: r_live e | None => r_live e end) (Datatypes.S (r_next e))))
    | RRead o offset n =>
        match rlookup (r_live e) o with
        | None => None
        | Some f => Some (let! (w, _, _) := ran_read (r_world e) f offset n in Ret (mk_renv w (r_lim e) (r_live e) (Datatypes.S (r_next e))))
        end
    | RDelete o =>
        match rlookup (r_live e) o with
        | None => None
        | Some f => Some (let! (w, lim) := ran_delete (r_world e) (r_lim e) f in Ret (mk_renv w lim (rdrop (r_live e) o) (Datatypes.S (r_next e))))
        end
    end.
  (** Histories of allowed calls. *)
  Inductive rruns (w0 : world) (lim0 : limits) : renv -> Prop :=
  | rr_start : rruns w0 lim0 (mk_renv w0 lim0 [] 0)
  | rr_more e c e' : rruns w0 lim0 e -> rstep e c = Some (Ret e') -> rruns w0 lim0 e'.

  (** ** A SequentialFile used through the helpers of env.cc (EnvUtil.v): file
      objects are numbered in order of creation. *)
  Inductive scall := SqRead (n : N) | SqSkip (n : N).
  Fixpoint srun (fuel : nat) (w : world) (f : seqfile) (cs : list scall) : outcome (world * list (status * list N)) :=
    match cs with
    | [] => Ret (w, [])
    | SqRead n :: cs' =>
        let! (w, st, r) := seq_read fuel w f n in
        let! (w, rs) := srun fuel w f cs' in
        Ret (w, (st, match r with Bytes d => d | _ => [] end) :: rs)
    | SqSkip n :: cs' =>
        let '(w, st) := seq_skip w f n in
        let! (w, rs) := srun fuel w f cs' in
        Ret (w, (st, []) :: rs)
    end.
End Model.
Arguments mk_renv {S}.
Arguments r_world {S}.
Arguments r_lim {S}.
Arguments r_live {S}.
Arguments r_next {S}.
