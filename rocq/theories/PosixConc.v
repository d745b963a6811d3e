(** PosixConc.v -- the POSIX environment (util/env_posix.cc) called by several
    threads: every system call and every operation on the counter of a Limiter is
    one step, and between any two steps any other thread may run.

    A call is a program ([prog]) of such steps.  The programs below are the
    functions of PosixWritable.v, PosixRead.v and PosixEnv.v once more, with the
    same citations; PosixConcSeq.v proves that a program that runs alone does
    exactly what those functions do. *)
From Coq Require Import List Arith NArith ZArith Lia Bool.
From Verif Require Import Outcome Status MemEnv PosixOs PosixWritable PosixRead PosixEnv PosixFs PosixEnvSpec.
Import ListNotations.

(** The two limiters of the environment. *)
Inductive which := LMmap | LFd.
(** How a program can go wrong (Outcome.v). *)
Inductive leaf := BadUB | BadAssert | BadFuel.
Inductive prog (A : Type) :=
| PDone (a : A)
| PBad (o : leaf)
| PSys (c : syscall) (k : answer -> prog A)
| PSub (l : which) (k : Z -> prog A)      (* fetch_sub(1): the old value *)
| PAdd (l : which) (k : prog A).          (* fetch_add(1) *)
Arguments PDone {A}.
Arguments PBad {A}.
Arguments PSys {A}.
Arguments PSub {A}.
Arguments PAdd {A}.
Fixpoint pbind {A C} (p : prog A) (f : A -> prog C) : prog C :=
  match p with
  | PDone a => f a
  | PBad o => PBad o
  | PSys c k => PSys c (fun a => pbind (k a) f)
  | PSub l k => PSub l (fun z => pbind (k z) f)
  | PAdd l k => PAdd l (pbind k f)
  end.
(** A computation without steps. *)
Definition plift {A} (o : outcome A) : prog A :=
  match o with Ret a => PDone a | UB => PBad BadUB | AssertFail => PBad BadAssert | OutOfFuel => PBad BadFuel end.
Definition psys (c : syscall) : prog answer := PSys c PDone.
Notation "'do' x <- p ; q" := (pbind p (fun x => q)) (at level 200, x pattern, p at level 100, q at level 200, right associativity).

(** ** Limiter, env_posix.cc:72-98 *)
Definition pacquire (l : which) : prog bool :=
  PSub l (fun old => if (0 <? old)%Z then PDone true else PAdd l (PDone false)).

Section Model.
  Variable dbg : bool.
  Variable B : nat.
  Variable strerror : Z -> str.
  Notation PosixError := (PosixError strerror).

  (** ** PosixWritableFile, env_posix.cc:246-438 *)
  (** WriteUnbuffered, 331-344 *)
  Fixpoint pwrite_unbuffered (fuel : nat) (fd : Z) (filename : str) (data : list N) : prog status :=
    match data with
    | [] => PDone SOk
    | _ =>
        match fuel with
        | O => PBad BadFuel
        | S fuel' =>
            do a <- psys (CWrite fd data);
            if (a_ret a <? 0)%Z then
              if (a_errno a =? EINTR)%Z then pwrite_unbuffered fuel' fd filename data
              else PDone (PosixError filename (a_errno a))
            else if (Z.of_nat (length data) <? a_ret a)%Z then PBad BadUB
            else pwrite_unbuffered fuel' fd filename (skipn (Z.to_nat (a_ret a)) data)
        end
    end.
  (** FlushBuffer, 325-329 *)
  Definition pflush_buffer (fuel : nat) (f : wfile) : prog (wfile * status) :=
    do data <- plift (bread_n (f_buf f) 0 (f_pos f));
    do st <- pwrite_unbuffered fuel (f_fd f) (f_name f) data;
    PDone (set_buf f (f_buf f) 0, st).
  (** Append, 262-289 *)
  Definition pappend (fuel : nat) (f : wfile) (data : list N) : prog (wfile * status) :=
    if B <? f_pos f then PBad BadUB else
    let copy_size := Nat.min (length data) (B - f_pos f) in
    do buf <- plift (bput_bytes (f_buf f) (f_pos f) (firstn copy_size data));
    let write_data := skipn copy_size data in
    let f := set_buf f buf (f_pos f + copy_size) in
    match write_data with
    | [] => PDone (f, SOk)
    | _ =>
        do (f, st) <- pflush_buffer fuel f;
        match st with
        | SErr _ _ _ => PDone (f, st)
        | SOk =>
            if length write_data <? B then
              do buf <- plift (bput_bytes (f_buf f) 0 write_data);
              PDone (set_buf f buf (length write_data), SOk)
            else
              do st <- pwrite_unbuffered fuel (f_fd f) (f_name f) write_data;
              PDone (f, st)
        end
    end.
  (** Close, 291-301 *)
  Definition pclose (fuel : nat) (f : wfile) : prog (wfile * status) :=
    do (f, st) <- pflush_buffer fuel f;
    do a <- psys (CClose (f_fd f));
    let st := match st with
              | SOk => if (a_ret a <? 0)%Z then PosixError (f_name f) (a_errno a) else SOk
              | _ => st
              end in
    PDone (set_fd f (-1), st).
  (** SyncFd, 368-389, and SyncDirIfManifest, 346-360 *)
  Definition psync_fd (fd : Z) (fd_path : str) : prog status :=
    do a <- psys (CFsync fd);
    PDone (if (a_ret a =? 0)%Z then SOk else PosixError fd_path (a_errno a)).
  Definition psync_dir (f : wfile) : prog status :=
    if negb (f_manifest f) then PDone SOk else
    do a <- psys (COpen (f_dir f) RdOnly);
    if (a_ret a <? 0)%Z then PDone (PosixError (f_dir f) (a_errno a))
    else
      do st <- psync_fd (a_ret a) (f_dir f);
      do _ <- psys (CClose (a_ret a));
      PDone st.
  (** Sync, 305-322 *)
  Definition psync (fuel : nat) (f : wfile) : prog (wfile * status) :=
    do st <- psync_dir f;
    match st with
    | SErr _ _ _ => PDone (f, st)
    | SOk =>
        do (f, st) <- pflush_buffer fuel f;
        match st with
        | SErr _ _ _ => PDone (f, st)
        | SOk => do st <- psync_fd (f_fd f) (f_name f); PDone (f, st)
        end
    end.
  (** ~PosixWritableFile, 255-260 *)
  Definition pdestroy (fuel : nat) (f : wfile) : prog unit :=
    if (0 <=? f_fd f)%Z then do _ <- pclose fuel f; PDone tt else PDone tt.
  (** NewWritableFile and NewAppendableFile, 548-574 *)
  Definition pnew_writable (filename : str) (fl : oflags) : prog (option pobj * presult) :=
    do a <- psys (COpen filename fl);
    if (a_ret a <? 0)%Z then PDone (None, QStat (PosixError filename (a_errno a)))
    else do f <- plift (new_wfile dbg B filename (a_ret a)); PDone (Some (ObW f), QStat SOk).

  (** ** PosixSequentialFile, 104-139 *)
  (** NewSequentialFile, 502-512 *)
  Definition pnew_sequential (name : str) : prog (option pobj * presult) :=
    do a <- psys (COpen name RdOnly);
    if (a_ret a <? 0)%Z then PDone (None, QStat (PosixError name (a_errno a)))
    else PDone (Some (ObS (mk_seq (a_ret a) name)), QStat SOk).
  (** Read, 111-127 *)
  Fixpoint pseq_read (fuel : nat) (f : seqfile) (n : N) : prog (status * rslice) :=
    match fuel with
    | O => PBad BadFuel
    | S fuel' =>
        do a <- psys (CRead (sq_fd f) n);
        if (a_ret a <? 0)%Z then
          if (a_errno a =? EINTR)%Z then pseq_read fuel' f n
          else PDone (PosixError (sq_name f) (a_errno a), Untouched)
        else if (Z.of_N n <? a_ret a)%Z then PBad BadUB
        else PDone (SOk, Bytes (firstn (Z.to_nat (a_ret a)) (a_data a)))
    end.
  (** Skip, 129-134 *)
  Definition pseq_skip (f : seqfile) (n : N) : prog status :=
    do a <- psys (CLseek (sq_fd f) (off_t n));
    PDone (if (a_ret a =? -1)%Z then PosixError (sq_name f) (a_errno a) else SOk).

  (** ** PosixRandomAccessFile and PosixMmapReadableFile, 146-244 *)
  (** the constructor, 150-159 *)
  Definition pnew_pread (name : str) (fd : Z) : prog ranfile :=
    do has_permanent_fd <- pacquire LFd;
    if has_permanent_fd then PDone (RPerm fd name)
    else do _ <- psys (CClose fd); PDone (RTemp name).
  (** GetFileSize, 616-624 *)
  Definition pget_file_size (name : str) : prog (N * status) :=
    do a <- psys (CStat name);
    PDone (if negb (a_ret a =? 0)%Z then (0%N, PosixError name (a_errno a)) else (a_val a, SOk)).
  (** NewRandomAccessFile, 514-546 *)
  Definition pnew_random (name : str) : prog (option pobj * presult) :=
    do a <- psys (COpen name RdOnly);
    let fd := a_ret a in
    if (fd <? 0)%Z then PDone (None, QStat (PosixError name (a_errno a)))
    else
      do got <- pacquire LMmap;
      if negb got then do f <- pnew_pread name fd; PDone (Some (ObR f), QStat SOk)
      else
        do (file_size, st) <- pget_file_size name;
        do (result, st) <-
          match st with
          | SOk =>
              do m <- psys (CMmap fd file_size);
              PDone (if negb (a_ret m =? -1)%Z then (Some (ObR (RMmap (a_val m) file_size name)), SOk)
                     else (None, PosixError name (a_errno m)))
          | SErr _ _ _ => PDone (None, st)
          end;
        do _ <- psys (CClose fd);
        match st with
        | SOk => PDone (result, QStat st)
        | SErr _ _ _ => PAdd LMmap (PDone (result, QStat st))
        end.
  (** Read, 168-193 and 227-237 *)
  Definition pran_read (f : ranfile) (offset n : N) : prog (status * rslice) :=
    match f with
    | RMmap base len name =>
        PDone (if (len <? u64 (offset + n))%N then (PosixError name EINVAL, Bytes []) else (SOk, View base offset n))
    | RPerm fd name =>
        do _ <- plift (assert_ dbg (negb (fd =? -1)%Z));
        do a <- psys (CPread fd n (off_t offset));
        if (Z.of_N n <? a_ret a)%Z then PBad BadUB else
        PDone (if (a_ret a <? 0)%Z then PosixError name (a_errno a) else SOk, Bytes (firstn (Z.to_nat (a_ret a)) (a_data a)))
    | RTemp name =>
        do o <- psys (COpen name RdOnly);
        if (a_ret o <? 0)%Z then PDone (PosixError name (a_errno o), Untouched)
        else
          let fd := a_ret o in
          do _ <- plift (assert_ dbg (negb (fd =? -1)%Z));
          do a <- psys (CPread fd n (off_t offset));
          if (Z.of_N n <? a_ret a)%Z then PBad BadUB else
          let st := if (a_ret a <? 0)%Z then PosixError name (a_errno a) else SOk in
          do _ <- plift (assert_ dbg (negb (fd =? -1)%Z));
          do _ <- psys (CClose fd);
          PDone (st, Bytes (firstn (Z.to_nat (a_ret a)) (a_data a)))
    end.
  (** the destructors, 160-166 and 222-225 *)
  Definition pran_delete (f : ranfile) : prog unit :=
    match f with
    | RPerm fd _ =>
        do _ <- plift (assert_ dbg (negb (fd =? -1)%Z));
        do _ <- psys (CClose fd); PAdd LFd (PDone tt)
    | RTemp _ => PDone tt
    | RMmap base len _ => do _ <- psys (CMunmap base len); PAdd LMmap (PDone tt)
    end.

  (** ** The calls about names, 576-631 *)
  Fixpoint pread_dir (fuel : nat) (d : N) (result : list str) : prog (list str) :=
    match fuel with
    | O => PBad BadFuel
    | S fuel' =>
        do a <- psys (CReaddir d);
        if (a_ret a =? 0)%Z then PDone result else pread_dir fuel' d (result ++ [a_data a])
    end.
  Definition pget_children (fuel : nat) (dir : str) : prog (status * list str) :=
    do a <- psys (COpendir dir);
    if N.eqb (a_val a) 0 then PDone (PosixError dir (a_errno a), [])
    else
      do result <- pread_dir fuel (a_val a) [];
      do _ <- psys (CClosedir (a_val a));
      PDone (SOk, result).
  Definition pask (c : syscall) (ctx : str) : prog status :=
    do a <- psys c;
    PDone (if negb (a_ret a =? 0)%Z then PosixError ctx (a_errno a) else SOk).

  (** ** A whole call.  [o]: the object it is a call on.  The result is that
      object as the call leaves it or the new object ([None]: no object), and
      what the call returns. *)
  Definition pw (p : prog (wfile * status)) : prog (option pobj * presult) :=
    do (f, st) <- p; PDone (Some (ObW f), QStat st).
  Definition prog_of (fuel : nat) (x : pcall) (o : option pobj) : prog (option pobj * presult) :=
    match x, o with
    | PNewSeq f, _ => pnew_sequential f
    | PNewRand f, _ => pnew_random f
    | PNewWrite f, _ => pnew_writable f WrTrunc
    | PNewAppend f, _ => pnew_writable f WrAppend
    | PExists f, _ => do a <- psys (CAccess f); PDone (None, QBool (a_ret a =? 0)%Z)
    | PChildren d, _ => do (st, l) <- pget_children fuel d; PDone (None, QNames st l)
    | PRemove f, _ => do st <- pask (CUnlink f) f; PDone (None, QStat st)
    | PSize f, _ => do (k, st) <- pget_file_size f; PDone (None, QSize st k)
    | PRename a b, _ => do st <- pask (CRename a b) a; PDone (None, QStat st)
    | PMkDir d, _ => do st <- pask (CMkdir d) d; PDone (None, QStat st)
    | PRmDir d, _ => do st <- pask (CRmdir d) d; PDone (None, QStat st)
    | PSRead _ k, Some (ObS f) => do (st, r) <- pseq_read fuel f k; PDone (Some (ObS f), QData st r)
    | PSSkip _ k, Some (ObS f) => do st <- pseq_skip f k; PDone (Some (ObS f), QStat st)
    | PRRead _ off k, Some (ObR f) => do (st, r) <- pran_read f off k; PDone (Some (ObR f), QData st r)
    | PWAppend _ d, Some (ObW f) => pw (pappend fuel f d)
    | PWClose _, Some (ObW f) => pw (pclose fuel f)
    | PWFlush _, Some (ObW f) => pw (pflush_buffer fuel f)
    | PWSync _, Some (ObW f) => pw (psync fuel f)
    | PDelete _, Some (ObW f) => do _ <- pdestroy fuel f; PDone (None, QStat SOk)
    | PDelete _, Some (ObS f) => do _ <- psys (CClose (sq_fd f)); PDone (None, QStat SOk)
    | PDelete _, Some (ObR f) => do _ <- pran_delete f; PDone (None, QStat SOk)
    | _, _ => PBad BadUB
    end.

  (** ** Threads *)
  (** The object a call is made on; [shared]: other threads may use the object at
      the same time (env.h: a RandomAccessFile is safe for concurrent use, other
      objects are used by one thread at a time). *)
  Definition on (x : pcall) : option nat :=
    match x with
    | PSRead h _ | PSSkip h _ | PRRead h _ _ | PWAppend h _ | PWClose h | PWFlush h | PWSync h | PDelete h => Some h
    | _ => None
    end.
  Definition shared (x : pcall) : bool := match x with PRRead _ _ _ => true | _ => false end.

  Inductive tstate := TIdle | TIn (n : nat) (x : pcall) (p : prog (option pobj * presult)).
  (** [c_objs]: the objects, by the number of the call that made them, without
      those that a call in progress has for itself. *)
  Record conf := mk_conf { c_view : view; c_lim : limits; c_objs : list (nat * pobj); c_next : nat; c_thr : list tstate }.
  Definition lim_add (lim : limits) (l : which) (d : Z) : limits :=
    match l with LMmap => mk_limits (l_mmap lim + d) (l_fd lim) | LFd => mk_limits (l_mmap lim) (l_fd lim + d) end.
  Definition lim_get (lim : limits) (l : which) : Z := match l with LMmap => l_mmap lim | LFd => l_fd lim end.
  Fixpoint set_thr (t : nat) (p : tstate) (l : list tstate) : list tstate :=
    match l, t with
    | [], _ => []
    | _ :: l', O => p :: l'
    | q :: l', S t' => q :: set_thr t' p l'
    end.

  (** What the callers must respect: the object is there, is what the call needs,
      and is not in use by a call that cannot share it; sizes as in
      PosixEnvSpec.legal. *)
  Definition fits (x : pcall) (o : pobj) : Prop :=
    match x, o with
    | (PSRead _ n | PSSkip _ n), ObS _ => (n < 2 ^ 64)%N
    | PRRead _ off n, ObR _ => (off + n < 2 ^ 63)%N
    | (PWAppend _ _ | PWClose _ | PWFlush _ | PWSync _), ObW _ => True
    | PDelete _, _ => True
    | _, _ => False
    end.
  Definition may_begin (cf : conf) (x : pcall) : Prop :=
    match on x with
    | None => True
    | Some h => (exists o, oget (c_objs cf) h = Some o /\ fits x o) /\
        (shared x = false -> forall t n y p, nth_error (c_thr cf) t = Some (TIn n y p) -> on y <> Some h)
    end.

  (** Steps: a call begins, a system call, an operation on a limiter, a call ends.
      Calls are numbered in the order in which they begin. *)
  Inductive lab := Beg (n : nat) (x : pcall) | Act (n : nat) (c : syscall) (a : answer) | End (n : nat) (r : result).
  Definition taken (cf : conf) (x : pcall) : list (nat * pobj) :=
    match on x with Some h => if shared x then c_objs cf else odel (c_objs cf) h | None => c_objs cf end.
  Definition object (cf : conf) (x : pcall) : option pobj :=
    match on x with Some h => oget (c_objs cf) h | None => None end.
  (** the table after a call, given what became of the object *)
  Definition given (cf : conf) (n : nat) (x : pcall) (o : option pobj) : list (nat * pobj) :=
    if shared x then c_objs cf else
    match o with
    | Some o => (match on x with Some h => h | None => n end, o) :: c_objs cf
    | None => c_objs cf
    end.
  Inductive cstep (t : nat) (cf : conf) : option lab -> conf -> Prop :=
  | s_begin x fuel :
      nth_error (c_thr cf) t = Some TIdle -> may_begin cf x ->
      cstep t cf (Some (Beg (c_next cf) x))
        (mk_conf (c_view cf) (c_lim cf) (taken cf x) (S (c_next cf)) (set_thr t (TIn (c_next cf) x (prog_of fuel x (object cf x))) (c_thr cf)))
  | s_sys n x c k a v' :
      nth_error (c_thr cf) t = Some (TIn n x (PSys c k)) -> kstep (c_view cf) (c, a) v' ->
      cstep t cf (Some (Act n c a)) (mk_conf v' (c_lim cf) (c_objs cf) (c_next cf) (set_thr t (TIn n x (k a)) (c_thr cf)))
  | s_sub n x l k :
      nth_error (c_thr cf) t = Some (TIn n x (PSub l k)) ->
      cstep t cf None (mk_conf (c_view cf) (lim_add (c_lim cf) l (-1)) (c_objs cf) (c_next cf) (set_thr t (TIn n x (k (lim_get (c_lim cf) l))) (c_thr cf)))
  | s_add n x l k :
      nth_error (c_thr cf) t = Some (TIn n x (PAdd l k)) ->
      cstep t cf None (mk_conf (c_view cf) (lim_add (c_lim cf) l 1) (c_objs cf) (c_next cf) (set_thr t (TIn n x k) (c_thr cf)))
  | s_end n x o q :
      nth_error (c_thr cf) t = Some (TIn n x (PDone (o, q))) ->
      cstep t cf (Some (End n (observe (c_view cf) q))) (mk_conf (c_view cf) (c_lim cf) (given cf n x o) (c_next cf) (set_thr t TIdle (c_thr cf))).

  (** A trace: what happened, newest first, each time with the files as they were
      afterwards. *)
  Definition trace := list (lab * view).
  Definition add_lab (o : option lab) (v : view) (tr : trace) : trace := match o with Some l => (l, v) :: tr | None => tr end.
  (** All executions of [m] threads from the files [v0] and the limits [lim0]. *)
  Inductive cruns (v0 : view) (lim0 : limits) (m : nat) : trace -> conf -> Prop :=
  | cr_start : cruns v0 lim0 m [] (mk_conf v0 lim0 [] 0 (repeat TIdle m))
  | cr_step tr cf t o cf' : cruns v0 lim0 m tr cf -> cstep t cf o cf' -> cruns v0 lim0 m (add_lab o (c_view cf') tr) cf'.
End Model.
