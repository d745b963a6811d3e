(** PosixOom.v -- the calls of PosixEnv that open something, when memory runs out
    in them: util/env_posix.cc:168-193 (PosixRandomAccessFile::Read), 502-593,
    701-719.

    Each of them makes at most one request for memory that can throw, after all
    else it does on that path: for the file object (the copy of the name passed to
    its constructor and what the constructor builds included), for the error
    status, or, in GetChildren, for the next name.  [fails]: that request throws.
    Descriptors, mappings and streams are plain integers and pointers there, so
    nothing closes them when the exception leaves the function.

    [leak] records, for the theorems only, what the function had and nobody has
    now; that this is so is proved from the log of system calls. *)
From Coq Require Import List Arith NArith ZArith Lia Bool.
From Verif Require Import Outcome Status MemEnv PosixOs PosixWritable PosixRead PosixEnv PosixMisc.
Import ListNotations.
Local Open Scope outcome_scope.

Record leak := mk_leak { k_fds : list Z; k_maps : list (N * N); k_slots : nat }.
Definition no_leak : leak := mk_leak [] [] 0.
Definition leak_app (a b : leak) : leak := mk_leak (k_fds a ++ k_fds b) (k_maps a ++ k_maps b) (k_slots a + k_slots b).

Inductive xres (A : Type) := XRet (a : A) | XThrow (k : leak).
Arguments XRet {A}. Arguments XThrow {A}.

Section Model.
  Variable dbg : bool.
  Variable strerror : Z -> str.
  Variable S : Type.
  Variable os : S -> syscall -> S * answer.
  Notation world := (world S).
  Notation sys := (sys os).
  Notation PosixError := (PosixError strerror).

  (** NewRandomAccessFile, env_posix.cc:514-546 *)
  Definition new_random_x (fails : bool) (w : world) (lim : limits) (name : str) : world * limits * xres (option ranfile * status) :=
    let '(w, a) := sys w (COpen name RdOnly) in
    let fd := a_ret a in
    if (fd <? 0)%Z then
      (w, lim, if fails then XThrow no_leak else XRet (None, PosixError name (a_errno a)))   (* line 519 *)
    else
      let '(l, got) := acquire (l_mmap lim) in
      let lim := mk_limits l (l_fd lim) in
      if negb got then
        if fails then (w, lim, XThrow (mk_leak [fd] [] 0))                                    (* line 524: before the constructor *)
        else let '(w, lim, f) := new_pread S os w lim name fd in (w, lim, XRet (Some f, SOk))
      else
        let '(w, st) := sys w (CStat name) in
        if negb (a_ret st =? 0)%Z then                                                        (* line 529 *)
          if fails then (w, lim, XThrow (mk_leak [fd] [] 1))
          else let '(w, _) := sys w (CClose fd) in
               (w, mk_limits (release (l_mmap lim)) (l_fd lim), XRet (None, PosixError name (a_errno st)))
        else
          let file_size := a_val st in
          let '(w, m) := sys w (CMmap fd file_size) in
          if negb (a_ret m =? -1)%Z then                                                      (* line 534 *)
            if fails then (w, lim, XThrow (mk_leak [fd] [(a_val m, file_size)] 1))
            else let '(w, _) := sys w (CClose fd) in (w, lim, XRet (Some (RMmap (a_val m) file_size name), SOk))
          else                                                                                (* line 538 *)
            if fails then (w, lim, XThrow (mk_leak [fd] [] 1))
            else let '(w, _) := sys w (CClose fd) in
                 (w, mk_limits (release (l_mmap lim)) (l_fd lim), XRet (None, PosixError name (a_errno m))).

  (** The two Read functions, env_posix.cc:168-193 and 227-237 *)
  Definition ran_read_x (fails : bool) (w : world) (f : ranfile) (offset n : N) : outcome (world * xres (status * rslice)) :=
    match f with
    | RMmap base len name =>
        if (len <? u64 (offset + n))%N then Ret (w, if fails then XThrow no_leak else XRet (PosixError name EINVAL, Bytes []))
        else Ret (w, XRet (SOk, View base offset n))
    | RPerm fd name =>
        let! _ := assert_ dbg (negb (fd =? -1)%Z) in
        let '(w, a) := sys w (CPread fd n (off_t offset)) in
        if (Z.of_N n <? a_ret a)%Z then UB else
        Ret (w, if (a_ret a <? 0)%Z && fails then XThrow no_leak
                else XRet (if (a_ret a <? 0)%Z then PosixError name (a_errno a) else SOk, Bytes (firstn (Z.to_nat (a_ret a)) (a_data a))))
    | RTemp name =>
        let '(w, o) := sys w (COpen name RdOnly) in
        if (a_ret o <? 0)%Z then Ret (w, if fails then XThrow no_leak else XRet (PosixError name (a_errno o), Untouched))
        else
          let fd := a_ret o in
          let! _ := assert_ dbg (negb (fd =? -1)%Z) in
          let '(w, a) := sys w (CPread fd n (off_t offset)) in
          if (Z.of_N n <? a_ret a)%Z then UB else
          if (a_ret a <? 0)%Z && fails then Ret (w, XThrow (mk_leak [fd] [] 0))               (* line 185, before line 190 *)
          else
            let st := if (a_ret a <? 0)%Z then PosixError name (a_errno a) else SOk in
            let! _ := assert_ dbg (negb (fd =? -1)%Z) in
            let '(w, _) := sys w (CClose fd) in
            Ret (w, XRet (st, Bytes (firstn (Z.to_nat (a_ret a)) (a_data a))))
    end.

  (** Histories of callers, as in PosixRead.v; [x_leak]: what throwing calls have
      left, [x_throws]: how many there were. *)
  Inductive xcall := XNew (name : str) (fails : bool) | XRead (o : nat) (offset n : N) (fails : bool) | XDelete (o : nat).
  Record xenv := mk_x { x_r : renv S; x_leak : leak; x_throws : nat }.
  Definition threw (e : xenv) (r : renv S) (k : leak) : xenv := mk_x r (leak_app k (x_leak e)) (Datatypes.S (x_throws e)).
  Definition xstep (e : xenv) (c : xcall) : option (outcome xenv) :=
    let r := x_r e in
    match c with
    | XNew name fails =>
        let '(w, lim, q) := new_random_x fails (r_world r) (r_lim r) name in
        Some (Ret match q with
                  | XRet (f, _) => mk_x (mk_renv w lim (match f with Some f => (r_next r, f) :: r_live r | None => r_live r end) (Datatypes.S (r_next r))) (x_leak e) (x_throws e)
                  | XThrow k => threw e (mk_renv w lim (r_live r) (Datatypes.S (r_next r))) k
                  end)
    | XRead o offset n fails =>
        match rlookup (r_live r) o with
        | None => None
        | Some f => Some (let! (w, q) := ran_read_x fails (r_world r) f offset n in
                          let r' := mk_renv w (r_lim r) (r_live r) (Datatypes.S (r_next r)) in
                          Ret match q with XRet _ => mk_x r' (x_leak e) (x_throws e) | XThrow k => threw e r' k end)
        end
    | XDelete o =>                                                     (* asks for no memory *)
        match rlookup (r_live r) o with
        | None => None
        | Some f => Some (let! (w, lim) := ran_delete dbg S os (r_world r) (r_lim r) f in
                          Ret (mk_x (mk_renv w lim (rdrop (r_live r) o) (Datatypes.S (r_next r))) (x_leak e) (x_throws e)))
        end
    end.
  Inductive xsteps : xenv -> list xcall -> xenv -> Prop :=
  | xs_nil e : xsteps e [] e
  | xs_cons e c e1 cs e' : xstep e c = Some (Ret e1) -> xsteps e1 cs e' -> xsteps e (c :: cs) e'.
  Definition xstart (w0 : world) (lim0 : limits) : xenv := mk_x (mk_renv w0 lim0 [] 0) no_leak 0.

  (** ** The other calls: what has happened when the exception leaves them. *)
  (** NewSequentialFile, NewWritableFile and NewAppendableFile, env_posix.cc:502-512,
      548-574: the object is the last thing made, the error status too. *)
  Definition new_file_throws (w : world) (name : str) (fl : oflags) : world := fst (sys w (COpen name fl)).
  (** NewLogger, env_posix.cc:701-719 *)
  Definition new_logger_throws (w : world) (name : str) : world :=
    let '(w, a) := sys w (COpen name WrAppend) in
    if (a_ret a <? 0)%Z then w                                        (* line 707 *)
    else
      let '(w, p) := sys w (CFdopen (a_ret a)) in
      if N.eqb (a_val p) 0 then fst (sys w (CClose (a_ret a)))        (* line 714 *)
      else w.                                                         (* line 716 *)
  (** GetChildren, env_posix.cc:580-593: the emplace_back of the entry that follows
      the first [k] throws (line 589), or the error status (line 585). *)
  Fixpoint read_dir_throws (k : nat) (w : world) (d : N) (result : list str) : option (world * list str) :=
    let '(w, a) := sys w (CReaddir d) in
    if (a_ret a =? 0)%Z then None                                     (* fewer entries: nothing throws *)
    else match k with O => Some (w, result) | Datatypes.S k' => read_dir_throws k' w d (result ++ [a_data a]) end.
  Definition get_children_throws (k : nat) (w : world) (dir : str) : option (world * list str) :=
    let '(w, a) := sys w (COpendir dir) in
    if N.eqb (a_val a) 0 then Some (w, []) else read_dir_throws k w (a_val a) [].
End Model.
Arguments mk_x {S}. Arguments x_r {S}. Arguments x_leak {S}. Arguments x_throws {S}.
