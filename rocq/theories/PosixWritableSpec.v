(** PosixWritableSpec.v -- what a user of a POSIX WritableFile relies on, in
    terms of the calls to the kernel and the kernel's answers. *)
From Coq Require Import List Arith NArith ZArith Lia Bool.
From Verif Require Import Outcome Status MemEnv PosixOs PosixWritable.
Import ListNotations.

(** The part of POSIX relied on: write() takes at most what it is given; a
    negative descriptor is refused. *)
Definition answer_ok (c : syscall) (a : answer) : Prop :=
  match c with
  | CWrite fd d => (a_ret a <= Z.of_nat (length d))%Z /\ ((fd < 0)%Z -> (a_ret a < 0)%Z)
  | CFsync fd => (fd < 0)%Z -> a_ret a <> 0%Z
  | _ => True
  end.
Definition os_ok {S} (os : S -> syscall -> S * answer) : Prop :=
  forall s c, answer_ok c (snd (os s c)).

(** Bytes the kernel took from one event. *)
Definition taken (e : event) : list N :=
  match e with
  | (CWrite _ d, a) => firstn (Z.to_nat (a_ret a)) d
  | _ => []
  end.
Definition closes (fd : Z) (e : event) : bool :=
  match fst e with CClose fd' => Z.eqb fd' fd | _ => false end.
Definition closed (fd : Z) (l : log) : bool := existsb (closes fd) l.
(** The bytes that reached the file open as [fd], up to the time it is closed. *)
Fixpoint written (fd : Z) (l : log) : list N :=
  match l with
  | [] => []
  | e :: l' =>
      if closes fd e then []
      else (match fst e with CWrite fd' _ => if Z.eqb fd' fd then taken e else [] | _ => [] end) ++ written fd l'
  end.
(** The kernel does not give out [fd] again while it is open. *)
Definition exclusive (fd : Z) (l : log) : Prop :=
  forall l1 p fl a l2, l = l1 ++ (COpen p fl, a) :: l2 -> closed fd l1 = false -> a_ret a <> fd.

(** All data appended by a list of calls. *)
Definition op_data (o : wop) : list N := match o with OpAppend d => d | _ => [] end.
Definition appended (ops : list wop) : list N := concat (map op_data ops).
(** Calls after which no data may be left in the buffer. *)
Definition flushes (o : wop) : Prop := match o with OpAppend _ => False | _ => True end.

(** [x] is [y] with some elements left out. *)
Inductive subseq {A} : list A -> list A -> Prop :=
| sub_nil : subseq [] []
| sub_skip a x y : subseq x y -> subseq x (a :: y)
| sub_take a x y : subseq x y -> subseq (a :: x) (a :: y).

(** A file is created under [name] and used by [ops]: descriptor [fd], calls to
    the kernel since it was opened [l], statuses returned [sts]. *)
Definition session {S} (dbg : bool) (B : nat) (strerror : Z -> str) (os : S -> syscall -> S * answer)
    (fuel : nat) (w0 : world S) (name : str) (fl : oflags) (ops : list wop)
    (w2 : world S) (fd : Z) (l : log) (sts : list status) : Prop :=
  exists w1 f f2 a,
    new_writable dbg B strerror S os w0 name fl = Ret (w1, Some f, SOk) /\
    w_log w1 = w_log w0 ++ [(COpen name fl, a)] /\ fd = a_ret a /\
    wrun B strerror S os fuel w1 f ops = Ret (w2, f2, sts) /\
    w_log w2 = w_log w1 ++ l.

(** The first failure among the kernel calls of one operation, with the path it
    is reported for.  [cur] is the path fsync concerns at this point; the result
    of close() counts only when the operation is Close. *)
Fixpoint first_failure (name : str) (closing : bool) (cur : str) (l : log) : option (str * Z) :=
  match l with
  | [] => None
  | (CWrite _ _, a) :: l' =>
      if (a_ret a <? 0)%Z && negb (a_errno a =? EINTR)%Z then Some (name, a_errno a) else first_failure name closing cur l'
  | (COpen p _, a) :: l' => if (a_ret a <? 0)%Z then Some (p, a_errno a) else first_failure name closing p l'
  | (CFsync _, a) :: l' => if (a_ret a =? 0)%Z then first_failure name closing cur l' else Some (cur, a_errno a)
  | (CClose _, a) :: l' =>
      if closing && (a_ret a <? 0)%Z then Some (name, a_errno a) else first_failure name closing name l'
  | _ :: l' => first_failure name closing cur l'
  end.
Definition status_of (strerror : Z -> str) (x : option (str * Z)) : status :=
  match x with
  | None => SOk
  | Some (ctx, e) => SErr (if Z.eqb e 2 then NotFound else IOError) ctx (strerror e)
  end.

(** Crashes.  A successful fsync() makes everything written before durable; the
    contents [c] found after a crash may otherwise be anything.  [old] is what
    the file contained when opened. *)
Definition crash_contents (old : list N) (fd : Z) (l : log) (c : list N) : Prop :=
  forall l1 a l2, l = l1 ++ (CFsync fd, a) :: l2 -> a_ret a = 0%Z -> closed fd l1 = false ->
    firstn (length (old ++ written fd l1)) c = old ++ written fd l1.

(** Paths: [dir]/[base] with no slash in [base]. *)
Definition splits (path dir base : str) : Prop :=
  ~ In slash base /\ path = dir ++ slash :: base.
(** The last component of the path starts with MANIFEST. *)
Definition names_manifest (path : str) : Prop :=
  exists rest, ~ In slash rest /\
    (path = manifest_prefix ++ rest \/ exists dir, path = dir ++ slash :: manifest_prefix ++ rest).
(** The directory the file is in. *)
Definition in_dir (path dir : str) : Prop :=
  (~ In slash path /\ dir = dot) \/ (exists base, splits path dir base).

(** A kernel that does not interrupt or stall a write for ever: among any [K]
    attempts in a row to write the same data, one makes progress or fails. *)
Fixpoint stalls {S} (os : S -> syscall -> S * answer) (k : nat) (s : S) (fd : Z) (d : list N) : bool :=
  match k with
  | O => true
  | Datatypes.S k' =>
      let r := os s (CWrite fd d) in
      ((a_ret (snd r) =? 0)%Z || ((a_ret (snd r) <? 0)%Z && (a_errno (snd r) =? EINTR)%Z)) && stalls os k' (fst r) fd d
  end.
Definition progressing {S} (os : S -> syscall -> S * answer) (K : nat) : Prop :=
  forall s fd d, d <> [] -> stalls os K s fd d = false.

(** A session followed by deleting the object; [l] includes the destructor's calls. *)
Definition lifetime {S} (dbg : bool) (B : nat) (strerror : Z -> str) (os : S -> syscall -> S * answer)
    (fuel : nat) (w0 : world S) (name : str) (fl : oflags) (ops : list wop) (w3 : world S) (fd : Z) (l : log) : Prop :=
  exists w1 f f2 a w2 sts,
    new_writable dbg B strerror S os w0 name fl = Ret (w1, Some f, SOk) /\
    w_log w1 = w_log w0 ++ [(COpen name fl, a)] /\ fd = a_ret a /\
    wrun B strerror S os fuel w1 f ops = Ret (w2, f2, sts) /\
    destroy strerror S os fuel w2 f2 = Ret w3 /\ w_log w3 = w_log w1 ++ l.
