(** PosixConcWriteSpec.v -- what is said about the bytes written by several threads
    on the POSIX environment, in terms of the trace alone (newest first). *)
From Coq Require Import List Arith NArith ZArith Lia Bool.
From Verif Require Import Outcome Status MemEnv PosixOs PosixWritable PosixRead PosixEnv PosixFs PosixEnvSpec PosixConc PosixConcSpec.
Import ListNotations.

(** Call [n] is a call on object [h]. *)
Definition on_obj (tr : trace) (n h : nat) : bool :=
  match call_no tr n with Some x => match on x with Some h' => h' =? h | None => false end | None => false end.

(** What was given to Append on object [h], in the order of the calls. *)
Fixpoint handed (tr : trace) (h : nat) : list N :=
  match tr with
  | [] => []
  | (Beg _ (PWAppend h' d), _) :: tr' => handed tr' h ++ (if h' =? h then d else [])
  | _ :: tr' => handed tr' h
  end.
(** The bytes of a write() that were accepted. *)
Definition took (c : syscall) (a : answer) : list N :=
  match c with CWrite _ d => firstn (Z.to_nat (a_ret a)) d | _ => [] end.
(** What calls on [h] have written, in order. *)
Fixpoint sent (tr : trace) (h : nat) : list N :=
  match tr with
  | [] => []
  | (Act n c a, _) :: tr' => sent tr' h ++ (if on_obj tr' n h then took c a else [])
  | _ :: tr' => sent tr' h
  end.

(** All calls on [h] that have returned returned OK. *)
Definition all_ok (tr : trace) (h : nat) : Prop :=
  forall n x r, call_no tr n = Some x -> on x = Some h -> ended tr n = Some r -> r = RStat SOk.
(** The calls after which nothing may be left in the buffer, and the one after which
    nothing may be lost in a crash. *)
Definition flushing (x : pcall) : bool := match x with PWFlush _ | PWSync _ | PWClose _ => true | _ => false end.
Definition syncing (x : pcall) : bool := match x with PWSync _ => true | _ => false end.
(** Close was not called on [h]. *)
Definition never_closed (tr : trace) (h : nat) : Prop := forall n, call_no tr n <> Some (PWClose h).
(** Object [h] is or was a WritableFile. *)
Definition writer (x : pcall) : bool := match x with PNewWrite _ | PNewAppend _ => true | _ => false end.

Definition begins {A} (l d : list A) : Prop := exists rest, l = d ++ rest.

(** ** Files *)

(** A step that changes the contents of file [i]: a write() that was accepted on a
    descriptor of [i], or an open() that cut it. [v]: the files before the step. *)
Definition changes (v : view) (c : syscall) (a : answer) (i : nat) : Prop :=
  match c with
  | CWrite fd _ => (0 <= a_ret a)%Z /\ exists x, v_fd v fd = Some x /\ d_ino x = i
  | COpen p WrTrunc => (0 <= a_ret a)%Z /\ v_name v p = Some i
  | _ => False
  end.
(** In the last part [later] of the trace only calls on [h] changed file [i]. *)
Definition only_writer (v0 : view) (later earlier : trace) (h i : nat) : Prop :=
  forall l2 n c a v l1, later = l2 ++ (Act n c a, v) :: l1 ->
    changes (now v0 (l1 ++ earlier)) c a i -> on_obj (l1 ++ earlier) n h = true.
(** ... only write()s of calls on objects made by NewAppendableFile changed it. *)
Definition only_appends (v0 : view) (later earlier : trace) (i : nat) : Prop :=
  forall l2 n c a v l1, later = l2 ++ (Act n c a, v) :: l1 ->
    changes (now v0 (l1 ++ earlier)) c a i ->
    exists fd d h f, c = CWrite fd d /\ on_obj (l1 ++ earlier) n h = true /\ call_no (l1 ++ earlier) h = Some (PNewAppend f).
(** The bytes written to file [i] by anybody in that part, in order. *)
Fixpoint added (v0 : view) (later earlier : trace) (i : nat) : list N :=
  match later with
  | [] => []
  | (Act _ (CWrite fd d) a, _) :: l1 =>
      added v0 l1 earlier i ++
      match v_fd (now v0 (l1 ++ earlier)) fd with
      | Some x => if d_ino x =? i then firstn (Z.to_nat (a_ret a)) d else []
      | None => []
      end
  | _ :: l1 => added v0 l1 earlier i
  end.

(** [e] is the open() of the call [x] that made object [h]: it got file [i], which
    had the name [f] then.  [start e]: the contents of that file right after it. *)
Definition opening (h : nat) (x : pcall) (f : str) (i : nat) (e : lab * view) (earlier : trace) : Prop :=
  exists fl a v, e = (Act h (COpen f fl) a, v) /\ call_no earlier h = Some x /\ opens x = Some (KWrite, f) /\ (0 <= a_ret a)%Z /\ v_name v f = Some i.
Definition start (e : lab * view) (i : nat) : list N := v_data (snd e) i.
