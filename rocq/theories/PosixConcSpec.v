(** PosixConcSpec.v -- what is said about executions of several threads on the
    POSIX environment, in terms of the trace alone (newest first). *)
From Coq Require Import List Arith NArith ZArith Lia Bool.
From Verif Require Import Outcome Status MemEnv PosixOs PosixWritable PosixRead PosixEnv PosixFs PosixEnvSpec PosixConc.
Import ListNotations.

(** Call number [n], and its result if it has returned. *)
Fixpoint call_no (tr : trace) (n : nat) : option pcall :=
  match tr with
  | [] => None
  | (Beg m x, _) :: tr' => if m =? n then Some x else call_no tr' n
  | _ :: tr' => call_no tr' n
  end.
Fixpoint ended (tr : trace) (n : nat) : option result :=
  match tr with
  | [] => None
  | (End m r, _) :: tr' => if m =? n then Some r else ended tr' n
  | _ :: tr' => ended tr' n
  end.
Definition in_progress (tr : trace) (n : nat) : Prop := call_no tr n <> None /\ ended tr n = None.
Definition quiet (tr : trace) : Prop := forall n, ~ in_progress tr n.

(** File objects are named by the number of the call that made them.  An object
    is alive from the return of that call to the return of the call that deletes it. *)
Definition made (tr : trace) (h : nat) (k : kind) (f : str) : Prop :=
  exists x, call_no tr h = Some x /\ opens x = Some (k, f) /\ ended tr h = Some (RStat SOk).
Definition gone (tr : trace) (h : nat) : Prop := exists n, call_no tr n = Some (PDelete h) /\ ended tr n <> None.
Definition alive (tr : trace) (h : nat) (k : kind) (f : str) : Prop := made tr h k f /\ ~ gone tr h.

(** The call that opened descriptor [fd], made the mapping at [b], opened the
    directory stream [d], if it is still open. *)
Fixpoint owner (tr : trace) (fd : Z) : option nat :=
  match tr with
  | [] => None
  | (Act n (COpen _ _) a, _) :: tr' => if (a_ret a =? fd)%Z && (0 <=? fd)%Z then Some n else owner tr' fd
  | (Act n (CClose fd') _, _) :: tr' => if (fd' =? fd)%Z then None else owner tr' fd
  | _ :: tr' => owner tr' fd
  end.
Fixpoint map_owner (tr : trace) (b : N) : option nat :=
  match tr with
  | [] => None
  | (Act n (CMmap _ _) a, _) :: tr' => if (a_val a =? b)%N && (0 <=? a_ret a)%Z then Some n else map_owner tr' b
  | (Act n (CMunmap b' _) _, _) :: tr' => if (b' =? b)%N then None else map_owner tr' b
  | _ :: tr' => map_owner tr' b
  end.
Fixpoint dir_owner (tr : trace) (d : N) : option nat :=
  match tr with
  | [] => None
  | (Act n (COpendir _) a, _) :: tr' => if (a_val a =? d)%N && negb (d =? 0)%N then Some n else dir_owner tr' d
  | (Act n (CClosedir d') _, _) :: tr' => if (d' =? d)%N then None else dir_owner tr' d
  | _ :: tr' => dir_owner tr' d
  end.
(** What call [n] may use: what it opened itself, and what the call that made its
    object opened. *)
Definition entitled (tr : trace) (n m : nat) : Prop :=
  m = n \/ exists x, call_no tr n = Some x /\ on x = Some m.
Definition uses_fd (c : syscall) : option Z :=
  match c with
  | CClose fd | CWrite fd _ | CRead fd _ | CPread fd _ _ | CLseek fd _ | CFsync fd | CMmap fd _ => Some fd
  | _ => None
  end.
Definition uses_map (c : syscall) : option N := match c with CMunmap b _ => Some b | _ => None end.
Definition uses_dir (c : syscall) : option N := match c with CReaddir d | CClosedir d => Some d | _ => None end.

(** The files at the end of a trace that started from [v0]. *)
Definition now (v0 : view) (tr : trace) : view := match tr with [] => v0 | (_, v) :: _ => v end.
(** Something was so at one moment of call [n]: after it began and before it
    returned. *)
Definition during (v0 : view) (tr : trace) (n : nat) (P : view -> Prop) : Prop :=
  exists later earlier, tr = later ++ earlier /\ in_progress earlier n /\ P (now v0 earlier).

(** The system calls of call [n], oldest first. *)
Fixpoint acts (tr : trace) (n : nat) : list (syscall * answer) :=
  match tr with
  | [] => []
  | (Act m c a, _) :: tr' => if m =? n then acts tr' n ++ [(c, a)] else acts tr' n
  | _ :: tr' => acts tr' n
  end.

(** Object [h] holds a descriptor or a mapping. *)
Definition kept (tr : trace) (h : nat) : Prop := (exists fd, owner tr fd = Some h) \/ (exists b, map_owner tr b = Some h).
