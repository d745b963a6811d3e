(** PosixFd.v -- descriptor accounting over a log of kernel calls (specification). *)
From Coq Require Import List Arith NArith ZArith Lia Bool.
From Verif Require Import Outcome Status MemEnv PosixOs.
Import ListNotations.

Fixpoint remove1 (x : Z) (l : list Z) : option (list Z) :=
  match l with
  | [] => None
  | y :: l' => if Z.eqb x y then Some l' else option_map (cons y) (remove1 x l')
  end.
(** The descriptors open after [l], starting from [fds]; [None] if a descriptor
    that is not open is closed (close(-1) is allowed: it only fails).  A
    descriptor passed to fdopen() belongs to the FILE if that succeeds (the
    returned pointer is not 0). *)
Fixpoint fds_after (fds : list Z) (l : log) : option (list Z) :=
  match l with
  | [] => Some fds
  | (COpen _ _, a) :: l' => fds_after (if (0 <=? a_ret a)%Z then a_ret a :: fds else fds) l'
  | (CClose fd, a) :: l' =>
      if (fd <? 0)%Z then fds_after fds l'
      else match remove1 fd fds with Some fds' => fds_after fds' l' | None => None end
  | (CFdopen fd, a) :: l' =>
      if N.eqb (a_val a) 0 then fds_after fds l'
      else match remove1 fd fds with Some fds' => fds_after fds' l' | None => None end
  | _ :: l' => fds_after fds l'
  end.

Lemma fds_after_app l l' : forall fds, fds_after fds (l ++ l') = match fds_after fds l with Some fds' => fds_after fds' l' | None => None end.
Proof.
  induction l as [|[c a] l IH]; intros fds; cbn [app fds_after]; [reflexivity|].
  destruct c; try apply IH.
  - destruct (fd <? 0)%Z; [apply IH|]. destruct (remove1 fd fds); [apply IH|reflexivity].
  - destruct (N.eqb (a_val a) 0); [apply IH|]. destruct (remove1 fd fds); [apply IH|reflexivity].
Qed.
