(** StatusOomSpec.v -- what a program over Status variables may rely on when memory
    runs out: an operation that throws has changed nothing. *)
From Coq Require Import NArith List Arith Bool.
From Verif Require Import Heap Status StatusSpec.
Import ListNotations.

Definition is_error (x : option sval) : bool := match x with Some (Some _) => true | _ => false end.

(** The operations that make a new error value out of nothing or out of another's. *)
Definition needs_memory (e : senv) (o : sop) : bool :=
  match o with
  | OpErr _ _ _ _ => true
  | OpCopyCtor _ w => is_error (e w)
  | OpCopyAssign v w => negb (v =? w) && is_error (e w)
  | _ => false
  end.

(** A copy assignment over an error status: the one place where a throw is not
    harmless. *)
Definition overwrites_error (e : senv) (o : sop) : bool :=
  match o with OpCopyAssign v _ => is_error (e v) | _ => false end.

(** One operation with memory ([oom = false]) or without; the Boolean: it throws. *)
Definition mspec_step (e : senv) (o : sop) (oom : bool) : option (senv * bool) :=
  match spec_step e o with
  | None => None
  | Some e' =>
      if oom && needs_memory e o then
        if overwrites_error e o then None else Some (e, true)
      else Some (e', false)
  end.
Fixpoint mspec_run (e : senv) (ops : list (sop * bool)) : option (senv * list bool) :=
  match ops with
  | [] => Some (e, [])
  | (o, oom) :: r =>
      match mspec_step e o oom with
      | None => None
      | Some (e1, t) => match mspec_run e1 r with Some (e2, ts) => Some (e2, t :: ts) | None => None end
      end
  end.

(** Which variables live: constructed (by an operation that did not throw) and not
    destroyed.  [None]: constructing a variable that lives, or destroying one that does
    not. *)
Definition lives_step (live : nat -> bool) (o : sop) (threw : bool) : option (nat -> bool) :=
  match o with
  | OpOK v | OpErr v _ _ _ | OpCopyCtor v _ | OpMoveCtor v _ =>
      if live v then None else Some (fun x => if x =? v then negb threw else live x)
  | OpDestroy v => if live v then Some (fun x => if x =? v then false else live x) else None
  | OpCopyAssign _ _ | OpMoveAssign _ _ => Some live
  end.
Fixpoint lives (live : nat -> bool) (ops : list (sop * bool)) (ts : list bool) : option (nat -> bool) :=
  match ops, ts with
  | (o, _) :: r, t :: ts' => match lives_step live o t with Some l => lives l r ts' | None => None end
  | _, _ => Some live
  end.
Definition nothing_lives : nat -> bool := fun _ => false.
