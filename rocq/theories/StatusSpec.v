(** StatusSpec.v -- what a Status is, independently of its representation:
    either OK or an error kind with a message; copies have value semantics. *)
From Coq Require Import NArith String Ascii List Arith.
From Verif Require Import Heap Status.
Import ListNotations.

Definition kind_eqb (a b : kind) : bool :=
  match a, b with
  | NotFound, NotFound | Corruption, Corruption | NotSupported, NotSupported
  | InvalidArgument, InvalidArgument | IOError, IOError => true
  | _, _ => false
  end.

(** A value: None = success. *)
Definition sval := option (kind * list N).

Definition bytes_of (s : string) : list N := map N_of_ascii (list_ascii_of_string s).

(** Printed label of each kind. *)
Definition label (k : kind) : list N :=
  bytes_of (match k with
            | NotFound => "NotFound: "
            | Corruption => "Corruption: "
            | NotSupported => "Not implemented: "
            | InvalidArgument => "Invalid argument: "
            | IOError => "IO error: "
            end).

Definition print (v : sval) : list N :=
  match v with
  | None => bytes_of "OK"
  | Some (k, m) => label k ++ m
  end.

(** "msg" or "msg: msg2" *)
Definition message (msg msg2 : list N) : list N :=
  match msg2 with [] => msg | _ => msg ++ bytes_of ": " ++ msg2 end.

(** Programs over variables with value semantics.  [None]: not a legal program
    (constructing a live variable, using a dead one, or a message too long to
    be represented). *)
Definition senv := nat -> option sval.
Definition upd (e : senv) (v : nat) (x : option sval) : senv :=
  fun w => if w =? v then x else e w.

Definition spec_step (e : senv) (o : sop) : option senv :=
  match o with
  | OpOK v => match e v with None => Some (upd e v (Some None)) | _ => None end
  | OpErr v k m m2 =>
      match e v with
      | None =>
          if (N.of_nat (length m + length m2) <? 2 ^ 32 - 7)%N
          then Some (upd e v (Some (Some (k, message m m2)))) else None
      | _ => None
      end
  | OpCopyCtor v w =>
      match e v, e w with
      | None, Some x => Some (upd e v (Some x))
      | _, _ => None
      end
  | OpMoveCtor v w =>
      match e v, e w with
      | None, Some x => Some (upd (upd e v (Some x)) w (Some None))
      | _, _ => None
      end
  | OpCopyAssign v w =>
      match e v, e w with
      | Some _, Some x => Some (upd e v (Some x))
      | _, _ => None
      end
  | OpMoveAssign v w =>
      match e v, e w with
      | Some x, Some y => Some (upd (upd e v (Some y)) w (Some x))
      | _, _ => None
      end
  | OpDestroy v => match e v with Some _ => Some (upd e v None) | None => None end
  end.

Fixpoint spec_run (e : senv) (ops : list sop) : option senv :=
  match ops with
  | [] => Some e
  | o :: r => match spec_step e o with Some e1 => spec_run e1 r | None => None end
  end.

Definition senv0 : senv := fun _ => None.
