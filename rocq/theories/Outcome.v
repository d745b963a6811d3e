(** Outcome.v -- results of running a piece of modelled C++.

    [Ret a]       : normal return
    [UB]          : the C++ abstract machine has no defined behaviour here
                    (out-of-range access, use after free, null dereference,
                    read of an uninitialised object, ...)
    [AssertFail]  : an assert() failed (only in builds without NDEBUG)
    [OutOfFuel]   : a modelled loop did not finish within the fuel given;
                    theorems exclude this outcome explicitly. *)
From Coq Require Import List NArith Lia Bool.
Import ListNotations.

Inductive outcome (A : Type) : Type :=
| Ret (a : A)
| UB
| AssertFail
| OutOfFuel.
Arguments Ret {A} a.
Arguments UB {A}.
Arguments AssertFail {A}.
Arguments OutOfFuel {A}.

Definition bind {A B} (x : outcome A) (f : A -> outcome B) : outcome B :=
  match x with
  | Ret a => f a
  | UB => UB
  | AssertFail => AssertFail
  | OutOfFuel => OutOfFuel
  end.

Declare Scope outcome_scope.
Delimit Scope outcome_scope with outcome.
Notation "'let!' x ':=' e 'in' k" := (bind e (fun x => k))
  (at level 200, x pattern, e at level 100, k at level 200, right associativity) : outcome_scope.

(** assert(b): aborts in an assertion-enabled build ([dbg = true]). *)
Definition assert_ (dbg : bool) (b : bool) : outcome unit :=
  if dbg && negb b then AssertFail else Ret tt.

(** Integer types of the source (LP64): explicit wrap-around. *)
Definition u8  (x : N) : N := (x mod 2 ^ 8)%N.
Definition u32 (x : N) : N := (x mod 2 ^ 32)%N.
Definition u64 (x : N) : N := (x mod 2 ^ 64)%N.

(** A std::string / byte buffer content is a list of bytes. *)
Definition byte_ok (b : N) : Prop := (b < 256)%N.
Definition bytes_ok (bs : list N) : Prop := Forall byte_ok bs.
