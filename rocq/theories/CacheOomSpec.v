(** CacheOomSpec.v -- what a user of the cache may do when some Inserts threw.

    [T] lists the numbers (positions in the history) of the Inserts that threw
    std::bad_alloc after putting their entry into the cache.  The history shows them
    as Inserts that returned a handle; the user did not get it. *)
From Coq Require Import List Arith NArith Bool.
From Verif Require Import Cache CacheSpec.
Import ListNotations.

(** The references to the entry [h] stands for that nobody can give back. *)
Definition lost (H : history) (T : list nat) (h : nat) : nat :=
  match owner H h with
  | Some i => if existsb (Nat.eqb i) T then 1 else 0
  | None => 0
  end.

(** How many times the user holds [h]. *)
Definition user_held (H : history) (T : list nat) (h : nat) : nat := held H h - lost H T h.

(** The rules of CacheSpec.legal, with what the user really holds. *)
Definition olegal (H : history) (T : list nat) (x : call) : Prop :=
  match x with
  | CRelease h | CValue h => 0 < user_held H T h
  | _ => legal H x
  end.

(** Insert number [i] threw and its entry is in the cache all the same. *)
Definition pinned (cap : N) (H : history) (T : list nat) (i : nat) : Prop := In i T /\ cached cap H i = true.
