(** Hash.v -- model of util/hash.cc *)
From Coq Require Import List NArith Lia Bool.
From Verif Require Import Outcome Coding.
Import ListNotations.
Local Open Scope N_scope.
Local Open Scope outcome_scope.

(** util/hash.cc:22-23 *)
Definition hash_m : N := 3332679571. (* 0xc6a4a793 *)
Definition hash_r : N := 24.

(** util/hash.cc:27-34, the while loop; pointers are memory indices.  The
    comparison data + 4 <= limit is on indices (no wrap of the address space). *)
Fixpoint Hash_loop (fuel : nat) (mm : mem) (data limit : nat) (h : N) : outcome (nat * N) :=
  match fuel with
  | O => OutOfFuel
  | S fuel' =>
      if Nat.leb (data + 4) limit then
        let! w := DecodeFixed32 mm data in
        let data := (data + 4)%nat in
        let h := u32 (h + w) in
        let h := u32 (h * hash_m) in
        let h := N.lxor h (N.shiftr h 16) in
        Hash_loop fuel' mm data limit h
      else Ret (data, h)
  end.

(** util/hash.cc:20-51.  [n] is a size_t, so n * m is computed in 64 bits and
    the xor is truncated to 32 bits when stored in h.  The switch falls
    through from case 3 to 2 to 1. *)
Definition Hash (mm : mem) (data : nat) (n : nat) (seed : N) : outcome N :=
  let limit := (data + n)%nat in
  let h := u32 (N.lxor seed (u64 (N.of_nat n * hash_m))) in
  let! (data, h) := Hash_loop (S n) mm data limit h in
  let rest := (limit - data)%nat in
  let case1 (h : N) : outcome N :=
    let! b := load mm data in
    let h := u32 (h + b) in
    let h := u32 (h * hash_m) in
    Ret (N.lxor h (N.shiftr h hash_r)) in
  let case2 (h : N) : outcome N :=
    let! b := load mm (data + 1) in
    case1 (u32 (h + N.shiftl b 8)) in
  let case3 (h : N) : outcome N :=
    let! b := load mm (data + 2) in
    case2 (u32 (h + N.shiftl b 16)) in
  match rest with
  | 3%nat => case3 h
  | 2%nat => case2 h
  | 1%nat => case1 h
  | _ => Ret h
  end.
