(** Slice.v -- model of include/lsmdb/slice.h over the byte memory of Coding.v.

    Both slices of a binary operation live in one byte memory (two C++ buffers
    are two parts of it, possibly overlapping). *)
From Coq Require Import List NArith ZArith Lia Bool.
From Verif Require Import Outcome Coding.
Import ListNotations.
Local Open Scope outcome_scope.

(** memcmp (libc): both ranges must be readable; the result is that of the
    first differing pair of bytes compared as unsigned char.  The C standard
    fixes only its sign: [mc a b] is whatever value the library returns for the
    first differing pair. *)
Fixpoint memcmp_list (mc : N -> N -> Z) (a b : list N) : Z :=
  match a, b with
  | x :: a', y :: b' => if N.eqb x y then memcmp_list mc a' b' else mc x y
  | _, _ => 0%Z
  end.

Definition memcmp (mc : N -> N -> Z) (m : mem) (p q n : nat) : outcome Z :=
  if Nat.leb (p + n) (length m) && Nat.leb (q + n) (length m)
  then Ret (memcmp_list mc (firstn n (skipn p m)) (firstn n (skipn q m)))
  else UB.

(** slice.h:49 *)
Definition slice_empty (s : slice) : bool := Nat.eqb (s_size s) 0.

(** slice.h:53-56; the returned char is given as its byte *)
Definition slice_index (dbg : bool) (m : mem) (s : slice) (n : nat) : outcome N :=
  let! _ := assert_ dbg (Nat.ltb n (s_size s)) in
  load m (s_data s + n).

(** slice.h:59-62; [empty_lit] is the address of the literal "" *)
Definition slice_clear (empty_lit : nat) (s : slice) : slice := mk_slice empty_lit 0.

(** slice.h:65-69; [data_ += n] past the end of the buffer is UB, and so is a
    wrapping size_ (modelled as UB rather than as a huge size) *)
Definition slice_remove_prefix (dbg : bool) (s : slice) (n : nat) : outcome slice :=
  let! _ := assert_ dbg (Nat.leb n (s_size s)) in
  remove_prefix s n.

(** slice.h:72, std::string(data_, size_) *)
Definition slice_ToString (m : mem) (s : slice) : outcome (list N) :=
  if Nat.leb (s_data s + s_size s) (length m)
  then Ret (firstn (s_size s) (skipn (s_data s) m)) else UB.

(** slice.h:36, strlen: number of bytes before the first 0 *)
Fixpoint strlen_list (l : list N) : option nat :=
  match l with
  | [] => None
  | b :: t => if N.eqb b 0 then Some O else match strlen_list t with Some k => Some (S k) | None => None end
  end.
Definition slice_of_cstr (m : mem) (p : nat) : outcome slice :=
  match strlen_list (skipn p m) with Some k => Ret (mk_slice p k) | None => UB end.

(** slice.h:81-83; && short-circuits *)
Definition slice_starts_with (mc : N -> N -> Z) (m : mem) (s x : slice) : outcome bool :=
  if Nat.leb (s_size x) (s_size s) then
    let! r := memcmp mc m (s_data s) (s_data x) (s_size x) in
    Ret (Z.eqb r 0)
  else Ret false.

(** slice.h:90-93 *)
Definition slice_eq (mc : N -> N -> Z) (m : mem) (x y : slice) : outcome bool :=
  if Nat.eqb (s_size x) (s_size y) then
    let! r := memcmp mc m (s_data x) (s_data y) (s_size x) in
    Ret (Z.eqb r 0)
  else Ret false.

(** slice.h:95 *)
Definition slice_ne (mc : N -> N -> Z) (m : mem) (x y : slice) : outcome bool :=
  let! r := slice_eq mc m x y in Ret (negb r).

(** slice.h:97-107 *)
Definition slice_compare (mc : N -> N -> Z) (m : mem) (s b : slice) : outcome Z :=
  let min_len := if Nat.ltb (s_size s) (s_size b) then s_size s else s_size b in
  let! r := memcmp mc m (s_data s) (s_data b) min_len in
  Ret (if Z.eqb r 0 then
         if Nat.ltb (s_size s) (s_size b) then (-1)%Z
         else if Nat.ltb (s_size b) (s_size s) then 1%Z
         else r
       else r).
