(** SliceSpec.v -- the unsigned lexicographic order on byte strings. *)
From Coq Require Import List NArith ZArith Lia.
Import ListNotations.

(** x < y: a proper prefix is smaller; otherwise the first differing byte decides *)
Definition lex_lt (x y : list N) : Prop :=
  (exists c t, y = x ++ c :: t) \/
  (exists p a b x' y', x = p ++ a :: x' /\ y = p ++ b :: y' /\ (a < b)%N).

(** what libc's memcmp returns on the first pair of differing bytes: only the
    sign is specified *)
Definition memcmp_sign (mc : N -> N -> Z) : Prop :=
  forall a b, ((a < b)%N -> (mc a b < 0)%Z) /\ ((b < a)%N -> (mc a b > 0)%Z).
