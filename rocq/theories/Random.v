(** Random.v -- model of util/random.h.  The object is its seed_ (uint32_t). *)
From Coq Require Import List NArith ZArith Lia Bool.
From Verif Require Import Outcome.
Import ListNotations.
Local Open Scope N_scope.

(** util/random.h:20-25 *)
Definition Random_new (s : N) : N :=
  let seed := N.land s 0x7fffffff in
  if (seed =? 0) || (seed =? 2147483647) then 1 else seed.

(** util/random.h:27-47.  Returns (result, new seed_). *)
Definition Random_Next (seed : N) : N * N :=
  let M := 2147483647 in
  let A := 16807 in
  let product := u64 (seed * A) in
  let seed := u32 (N.shiftr product 31 + N.land product M) in
  let seed := if M <? seed then u32 (seed + 2 ^ 32 - M) else seed in
  (seed, seed).

(** util/random.h:51; [n] is an int, converted to unsigned by the arithmetic
    conversions of [Next() % n]; n = 0 is UB *)
Definition Random_Uniform (seed : N) (n : Z) : outcome (N * N) :=
  let '(x, seed) := Random_Next seed in
  let un := Z.to_N (n mod 2 ^ 32) in
  if un =? 0 then UB else Ret (x mod un, seed).

(** util/random.h:55 *)
Definition Random_OneIn (seed : N) (n : Z) : outcome (bool * N) :=
  let '(x, seed) := Random_Next seed in
  let un := Z.to_N (n mod 2 ^ 32) in
  if un =? 0 then UB else Ret (x mod un =? 0, seed).

(** util/random.h:60; shifting 1 (an int) by 31 or more is UB *)
Definition Random_Skewed (seed : N) (max_log : Z) : outcome (N * N) :=
  match Random_Uniform seed (max_log + 1) with
  | Ret (k, seed) =>
      if 31 <=? k then UB else Random_Uniform seed (2 ^ Z.of_N k)
  | UB => UB | AssertFail => AssertFail | OutOfFuel => OutOfFuel
  end.

(** n successive calls of Next: the results, oldest first, and the final state *)
Fixpoint Random_draws (n : nat) (seed : N) : list N :=
  match n with
  | O => []
  | S n' => let '(x, seed) := Random_Next seed in x :: Random_draws n' seed
  end.
