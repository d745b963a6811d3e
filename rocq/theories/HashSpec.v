(** HashSpec.v -- the word/tail formula, on byte strings. *)
From Coq Require Import List NArith Lia.
From Verif Require Import CodingSpec.
Import ListNotations.
Local Open Scope N_scope.

Definition mult : N := 0xc6a4a793.

(** mix a 32-bit number into the state: add, multiply, xor with itself shifted *)
Definition mix (shift h w : N) : N :=
  let x := ((h + w) * mult) mod 2 ^ 32 in N.lxor x (x / 2 ^ shift).

(** absorb all whole little-endian 4-byte words, then the 1-3 byte tail *)
Fixpoint absorb (bs : list N) (h : N) : N :=
  match bs with
  | b0 :: b1 :: b2 :: b3 :: rest => absorb rest (mix 16 h (le_value [b0; b1; b2; b3]))
  | [] => h
  | tail => mix 24 h (le_value tail)
  end.

Definition hash_spec (bs : list N) (seed : N) : N :=
  absorb bs (N.lxor seed ((N.of_nat (length bs) * mult) mod 2 ^ 32)).
