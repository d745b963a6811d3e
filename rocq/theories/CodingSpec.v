(** CodingSpec.v -- what the encodings are supposed to be, independently of
    the code: little-endian blocks, base-128 digits, views of memory. *)
From Coq Require Import List NArith Lia Bool.
From Verif Require Import Outcome.
Import ListNotations.
Local Open Scope N_scope.

(** n-byte little-endian block of v: byte i is floor(v/256^i) mod 256 *)
Definition le_block (n : nat) (v : N) : list N :=
  map (fun i => (v / 256 ^ N.of_nat i) mod 256) (seq 0 n).

(** number denoted by an n-byte little-endian block *)
Fixpoint le_value (bs : list N) : N :=
  match bs with [] => 0 | b :: t => b + 256 * le_value t end.

(** number whose base-128 digits, least significant first, are the low seven
    bits of the given bytes *)
Fixpoint base128 (bs : list N) : N :=
  match bs with [] => 0 | b :: t => b mod 128 + 128 * base128 t end.

(** all bytes but the last have the top bit set (>= 128), the last has not *)
Definition varint_shape (bs : list N) : Prop :=
  exists init lst, bs = init ++ [lst] /\ Forall (fun b => 128 <= b < 256) init /\ lst < 128.

(** the canonical encoding of v: right shape, right value, no leading zero
    digit (unless it is the only one) *)
Definition canonical_varint (v : N) (bs : list N) : Prop :=
  varint_shape bs /\ base128 bs = v /\ (last bs 0 = 0 -> length bs = 1%nat).

(** the bytes a view (start, size) denotes in memory *)
Definition bytes_at (m : list N) (start size : nat) : list N :=
  firstn size (skipn start m).

(** A record is a sequence of fields of the five encodable kinds. *)
Inductive field :=
| F32 (v : N) | F64 (v : N) | V32 (v : N) | V64 (v : N) | LP (bs : list N).

Inductive kind := K32 | K64 | KV32 | KV64 | KLP.

Definition kind_of (f : field) : kind :=
  match f with F32 _ => K32 | F64 _ => K64 | V32 _ => KV32 | V64 _ => KV64 | LP _ => KLP end.

Definition field_ok (f : field) : Prop :=
  match f with
  | F32 v | V32 v => v < 2 ^ 32
  | F64 v | V64 v => v < 2 ^ 64
  | LP bs => bytes_ok bs /\ N.of_nat (length bs) < 2 ^ 32
  end.
