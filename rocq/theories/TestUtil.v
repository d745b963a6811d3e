(** TestUtil.v -- model of util/test_util.cc.

    The Random object is its seed (Random.v).  [len] is a natural number: a
    negative int makes std::string::resize() throw, or the loop of RandomKey do
    nothing.  The two-argument RandomString declared in test_util.h:33 has no
    definition; the functions here call the three-argument one. *)
From Coq Require Import List Arith NArith ZArith Lia Bool.
From Verif Require Import Outcome Random.
Import ListNotations.
Local Open Scope outcome_scope.

(** dst[i] = c *)
Fixpoint set_char (s : list N) (i : nat) (c : N) : list N :=
  match s, i with
  | [], _ => []
  | _ :: s', O => c :: s'
  | b :: s', S i' => b :: set_char s' i' c
  end.
(** test_util.cc:16-18, the loop, [k] rounds from [i] on *)
Fixpoint fill (k i : nat) (seed : N) (dst : list N) : outcome (N * list N) :=
  match k with
  | O => Ret (seed, dst)
  | S k' =>
      let! (r, seed) := Random_Uniform seed 95 in
      fill k' (S i) seed (set_char dst i (32 + r)%N)
  end.
(** RandomString, test_util.cc:14-20; resize() fills with zeros *)
Definition RandomString (seed : N) (len : nat) : outcome (N * list N) :=
  fill len 0 seed (repeat 0%N len).

(** test_util.cc:25-26 *)
Definition kTestChars : list N := [0; 1; 97; 98; 99; 100; 101; 253; 254; 255]%N.
(** RandomKey, test_util.cc:22-32; indexing outside the array is UB *)
Fixpoint random_key_loop (k : nat) (seed : N) (result : list N) : outcome (N * list N) :=
  match k with
  | O => Ret (seed, result)
  | S k' =>
      let! (r, seed) := Random_Uniform seed (Z.of_nat (length kTestChars)) in
      match nth_error kTestChars (N.to_nat r) with
      | Some c => random_key_loop k' seed (result ++ [c])
      | None => UB
      end
  end.
Definition RandomKey (seed : N) (len : nat) : outcome (N * list N) := random_key_loop len seed [].

(** CompressibleString, test_util.cc:34-46.  [product]: what
    static_cast<int>(len * compressed_function) gives (floating point is not
    modelled; any int).  The loop of 41-43 runs at most [fuel] times. *)
Fixpoint duplicate (fuel : nat) (len : nat) (raw_data dst : list N) : outcome (list N) :=
  if length dst <? len then
    match fuel with
    | O => OutOfFuel
    | S fuel' => duplicate fuel' len raw_data (dst ++ raw_data)
    end
  else Ret dst.
Definition CompressibleString (fuel : nat) (seed : N) (product : Z) (len : nat) : outcome (N * list N) :=
  let raw := if (product <? 1)%Z then 1%Z else product in
  let! (seed, raw_data) := RandomString seed (Z.to_nat raw) in
  let! dst := duplicate fuel len raw_data [] in
  Ret (seed, firstn len dst ++ repeat 0%N (len - length dst)).
