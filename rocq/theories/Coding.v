(** Coding.v -- model of util/coding.h and util/coding.cc.

    Two kinds of memory:
    - read-only byte memory [mem = list N], a pointer being an index into it;
      reading outside is UB;
    - a stack buffer [sbuf = list (option N)], [None] being an uninitialised
      byte; writing outside it, or copying out an uninitialised byte, is UB.
    Pointers into one memory are compared as indices. *)
From Coq Require Import List NArith Lia Bool.
From Verif Require Import Outcome.
Import ListNotations.
Local Open Scope N_scope.
Local Open Scope outcome_scope.

Definition mem := list N.
Definition sbuf := list (option N).

(** *p (as const uint8_t* ) *)
Definition load (m : mem) (p : nat) : outcome N :=
  match nth_error m p with Some b => Ret b | None => UB end.

(** dst[p] = b *)
Fixpoint store (m : sbuf) (p : nat) (b : N) : outcome sbuf :=
  match m, p with
  | [], _ => UB
  | _ :: t, O => Ret (Some b :: t)
  | c :: t, S p' => let! t' := store t p' b in Ret (c :: t')
  end.

(** char buf[n]; -- uninitialised *)
Definition stack_buf (n : nat) : sbuf := repeat None n.

(** Read n cells of a stack buffer from its start (memcpy source of
    std::string::append(buf, n)); reading past the end or an uninitialised
    byte is UB. *)
Fixpoint buf_read (m : sbuf) (n : nat) {struct n} : outcome (list N) :=
  match n, m with
  | O, _ => Ret []
  | S n', Some b :: t => let! r := buf_read t n' in Ret (b :: r)
  | S _, None :: _ => UB
  | S _, [] => UB
  end.

(** dst->append(buf, n), util/coding.cc:12 *)
Definition append_buf (dst : list N) (m : sbuf) (n : nat) : outcome (list N) :=
  let! r := buf_read m n in Ret (dst ++ r).

(** util/coding.h:53-61 *)
Definition EncodeFixed32 (m : sbuf) (dst : nat) (value : N) : outcome sbuf :=
  let! m := store m (dst + 0) (u8 value) in
  let! m := store m (dst + 1) (u8 (N.shiftr value 8)) in
  let! m := store m (dst + 2) (u8 (N.shiftr value 16)) in
  let! m := store m (dst + 3) (u8 (N.shiftr value 24)) in
  Ret m.

(** util/coding.h:63-75 *)
Definition EncodeFixed64 (m : sbuf) (dst : nat) (value : N) : outcome sbuf :=
  let! m := store m (dst + 0) (u8 value) in
  let! m := store m (dst + 1) (u8 (N.shiftr value 8)) in
  let! m := store m (dst + 2) (u8 (N.shiftr value 16)) in
  let! m := store m (dst + 3) (u8 (N.shiftr value 24)) in
  let! m := store m (dst + 4) (u8 (N.shiftr value 32)) in
  let! m := store m (dst + 5) (u8 (N.shiftr value 40)) in
  let! m := store m (dst + 6) (u8 (N.shiftr value 48)) in
  let! m := store m (dst + 7) (u8 (N.shiftr value 56)) in
  Ret m.

(** util/coding.h:80-88; each operand is a uint32_t, so shifts wrap *)
Definition DecodeFixed32 (m : mem) (ptr : nat) : outcome N :=
  let! b0 := load m (ptr + 0) in
  let! b1 := load m (ptr + 1) in
  let! b2 := load m (ptr + 2) in
  let! b3 := load m (ptr + 3) in
  Ret (N.lor (N.lor (N.lor b0 (u32 (N.shiftl b1 8)))
                    (u32 (N.shiftl b2 16)))
             (u32 (N.shiftl b3 24))).

(** util/coding.h:90-102 *)
Definition DecodeFixed64 (m : mem) (ptr : nat) : outcome N :=
  let! b0 := load m (ptr + 0) in
  let! b1 := load m (ptr + 1) in
  let! b2 := load m (ptr + 2) in
  let! b3 := load m (ptr + 3) in
  let! b4 := load m (ptr + 4) in
  let! b5 := load m (ptr + 5) in
  let! b6 := load m (ptr + 6) in
  let! b7 := load m (ptr + 7) in
  Ret (N.lor (N.lor (N.lor (N.lor (N.lor (N.lor (N.lor b0
        (u64 (N.shiftl b1 8))) (u64 (N.shiftl b2 16))) (u64 (N.shiftl b3 24)))
        (u64 (N.shiftl b4 32))) (u64 (N.shiftl b5 40))) (u64 (N.shiftl b6 48)))
        (u64 (N.shiftl b7 56))).

(** util/coding.cc:9-13 *)
Definition PutFixed32 (dst : list N) (value : N) : outcome (list N) :=
  let! buf := EncodeFixed32 (stack_buf 4) 0 value in
  append_buf dst buf 4.

(** util/coding.cc:15-19 *)
Definition PutFixed64 (dst : list N) (value : N) : outcome (list N) :=
  let! buf := EncodeFixed64 (stack_buf 8) 0 value in
  append_buf dst buf 8.

(** util/coding.cc:21-47; returns the buffer and the advanced pointer *)
Definition EncodeVarint32 (m : sbuf) (dst : nat) (v : N) : outcome (sbuf * nat) :=
  let B := 128 in
  if v <? 2 ^ 7 then
    let! m := store m dst (u8 v) in
    Ret (m, dst + 1)%nat
  else if v <? 2 ^ 14 then
    let! m := store m dst (u8 (N.lor v B)) in
    let! m := store m (dst + 1) (u8 (N.shiftr v 7)) in
    Ret (m, dst + 2)%nat
  else if v <? 2 ^ 21 then
    let! m := store m dst (u8 (N.lor v B)) in
    let! m := store m (dst + 1) (u8 (N.lor (N.shiftr v 7) B)) in
    let! m := store m (dst + 2) (u8 (N.shiftr v 14)) in
    Ret (m, dst + 3)%nat
  else if v <? 2 ^ 28 then
    let! m := store m dst (u8 (N.lor v B)) in
    let! m := store m (dst + 1) (u8 (N.lor (N.shiftr v 7) B)) in
    let! m := store m (dst + 2) (u8 (N.lor (N.shiftr v 14) B)) in
    let! m := store m (dst + 3) (u8 (N.shiftr v 21)) in
    Ret (m, dst + 4)%nat
  else
    let! m := store m dst (u8 (N.lor v B)) in
    let! m := store m (dst + 1) (u8 (N.lor (N.shiftr v 7) B)) in
    let! m := store m (dst + 2) (u8 (N.lor (N.shiftr v 14) B)) in
    let! m := store m (dst + 3) (u8 (N.lor (N.shiftr v 21) B)) in
    let! m := store m (dst + 4) (u8 (N.shiftr v 28)) in
    Ret (m, dst + 5)%nat.

(** util/coding.cc:49-53 *)
Definition PutVarint32 (dst : list N) (v : N) : outcome (list N) :=
  let! (buf, ptr) := EncodeVarint32 (stack_buf 5) 0 v in
  append_buf dst buf ptr.

(** util/coding.cc:55-64; the while loop with explicit fuel *)
Fixpoint EncodeVarint64_loop (fuel : nat) (m : sbuf) (ptr : nat) (v : N)
  : outcome (sbuf * nat) :=
  match fuel with
  | O => OutOfFuel
  | S fuel' =>
      if 128 <=? v then
        let! m := store m ptr (u8 (N.lor v 128)) in
        EncodeVarint64_loop fuel' m (ptr + 1)%nat (N.shiftr v 7)
      else
        let! m := store m ptr (u8 v) in
        Ret (m, ptr + 1)%nat
  end.

Definition EncodeVarint64 (m : sbuf) (dst : nat) (v : N) : outcome (sbuf * nat) :=
  EncodeVarint64_loop (S (N.to_nat (N.size v))) m dst v.

(** util/coding.cc:66-70 *)
Definition PutVarint64 (dst : list N) (v : N) : outcome (list N) :=
  let! (buf, ptr) := EncodeVarint64 (stack_buf 10) 0 v in
  append_buf dst buf ptr.

(** util/coding.cc:72-75; value.size() (size_t) is converted to uint32_t.
    Simplification: the slice does not point into *dst (otherwise the first
    append may invalidate it). *)
Definition PutLengthPrefixedSlice (dst : list N) (value : list N) : outcome (list N) :=
  let! dst := PutVarint32 dst (u32 (N.of_nat (length value))) in
  Ret (dst ++ value).

(** util/coding.cc:77-84 *)
Fixpoint VarintLength_loop (fuel : nat) (v : N) (len : N) : outcome N :=
  match fuel with
  | O => OutOfFuel
  | S fuel' =>
      if 128 <=? v then VarintLength_loop fuel' (N.shiftr v 7) (len + 1)
      else Ret len
  end.

Definition VarintLength (v : N) : outcome N :=
  VarintLength_loop (S (N.to_nat (N.size v))) v 1.

(** util/coding.cc:86-102.  [Ret None] is a nullptr result; otherwise the
    advanced pointer and the value stored in *value. *)
Fixpoint GetVarint32PtrFallback_loop (fuel : nat) (m : mem) (p limit : nat)
    (shift result : N) : outcome (option (nat * N)) :=
  match fuel with
  | O => OutOfFuel
  | S fuel' =>
      if (shift <=? 28) && Nat.ltb p limit then
        let! byte := load m p in
        let p := (p + 1)%nat in
        if negb (N.land byte 128 =? 0) then
          GetVarint32PtrFallback_loop fuel' m p limit (shift + 7)
            (N.lor result (u32 (N.shiftl (N.land byte 127) shift)))
        else
          Ret (Some (p, N.lor result (u32 (N.shiftl byte shift))))
      else Ret None
  end.

Definition GetVarint32PtrFallback (m : mem) (p limit : nat)
  : outcome (option (nat * N)) :=
  GetVarint32PtrFallback_loop 6 m p limit 0 0.

(** util/coding.h:107-117 *)
Definition GetVarint32Ptr (m : mem) (p limit : nat) : outcome (option (nat * N)) :=
  if Nat.ltb p limit then
    let! result := load m p in
    if N.land result 128 =? 0 then Ret (Some ((p + 1)%nat, result))
    else GetVarint32PtrFallback m p limit
  else GetVarint32PtrFallback m p limit.

(** include/lsmdb/slice.h:24-30,85-88: a Slice is (data_, size_) *)
Record slice := mk_slice { s_data : nat; s_size : nat }.

(** include/lsmdb/slice.h:65-69 (here: the n <= size() precondition is
    asserted; without assertions size_ -= n would wrap, modelled as UB) *)
Definition remove_prefix (s : slice) (n : nat) : outcome slice :=
  if Nat.leb n (s_size s) then Ret (mk_slice (s_data s + n) (s_size s - n)) else UB.

(** util/coding.cc:104-114.  Returns (result, *input, *value). *)
Definition GetVarint32 (m : mem) (input : slice) (value : N)
  : outcome (bool * slice * N) :=
  let p := s_data input in
  let limit := (p + s_size input)%nat in
  let! q := GetVarint32Ptr m p limit in
  match q with
  | None => Ret (false, input, value)
  | Some (q, v) => Ret (true, mk_slice q (limit - q), v)
  end.

(** util/coding.cc:116-131 *)
Fixpoint GetVarint64Ptr_loop (fuel : nat) (m : mem) (p limit : nat)
    (shift result : N) : outcome (option (nat * N)) :=
  match fuel with
  | O => OutOfFuel
  | S fuel' =>
      if (shift <=? 63) && Nat.ltb p limit then
        let! byte := load m p in
        let p := (p + 1)%nat in
        if negb (N.land byte 128 =? 0) then
          GetVarint64Ptr_loop fuel' m p limit (shift + 7)
            (N.lor result (u64 (N.shiftl (N.land byte 127) shift)))
        else
          Ret (Some (p, N.lor result (u64 (N.shiftl byte shift))))
      else Ret None
  end.

Definition GetVarint64Ptr (m : mem) (p limit : nat) : outcome (option (nat * N)) :=
  GetVarint64Ptr_loop 11 m p limit 0 0.

(** util/coding.cc:133-143 *)
Definition GetVarint64 (m : mem) (input : slice) (value : N)
  : outcome (bool * slice * N) :=
  let p := s_data input in
  let limit := (p + s_size input)%nat in
  let! q := GetVarint64Ptr m p limit in
  match q with
  | None => Ret (false, input, value)
  | Some (q, v) => Ret (true, mk_slice q (limit - q), v)
  end.

(** util/coding.cc:155-164.  Returns (returned bool, *input, *result). *)
Definition GetLengthPrefixedSlice (m : mem) (input result : slice)
  : outcome (bool * slice * slice) :=
  let! (ok, input, len) := GetVarint32 m input 0 in
  if ok && (len <=? N.of_nat (s_size input)) then
    let result := mk_slice (s_data input) (N.to_nat len) in
    let! input := remove_prefix input (N.to_nat len) in
    Ret (true, input, result)
  else Ret (false, input, result).

(** util/coding.cc:145-153, the pointer overload.  Here the comparison
    [p + len > limit] is on machine addresses: [base] is the address of
    memory index 0 and sums wrap modulo 2^64. *)
Definition GetLengthPrefixedSlicePtr (base : N) (m : mem) (p limit : nat)
    (result : slice) : outcome (option nat * slice) :=
  let! q := GetVarint32Ptr m p limit in
  match q with
  | None => Ret (None, result)
  | Some (p, len) =>
      if u64 (base + N.of_nat limit) <? u64 (base + N.of_nat p + len)
      then Ret (None, result)
      else Ret (Some (p + N.to_nat len)%nat, mk_slice p (N.to_nat len))
  end.
