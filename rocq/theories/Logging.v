(** Logging.v -- model of util/logging.cc *)
From Coq Require Import List NArith ZArith Lia Bool.
From Verif Require Import Outcome Coding Slice.
Import ListNotations.
Local Open Scope N_scope.
Local Open Scope outcome_scope.

(** libc: the text printf produces for "%llu" *)
Fixpoint print_llu_fuel (fuel : nat) (n : N) (acc : list N) : list N :=
  match fuel with
  | O => acc
  | S f => let acc := (48 + n mod 10) :: acc in
           if n / 10 =? 0 then acc else print_llu_fuel f (n / 10) acc
  end.
Definition print_llu (n : N) : list N := print_llu_fuel (S (N.to_nat (N.size n))) n [].

(** libc: the text printf produces for "%02x" of a number below 256 *)
Definition hex_digit (d : N) : N := if d <? 10 then 48 + d else 87 + d.
Definition print_02x (n : N) : list N := [hex_digit (n / 16); hex_digit (n mod 16)].

(** libc: snprintf(buf, size, ...) into a zero-initialised char buf[size]:
    at most size-1 characters of the text, then NUL; the rest stays zero *)
Definition snprintf_buf (size : nat) (text : list N) : list N :=
  let t := firstn (size - 1) text in t ++ repeat 0 (size - length t).

(** std::string::append(const char* ): the bytes before the first NUL; no NUL
    in the buffer would be a read past its end *)
Definition append_cstr (str buf : list N) : outcome (list N) :=
  match strlen_list buf with
  | Some k => Ret (str ++ firstn k buf)
  | None => UB
  end.

(** util/logging.cc:16-20 *)
Definition AppendNumberTo (str : list N) (num : N) : outcome (list N) :=
  let buf := snprintf_buf 30 (print_llu num) in
  append_cstr str buf.

(** util/logging.cc:36-40 *)
Definition NumberToString (num : N) : outcome (list N) := AppendNumberTo [] num.

(** the value of a char holding byte [b]; whether char is signed is
    implementation-defined ([sgn]) *)
Definition char_value (sgn : bool) (b : N) : Z :=
  if sgn && (128 <=? b) then (Z.of_N b - 256)%Z else Z.of_N b.

(** util/logging.cc:22-34: one iteration.  static_cast<unsigned int>(c) & 0xff
    is computed modulo 2^32. *)
Definition escape_step (sgn : bool) (str : list N) (b : N) : outcome (list N) :=
  let c := char_value sgn b in
  if (32 <=? c)%Z && (c <=? 126)%Z then Ret (str ++ [b])
  else
    let u := N.land (Z.to_N (c mod 2 ^ 32)) 255 in
    append_cstr str (snprintf_buf 10 ([92; 120] ++ print_02x u)).

Fixpoint escape_loop (sgn dbg : bool) (m : mem) (value : slice) (fuel i : nat) (str : list N)
  : outcome (list N) :=
  match fuel with
  | O => OutOfFuel
  | S fuel' =>
      if Nat.ltb i (s_size value) then
        let! b := slice_index dbg m value i in
        let! str := escape_step sgn str b in
        escape_loop sgn dbg m value fuel' (i + 1) str
      else Ret str
  end.
Definition AppendEscapedStringTo (sgn dbg : bool) (m : mem) (str : list N) (value : slice)
  : outcome (list N) :=
  escape_loop sgn dbg m value (S (s_size value)) 0 str.

(** util/logging.cc:42-46 *)
Definition EscapeString (sgn dbg : bool) (m : mem) (value : slice) : outcome (list N) :=
  AppendEscapedStringTo sgn dbg m [] value.

(** util/logging.cc:50-52 *)
Definition kMaxUint64 : N := 2 ^ 64 - 1.
Definition kLastDigitOfMaxUint64 : N := 48 + kMaxUint64 mod 10.

(** util/logging.cc:61-74; [None] is the early "return false" *)
Fixpoint consume_loop (fuel : nat) (m : mem) (current end_ : nat) (value : N)
  : outcome (option (nat * N)) :=
  match fuel with
  | O => OutOfFuel
  | S fuel' =>
      if Nat.eqb current end_ then Ret (Some (current, value))
      else
        let! ch := load m current in
        if (ch <? 48) || (57 <? ch) then Ret (Some (current, value))
        else if (kMaxUint64 / 10 <? value)
                || ((value =? kMaxUint64 / 10) && (kLastDigitOfMaxUint64 <? ch))
        then Ret None
        else consume_loop fuel' m (current + 1) end_ (u64 (u64 (value * 10) + (ch - 48)))
  end.

(** util/logging.cc:48-80.  Returns (returned bool, *in, *val). *)
Definition ConsumeDecimalNumber (dbg : bool) (m : mem) (in_ : slice) (val : N)
  : outcome (bool * slice * N) :=
  let start := s_data in_ in
  let end_ := (start + s_size in_)%nat in
  let! r := consume_loop (S (s_size in_)) m start end_ 0 in
  match r with
  | None => Ret (false, in_, val)
  | Some (current, value) =>
      let digits_consumed := (current - start)%nat in
      let! in_ := slice_remove_prefix dbg in_ digits_consumed in
      Ret (negb (Nat.eqb digits_consumed 0), in_, value)
  end.
