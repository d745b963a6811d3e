(** LoggingSpec.v -- decimal numerals and escaped text. *)
From Coq Require Import List NArith Lia Bool.
Import ListNotations.
Local Open Scope N_scope.

Definition is_digit (b : N) : Prop := 48 <= b <= 57.   (* '0'..'9' *)

(** the number a digit string denotes, most significant digit first *)
Definition dec_value (ds : list N) : N := fold_left (fun acc d => 10 * acc + (d - 48)) ds 0.

(** [ds] is the decimal numeral of [n]: digits only, no leading zero except "0" *)
Definition numeral (n : N) (ds : list N) : Prop :=
  ds <> [] /\ Forall is_digit ds /\ dec_value ds = n /\ (hd 0 ds = 48 -> ds = [48]).

Definition starts_with_digit (bs : list N) : Prop := exists d t, bs = d :: t /\ is_digit d.

(** escaping: printable ASCII stands for itself, any other byte b becomes
    backslash, x, and the two lower-case hexadecimal digits of b *)
Definition printable (b : N) : Prop := 32 <= b <= 126.
Definition hex_char (d : N) : N := nth (N.to_nat d) [48;49;50;51;52;53;54;55;56;57;97;98;99;100;101;102] 0.
Definition escape_byte (b : N) : list N :=
  if (32 <=? b) && (b <=? 126) then [b] else [92; 120; hex_char (b / 16); hex_char (b mod 16)].
Definition escape_spec (bs : list N) : list N := flat_map escape_byte bs.
