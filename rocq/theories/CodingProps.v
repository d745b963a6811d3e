(** CodingProps.v -- the property theorems for util/coding (C01-C08). *)
From Coq Require Import List NArith Arith Lia Bool ZArith ZifyN ZifyNat ZifyBool.
From Verif Require Import Outcome Coding CodingSpec CodingProofs.
Import ListNotations.
Local Open Scope N_scope.
Local Open Scope outcome_scope.
Ltac Zify.zify_post_hook ::= Z.div_mod_to_equations.
Local Opaque venc.

(** ** C01 *)
Theorem C01_fixed32_roundtrip : forall dst v pre post,
  v < 2 ^ 32 ->
  exists block,
    PutFixed32 dst v = Ret (dst ++ block) /\
    length block = 4%nat /\
    (forall i, (i < 4)%nat -> nth i block 0 = (v / 256 ^ N.of_nat i) mod 256) /\
    DecodeFixed32 (pre ++ block ++ post) (length pre) = Ret v.
Proof.
  intros dst v pre post Hv. exists (le_block 4 v).
  split; [exact (PutFixed32_spec dst v Hv)|].
  split; [apply le_block_length|].
  split; [|exact (DecodeFixed32_spec pre v post Hv)].
  intros i Hi. do 4 (destruct i as [|i]; [reflexivity|]). lia.
Qed.
Print Assumptions C01_fixed32_roundtrip.

Theorem C01_fixed64_roundtrip : forall dst v pre post,
  v < 2 ^ 64 ->
  exists block,
    PutFixed64 dst v = Ret (dst ++ block) /\
    length block = 8%nat /\
    (forall i, (i < 8)%nat -> nth i block 0 = (v / 256 ^ N.of_nat i) mod 256) /\
    DecodeFixed64 (pre ++ block ++ post) (length pre) = Ret v.
Proof.
  intros dst v pre post Hv. exists (le_block 8 v).
  split; [exact (PutFixed64_spec dst v Hv)|].
  split; [apply le_block_length|].
  split; [|exact (DecodeFixed64_spec pre v post Hv)].
  intros i Hi. do 8 (destruct i as [|i]; [reflexivity|]). lia.
Qed.
Print Assumptions C01_fixed64_roundtrip.

(** Conversely decoding any 4 (8) bytes and re-encoding gives the same bytes. *)
Theorem C01_fixed32_converse : forall dst block pre post,
  bytes_ok block -> length block = 4%nat ->
  exists v, v < 2 ^ 32 /\
    DecodeFixed32 (pre ++ block ++ post) (length pre) = Ret v /\
    PutFixed32 dst v = Ret (dst ++ block).
Proof.
  intros dst block pre post Hok Hlen.
  destruct block as [|b0 [|b1 [|b2 [|b3 [|? ?]]]]]; try discriminate.
  destruct (le_block_value4 b0 b1 b2 b3 Hok) as [E Hlt].
  exists (le_value [b0; b1; b2; b3]). split; [exact Hlt|].
  split; [exact (DecodeFixed32_bytes pre b0 b1 b2 b3 post Hok)|].
  rewrite PutFixed32_spec by exact Hlt. rewrite E. reflexivity.
Qed.
Print Assumptions C01_fixed32_converse.

Theorem C01_fixed64_converse : forall dst block pre post,
  bytes_ok block -> length block = 8%nat ->
  exists v, v < 2 ^ 64 /\
    DecodeFixed64 (pre ++ block ++ post) (length pre) = Ret v /\
    PutFixed64 dst v = Ret (dst ++ block).
Proof.
  intros dst block pre post Hok Hlen.
  destruct block as [|b0 [|b1 [|b2 [|b3 [|b4 [|b5 [|b6 [|b7 [|? ?]]]]]]]]]; try discriminate.
  destruct (le_block_value8 b0 b1 b2 b3 b4 b5 b6 b7 Hok) as [E Hlt].
  exists (le_value [b0; b1; b2; b3; b4; b5; b6; b7]). split; [exact Hlt|].
  split; [exact (DecodeFixed64_bytes pre b0 b1 b2 b3 b4 b5 b6 b7 post Hok)|].
  rewrite PutFixed64_spec by exact Hlt. rewrite E. reflexivity.
Qed.
Print Assumptions C01_fixed64_converse.

Example C01_case :
  PutFixed32 [7] 305419896 = Ret [7; 120; 86; 52; 18] /\
  DecodeFixed32 [7; 120; 86; 52; 18; 9] 1 = Ret 305419896 /\
  PutFixed64 [] (2 ^ 63 + 1) = Ret [1; 0; 0; 0; 0; 0; 0; 128].
Proof. repeat split; vm_compute; reflexivity. Qed.

(** ** C02 *)
Theorem C02_varint32_roundtrip : forall dst v pre post old,
  v < 2 ^ 32 -> bytes_ok pre -> bytes_ok post ->
  exists enc,
    PutVarint32 dst v = Ret (dst ++ enc) /\
    GetVarint32 (pre ++ enc ++ post) (mk_slice (length pre) (length enc + length post)) old
      = Ret (true, mk_slice (length pre + length enc) (length post), v) /\
    bytes_at (pre ++ enc ++ post) (length pre + length enc) (length post) = post.
Proof.
  intros dst v pre post old Hv Hpre Hpost. exists (venc v).
  split; [exact (PutVarint32_spec dst v Hv)|].
  split; [exact (GetVarint32_roundtrip pre v post old Hv Hpre Hpost)|].
  exact (bytes_at_tail pre (venc v) post).
Qed.
Print Assumptions C02_varint32_roundtrip.

Theorem C02_varint64_roundtrip : forall dst v pre post old,
  v < 2 ^ 64 -> bytes_ok pre -> bytes_ok post ->
  exists enc,
    PutVarint64 dst v = Ret (dst ++ enc) /\
    GetVarint64 (pre ++ enc ++ post) (mk_slice (length pre) (length enc + length post)) old
      = Ret (true, mk_slice (length pre + length enc) (length post), v) /\
    bytes_at (pre ++ enc ++ post) (length pre + length enc) (length post) = post.
Proof.
  intros dst v pre post old Hv Hpre Hpost. exists (venc v).
  split; [exact (PutVarint64_spec dst v Hv)|].
  split; [exact (GetVarint64_roundtrip pre v post old Hv Hpre Hpost)|].
  exact (bytes_at_tail pre (venc v) post).
Qed.
Print Assumptions C02_varint64_roundtrip.

Example C02_case :
  PutVarint32 [1] 300 = Ret [1; 172; 2] /\
  GetVarint32 [1; 172; 2; 99] (mk_slice 1 3) 0 = Ret (true, mk_slice 3 1, 300) /\
  PutVarint64 [] (2 ^ 64 - 1) = Ret [255; 255; 255; 255; 255; 255; 255; 255; 255; 1].
Proof. repeat split; vm_compute; reflexivity. Qed.

(** ** C03 *)
Theorem C03_varint32_canonical : forall dst v, v < 2 ^ 32 ->
  exists enc,
    PutVarint32 dst v = Ret (dst ++ enc) /\
    PutVarint64 dst v = Ret (dst ++ enc) /\
    canonical_varint v enc /\
    (forall enc', canonical_varint v enc' -> enc' = enc) /\
    VarintLength v = Ret (N.of_nat (length enc)) /\
    (1 <= length enc <= 5)%nat.
Proof.
  intros dst v Hv. exists (venc v).
  split; [exact (PutVarint32_spec dst v Hv)|].
  split; [apply (PutVarint64_spec dst v); change (2 ^ 32) with 4294967296 in Hv; change (2 ^ 64) with 18446744073709551616; lia|].
  split; [apply venc_canonical|]. split; [intros e He; apply canonical_unique, He|].
  split; [apply VarintLength_spec|].
  pose proof (venc_length32 v Hv). pose proof (venc_nonempty v).
  destruct (venc v); [congruence|cbn in *; lia].
Qed.
Print Assumptions C03_varint32_canonical.

Theorem C03_varint64_canonical : forall dst v, v < 2 ^ 64 ->
  exists enc,
    PutVarint64 dst v = Ret (dst ++ enc) /\
    canonical_varint v enc /\
    (forall enc', canonical_varint v enc' -> enc' = enc) /\
    VarintLength v = Ret (N.of_nat (length enc)) /\
    (1 <= length enc <= 10)%nat.
Proof.
  intros dst v Hv. exists (venc v).
  split; [exact (PutVarint64_spec dst v Hv)|].
  split; [apply venc_canonical|]. split; [intros e He; apply canonical_unique, He|].
  split; [apply VarintLength_spec|].
  pose proof (venc_length64 v Hv). pose proof (venc_nonempty v).
  destruct (venc v); [congruence|cbn in *; lia].
Qed.
Print Assumptions C03_varint64_canonical.

Example C03_case : canonical_varint 300 [172; 2] /\ VarintLength 300 = Ret 2.
Proof.
  split; [|vm_compute; reflexivity]. split.
  - exists [172], 2. repeat split; try lia. repeat constructor; lia.
  - split; [vm_compute; reflexivity|]. cbn. lia.
Qed.

(** ** C04 *)
(** [s] is any slice inside any memory; the bytes it shows either start with a
    varint-shaped group of at most 5 bytes, which is then decoded (its low
    seven bits, least significant group first, mod 2^32) and consumed, or they do
    not, and the read fails and changes nothing.  The model returns [UB] on a
    load outside memory; instantiating memory with exactly the slice's bytes
    shows no byte outside the slice is read. *)
Theorem C04_varint32_decode : forall m s old,
  bytes_ok m -> (s_data s + s_size s <= length m)%nat ->
  (forall enc rest,
     bytes_at m (s_data s) (s_size s) = enc ++ rest -> varint_shape enc -> (length enc <= 5)%nat ->
     GetVarint32 m s old
     = Ret (true, mk_slice (s_data s + length enc) (length rest), base128 enc mod 2 ^ 32)) /\
  ((forall enc rest,
     bytes_at m (s_data s) (s_size s) = enc ++ rest -> varint_shape enc -> (5 < length enc)%nat) ->
     GetVarint32 m s old = Ret (false, s, old)) /\
  ((exists enc rest, bytes_at m (s_data s) (s_size s) = enc ++ rest /\ varint_shape enc /\ (length enc <= 5)%nat)
   \/ (forall enc rest, bytes_at m (s_data s) (s_size s) = enc ++ rest -> varint_shape enc -> (5 < length enc)%nat)).
Proof.
  intros m s old Hm Hb. split; [|split].
  - intros enc rest E Hs Hl. exact (GetVarint32_ok m s enc rest old Hm Hb E Hs Hl).
  - exact (GetVarint32_fail m s old Hm Hb).
  - apply shape_prefix_dec, bytes_at_ok, Hm.
Qed.
Print Assumptions C04_varint32_decode.

Theorem C04_varint64_decode : forall m s old,
  bytes_ok m -> (s_data s + s_size s <= length m)%nat ->
  (forall enc rest,
     bytes_at m (s_data s) (s_size s) = enc ++ rest -> varint_shape enc -> (length enc <= 10)%nat ->
     GetVarint64 m s old
     = Ret (true, mk_slice (s_data s + length enc) (length rest), base128 enc mod 2 ^ 64)) /\
  ((forall enc rest,
     bytes_at m (s_data s) (s_size s) = enc ++ rest -> varint_shape enc -> (10 < length enc)%nat) ->
     GetVarint64 m s old = Ret (false, s, old)) /\
  ((exists enc rest, bytes_at m (s_data s) (s_size s) = enc ++ rest /\ varint_shape enc /\ (length enc <= 10)%nat)
   \/ (forall enc rest, bytes_at m (s_data s) (s_size s) = enc ++ rest -> varint_shape enc -> (10 < length enc)%nat)).
Proof.
  intros m s old Hm Hb. split; [|split].
  - intros enc rest E Hs Hl. exact (GetVarint64_ok m s enc rest old Hm Hb E Hs Hl).
  - exact (GetVarint64_fail m s old Hm Hb).
  - apply shape_prefix_dec, bytes_at_ok, Hm.
Qed.
Print Assumptions C04_varint64_decode.

(** an overlong five-byte encoding whose value exceeds 2^32 is accepted, mod 2^32 *)
Example C04_case :
  GetVarint32 [129; 128; 128; 128; 127; 5] (mk_slice 0 6) 0 = Ret (true, mk_slice 5 1, 4026531841) /\
  GetVarint32 [128; 128; 128; 128; 128; 1] (mk_slice 0 6) 7 = Ret (false, mk_slice 0 6, 7).
Proof. split; vm_compute; reflexivity. Qed.

(** ** C05 *)
Theorem C05_varint_failure_unchanged : forall m s old,
  bytes_ok m -> (s_data s + s_size s <= length m)%nat ->
  (exists s' v, GetVarint32 m s old = Ret (true, s', v)) \/ GetVarint32 m s old = Ret (false, s, old).
Proof.
  intros m s old Hm Hb. destruct (C04_varint32_decode m s old Hm Hb) as (H1 & H2 & [(e & r & E & Hs & Hl)|Hno]).
  - left. rewrite (H1 e r E Hs Hl). eauto.
  - right. exact (H2 Hno).
Qed.
Print Assumptions C05_varint_failure_unchanged.

Theorem C05_varint64_failure_unchanged : forall m s old,
  bytes_ok m -> (s_data s + s_size s <= length m)%nat ->
  (exists s' v, GetVarint64 m s old = Ret (true, s', v)) \/ GetVarint64 m s old = Ret (false, s, old).
Proof.
  intros m s old Hm Hb. destruct (C04_varint64_decode m s old Hm Hb) as (H1 & H2 & [(e & r & E & Hs & Hl)|Hno]).
  - left. rewrite (H1 e r E Hs Hl). eauto.
  - right. exact (H2 Hno).
Qed.
Print Assumptions C05_varint64_failure_unchanged.

(** every proper prefix of an encoding is rejected, wherever it lies in memory *)
Theorem C05_truncated_rejected : forall v part missing pre post old,
  bytes_ok pre -> bytes_ok post -> missing <> [] ->
  (v < 2 ^ 32 -> PutVarint32 [] v = Ret (part ++ missing) ->
   GetVarint32 (pre ++ part ++ post) (mk_slice (length pre) (length part)) old
   = Ret (false, mk_slice (length pre) (length part), old)) /\
  (v < 2 ^ 64 -> PutVarint64 [] v = Ret (part ++ missing) ->
   GetVarint64 (pre ++ part ++ post) (mk_slice (length pre) (length part)) old
   = Ret (false, mk_slice (length pre) (length part), old)).
Proof.
  intros v part missing pre post old Hpre Hpost Hmiss.
  assert (Hgen : venc v = part ++ missing ->
     bytes_ok (pre ++ part ++ post) /\
     (forall e r, bytes_at (pre ++ part ++ post) (length pre) (length part) = e ++ r -> ~ varint_shape e)).
  { intros E. split.
    - rewrite !bytes_ok_app. repeat split; try assumption.
      pose proof (venc_ok v) as Hv. rewrite E, bytes_ok_app in Hv. apply Hv.
    - intros e r. rewrite bytes_at_mid. intros Er.
      exact (proper_prefix_no_shape (venc v) part missing (venc_shape v) E Hmiss e r Er). }
  split; intros Hv HP.
  - rewrite PutVarint32_spec in HP by exact Hv. injection HP as E. cbn in E.
    destruct (Hgen E) as [Hok Hno].
    apply GetVarint32_fail; [exact Hok|unfold in_bounds; cbn; rewrite !app_length; lia|].
    intros e r Ee Hs. exfalso. exact (Hno e r Ee Hs).
  - rewrite PutVarint64_spec in HP by exact Hv. injection HP as E. cbn in E.
    destruct (Hgen E) as [Hok Hno].
    apply GetVarint64_fail; [exact Hok|unfold in_bounds; cbn; rewrite !app_length; lia|].
    intros e r Ee Hs. exfalso. exact (Hno e r Ee Hs).
Qed.
Print Assumptions C05_truncated_rejected.

Example C05_case :
  PutVarint32 [] 300 = Ret ([172] ++ [2]) /\
  GetVarint32 [172; 0] (mk_slice 0 1) 5 = Ret (false, mk_slice 0 1, 5).
Proof. split; vm_compute; reflexivity. Qed.

(** ** C06 *)
Theorem C06_length_prefixed_roundtrip : forall dst str pre post old,
  N.of_nat (length str) < 2 ^ 32 -> bytes_ok str -> bytes_ok pre -> bytes_ok post ->
  exists block start,
    PutLengthPrefixedSlice dst str = Ret (dst ++ block) /\
    GetLengthPrefixedSlice (pre ++ block ++ post) (mk_slice (length pre) (length block + length post)) old
      = Ret (true, mk_slice (length pre + length block) (length post), mk_slice start (length str)) /\
    bytes_at (pre ++ block ++ post) start (length str) = str /\
    bytes_at (pre ++ block ++ post) (length pre + length block) (length post) = post.
Proof.
  intros dst str pre post old Hlen Hstr Hpre Hpost.
  exact (LengthPrefixed_roundtrip dst str pre post old Hlen Hstr Hpre Hpost).
Qed.
Print Assumptions C06_length_prefixed_roundtrip.

(** The round trip fails for every string of 2^32 bytes or more: what is read
    back is a different, shorter string. *)
Theorem C06_length_prefixed_4GiB_refuted : forall str post,
  2 ^ 32 <= N.of_nat (length str) -> bytes_ok str -> bytes_ok post ->
  exists block, PutLengthPrefixedSlice [] str = Ret block /\
  exists rest result,
    GetLengthPrefixedSlice (block ++ post) (mk_slice 0 (length block + length post)) (mk_slice 0 0)
      = Ret (true, rest, result) /\
    (s_size result < length str)%nat.
Proof. exact LengthPrefixed_truncates. Qed.
Print Assumptions C06_length_prefixed_4GiB_refuted.

Example C06_case :
  PutLengthPrefixedSlice [9] [104; 105] = Ret [9; 2; 104; 105] /\
  GetLengthPrefixedSlice [9; 2; 104; 105; 7] (mk_slice 1 4) (mk_slice 0 0)
    = Ret (true, mk_slice 4 1, mk_slice 2 2).
Proof. split; vm_compute; reflexivity. Qed.

(** ** C07 *)
Theorem C07_length_prefixed_decode : forall m s old,
  bytes_ok m -> (s_data s + s_size s <= length m)%nat ->
  (* a length n is present and n bytes follow: success, adjacent parts *)
  (forall enc str rest,
     bytes_at m (s_data s) (s_size s) = enc ++ str ++ rest ->
     varint_shape enc -> (length enc <= 5)%nat -> N.of_nat (length str) = base128 enc mod 2 ^ 32 ->
     GetLengthPrefixedSlice m s old
     = Ret (true, mk_slice (s_data s + length enc + length str) (length rest),
            mk_slice (s_data s + length enc) (length str))) /\
  (* a length is present but too few bytes follow: failure, result unchanged,
     exactly the length prefix is consumed *)
  (forall enc rest,
     bytes_at m (s_data s) (s_size s) = enc ++ rest ->
     varint_shape enc -> (length enc <= 5)%nat -> N.of_nat (length rest) < base128 enc mod 2 ^ 32 ->
     GetLengthPrefixedSlice m s old
     = Ret (false, mk_slice (s_data s + length enc) (length rest), old)) /\
  (* no length: failure, nothing changes *)
  ((forall enc rest,
     bytes_at m (s_data s) (s_size s) = enc ++ rest -> varint_shape enc -> (5 < length enc)%nat) ->
   GetLengthPrefixedSlice m s old = Ret (false, s, old)) /\
  (* and these are all the cases: the call always returns *)
  (exists ok s' r', GetLengthPrefixedSlice m s old = Ret (ok, s', r')).
Proof. exact LengthPrefixed_decode. Qed.
Print Assumptions C07_length_prefixed_decode.

(** The pointer overload agrees with the Slice overload as long as
    [limit + 2^32] does not wrap the address space. *)
Theorem C07_pointer_overload : forall base m s old,
  bytes_ok m -> (s_data s + s_size s <= length m)%nat ->
  base + N.of_nat (length m) + 2 ^ 32 <= 2 ^ 64 ->
  GetLengthPrefixedSlicePtr base m (s_data s) (s_data s + s_size s) old
  = let! (ok, s', r') := GetLengthPrefixedSlice m s old in
    Ret (if ok then (Some (s_data s'), r') else (None, old)).
Proof. exact LengthPrefixedPtr_agrees. Qed.
Print Assumptions C07_pointer_overload.

(** ... and near the top of the address space it accepts a length that runs
    far past [limit]. *)
Theorem C07_pointer_overload_refuted : exists base m p limit old q r,
  bytes_ok m /\ (p <= limit <= length m)%nat /\ base + N.of_nat (length m) < 2 ^ 64 /\
  GetLengthPrefixedSlicePtr base m p limit old = Ret (Some q, r) /\
  (limit < s_data r + s_size r)%nat.
Proof.
  exists (2 ^ 64 - 100), [240; 1; 7], 0%nat, 3%nat, (mk_slice 0 0), 242%nat, (mk_slice 2 240).
  split; [repeat constructor; unfold byte_ok; lia|].
  split; [cbn; lia|]. split; [vm_compute; reflexivity|].
  split; [vm_compute; reflexivity|]. cbn. lia.
Qed.
Print Assumptions C07_pointer_overload_refuted.

Example C07_case :
  GetLengthPrefixedSlice [5; 104; 105] (mk_slice 0 3) (mk_slice 9 9)
    = Ret (false, mk_slice 1 2, mk_slice 9 9).
Proof. vm_compute; reflexivity. Qed.

(** ** C08 *)
(** client code: write a field / read a field of a given kind (fixed-width
    fields are read the way the library is used: check the size, DecodeFixed at
    data(), remove_prefix). *)
Definition put_field (dst : list N) (f : field) : outcome (list N) :=
  match f with
  | F32 v => PutFixed32 dst v | F64 v => PutFixed64 dst v
  | V32 v => PutVarint32 dst v | V64 v => PutVarint64 dst v
  | LP bs => PutLengthPrefixedSlice dst bs
  end.

Fixpoint put_record (dst : list N) (fs : list field) : outcome (list N) :=
  match fs with [] => Ret dst | f :: t => let! dst := put_field dst f in put_record dst t end.

Definition get_field (m : mem) (s : slice) (k : kind) : outcome (option (field * slice)) :=
  match k with
  | K32 => if Nat.leb 4 (s_size s) then
             let! v := DecodeFixed32 m (s_data s) in
             let! s := remove_prefix s 4 in Ret (Some (F32 v, s)) else Ret None
  | K64 => if Nat.leb 8 (s_size s) then
             let! v := DecodeFixed64 m (s_data s) in
             let! s := remove_prefix s 8 in Ret (Some (F64 v, s)) else Ret None
  | KV32 => let! (ok, s, v) := GetVarint32 m s 0 in Ret (if ok : bool then Some (V32 v, s) else None)
  | KV64 => let! (ok, s, v) := GetVarint64 m s 0 in Ret (if ok : bool then Some (V64 v, s) else None)
  | KLP => let! (ok, s, r) := GetLengthPrefixedSlice m s (mk_slice 0 0) in
           Ret (if ok : bool then Some (LP (bytes_at m (s_data r) (s_size r)), s) else None)
  end.

Fixpoint get_record (m : mem) (s : slice) (ks : list kind) : outcome (option (list field * slice)) :=
  match ks with
  | [] => Ret (Some ([], s))
  | k :: t =>
      let! r := get_field m s k in
      match r with
      | None => Ret None
      | Some (f, s) =>
          let! r := get_record m s t in
          Ret (match r with None => None | Some (fs, s) => Some (f :: fs, s) end)
      end
  end.

Lemma put_field_spec f : field_ok f -> exists enc, bytes_ok enc /\
  (forall dst, put_field dst f = Ret (dst ++ enc)) /\
  (forall pre post, bytes_ok pre -> bytes_ok post ->
     get_field (pre ++ enc ++ post) (mk_slice (length pre) (length enc + length post)) (kind_of f)
     = Ret (Some (f, mk_slice (length pre + length enc) (length post)))).
Proof.
  intros Hf. destruct f as [v|v|v|v|bs]; cbn in Hf.
  - exists (le_block 4 v). split; [apply le_block_ok|]. split; [intros; apply PutFixed32_spec, Hf|].
    intros pre post _ _. cbn [get_field kind_of s_size s_data].
    rewrite le_block_length. cbn [Nat.leb Nat.add].
    rewrite DecodeFixed32_spec by exact Hf. cbn [bind]. unfold remove_prefix. cbn. rewrite Nat.sub_0_r. reflexivity.
  - exists (le_block 8 v). split; [apply le_block_ok|]. split; [intros; apply PutFixed64_spec, Hf|].
    intros pre post _ _. cbn [get_field kind_of s_size s_data].
    rewrite le_block_length. cbn [Nat.leb Nat.add].
    rewrite DecodeFixed64_spec by exact Hf. cbn [bind]. unfold remove_prefix. cbn. rewrite Nat.sub_0_r. reflexivity.
  - exists (venc v). split; [apply venc_ok|]. split; [intros; apply PutVarint32_spec, Hf|].
    intros pre post H1 H2. cbn [get_field kind_of].
    rewrite GetVarint32_roundtrip by assumption. reflexivity.
  - exists (venc v). split; [apply venc_ok|]. split; [intros; apply PutVarint64_spec, Hf|].
    intros pre post H1 H2. cbn [get_field kind_of].
    rewrite GetVarint64_roundtrip by assumption. reflexivity.
  - destruct Hf as [Hok Hl].
    exists (venc (N.of_nat (length bs) mod 2 ^ 32) ++ bs).
    split; [apply bytes_ok_app; split; [apply venc_ok|exact Hok]|].
    split; [intros; apply PutLengthPrefixedSlice_spec|].
    intros pre post H1 H2. cbn [get_field kind_of].
    destruct (LengthPrefixed_roundtrip [] bs pre post (mk_slice 0 0) Hl Hok H1 H2) as (block & start & E1 & E2 & E3 & E4).
    rewrite PutLengthPrefixedSlice_spec in E1. injection E1 as E1. cbn [app] in E1. rewrite E1, E2.
    cbn [bind s_data s_size]. rewrite E3. reflexivity.
Qed.

Lemma record_spec fs : Forall field_ok fs -> exists enc, bytes_ok enc /\
  (forall dst, put_record dst fs = Ret (dst ++ enc)) /\
  (forall pre post, bytes_ok pre -> bytes_ok post ->
     get_record (pre ++ enc ++ post) (mk_slice (length pre) (length enc + length post)) (map kind_of fs)
     = Ret (Some (fs, mk_slice (length pre + length enc) (length post)))).
Proof.
  induction fs as [|f fs IH]; intros Hfs.
  - exists []. split; [constructor|]. split; [intros; cbn; rewrite app_nil_r; reflexivity|].
    intros. cbn. rewrite Nat.add_0_r. reflexivity.
  - inversion Hfs as [|? ? Hf Hfs']; subst.
    destruct (put_field_spec f Hf) as (e1 & Hok1 & Hp1 & Hg1).
    destruct (IH Hfs') as (e2 & Hok2 & Hp2 & Hg2).
    exists (e1 ++ e2). split; [apply bytes_ok_app; auto|].
    split.
    + intros dst. cbn [put_record]. rewrite Hp1. cbn [bind]. rewrite Hp2, app_assoc. reflexivity.
    + intros pre post H1 H2. cbn [get_record map].
      specialize (Hg1 pre (e2 ++ post) H1 ltac:(apply bytes_ok_app; auto)).
      rewrite app_length, <- (app_assoc e1 e2 post), <- Nat.add_assoc, <- (app_length e2 post).
      rewrite Hg1. cbn [bind].
      specialize (Hg2 (pre ++ e1) post ltac:(apply bytes_ok_app; auto) H2).
      rewrite <- app_assoc in Hg2. rewrite (app_length pre e1), <- (app_length e2 post) in Hg2.
      rewrite Hg2. cbn [bind]. rewrite Nat.add_assoc. reflexivity.
Qed.

Theorem C08_record_roundtrip : forall fs dst pre post,
  Forall field_ok fs -> bytes_ok pre -> bytes_ok post ->
  exists enc,
    put_record dst fs = Ret (dst ++ enc) /\
    get_record (pre ++ enc ++ post) (mk_slice (length pre) (length enc + length post)) (map kind_of fs)
    = Ret (Some (fs, mk_slice (length pre + length enc) (length post))).
Proof.
  intros fs dst pre post Hf Hpre Hpost.
  destruct (record_spec fs Hf) as (enc & _ & H1 & H2). exists enc. auto.
Qed.
Print Assumptions C08_record_roundtrip.

(** no encoding of a record is a proper prefix of another of the same shape,
    and different records have different encodings *)
Theorem C08_record_prefix_free : forall fs fs' enc enc' tail,
  Forall field_ok fs -> Forall field_ok fs' -> map kind_of fs = map kind_of fs' -> bytes_ok tail ->
  put_record [] fs = Ret enc -> put_record [] fs' = Ret enc' ->
  enc' = enc ++ tail -> tail = [] /\ fs = fs'.
Proof.
  intros fs fs' enc enc' tail Hf Hf' Hk Ht H1 H2 ->.
  destruct (record_spec fs Hf) as (e & Hok & Hp & Hg).
  destruct (record_spec fs' Hf') as (e' & Hok' & Hp' & Hg').
  rewrite Hp in H1. injection H1 as <-. rewrite Hp' in H2. injection H2 as E. cbn in E. subst e'.
  specialize (Hg [] tail (Forall_nil _) Ht). specialize (Hg' [] [] (Forall_nil _) (Forall_nil _)).
  cbn [app length] in *. rewrite app_nil_r, !Nat.add_0_r, app_length, <- Hk in Hg'.
  rewrite Hg in Hg'. injection Hg' as -> HE1 HE2. split; [|reflexivity].
  destruct tail; [reflexivity|cbn in HE2; lia].
Qed.
Print Assumptions C08_record_prefix_free.

Example C08_case :
  put_record [] [F32 1; V32 300; LP [104; 105]; V64 5; F64 2]
  = Ret [1;0;0;0; 172;2; 2;104;105; 5; 2;0;0;0;0;0;0;0] /\
  Forall field_ok [F32 1; V32 300; LP [104; 105]; V64 5; F64 2].
Proof.
  split; [vm_compute; reflexivity|].
  repeat constructor; cbn; unfold byte_ok; lia.
Qed.
