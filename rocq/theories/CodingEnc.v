(** CodingEnc.v -- bit lemmas and the encoders of Coding.v *)
From Coq Require Import List NArith Arith Lia Bool ZArith ZifyN ZifyNat ZifyBool.
From Verif Require Import Outcome Coding CodingSpec.
Import ListNotations.
Local Open Scope N_scope.
Ltac Zify.zify_post_hook ::= Z.div_mod_to_equations.

Arguments N.add : simpl never.
Arguments N.mul : simpl never.
Arguments N.modulo : simpl never.
Arguments N.div : simpl never.
Arguments N.shiftr : simpl never.
Arguments N.shiftl : simpl never.
Arguments N.pow : simpl never.
Arguments N.lor : simpl never.
Arguments N.land : simpl never.

(** * Bit lemmas *)

Lemma lor_disjoint a b s : a < 2 ^ s -> N.lor a (b * 2 ^ s) = a + b * 2 ^ s.
Proof.
  intros Ha.
  rewrite <- N.shiftl_mul_pow2.
  assert (Hz : N.land a (N.shiftl b s) = 0).
  { apply N.bits_inj; intros n. rewrite N.land_spec, N.bits_0.
    destruct (N.ltb_spec n s) as [Hn|Hn].
    - rewrite N.shiftl_spec_low by exact Hn. apply andb_false_r.
    - destruct (N.eq_dec a 0) as [->|Hne].
      + rewrite N.bits_0. reflexivity.
      + rewrite (N.bits_above_log2 a n); [reflexivity|].
        apply N.log2_lt_pow2 in Ha; lia. }
  rewrite <- (N.lxor_lor _ _ Hz). symmetry. apply N.add_nocarry_lxor. exact Hz.
Qed.

Lemma land_127 b : N.land b 127 = b mod 128.
Proof. change 127 with (N.ones 7). rewrite N.land_ones. reflexivity. Qed.

Definition range (n : nat) : list N := map N.of_nat (seq 0 n).

Lemma range_in n x : x < N.of_nat n -> In x (range n).
Proof.
  intros Hx. unfold range. apply in_map_iff. exists (N.to_nat x).
  split; [lia|]. apply in_seq. lia.
Qed.

Lemma sweep (P : N -> bool) n : forallb P (range n) = true -> forall x, x < N.of_nat n -> P x = true.
Proof. intros H x Hx. rewrite forallb_forall in H. apply H, range_in, Hx. Qed.

Lemma land_128 b : b < 256 -> (N.land b 128 =? 0) = (b <? 128).
Proof.
  intros Hb. apply eqb_prop.
  apply (sweep (fun b => eqb (N.land b 128 =? 0) (b <? 128)) 256); [vm_compute; reflexivity|lia].
Qed.

Lemma lor_128 v : u8 (N.lor v 128) = 128 + v mod 128.
Proof.
  unfold u8.
  assert (E : N.lor v 128 mod 2 ^ 8 = N.lor (v mod 256) 128).
  { rewrite <- !N.land_ones, N.land_lor_distr_l. change (256) with (2 ^ 8).
    rewrite <- N.land_ones. reflexivity. }
  rewrite E.
  assert (H : (N.lor (v mod 256) 128 =? 128 + (v mod 256) mod 128) = true).
  { apply (sweep (fun x => N.lor x 128 =? 128 + x mod 128) 256); [vm_compute; reflexivity|lia]. }
  apply N.eqb_eq in H. rewrite H. lia.
Qed.

Lemma shiftr_7 v : N.shiftr v 7 = v / 128.
Proof. rewrite N.shiftr_div_pow2. reflexivity. Qed.

(** * Stack buffers *)

Lemma bind_assoc {A B C} (x : outcome A) (f : A -> outcome B) (g : B -> outcome C) :
  bind (bind x f) g = bind x (fun a => bind (f a) g).
Proof. destruct x; reflexivity. Qed.

Lemma store_app m1 c m2 b : store (m1 ++ c :: m2) (length m1) b = Ret (m1 ++ Some b :: m2).
Proof. induction m1 as [|x m1 IH]; simpl; [reflexivity|]. rewrite IH. reflexivity. Qed.

Lemma buf_read_app l m : buf_read (map Some l ++ m) (length l) = Ret l.
Proof. induction l as [|x l IH]; simpl; [reflexivity|]. rewrite IH. reflexivity. Qed.

(** * Fixed width *)

Lemma PutFixed32_spec dst v : v < 2 ^ 32 -> PutFixed32 dst v = Ret (dst ++ le_block 4 v).
Proof.
  intros Hv. unfold PutFixed32, EncodeFixed32, append_buf, le_block. cbn.
  rewrite !N.shiftr_div_pow2. unfold u8.
  rewrite N.div_1_r. reflexivity.
Qed.

Lemma PutFixed64_spec dst v : v < 2 ^ 64 -> PutFixed64 dst v = Ret (dst ++ le_block 8 v).
Proof.
  intros Hv. unfold PutFixed64, EncodeFixed64, append_buf, le_block. cbn.
  rewrite !N.shiftr_div_pow2. unfold u8.
  rewrite N.div_1_r. reflexivity.
Qed.

Lemma load_app pre bs i b : nth_error bs i = Some b -> load (pre ++ bs) (length pre + i) = Ret b.
Proof.
  intros H. unfold load. rewrite nth_error_app2 by lia.
  replace (length pre + i - length pre)%nat with i by lia. rewrite H. reflexivity.
Qed.

Lemma DecodeFixed32_bytes pre b0 b1 b2 b3 post :
  bytes_ok [b0; b1; b2; b3] ->
  DecodeFixed32 (pre ++ [b0; b1; b2; b3] ++ post) (length pre)
  = Ret (le_value [b0; b1; b2; b3]).
Proof.
  intros H. unfold bytes_ok, byte_ok in H.
  rewrite !Forall_cons_iff in H. destruct H as (H0 & H1 & H2 & H3 & _).
  unfold DecodeFixed32.
  rewrite (load_app _ _ 0 b0), (load_app _ _ 1 b1), (load_app _ _ 2 b2), (load_app _ _ 3 b3)
    by reflexivity.
  cbn. f_equal. unfold u32. rewrite !N.shiftl_mul_pow2.
  rewrite !N.mod_small by lia.
  rewrite (lor_disjoint b0 b1) by lia.
  rewrite (lor_disjoint _ b2) by lia.
  rewrite (lor_disjoint _ b3) by lia. lia.
Qed.

Lemma DecodeFixed64_bytes pre b0 b1 b2 b3 b4 b5 b6 b7 post :
  bytes_ok [b0; b1; b2; b3; b4; b5; b6; b7] ->
  DecodeFixed64 (pre ++ [b0; b1; b2; b3; b4; b5; b6; b7] ++ post) (length pre)
  = Ret (le_value [b0; b1; b2; b3; b4; b5; b6; b7]).
Proof.
  intros H. unfold bytes_ok, byte_ok in H.
  rewrite !Forall_cons_iff in H. destruct H as (H0 & H1 & H2 & H3 & H4 & H5 & H6 & H7 & _).
  unfold DecodeFixed64.
  rewrite (load_app _ _ 0 b0), (load_app _ _ 1 b1), (load_app _ _ 2 b2), (load_app _ _ 3 b3),
    (load_app _ _ 4 b4), (load_app _ _ 5 b5), (load_app _ _ 6 b6), (load_app _ _ 7 b7)
    by reflexivity.
  cbn. f_equal. unfold u64. rewrite !N.shiftl_mul_pow2.
  rewrite !N.mod_small by lia.
  rewrite (lor_disjoint b0 b1) by lia.
  rewrite (lor_disjoint _ b2) by lia.
  rewrite (lor_disjoint _ b3) by lia.
  rewrite (lor_disjoint _ b4) by lia.
  rewrite (lor_disjoint _ b5) by lia.
  rewrite (lor_disjoint _ b6) by lia.
  rewrite (lor_disjoint _ b7) by lia. lia.
Qed.

Lemma le_block_S n v : le_block (S n) v = v mod 256 :: le_block n (v / 256).
Proof.
  unfold le_block. cbn [seq map]. change (256 ^ N.of_nat 0) with 1. rewrite N.div_1_r. f_equal.
  rewrite <- seq_shift, map_map. apply map_ext. intros i.
  rewrite N.div_div by (try apply N.pow_nonzero; discriminate).
  replace (256 ^ N.of_nat (S i)) with (256 * 256 ^ N.of_nat i); [reflexivity|].
  rewrite Nat2N.inj_succ, N.pow_succ_r'. reflexivity.
Qed.

Lemma le_value_block n : forall v, v < 256 ^ N.of_nat n -> le_value (le_block n v) = v.
Proof.
  induction n as [|n IH]; intros v Hv.
  - change (256 ^ N.of_nat 0) with 1 in Hv. cbn. lia.
  - rewrite Nat2N.inj_succ, N.pow_succ_r' in Hv. rewrite le_block_S. cbn [le_value].
    rewrite IH by (apply N.div_lt_upper_bound; [discriminate|exact Hv]).
    rewrite (N.div_mod v 256) at 3 by discriminate. lia.
Qed.

Lemma le_value_block4 v : v < 2 ^ 32 -> le_value (le_block 4 v) = v.
Proof. exact (le_value_block 4 v). Qed.

Lemma le_value_block8 v : v < 2 ^ 64 -> le_value (le_block 8 v) = v.
Proof. exact (le_value_block 8 v). Qed.

Lemma le_block_value bs : bytes_ok bs ->
  le_block (length bs) (le_value bs) = bs /\ le_value bs < 256 ^ N.of_nat (length bs).
Proof.
  induction bs as [|b bs IH]; intros H.
  - cbn. split; [reflexivity|lia].
  - inversion H as [|? ? Hb H']; subst. destruct (IH H') as [E Hlt]. unfold byte_ok in Hb.
    cbn [length le_value]. rewrite le_block_S.
    assert (E1 : (b + 256 * le_value bs) mod 256 = b) by lia.
    assert (E2 : (b + 256 * le_value bs) / 256 = le_value bs) by lia.
    rewrite E1, E2, E. split; [reflexivity|].
    rewrite Nat2N.inj_succ, N.pow_succ_r'. lia.
Qed.

Lemma le_block_ok n v : bytes_ok (le_block n v).
Proof.
  unfold bytes_ok, le_block. apply Forall_forall. intros x Hx.
  apply in_map_iff in Hx. destruct Hx as (i & <- & _). unfold byte_ok.
  apply N.mod_lt. lia.
Qed.

Lemma le_block_length n v : length (le_block n v) = n.
Proof. unfold le_block. rewrite map_length, seq_length. reflexivity. Qed.

Lemma DecodeFixed32_spec pre v post : v < 2 ^ 32 ->
  DecodeFixed32 (pre ++ le_block 4 v ++ post) (length pre) = Ret v.
Proof.
  intros H. rewrite <- (le_value_block4 v H) at 2.
  apply DecodeFixed32_bytes. apply (le_block_ok 4 v).
Qed.

Lemma DecodeFixed64_spec pre v post : v < 2 ^ 64 ->
  DecodeFixed64 (pre ++ le_block 8 v ++ post) (length pre) = Ret v.
Proof.
  intros H. rewrite <- (le_value_block8 v H) at 2.
  apply DecodeFixed64_bytes. apply (le_block_ok 8 v).
Qed.

Lemma le_block_value4 b0 b1 b2 b3 : bytes_ok [b0;b1;b2;b3] ->
  le_block 4 (le_value [b0;b1;b2;b3]) = [b0;b1;b2;b3] /\ le_value [b0;b1;b2;b3] < 2 ^ 32.
Proof. exact (le_block_value [b0;b1;b2;b3]). Qed.

Lemma le_block_value8 b0 b1 b2 b3 b4 b5 b6 b7 : bytes_ok [b0;b1;b2;b3;b4;b5;b6;b7] ->
  le_block 8 (le_value [b0;b1;b2;b3;b4;b5;b6;b7]) = [b0;b1;b2;b3;b4;b5;b6;b7]
  /\ le_value [b0;b1;b2;b3;b4;b5;b6;b7] < 2 ^ 64.
Proof. exact (le_block_value [b0;b1;b2;b3;b4;b5;b6;b7]). Qed.

(** * The canonical varint digits of a number, used only in proofs *)

Fixpoint venc_fuel (fuel : nat) (v : N) : list N :=
  match fuel with
  | O => []
  | S f => if 128 <=? v then (128 + v mod 128) :: venc_fuel f (v / 128) else [v]
  end.
Definition venc (v : N) : list N := venc_fuel (S (N.to_nat (N.size v))) v.


Lemma size_div v : 128 <= v -> N.size (v / 128) < N.size v.
Proof.
  intros Hv.
  assert (v / 128 <> 0) by lia.
  rewrite !N.size_log2 by lia.
  change 128 with (2 ^ 7). rewrite <- N.shiftr_div_pow2, N.log2_shiftr.
  assert (7 <= N.log2 v) by (apply N.log2_le_pow2; lia). lia.
Qed.

Lemma venc_fuel_enough f1 f2 v :
  (N.to_nat (N.size v) < f1)%nat -> (N.to_nat (N.size v) < f2)%nat ->
  venc_fuel f1 v = venc_fuel f2 v.
Proof.
  revert f2 v; induction f1 as [|f1 IH]; intros f2 v H1 H2; [lia|].
  destruct f2 as [|f2]; [lia|]. cbn [venc_fuel].
  destruct (N.leb_spec 128 v) as [Hv|Hv]; [|reflexivity].
  f_equal. pose proof (size_div v Hv). apply IH; lia.
Qed.

Lemma venc_eq v : venc v = if 128 <=? v then (128 + v mod 128) :: venc (v / 128) else [v].
Proof.
  unfold venc at 1. cbn [venc_fuel].
  destruct (N.leb_spec 128 v) as [Hv|Hv]; [|reflexivity].
  f_equal. unfold venc. pose proof (size_div v Hv). apply venc_fuel_enough; lia.
Qed.

(** strong induction along v -> v/128 *)
Lemma div128_ind (P : N -> Prop) :
  (forall v, v < 128 -> P v) ->
  (forall v, 128 <= v -> P (v / 128) -> P v) ->
  forall v, P v.
Proof.
  intros H0 H1 v. induction v as [v IH] using (well_founded_induction N.lt_wf_0).
  destruct (N.lt_ge_cases v 128) as [Hv|Hv]; [auto|].
  apply H1; [exact Hv|]. apply IH. lia.
Qed.

Lemma venc_small v : v < 128 -> venc v = [v].
Proof. intros H. rewrite venc_eq. destruct (N.leb_spec 128 v); [lia|reflexivity]. Qed.
Lemma venc_big v : 128 <= v -> venc v = (128 + v mod 128) :: venc (v / 128).
Proof. intros H. rewrite venc_eq. destruct (N.leb_spec 128 v); [reflexivity|lia]. Qed.

Lemma venc_shape v : varint_shape (venc v).
Proof.
  induction v as [v Hv|v Hv IH] using div128_ind.
  - rewrite venc_small by exact Hv. exists [], v. repeat split; [constructor|exact Hv].
  - rewrite venc_big by exact Hv. destruct IH as (i & l & E & Hi & Hl).
    exists ((128 + v mod 128) :: i), l. rewrite E. repeat split; [|exact Hl].
    constructor; [lia|exact Hi].
Qed.

Lemma venc_value v : base128 (venc v) = v.
Proof.
  induction v as [v Hv|v Hv IH] using div128_ind.
  - rewrite venc_small by exact Hv. cbn [base128]. lia.
  - rewrite venc_big by exact Hv. cbn [base128]. rewrite IH. lia.
Qed.

Lemma venc_nonempty v : venc v <> [].
Proof. rewrite venc_eq. destruct (128 <=? v); discriminate. Qed.

Lemma last_cons_ne {A} (x : A) l d : l <> [] -> last (x :: l) d = last l d.
Proof. destruct l; [congruence|reflexivity]. Qed.

Lemma venc_last v : last (venc v) 0 = 0 -> v = 0.
Proof.
  induction v as [v Hv|v Hv IH] using div128_ind.
  - rewrite venc_small by exact Hv. cbn. auto.
  - rewrite venc_big by exact Hv. rewrite last_cons_ne by apply venc_nonempty.
    intros H. apply IH in H. lia.
Qed.

Lemma venc_canonical v : canonical_varint v (venc v).
Proof.
  split; [apply venc_shape|]. split; [apply venc_value|].
  intros H. apply venc_last in H. subst v. reflexivity.
Qed.

Lemma venc_ok v : bytes_ok (venc v).
Proof.
  destruct (venc_shape v) as (i & l & -> & Hi & Hl).
  unfold bytes_ok, byte_ok. apply Forall_app. split.
  - eapply Forall_impl; [|exact Hi]. cbn. intros; lia.
  - constructor; [lia|constructor].
Qed.

(** length of the encoding against powers of 128 *)
Lemma venc_length_le (n : nat) v : v < 128 ^ N.of_nat (S n) -> (length (venc v) <= S n)%nat.
Proof.
  revert v; induction n as [|n IH]; intros v Hv.
  - change (128 ^ N.of_nat 1) with 128 in Hv. rewrite venc_small by exact Hv. cbn. lia.
  - destruct (N.lt_ge_cases v 128) as [Hs|Hb].
    + rewrite venc_small by exact Hs. cbn. lia.
    + rewrite venc_big by exact Hb. cbn [length].
      assert (length (venc (v / 128)) <= S n)%nat; [|lia]. apply IH.
      replace (N.of_nat (S (S n))) with (N.succ (N.of_nat (S n))) in Hv by lia.
      rewrite N.pow_succ_r' in Hv. apply N.div_lt_upper_bound; lia.
Qed.

Lemma venc_length32 v : v < 2 ^ 32 -> (length (venc v) <= 5)%nat.
Proof.
  intros H. apply venc_length_le. change (128 ^ N.of_nat 5) with (2 ^ 35).
  assert (2 ^ 32 < 2 ^ 35) by reflexivity. lia.
Qed.
Lemma venc_length64 v : v < 2 ^ 64 -> (length (venc v) <= 10)%nat.
Proof.
  intros H. apply venc_length_le. change (128 ^ N.of_nat 10) with (2 ^ 70).
  assert (2 ^ 64 < 2 ^ 70) by reflexivity. lia.
Qed.

(** canonical encodings are unique *)
Lemma canonical_unique bs : forall v, canonical_varint v bs -> bs = venc v.
Proof.
  induction bs as [|b bs IH]; intros v (Hsh & Hval & Hlast).
  - destruct Hsh as (i & l & E & _). destruct i; discriminate.
  - destruct Hsh as (i & l & E & Hi & Hl). destruct i as [|b' i].
    + cbn in E. injection E as -> ->. cbn [base128] in Hval.
      rewrite venc_small by lia. f_equal. lia.
    + cbn in E. injection E as -> ->. inversion Hi as [|? ? Hb Hi']; subst.
      cbn [base128].
      assert (Hlast' : last (i ++ [l]) 0 <> 0).
      { intros Hz. specialize (Hlast ltac:(rewrite last_cons_ne; [exact Hz|destruct i; discriminate])).
        cbn in Hlast. rewrite app_length in Hlast. cbn in Hlast. lia. }
      assert (E2 : i ++ [l] = venc (base128 (i ++ [l]))).
      { apply IH. split; [exists i, l; auto|]. split; [reflexivity|]. intros; contradiction. }
      assert (base128 (i ++ [l]) <> 0).
      { intros Hz. rewrite Hz in E2. rewrite E2 in Hlast'. cbn in Hlast'. lia. }
      rewrite venc_big by lia. f_equal; [lia|].
      rewrite E2 at 1. f_equal. lia.
Qed.

(** * The encoders *)

Lemma EncodeVarint64_loop_spec fuel v : (N.to_nat (N.size v) < fuel)%nat ->
  forall m1 junk m2, length junk = length (venc v) ->
  EncodeVarint64_loop fuel (m1 ++ junk ++ m2) (length m1) v
  = Ret (m1 ++ map Some (venc v) ++ m2, (length m1 + length (venc v))%nat).
Proof.
  revert v; induction fuel as [|fuel IH]; intros v Hf m1 junk m2 Hj; [lia|].
  cbn [EncodeVarint64_loop].
  destruct junk as [|c junk]; [exfalso; pose proof (venc_nonempty v); destruct (venc v); [congruence|discriminate]|].
  destruct (N.leb_spec 128 v) as [Hv|Hv].
  - rewrite venc_big in * by exact Hv. cbn [length] in Hj.
    cbn [app]. rewrite store_app. cbn [bind]. rewrite lor_128, shiftr_7.
    replace (length m1 + 1)%nat with (length (m1 ++ [Some (128 + v mod 128)])) by (rewrite app_length; cbn; lia).
    replace (m1 ++ Some (128 + v mod 128) :: junk ++ m2)
      with ((m1 ++ [Some (128 + v mod 128)]) ++ junk ++ m2) by (rewrite <- app_assoc; reflexivity).
    rewrite IH; [|pose proof (size_div v Hv); lia|lia].
    rewrite <- app_assoc. cbn [map app length]. rewrite app_length. cbn [length].
    f_equal. f_equal. lia.
  - rewrite venc_small in * by exact Hv. cbn [length] in Hj. destruct junk; [|cbn in Hj; lia].
    cbn [app]. rewrite store_app. cbn [bind map app length]. unfold u8. rewrite N.mod_small by lia.
    reflexivity.
Qed.

Lemma repeat_split {A} (x : A) n k : (k <= n)%nat -> repeat x n = repeat x k ++ repeat x (n - k).
Proof. intros H. rewrite <- repeat_app. f_equal. lia. Qed.

Lemma PutVarint64_spec dst v : v < 2 ^ 64 -> PutVarint64 dst v = Ret (dst ++ venc v).
Proof.
  intros Hv. unfold PutVarint64, EncodeVarint64, stack_buf.
  pose proof (venc_length64 v Hv) as Hl.
  rewrite (repeat_split None 10 (length (venc v))) by exact Hl.
  change (repeat None (length (venc v)) ++ repeat None (10 - length (venc v)))
    with ([] ++ repeat (@None N) (length (venc v)) ++ repeat None (10 - length (venc v))).
  rewrite (EncodeVarint64_loop_spec _ v) with (m1 := []); [|lia|apply repeat_length].
  cbn [bind length app Nat.add]. unfold append_buf.
  rewrite buf_read_app. reflexivity.
Qed.

Local Opaque venc.
Ltac dlia :=
  rewrite ?N.div_div by discriminate;
  change (128 * (128 * (128 * 128))) with 268435456;
  change (128 * 128 * 128 * 128) with 268435456;
  change (128 * (128 * 128)) with 2097152;
  change (128 * 128 * 128) with 2097152;
  change (128 * 128) with 16384; lia.

Lemma PutVarint32_spec dst v : v < 2 ^ 32 -> PutVarint32 dst v = Ret (dst ++ venc v).
Proof.
  intros Hv. unfold PutVarint32, EncodeVarint32.
  change (2 ^ 7) with 128. change (2 ^ 14) with 16384. change (2 ^ 21) with 2097152.
  change (2 ^ 28) with 268435456. change (2 ^ 32) with 4294967296 in Hv.
  assert (S14 : N.shiftr v 14 = v / 128 / 128) by (rewrite N.shiftr_div_pow2, !N.div_div by lia; reflexivity).
  assert (S21 : N.shiftr v 21 = v / 128 / 128 / 128) by (rewrite N.shiftr_div_pow2, !N.div_div by lia; reflexivity).
  assert (S28 : N.shiftr v 28 = v / 128 / 128 / 128 / 128) by (rewrite N.shiftr_div_pow2, !N.div_div by lia; reflexivity).
  unfold append_buf.
  destruct (N.ltb_spec v 128) as [H7|H7].
  { cbn. unfold u8. rewrite N.mod_small by dlia. rewrite venc_small by exact H7. reflexivity. }
  rewrite venc_big by exact H7.
  destruct (N.ltb_spec v 16384) as [H14|H14].
  { cbn. rewrite lor_128, shiftr_7. unfold u8. rewrite (N.mod_small (v / 128)) by dlia.
    rewrite venc_small by dlia. reflexivity. }
  rewrite venc_big by dlia.
  destruct (N.ltb_spec v 2097152) as [H21|H21].
  { cbn. rewrite !lor_128, shiftr_7, S14. unfold u8. rewrite (N.mod_small (v / 128 / 128)) by dlia.
    rewrite venc_small by dlia. reflexivity. }
  rewrite venc_big by dlia.
  destruct (N.ltb_spec v 268435456) as [H28|H28].
  { cbn. rewrite !lor_128, shiftr_7, S14, S21. unfold u8. rewrite (N.mod_small (v / 128 / 128 / 128)) by dlia.
    rewrite venc_small by dlia. reflexivity. }
  rewrite venc_big by dlia.
  cbn. rewrite !lor_128, shiftr_7, S14, S21, S28. unfold u8.
  rewrite (N.mod_small (v / 128 / 128 / 128 / 128)) by dlia.
  rewrite venc_small by dlia. reflexivity.
Qed.

Lemma VarintLength_loop_spec fuel v : (N.to_nat (N.size v) < fuel)%nat -> forall len,
  VarintLength_loop fuel v len = Ret (len + N.of_nat (length (venc v)) - 1).
Proof.
  revert v; induction fuel as [|fuel IH]; intros v Hf len; [lia|].
  cbn [VarintLength_loop].
  destruct (N.leb_spec 128 v) as [Hv|Hv].
  - rewrite shiftr_7, IH by (pose proof (size_div v Hv); lia).
    rewrite (venc_big v) by exact Hv. cbn [length]. f_equal. lia.
  - rewrite venc_small by exact Hv. cbn [length]. f_equal. lia.
Qed.

Lemma VarintLength_spec v : VarintLength v = Ret (N.of_nat (length (venc v))).
Proof. unfold VarintLength. rewrite VarintLength_loop_spec by lia. f_equal. lia. Qed.

