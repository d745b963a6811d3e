(** CodingProofs.v -- lemmas about the decoders of Coding.v *)
From Coq Require Import List NArith Arith Lia Bool ZArith ZifyN ZifyNat ZifyBool.
From Verif Require Import Outcome Coding CodingSpec.
From Verif Require Export CodingEnc.
Import ListNotations.
Local Open Scope N_scope.
Ltac Zify.zify_post_hook ::= Z.div_mod_to_equations.
Local Opaque venc.

(** * The decoders *)

(** list-level version of both decoding loops, used only in proofs *)
Fixpoint lloop (W maxs : N) (fuel : nat) (bs : list N) (shift result : N)
  : outcome (option (nat * N)) :=
  match fuel with
  | O => OutOfFuel
  | S fuel' =>
      if shift <=? maxs then
        match bs with
        | [] => Ret None
        | b :: t =>
            if 128 <=? b then
              match lloop W maxs fuel' t (shift + 7)
                      (N.lor result ((b mod 128 * 2 ^ shift) mod 2 ^ W)) with
              | Ret (Some (k, v)) => Ret (Some (S k, v))
              | r => r
              end
            else Ret (Some (1%nat, N.lor result ((b * 2 ^ shift) mod 2 ^ W)))
        end
      else Ret None
  end.

Definition shift_ptr (p : nat) (r : outcome (option (nat * N))) : outcome (option (nat * N)) :=
  match r with
  | Ret (Some (k, v)) => Ret (Some ((p + k)%nat, v))
  | r => r
  end.

Lemma bytes_at_cons m p limit b : (limit <= length m)%nat -> (p < limit)%nat ->
  nth_error m p = Some b ->
  bytes_at m p (limit - p) = b :: bytes_at m (p + 1) (limit - (p + 1)).
Proof.
  intros Hl Hp Hb. unfold bytes_at.
  replace (limit - p)%nat with (S (limit - (p + 1))) by lia.
  apply nth_error_split in Hb. destruct Hb as (l1 & l2 & -> & Hl1).
  rewrite <- Hl1. rewrite !skipn_app, (skipn_all2 l1 (n := length l1)), (skipn_all2 l1 (n := length l1 + 1)) by lia.
  replace (length l1 - length l1)%nat with 0%nat by lia.
  replace (length l1 + 1 - length l1)%nat with 1%nat by lia. reflexivity.
Qed.

Lemma bytes_at_nil m p limit : (limit <= p)%nat -> bytes_at m p (limit - p) = [].
Proof. intros H. unfold bytes_at. replace (limit - p)%nat with 0%nat by lia. reflexivity. Qed.

Lemma load_ok m p : (p < length m)%nat -> bytes_ok m ->
  exists b, nth_error m p = Some b /\ b < 256 /\ load m p = Ret b.
Proof.
  intros Hp Hm. destruct (nth_error m p) as [b|] eqn:E.
  - exists b. repeat split.
    + unfold bytes_ok in Hm. rewrite Forall_forall in Hm. apply (Hm b). eapply nth_error_In; exact E.
    + unfold load. rewrite E. reflexivity.
  - apply nth_error_None in E. lia.
Qed.

Lemma fallback32_lloop fuel m limit : (limit <= length m)%nat -> bytes_ok m ->
  forall p shift result,
  GetVarint32PtrFallback_loop fuel m p limit shift result
  = shift_ptr p (lloop 32 28 fuel (bytes_at m p (limit - p)) shift result).
Proof.
  intros Hl Hm. induction fuel as [|fuel IH]; intros p shift result; [reflexivity|].
  cbn [GetVarint32PtrFallback_loop lloop].
  destruct (N.leb_spec shift 28) as [Hs|Hs]; [|reflexivity].
  destruct (Nat.ltb_spec p limit) as [Hp|Hp].
  - cbn [andb]. destruct (load_ok m p ltac:(lia) Hm) as (b & Hb & Hlt & ->). cbn [bind].
    rewrite (bytes_at_cons m p limit b Hl Hp Hb).
    rewrite land_128 by exact Hlt. rewrite land_127. unfold u32. rewrite !N.shiftl_mul_pow2.
    destruct (N.ltb_spec b 128) as [Hsm|Hbig]; cbn [negb].
    + destruct (N.leb_spec 128 b); [lia|]. cbn [shift_ptr]. reflexivity.
    + destruct (N.leb_spec 128 b); [|lia]. rewrite IH.
      destruct (lloop 32 28 fuel _ _ _) as [[[k v]|]| | |]; cbn [shift_ptr]; try reflexivity.
      do 3 f_equal. lia.
  - cbn [andb]. rewrite bytes_at_nil by exact Hp. reflexivity.
Qed.

Lemma ptr64_lloop fuel m limit : (limit <= length m)%nat -> bytes_ok m ->
  forall p shift result,
  GetVarint64Ptr_loop fuel m p limit shift result
  = shift_ptr p (lloop 64 63 fuel (bytes_at m p (limit - p)) shift result).
Proof.
  intros Hl Hm. induction fuel as [|fuel IH]; intros p shift result; [reflexivity|].
  cbn [GetVarint64Ptr_loop lloop].
  destruct (N.leb_spec shift 63) as [Hs|Hs]; [|reflexivity].
  destruct (Nat.ltb_spec p limit) as [Hp|Hp].
  - cbn [andb]. destruct (load_ok m p ltac:(lia) Hm) as (b & Hb & Hlt & ->). cbn [bind].
    rewrite (bytes_at_cons m p limit b Hl Hp Hb).
    rewrite land_128 by exact Hlt. rewrite land_127. unfold u64. rewrite !N.shiftl_mul_pow2.
    destruct (N.ltb_spec b 128) as [Hsm|Hbig]; cbn [negb].
    + destruct (N.leb_spec 128 b); [lia|]. cbn [shift_ptr]. reflexivity.
    + destruct (N.leb_spec 128 b); [|lia]. rewrite IH.
      destruct (lloop 64 63 fuel _ _ _) as [[[k v]|]| | |]; cbn [shift_ptr]; try reflexivity.
      do 3 f_equal. lia.
  - cbn [andb]. rewrite bytes_at_nil by exact Hp. reflexivity.
Qed.

(** lor with a wrapped, shifted digit is addition modulo 2^W *)
Lemma lor_shift_mod W s r b : s <= W -> r < 2 ^ s ->
  N.lor r ((b * 2 ^ s) mod 2 ^ W) = (r + b * 2 ^ s) mod 2 ^ W.
Proof.
  intros Hs Hr.
  assert (Hp : 2 ^ W = 2 ^ (W - s) * 2 ^ s).
  { rewrite <- N.pow_add_r. f_equal. lia. }
  assert (Hs0 : 2 ^ s <> 0) by (apply N.pow_nonzero; lia).
  assert (Hw0 : 2 ^ (W - s) <> 0) by (apply N.pow_nonzero; lia).
  rewrite Hp, N.mul_mod_distr_r by assumption.
  rewrite lor_disjoint by exact Hr.
  assert (Hb : b mod 2 ^ (W - s) < 2 ^ (W - s)) by (apply N.mod_lt; exact Hw0).
  pose proof (N.div_mod b (2 ^ (W - s)) Hw0) as Hdm.
  rewrite Hdm at 2.
  replace (r + (2 ^ (W - s) * (b / 2 ^ (W - s)) + b mod 2 ^ (W - s)) * 2 ^ s)
    with ((r + b mod 2 ^ (W - s) * 2 ^ s) + (b / 2 ^ (W - s)) * (2 ^ (W - s) * 2 ^ s)) by lia.
  rewrite N.mod_add by (apply N.neq_mul_0; split; assumption).
  symmetry. apply N.mod_small.
  apply N.lt_le_trans with (2 ^ s + b mod 2 ^ (W - s) * 2 ^ s); [lia|].
  replace (2 ^ s + b mod 2 ^ (W - s) * 2 ^ s) with ((1 + b mod 2 ^ (W - s)) * 2 ^ s) by lia.
  apply N.mul_le_mono_r. lia.
Qed.

Lemma lloop_ok W maxs : maxs < W ->
  forall init lst rest fuel shift result,
  Forall (fun b => 128 <= b < 256) init -> lst < 128 ->
  (length init < fuel)%nat ->
  shift + 7 * N.of_nat (length init) <= maxs ->
  result < 2 ^ shift ->
  lloop W maxs fuel (init ++ lst :: rest) shift result
  = Ret (Some (S (length init), (result + 2 ^ shift * base128 (init ++ [lst])) mod 2 ^ W)).
Proof.
  intros HW init. induction init as [|b init IH]; intros lst rest fuel shift result Hi Hl Hf Hs Hr.
  - destruct fuel as [|fuel]; [cbn in Hf; lia|]. cbn [lloop app length base128] in *.
    destruct (N.leb_spec shift maxs); [|lia]. destruct (N.leb_spec 128 lst); [lia|].
    rewrite lor_shift_mod by lia. rewrite N.mod_small with (a := lst) by lia.
    do 4 f_equal. lia.
  - destruct fuel as [|fuel]; [cbn in Hf; lia|]. cbn [lloop app length base128] in *.
    inversion Hi as [|? ? Hb Hi']; subst.
    destruct (N.leb_spec shift maxs); [|lia]. destruct (N.leb_spec 128 b); [|lia].
    rewrite lor_shift_mod by lia.
    assert (Hp : 2 ^ (shift + 7) = 128 * 2 ^ shift) by (rewrite N.pow_add_r; change (2 ^ 7) with 128; lia).
    assert (Hr' : result + b mod 128 * 2 ^ shift < 2 ^ (shift + 7)).
    { rewrite Hp. assert (b mod 128 < 128) by lia.
      assert (Hmul : (b mod 128 + 1) * 2 ^ shift <= 128 * 2 ^ shift) by (apply N.mul_le_mono_r; lia). lia. }
    assert (HWle : 2 ^ (shift + 7) <= 2 ^ W) by (apply N.pow_le_mono_r; lia).
    rewrite N.mod_small by lia.
    rewrite IH; try assumption; try lia.
    f_equal. f_equal. f_equal. f_equal. rewrite Hp. lia.
Qed.

Lemma lloop_fail W maxs bs : forall fuel shift result,
  Forall byte_ok bs ->
  (forall init lst rest, bs = init ++ lst :: rest ->
     Forall (fun b => 128 <= b < 256) init -> lst < 128 ->
     maxs < shift + 7 * N.of_nat (length init)) ->
  maxs + 7 < shift + 7 * N.of_nat fuel -> (0 < fuel)%nat ->
  lloop W maxs fuel bs shift result = Ret None.
Proof.
  induction bs as [|b bs IH]; intros fuel shift result Hok Hno Hf H0;
    destruct fuel as [|fuel]; try lia; cbn [lloop].
  - destruct (shift <=? maxs); reflexivity.
  - destruct (N.leb_spec shift maxs) as [Hs|Hs]; [|reflexivity].
    inversion Hok as [|? ? Hb Hok']; subst. unfold byte_ok in Hb.
    destruct (N.leb_spec 128 b) as [Hbig|Hsm].
    + rewrite IH; try assumption; try lia; [reflexivity|].
      intros init lst rest E Hi Hl. specialize (Hno (b :: init) lst rest).
      cbn [app length] in Hno. rewrite E in Hno. specialize (Hno eq_refl).
      assert (maxs < shift + 7 * N.of_nat (S (length init))); [apply Hno; [constructor; [lia|exact Hi]|exact Hl]|lia].
    + specialize (Hno [] b bs eq_refl (Forall_nil _) Hsm). cbn in Hno. lia.
Qed.

(** * Slice-level decoders *)

Definition in_bounds (m : mem) (s : slice) : Prop := (s_data s + s_size s <= length m)%nat.
Definition view (m : mem) (s : slice) : list N := bytes_at m (s_data s) (s_size s).

Lemma bytes_at_ok m p n : bytes_ok m -> bytes_ok (bytes_at m p n).
Proof.
  intros H. unfold bytes_ok, bytes_at in *. rewrite Forall_forall in *. intros x Hx. apply H.
  rewrite <- (firstn_skipn p m). apply in_or_app. right.
  rewrite <- (firstn_skipn n (skipn p m)). apply in_or_app. left. exact Hx.
Qed.

Lemma bytes_at_length m p n : (p + n <= length m)%nat -> length (bytes_at m p n) = n.
Proof. intros H. unfold bytes_at. rewrite firstn_length, skipn_length. lia. Qed.

Lemma shape_split enc : varint_shape enc <->
  exists init lst, enc = init ++ [lst] /\ Forall (fun b => 128 <= b < 256) init /\ lst < 128.
Proof. reflexivity. Qed.

Lemma GetVarint32Ptr_ok m p limit enc rest :
  bytes_ok m -> (p <= limit <= length m)%nat ->
  bytes_at m p (limit - p) = enc ++ rest -> varint_shape enc -> (length enc <= 5)%nat ->
  GetVarint32Ptr m p limit = Ret (Some ((p + length enc)%nat, base128 enc mod 2 ^ 32)).
Proof.
  intros Hm Hp E (init & lst & -> & Hi & Hl) Hlen. rewrite app_length in Hlen. cbn in Hlen.
  assert (Hfb : GetVarint32PtrFallback m p limit
     = Ret (Some ((p + length (init ++ [lst]))%nat, base128 (init ++ [lst]) mod 2 ^ 32))).
  { unfold GetVarint32PtrFallback. rewrite fallback32_lloop by (lia || assumption).
    rewrite E, <- app_assoc. cbn [app].
    rewrite (lloop_ok 32 28) by (try assumption; try lia).
    cbn [shift_ptr]. rewrite app_length. cbn [length]. f_equal. f_equal. f_equal; [lia|].
    change (2 ^ 0) with 1. f_equal. lia. }
  unfold GetVarint32Ptr.
  destruct (Nat.ltb_spec p limit) as [Hlt|Hge].
  - destruct (load_ok m p ltac:(lia) Hm) as (b & Hb & Hb256 & ->). cbn [bind].
    rewrite land_128 by exact Hb256.
    destruct (N.ltb_spec b 128) as [Hsm|Hbig]; [|exact Hfb].
    rewrite (bytes_at_cons m p limit b) in E by (lia || assumption).
    destruct init as [|b' init].
    + cbn in E. injection E as -> E. cbn [app length base128]. repeat f_equal. lia.
    + cbn in E. injection E as -> E. inversion Hi; subst. lia.
  - exact Hfb.
Qed.

Lemma GetVarint32Ptr_fail m p limit :
  bytes_ok m -> (p <= limit <= length m)%nat ->
  (forall enc rest, bytes_at m p (limit - p) = enc ++ rest -> varint_shape enc -> (5 < length enc)%nat) ->
  GetVarint32Ptr m p limit = Ret None.
Proof.
  intros Hm Hp Hno.
  assert (Hfb : GetVarint32PtrFallback m p limit = Ret None).
  { unfold GetVarint32PtrFallback. rewrite fallback32_lloop by (lia || assumption).
    rewrite lloop_fail; [reflexivity| | | |]; try lia.
    - apply (bytes_at_ok m p (limit - p) Hm).
    - intros init lst rest E Hi Hl. specialize (Hno (init ++ [lst]) rest).
      rewrite <- app_assoc in Hno. specialize (Hno E ltac:(exists init, lst; auto)).
      rewrite app_length in Hno. cbn in Hno. lia. }
  unfold GetVarint32Ptr.
  destruct (Nat.ltb_spec p limit) as [Hlt|Hge]; [|exact Hfb].
  destruct (load_ok m p ltac:(lia) Hm) as (b & Hb & Hb256 & ->). cbn [bind].
  rewrite land_128 by exact Hb256.
  destruct (N.ltb_spec b 128) as [Hsm|Hbig]; [|exact Hfb].
  specialize (Hno [b] (bytes_at m (p + 1) (limit - (p + 1)))).
  rewrite (bytes_at_cons m p limit b) in Hno by (lia || assumption).
  specialize (Hno eq_refl ltac:(exists [], b; repeat split; [constructor|exact Hsm])). cbn in Hno. lia.
Qed.

Lemma GetVarint64Ptr_ok m p limit enc rest :
  bytes_ok m -> (p <= limit <= length m)%nat ->
  bytes_at m p (limit - p) = enc ++ rest -> varint_shape enc -> (length enc <= 10)%nat ->
  GetVarint64Ptr m p limit = Ret (Some ((p + length enc)%nat, base128 enc mod 2 ^ 64)).
Proof.
  intros Hm Hp E (init & lst & -> & Hi & Hl) Hlen. rewrite app_length in Hlen. cbn in Hlen.
  unfold GetVarint64Ptr. rewrite ptr64_lloop by (lia || assumption).
  rewrite E, <- app_assoc. cbn [app].
  rewrite (lloop_ok 64 63) by (try assumption; try lia).
  cbn [shift_ptr]. rewrite app_length. cbn [length]. f_equal. f_equal. f_equal; [lia|].
  change (2 ^ 0) with 1. f_equal. lia.
Qed.

Lemma GetVarint64Ptr_fail m p limit :
  bytes_ok m -> (p <= limit <= length m)%nat ->
  (forall enc rest, bytes_at m p (limit - p) = enc ++ rest -> varint_shape enc -> (10 < length enc)%nat) ->
  GetVarint64Ptr m p limit = Ret None.
Proof.
  intros Hm Hp Hno.
  unfold GetVarint64Ptr. rewrite ptr64_lloop by (lia || assumption).
  rewrite lloop_fail; [reflexivity| | | |]; try lia.
  - apply (bytes_at_ok m p (limit - p) Hm).
  - intros init lst rest E Hi Hl. specialize (Hno (init ++ [lst]) rest).
    rewrite <- app_assoc in Hno. specialize (Hno E ltac:(exists init, lst; auto)).
    rewrite app_length in Hno. cbn in Hno. lia.
Qed.

Lemma GetVarint32_ok m s enc rest v0 :
  bytes_ok m -> in_bounds m s -> view m s = enc ++ rest -> varint_shape enc -> (length enc <= 5)%nat ->
  GetVarint32 m s v0 =
    Ret (true, mk_slice (s_data s + length enc) (length rest), base128 enc mod 2 ^ 32).
Proof.
  intros Hm Hb E Hsh Hl. unfold GetVarint32, in_bounds, view in *.
  rewrite (GetVarint32Ptr_ok m (s_data s) (s_data s + s_size s) enc rest); try assumption; try lia.
  - cbn [bind]. do 3 f_equal. f_equal.
    pose proof (bytes_at_length m (s_data s) (s_size s) Hb) as HL. rewrite E, app_length in HL. lia.
  - rewrite <- E. f_equal. lia.
Qed.

Lemma GetVarint32_fail m s v0 :
  bytes_ok m -> in_bounds m s ->
  (forall enc rest, view m s = enc ++ rest -> varint_shape enc -> (5 < length enc)%nat) ->
  GetVarint32 m s v0 = Ret (false, s, v0).
Proof.
  intros Hm Hb Hno. unfold GetVarint32, in_bounds, view in *.
  rewrite GetVarint32Ptr_fail; [reflexivity|assumption|lia|].
  intros enc rest E. apply (Hno enc rest). rewrite <- E. f_equal. lia.
Qed.

Lemma GetVarint64_ok m s enc rest v0 :
  bytes_ok m -> in_bounds m s -> view m s = enc ++ rest -> varint_shape enc -> (length enc <= 10)%nat ->
  GetVarint64 m s v0 =
    Ret (true, mk_slice (s_data s + length enc) (length rest), base128 enc mod 2 ^ 64).
Proof.
  intros Hm Hb E Hsh Hl. unfold GetVarint64, in_bounds, view in *.
  rewrite (GetVarint64Ptr_ok m (s_data s) (s_data s + s_size s) enc rest); try assumption; try lia.
  - cbn [bind]. do 3 f_equal. f_equal.
    pose proof (bytes_at_length m (s_data s) (s_size s) Hb) as HL. rewrite E, app_length in HL. lia.
  - rewrite <- E. f_equal. lia.
Qed.

Lemma GetVarint64_fail m s v0 :
  bytes_ok m -> in_bounds m s ->
  (forall enc rest, view m s = enc ++ rest -> varint_shape enc -> (10 < length enc)%nat) ->
  GetVarint64 m s v0 = Ret (false, s, v0).
Proof.
  intros Hm Hb Hno. unfold GetVarint64, in_bounds, view in *.
  rewrite GetVarint64Ptr_fail; [reflexivity|assumption|lia|].
  intros enc rest E. apply (Hno enc rest). rewrite <- E. f_equal. lia.
Qed.

(** shape prefixes are unique: at most one prefix of a string has varint shape *)
Lemma shape_prefix_unique e1 r1 e2 r2 :
  e1 ++ r1 = e2 ++ r2 -> varint_shape e1 -> varint_shape e2 -> e1 = e2.
Proof.
  intros E (i1 & l1 & -> & H1 & L1) (i2 & l2 & -> & H2 & L2).
  rewrite <- !app_assoc in E. cbn in E.
  revert i2 E H2. induction i1 as [|b1 i1 IH]; intros i2 E H2; destruct i2 as [|b2 i2]; cbn in E.
  - injection E as -> _. reflexivity.
  - injection E as -> _. inversion H2; subst. lia.
  - injection E as -> _. inversion H1; subst. lia.
  - injection E as -> E. inversion H1; inversion H2; subst.
    cbn. f_equal. apply IH; assumption.
Qed.

(** a string either has a varint-shaped prefix of at most n bytes or not *)
Lemma shape_prefix_dec n bs : bytes_ok bs ->
  (exists enc rest, bs = enc ++ rest /\ varint_shape enc /\ (length enc <= n)%nat) \/
  (forall enc rest, bs = enc ++ rest -> varint_shape enc -> (n < length enc)%nat).
Proof.
  revert n; induction bs as [|b bs IH]; intros n Hok.
  - right. intros enc rest E (i & l & -> & _). destruct i; discriminate.
  - inversion Hok as [|? ? Hb Hok']; subst. unfold byte_ok in Hb.
    destruct n as [|n].
    + right. intros enc rest E (i & l & -> & _). rewrite app_length. cbn. lia.
    + destruct (N.lt_ge_cases b 128) as [Hsm|Hbig].
      * left. exists [b], bs. repeat split; [exists [], b; repeat split; [constructor|exact Hsm]|cbn; lia].
      * destruct (IH n Hok') as [(enc & rest & -> & (i & l & -> & Hi & Hl) & Hlen)|Hno].
        -- left. exists (b :: i ++ [l]), rest. repeat split; [|cbn; lia].
           exists (b :: i), l. repeat split; [constructor; [lia|exact Hi]|exact Hl].
        -- right. intros enc rest E (i & l & -> & Hi & Hl). destruct i as [|b' i].
           ++ cbn in E. injection E as -> _. lia.
           ++ cbn in E. injection E as -> E. cbn [app length].
              inversion Hi; subst.
              specialize (Hno (i ++ [l]) rest eq_refl ltac:(exists i, l; auto)). cbn. lia.
Qed.

Lemma view_app pre bs post : view (pre ++ bs ++ post) (mk_slice (length pre) (length bs + length post)) = bs ++ post.
Proof.
  unfold view, bytes_at. cbn [s_data s_size]. rewrite skipn_app, skipn_all, Nat.sub_diag.
  cbn [skipn app]. rewrite firstn_all2; [reflexivity|rewrite app_length; lia].
Qed.

Lemma in_bounds_app pre bs post : in_bounds (pre ++ bs ++ post) (mk_slice (length pre) (length bs + length post)).
Proof. unfold in_bounds. cbn. rewrite !app_length. lia. Qed.

Lemma bytes_ok_app a b : bytes_ok (a ++ b) <-> bytes_ok a /\ bytes_ok b.
Proof. apply Forall_app. Qed.

Lemma GetVarint32_roundtrip pre v post v0 : v < 2 ^ 32 -> bytes_ok pre -> bytes_ok post ->
  GetVarint32 (pre ++ venc v ++ post) (mk_slice (length pre) (length (venc v) + length post)) v0
  = Ret (true, mk_slice (length pre + length (venc v)) (length post), v).
Proof.
  intros Hv Hpre Hpost.
  rewrite (GetVarint32_ok _ _ (venc v) post).
  - cbn [s_data]. rewrite venc_value, N.mod_small by exact Hv. reflexivity.
  - rewrite !bytes_ok_app. repeat split; try assumption. apply venc_ok.
  - apply in_bounds_app.
  - apply view_app.
  - apply venc_shape.
  - apply venc_length32, Hv.
Qed.

Lemma GetVarint64_roundtrip pre v post v0 : v < 2 ^ 64 -> bytes_ok pre -> bytes_ok post ->
  GetVarint64 (pre ++ venc v ++ post) (mk_slice (length pre) (length (venc v) + length post)) v0
  = Ret (true, mk_slice (length pre + length (venc v)) (length post), v).
Proof.
  intros Hv Hpre Hpost.
  rewrite (GetVarint64_ok _ _ (venc v) post).
  - cbn [s_data]. rewrite venc_value, N.mod_small by exact Hv. reflexivity.
  - rewrite !bytes_ok_app. repeat split; try assumption. apply venc_ok.
  - apply in_bounds_app.
  - apply view_app.
  - apply venc_shape.
  - apply venc_length64, Hv.
Qed.

(** proper prefixes of a shaped string contain no shaped prefix *)
Lemma proper_prefix_no_shape enc p t : varint_shape enc -> enc = p ++ t -> t <> [] ->
  forall e r, p = e ++ r -> ~ varint_shape e.
Proof.
  intros Hsh E Ht e r -> Hse. rewrite <- app_assoc in E.
  assert (e = enc).
  { apply (shape_prefix_unique e (r ++ t) enc []); [rewrite app_nil_r; symmetry; exact E|exact Hse|exact Hsh]. }
  subst e. assert (HL := f_equal (@length N) E). rewrite !app_length in HL.
  destruct t; [congruence|cbn in HL; lia].
Qed.

(** * Length-prefixed slices *)

Lemma PutLengthPrefixedSlice_spec dst v :
  PutLengthPrefixedSlice dst v = Ret (dst ++ venc (N.of_nat (length v) mod 2 ^ 32) ++ v).
Proof.
  unfold PutLengthPrefixedSlice, u32. rewrite PutVarint32_spec by (apply N.mod_lt; lia).
  cbn [bind]. rewrite app_assoc. reflexivity.
Qed.

Lemma GetLengthPrefixedSlice_gen m s enc rest r0 :
  bytes_ok m -> in_bounds m s -> view m s = enc ++ rest -> varint_shape enc -> (length enc <= 5)%nat ->
  GetLengthPrefixedSlice m s r0 =
  let n := base128 enc mod 2 ^ 32 in
  if n <=? N.of_nat (length rest) then
    Ret (true, mk_slice (s_data s + length enc + N.to_nat n) (length rest - N.to_nat n),
         mk_slice (s_data s + length enc) (N.to_nat n))
  else Ret (false, mk_slice (s_data s + length enc) (length rest), r0).
Proof.
  intros Hm Hb E Hsh Hl. unfold GetLengthPrefixedSlice.
  rewrite (GetVarint32_ok m s enc rest) by assumption. cbn [bind s_size s_data andb].
  cbv zeta. destruct (N.leb_spec (base128 enc mod 2 ^ 32) (N.of_nat (length rest))) as [H|H]; [|reflexivity].
  unfold remove_prefix. cbn [s_size s_data].
  destruct (Nat.leb_spec (N.to_nat (base128 enc mod 2 ^ 32)) (length rest)); [reflexivity|lia].
Qed.

Lemma GetLengthPrefixedSlice_fail m s r0 :
  bytes_ok m -> in_bounds m s ->
  (forall enc rest, view m s = enc ++ rest -> varint_shape enc -> (5 < length enc)%nat) ->
  GetLengthPrefixedSlice m s r0 = Ret (false, s, r0).
Proof.
  intros Hm Hb Hno. unfold GetLengthPrefixedSlice. rewrite GetVarint32_fail by assumption. reflexivity.
Qed.

Lemma bytes_at_tail pre mid post :
  bytes_at (pre ++ mid ++ post) (length pre + length mid) (length post) = post.
Proof.
  unfold bytes_at. rewrite app_assoc, <- app_length, skipn_app, skipn_all, Nat.sub_diag.
  cbn [skipn app]. apply firstn_all.
Qed.

Lemma bytes_at_mid pre mid post : bytes_at (pre ++ mid ++ post) (length pre) (length mid) = mid.
Proof.
  unfold bytes_at. rewrite skipn_app, skipn_all, Nat.sub_diag. cbn [skipn app].
  rewrite firstn_app, Nat.sub_diag, firstn_all. cbn [firstn]. apply app_nil_r.
Qed.

Lemma bytes_ok_mid pre mid post : bytes_ok pre -> bytes_ok mid -> bytes_ok post -> bytes_ok (pre ++ mid ++ post).
Proof. intros. rewrite !bytes_ok_app. auto. Qed.

Lemma LengthPrefixed_roundtrip dst str pre post old :
  N.of_nat (length str) < 2 ^ 32 -> bytes_ok str -> bytes_ok pre -> bytes_ok post ->
  exists block start,
    PutLengthPrefixedSlice dst str = Ret (dst ++ block) /\
    GetLengthPrefixedSlice (pre ++ block ++ post) (mk_slice (length pre) (length block + length post)) old
      = Ret (true, mk_slice (length pre + length block) (length post), mk_slice start (length str)) /\
    bytes_at (pre ++ block ++ post) start (length str) = str /\
    bytes_at (pre ++ block ++ post) (length pre + length block) (length post) = post.
Proof.
  intros Hlen Hstr Hpre Hpost.
  set (enc := venc (N.of_nat (length str) mod 2 ^ 32)).
  exists (enc ++ str), (length pre + length enc)%nat.
  split; [apply PutLengthPrefixedSlice_spec|].
  assert (Eenc : enc = venc (N.of_nat (length str))) by (subst enc; rewrite (N.mod_small _ _ Hlen); reflexivity).
  clearbody enc. subst enc. set (enc := venc (N.of_nat (length str))).
  assert (Henc : bytes_ok enc) by apply venc_ok.
  split; [|split].
  - rewrite (GetLengthPrefixedSlice_gen _ _ enc (str ++ post)).
    + subst enc. rewrite venc_value. rewrite (N.mod_small _ _ Hlen). cbv zeta.
      rewrite (app_length str post).
      destruct (N.leb_spec (N.of_nat (length str)) (N.of_nat (length str + length post))); [|lia].
      cbn [s_data]. rewrite Nat2N.id, app_length. f_equal. f_equal. f_equal. f_equal; lia.
    + rewrite !bytes_ok_app. auto.
    + apply in_bounds_app.
    + rewrite view_app, app_assoc. reflexivity.
    + apply venc_shape.
    + apply venc_length32, Hlen.
  - rewrite <- (app_assoc enc), app_assoc, <- app_length. apply bytes_at_mid.
  - apply bytes_at_tail.
Qed.

Lemma LengthPrefixed_truncates str post :
  2 ^ 32 <= N.of_nat (length str) -> bytes_ok str -> bytes_ok post ->
  exists block, PutLengthPrefixedSlice [] str = Ret block /\
  exists rest result,
    GetLengthPrefixedSlice (block ++ post) (mk_slice 0 (length block + length post)) (mk_slice 0 0)
      = Ret (true, rest, result) /\
    (s_size result < length str)%nat.
Proof.
  intros Hlen Hstr Hpost.
  set (n := N.of_nat (length str) mod 2 ^ 32).
  assert (Hn : n < 2 ^ 32) by (apply N.mod_lt; discriminate).
  exists (venc n ++ str). split; [apply PutLengthPrefixedSlice_spec|].
  exists (mk_slice (length (venc n) + N.to_nat n) (length (str ++ post) - N.to_nat n)),
         (mk_slice (length (venc n)) (N.to_nat n)).
  split; [|cbn [s_size]; lia].
  rewrite (GetLengthPrefixedSlice_gen _ _ (venc n) (str ++ post)).
  - rewrite venc_value, (N.mod_small _ _ Hn). cbv zeta. rewrite app_length.
    destruct (N.leb_spec n (N.of_nat (length str + length post))); [|lia]. reflexivity.
  - rewrite !bytes_ok_app. repeat split; try assumption. apply venc_ok.
  - apply (in_bounds_app []).
  - change (mk_slice 0 (length (venc n ++ str) + length post))
      with (mk_slice (@length N []) (length (venc n ++ str) + length post)).
    change ((venc n ++ str) ++ post) with ([] ++ (venc n ++ str) ++ post).
    rewrite view_app, app_assoc. reflexivity.
  - apply venc_shape.
  - apply venc_length32, Hn.
Qed.

Lemma LengthPrefixed_decode m s old :
  bytes_ok m -> (s_data s + s_size s <= length m)%nat ->
  (forall enc str rest,
     bytes_at m (s_data s) (s_size s) = enc ++ str ++ rest ->
     varint_shape enc -> (length enc <= 5)%nat -> N.of_nat (length str) = base128 enc mod 2 ^ 32 ->
     GetLengthPrefixedSlice m s old
     = Ret (true, mk_slice (s_data s + length enc + length str) (length rest),
            mk_slice (s_data s + length enc) (length str))) /\
  (forall enc rest,
     bytes_at m (s_data s) (s_size s) = enc ++ rest ->
     varint_shape enc -> (length enc <= 5)%nat -> N.of_nat (length rest) < base128 enc mod 2 ^ 32 ->
     GetLengthPrefixedSlice m s old
     = Ret (false, mk_slice (s_data s + length enc) (length rest), old)) /\
  ((forall enc rest,
     bytes_at m (s_data s) (s_size s) = enc ++ rest -> varint_shape enc -> (5 < length enc)%nat) ->
   GetLengthPrefixedSlice m s old = Ret (false, s, old)) /\
  (exists ok s' r', GetLengthPrefixedSlice m s old = Ret (ok, s', r')).
Proof.
  intros Hm Hb. split; [|split; [|split]].
  - intros enc str rest E Hs Hl Hn.
    rewrite (GetLengthPrefixedSlice_gen m s enc (str ++ rest)) by assumption.
    rewrite <- Hn. cbv zeta. rewrite app_length.
    destruct (N.leb_spec (N.of_nat (length str)) (N.of_nat (length str + length rest))); [|lia].
    rewrite Nat2N.id. f_equal. f_equal. f_equal. f_equal; lia.
  - intros enc rest E Hs Hl Hn.
    rewrite (GetLengthPrefixedSlice_gen m s enc rest) by assumption. cbv zeta.
    destruct (N.leb_spec (base128 enc mod 2 ^ 32) (N.of_nat (length rest))); [lia|reflexivity].
  - intros Hno. apply GetLengthPrefixedSlice_fail; assumption.
  - destruct (shape_prefix_dec 5 (bytes_at m (s_data s) (s_size s)) (bytes_at_ok _ _ _ Hm))
      as [(e & r & E & Hs & Hl)|Hno].
    + rewrite (GetLengthPrefixedSlice_gen m s e r) by assumption. cbv zeta.
      destruct (_ <=? _); eauto.
    + rewrite GetLengthPrefixedSlice_fail by assumption. eauto.
Qed.

Lemma LengthPrefixedPtr_agrees base m s old :
  bytes_ok m -> (s_data s + s_size s <= length m)%nat ->
  base + N.of_nat (length m) + 2 ^ 32 <= 2 ^ 64 ->
  GetLengthPrefixedSlicePtr base m (s_data s) (s_data s + s_size s) old
  = bind (GetLengthPrefixedSlice m s old) (fun '(ok, s', r') =>
    Ret (if ok then (Some (s_data s'), r') else (None, old))).
Proof.
  intros Hm Hb Hbase.
  assert (HL : bytes_at m (s_data s) (s_data s + s_size s - s_data s) = bytes_at m (s_data s) (s_size s))
    by (f_equal; lia).
  unfold GetLengthPrefixedSlicePtr.
  destruct (shape_prefix_dec 5 (bytes_at m (s_data s) (s_size s)) (bytes_at_ok _ _ _ Hm))
    as [(e & r & E & Hs & Hl)|Hno].
  - rewrite (GetVarint32Ptr_ok m _ _ e r) by (try assumption; try rewrite HL; try assumption; lia).
    rewrite (GetLengthPrefixedSlice_gen m s e r) by assumption. cbn [bind]. cbv zeta.
    pose proof (bytes_at_length m (s_data s) (s_size s) Hb) as Hlen. rewrite E, app_length in Hlen.
    assert (Hn : base128 e mod 2 ^ 32 < 2 ^ 32) by (apply N.mod_lt; discriminate).
    set (n := base128 e mod 2 ^ 32) in *.
    unfold u64. rewrite !N.mod_small by lia.
    destruct (N.leb_spec n (N.of_nat (length r))) as [H|H]; cbn [bind];
      destruct (N.ltb_spec (base + N.of_nat (s_data s + s_size s)) (base + N.of_nat (s_data s + length e) + n)); try lia.
    + cbn [s_data]. reflexivity.
    + reflexivity.
  - rewrite GetVarint32Ptr_fail by (try assumption; try lia; intros ? ?; rewrite HL; apply Hno).
    rewrite GetLengthPrefixedSlice_fail by assumption. reflexivity.
Qed.
