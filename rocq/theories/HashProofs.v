(** HashProofs.v -- lemmas about Hash.v *)
From Coq Require Import List NArith Arith Lia Bool ZArith ZifyN ZifyNat.
From Verif Require Import Outcome Coding CodingSpec CodingProofs SliceProofs Hash HashSpec.
Import ListNotations.
Local Open Scope N_scope.

Lemma lxor_lt k a b : a < 2 ^ k -> b < 2 ^ k -> N.lxor a b < 2 ^ k.
Proof.
  intros Ha Hb.
  replace (N.lxor a b) with (N.lxor a b mod 2 ^ k); [apply N.mod_lt, N.pow_nonzero; discriminate|].
  rewrite <- !N.land_ones. apply N.bits_inj. intros i. rewrite N.land_spec, N.lxor_spec.
  rewrite <- (N.mod_small a (2 ^ k) Ha), <- (N.mod_small b (2 ^ k) Hb).
  rewrite <- !N.land_ones, !N.land_spec. destruct (N.testbit (N.ones k) i), (N.testbit a i), (N.testbit b i); reflexivity.
Qed.

Lemma lxor_mod k a b : N.lxor a b mod 2 ^ k = N.lxor (a mod 2 ^ k) (b mod 2 ^ k).
Proof.
  rewrite <- !N.land_ones. apply N.bits_inj. intros i.
  rewrite N.land_spec, !N.lxor_spec, !N.land_spec.
  destruct (N.testbit (N.ones k) i), (N.testbit a i), (N.testbit b i); reflexivity.
Qed.

Lemma mix_lt s h w : mix s h w < 2 ^ 32.
Proof.
  unfold mix. cbv zeta. set (x := ((h + w) * mult) mod 2 ^ 32).
  assert (Hx : x < 2 ^ 32) by (apply N.mod_lt; discriminate).
  apply lxor_lt; [exact Hx|].
  eapply N.le_lt_trans; [|exact Hx]. apply N.div_le_upper_bound; [apply N.pow_nonzero; discriminate|].
  rewrite <- (N.mul_1_l x) at 1. apply N.mul_le_mono_r.
  assert (2 ^ s <> 0) by (apply N.pow_nonzero; discriminate). lia.
Qed.

(** the multiplier is invertible modulo 2^32 *)
Definition mult_inv : N := 0xd8198e9b.

Lemma absorb_step b0 b1 b2 b3 rest h :
  absorb (b0 :: b1 :: b2 :: b3 :: rest) h = absorb rest (mix 16 h (le_value [b0; b1; b2; b3])).
Proof. reflexivity. Qed.

Lemma four_ind (P : list N -> Prop) :
  (forall l, (length l < 4)%nat -> P l) ->
  (forall a b c d l, P l -> P (a :: b :: c :: d :: l)) -> forall l, P l.
Proof.
  intros H1 H2 l. remember (length l) as n eqn:E. assert (Hn : (length l <= n)%nat) by lia. clear E.
  revert l Hn. induction n as [n IH] using lt_wf_ind. intros l Hn.
  destruct l as [|a [|b [|c [|d l]]]]; try (apply H1; cbn; lia).
  apply H2. cbn in Hn. apply (IH (length l)); lia.
Qed.

Lemma mult_inv_ok : (mult * mult_inv) mod 2 ^ 32 = 1.
Proof. vm_compute. reflexivity. Qed.

Lemma mult_cancel x : ((x * mult) mod 2 ^ 32 * mult_inv) mod 2 ^ 32 = x mod 2 ^ 32.
Proof.
  rewrite N.mul_mod_idemp_l by discriminate. rewrite <- N.mul_assoc.
  rewrite <- N.mul_mod_idemp_r, mult_inv_ok by discriminate. rewrite N.mul_1_r. reflexivity.
Qed.

Lemma mult_cancel' x : ((x * mult_inv) mod 2 ^ 32 * mult) mod 2 ^ 32 = x mod 2 ^ 32.
Proof.
  rewrite N.mul_mod_idemp_l by discriminate. rewrite <- N.mul_assoc, (N.mul_comm mult_inv).
  rewrite <- N.mul_mod_idemp_r, mult_inv_ok by discriminate. rewrite N.mul_1_r. reflexivity.
Qed.

(** x ^ (x >> s) is an involution on 32-bit numbers when s >= 16 *)
Definition xs (s x : N) : N := N.lxor x (x / 2 ^ s).

Lemma xs_invol s x : 16 <= s -> x < 2 ^ 32 -> xs s (xs s x) = x.
Proof.
  intros Hs Hx. unfold xs. rewrite <- !N.shiftr_div_pow2, N.shiftr_lxor, N.shiftr_shiftr.
  assert (E : N.shiftr x (s + s) = 0).
  { rewrite N.shiftr_div_pow2. apply N.div_small. eapply N.lt_le_trans; [exact Hx|].
    apply N.pow_le_mono_r; lia. }
  rewrite E, N.lxor_0_r, N.lxor_assoc, N.lxor_nilpotent, N.lxor_0_r. reflexivity.
Qed.

Lemma xs_lt s x : x < 2 ^ 32 -> xs s x < 2 ^ 32.
Proof.
  intros Hx. unfold xs. apply lxor_lt; [exact Hx|].
  eapply N.le_lt_trans; [|exact Hx]. apply N.div_le_upper_bound; [apply N.pow_nonzero; discriminate|].
  rewrite <- (N.mul_1_l x) at 1. apply N.mul_le_mono_r.
  assert (2 ^ s <> 0) by (apply N.pow_nonzero; discriminate). lia.
Qed.

Lemma mix_inj s h w h' w' : 16 <= s -> mix s h w = mix s h' w' ->
  (h + w) mod 2 ^ 32 = (h' + w') mod 2 ^ 32.
Proof.
  intros Hs E. unfold mix in E. cbv zeta in E.
  change (xs s (((h + w) * mult) mod 2 ^ 32) = xs s (((h' + w') * mult) mod 2 ^ 32)) in E.
  assert (E2 := f_equal (xs s) E). rewrite !xs_invol in E2 by (try exact Hs; apply N.mod_lt; discriminate).
  rewrite <- (mult_cancel (h + w)), <- (mult_cancel (h' + w')), E2. reflexivity.
Qed.

Lemma mix_surj s y : 16 <= s -> y < 2 ^ 32 -> exists x, x < 2 ^ 32 /\
  forall h w, (h + w) mod 2 ^ 32 = x -> mix s h w = y.
Proof.
  intros Hs Hy. exists ((xs s y * mult_inv) mod 2 ^ 32). split; [apply N.mod_lt; discriminate|].
  intros h w E. unfold mix. cbv zeta.
  replace (((h + w) * mult) mod 2 ^ 32) with (xs s y).
  - apply (xs_invol s y Hs Hy).
  - rewrite <- N.mul_mod_idemp_l, E by discriminate.
    rewrite mult_cancel'. symmetry. apply N.mod_small, xs_lt, Hy.
Qed.

Lemma add_mod_inj h h' w : h < 2 ^ 32 -> h' < 2 ^ 32 ->
  (h + w) mod 2 ^ 32 = (h' + w) mod 2 ^ 32 -> h = h'.
Proof.
  intros H H' E. revert E. rewrite <- (N.add_mod_idemp_r h w), <- (N.add_mod_idemp_r h' w) by discriminate.
  assert (Hw : w mod 2 ^ 32 < 2 ^ 32) by (apply N.mod_lt; discriminate).
  set (w0 := w mod 2 ^ 32) in *. change (2 ^ 32) with 4294967296 in *.
  intros E. zify. Z.div_mod_to_equations. lia.
Qed.

Lemma tail_absorb bs h : (length bs < 4)%nat -> absorb bs h = match bs with [] => h | _ => mix 24 h (le_value bs) end.
Proof. intros H. destruct bs as [|? [|? [|? [|? ?]]]]; try reflexivity. cbn in H. lia. Qed.

Lemma absorb_inj bs : forall h h', h < 2 ^ 32 -> h' < 2 ^ 32 -> absorb bs h = absorb bs h' -> h = h'.
Proof.
  induction bs as [bs Hl|a b c d bs IH] using four_ind; intros h h' H H' E.
  - rewrite !tail_absorb in E by exact Hl. destruct bs; [exact E|].
    apply mix_inj in E; [|discriminate]. eapply add_mod_inj; eassumption.
  - rewrite !absorb_step in E. apply IH in E; [|apply mix_lt|apply mix_lt].
    apply mix_inj in E; [|discriminate]. eapply add_mod_inj; eassumption.
Qed.

Lemma sub_mod x w : x < 2 ^ 32 -> exists h, h < 2 ^ 32 /\ (h + w) mod 2 ^ 32 = x.
Proof.
  intros Hx. exists ((x + (2 ^ 32 - w mod 2 ^ 32)) mod 2 ^ 32). split; [apply N.mod_lt; discriminate|].
  rewrite N.add_mod_idemp_l by discriminate. rewrite <- N.add_mod_idemp_r by discriminate.
  assert (Hw : w mod 2 ^ 32 < 2 ^ 32) by (apply N.mod_lt; discriminate).
  set (w0 := w mod 2 ^ 32) in *.
  replace (x + (2 ^ 32 - w0) + w0) with (x + 1 * 2 ^ 32) by lia.
  rewrite N.mod_add by discriminate. apply N.mod_small, Hx.
Qed.

Lemma absorb_surj bs : forall y, y < 2 ^ 32 -> exists h, h < 2 ^ 32 /\ absorb bs h = y.
Proof.
  induction bs as [bs Hl|a b c d bs IH] using four_ind; intros y Hy.
  - destruct bs as [|b0 t]; [exists y; auto|].
    destruct (mix_surj 24 y ltac:(discriminate) Hy) as (x & Hx & Hm).
    destruct (sub_mod x (le_value (b0 :: t)) Hx) as (h & Hh & E). exists h. split; [exact Hh|].
    rewrite tail_absorb by exact Hl. apply Hm, E.
  - destruct (IH y Hy) as (h1 & Hh1 & E1).
    destruct (mix_surj 16 h1 ltac:(discriminate) Hh1) as (x & Hx & Hm).
    destruct (sub_mod x (le_value [a; b; c; d]) Hx) as (h & Hh & E). exists h. split; [exact Hh|].
    rewrite absorb_step, (Hm _ _ E). exact E1.
Qed.

Lemma absorb_lt bs : forall h, h < 2 ^ 32 -> absorb bs h < 2 ^ 32.
Proof.
  induction bs as [bs Hl|a b c d bs IH] using four_ind; intros h H.
  - rewrite tail_absorb by exact Hl. destruct bs; [exact H|apply mix_lt].
  - rewrite absorb_step. apply IH, mix_lt.
Qed.

Lemma absorb_app a : forall b h, (length a mod 4 = 0)%nat -> absorb (a ++ b) h = absorb b (absorb a h).
Proof.
  induction a as [a Hl|a0 a1 a2 a3 a IH] using four_ind; intros b h Hm.
  - rewrite Nat.mod_small in Hm by exact Hl. destruct a; [reflexivity|discriminate].
  - cbn [app]. rewrite !absorb_step. apply IH.
    cbn [length] in Hm. replace (S (S (S (S (length a))))) with (length a + 1 * 4)%nat in Hm by lia.
    rewrite Nat.mod_add in Hm by discriminate. exact Hm.
Qed.

Lemma le_value_inj n : forall w w', bytes_ok w -> bytes_ok w' -> length w = n -> length w' = n ->
  le_value w = le_value w' -> w = w'.
Proof.
  intros w w' Hw Hw' L L' E.
  destruct (le_block_value w Hw) as [E1 _]. destruct (le_block_value w' Hw') as [E2 _].
  rewrite <- E1, <- E2, E, L, L'. reflexivity.
Qed.

Lemma le_value_lt w : bytes_ok w -> (length w <= 4)%nat -> le_value w < 2 ^ 32.
Proof.
  intros Hw Hl. destruct (le_block_value w Hw) as [_ H]. eapply N.lt_le_trans; [exact H|].
  change (2 ^ 32) with (256 ^ 4). apply N.pow_le_mono_r; lia.
Qed.

Lemma mix_word_inj s h w w' : 16 <= s -> w < 2 ^ 32 -> w' < 2 ^ 32 -> mix s h w = mix s h w' -> w = w'.
Proof.
  intros Hs Hw Hw' E. apply mix_inj in E; [|exact Hs].
  rewrite (N.add_comm h w), (N.add_comm h w') in E. eapply add_mod_inj; eassumption.
Qed.

(** * The code computes the formula *)

Definition Hash_fin (mm : mem) (limit : nat) (p : nat * N) : outcome N :=
  let '(data, h) := p in
  let rest := (limit - data)%nat in
  let case1 (h : N) : outcome N :=
    bind (load mm data) (fun b =>
    let h := u32 (h + b) in
    let h := u32 (h * hash_m) in
    Ret (N.lxor h (N.shiftr h hash_r))) in
  let case2 (h : N) : outcome N :=
    bind (load mm (data + 1)) (fun b => case1 (u32 (h + N.shiftl b 8))) in
  let case3 (h : N) : outcome N :=
    bind (load mm (data + 2)) (fun b => case2 (u32 (h + N.shiftl b 16))) in
  match rest with
  | 3%nat => case3 h
  | 2%nat => case2 h
  | 1%nat => case1 h
  | _ => Ret h
  end.

Lemma Hash_unfold mm data n seed :
  Hash mm data n seed =
  bind (Hash_loop (S n) mm data (data + n) (u32 (N.lxor seed (u64 (N.of_nat n * hash_m)))))
       (Hash_fin mm (data + n)).
Proof.
  unfold Hash. destruct (Hash_loop _ _ _ _ _) as [[? ?]| | |]; reflexivity.
Qed.

Lemma u32_mix s h w : N.lxor (u32 (u32 (h + w) * hash_m)) (N.shiftr (u32 (u32 (h + w) * hash_m)) s) = mix s h w.
Proof.
  unfold mix, u32. cbv zeta. rewrite N.shiftr_div_pow2.
  rewrite N.mul_mod_idemp_l by discriminate. reflexivity.
Qed.

Lemma u32_addl a b : u32 (u32 a + b) = u32 (a + b).
Proof. unfold u32. apply N.add_mod_idemp_l. discriminate. Qed.

Lemma load_at (pre bs post : list N) i b : nth_error bs i = Some b ->
  load (pre ++ bs ++ post) (length pre + i) = Ret b.
Proof.
  intros H. unfold load. rewrite nth_error_app2 by lia.
  replace (length pre + i - length pre)%nat with i by lia.
  rewrite nth_error_app1 by (apply nth_error_Some; congruence). rewrite H. reflexivity.
Qed.

Lemma load_at0 (pre : list N) b bs post : load (pre ++ (b :: bs) ++ post) (length pre) = Ret b.
Proof. rewrite <- (Nat.add_0_r (length pre)). apply load_at. reflexivity. Qed.

Lemma Hash_loop_done fuel mm data limit h : (limit < data + 4)%nat ->
  Hash_loop (S fuel) mm data limit h = Ret (data, h).
Proof. intros H. cbn [Hash_loop]. destruct (Nat.leb_spec (data + 4) limit); [lia|reflexivity]. Qed.

Lemma mix_congr s h w h' w' : (h + w) mod 2 ^ 32 = (h' + w') mod 2 ^ 32 -> mix s h w = mix s h' w'.
Proof.
  intros E. unfold mix. cbv zeta.
  rewrite <- (N.mul_mod_idemp_l (h + w)), <- (N.mul_mod_idemp_l (h' + w')), E by discriminate. reflexivity.
Qed.

Lemma DecodeFixed32_at pre a b c d bs post : bytes_ok (a :: b :: c :: d :: bs) ->
  DecodeFixed32 (pre ++ (a :: b :: c :: d :: bs) ++ post) (length pre) = Ret (le_value [a; b; c; d]).
Proof.
  intros H. change (pre ++ (a :: b :: c :: d :: bs) ++ post) with (pre ++ [a; b; c; d] ++ (bs ++ post)).
  apply DecodeFixed32_bytes. unfold bytes_ok in *.
  rewrite !Forall_cons_iff in *. pose proof (Forall_nil byte_ok). tauto.
Qed.

Lemma Hash_body bs : bytes_ok bs -> forall pre post h fuel,
  (length bs < fuel)%nat ->
  bind (Hash_loop fuel (pre ++ bs ++ post) (length pre) (length pre + length bs) h)
       (Hash_fin (pre ++ bs ++ post) (length pre + length bs))
  = Ret (absorb bs h).
Proof.
  induction bs as [bs Hl|a b c d bs IH] using four_ind; intros Hok pre post h fuel Hf.
  - destruct fuel as [|fuel]; [lia|]. rewrite Hash_loop_done by lia. cbn [bind Hash_fin].
    replace (length pre + length bs - length pre)%nat with (length bs) by lia.
    destruct bs as [|b0 [|b1 [|b2 [|? ?]]]]; [reflexivity| | | |cbn in Hl; lia]; cbn [length].
    + rewrite load_at0. cbn [bind]. unfold hash_r. rewrite u32_mix. cbn [absorb].
      f_equal. apply mix_congr. f_equal. cbn [le_value]. lia.
    + rewrite load_at0, (load_at pre [b0; b1] post 1 b1) by reflexivity. cbn [bind].
      unfold hash_r. rewrite u32_mix. cbn [absorb]. f_equal. apply mix_congr.
      change ((u32 (h + N.shiftl b1 8) + b0) mod 2 ^ 32) with (u32 (u32 (h + N.shiftl b1 8) + b0)).
      rewrite u32_addl. unfold u32. f_equal. rewrite N.shiftl_mul_pow2. change (2 ^ 8) with 256. cbn [le_value]. lia.
    + rewrite load_at0, (load_at pre [b0; b1; b2] post 1 b1), (load_at pre [b0; b1; b2] post 2 b2) by reflexivity.
      cbn [bind]. unfold hash_r. rewrite u32_mix. cbn [absorb]. f_equal. apply mix_congr.
      rewrite u32_addl.
      change ((u32 (h + N.shiftl b2 16 + N.shiftl b1 8) + b0) mod 2 ^ 32)
        with (u32 (u32 (h + N.shiftl b2 16 + N.shiftl b1 8) + b0)).
      rewrite u32_addl. unfold u32. f_equal. rewrite !N.shiftl_mul_pow2.
      change (2 ^ 8) with 256. change (2 ^ 16) with (256 * 256). cbn [le_value]. lia.
  - destruct fuel as [|fuel]; [lia|]. cbn [Hash_loop].
    cbn [length] in *.
    destruct (Nat.leb_spec (length pre + 4) (length pre + S (S (S (S (length bs)))))); [|lia].
    rewrite DecodeFixed32_at by exact Hok. cbn [bind]. rewrite u32_mix, absorb_step.
    assert (Hok' : bytes_ok bs) by (unfold bytes_ok in *; rewrite !Forall_cons_iff in Hok; tauto).
    specialize (IH Hok' (pre ++ [a; b; c; d]) post (mix 16 h (le_value [a; b; c; d])) fuel ltac:(lia)).
    rewrite <- app_assoc in IH. cbn [app] in IH. rewrite app_length in IH. cbn [length] in IH.
    cbn [app].
    replace (length pre + 4 + length bs)%nat with (length pre + S (S (S (S (length bs)))))%nat in IH by lia.
    exact IH.
Qed.

Lemma Hash_at pre bs post seed : bytes_ok bs -> seed < 2 ^ 32 ->
  Hash (pre ++ bs ++ post) (length pre) (length bs) seed = Ret (hash_spec bs seed).
Proof.
  intros Hok Hs. rewrite Hash_unfold, Hash_body by (try exact Hok; lia).
  unfold hash_spec. do 2 f_equal. unfold u32, u64. rewrite lxor_mod, (N.mod_small seed) by exact Hs.
  f_equal. set (x := N.of_nat (length bs) * hash_m).
  change (x mod 2 ^ 64 mod 2 ^ 32 = x mod 2 ^ 32). clearbody x.
  change (2 ^ 64) with (2 ^ 32 * 2 ^ 32). rewrite N.mod_mul_r by discriminate.
  rewrite (N.mul_comm (2 ^ 32)), N.mod_add by discriminate. apply N.mod_mod. discriminate.
Qed.

Lemma bytes_at_split m p n : (p + n <= length m)%nat ->
  m = firstn p m ++ bytes_at m p n ++ skipn (p + n) m /\ length (firstn p m) = p.
Proof.
  intros H. split; [|rewrite firstn_length; lia].
  rewrite <- (firstn_skipn p m) at 1. f_equal. unfold bytes_at.
  rewrite <- skipn_add. symmetry. apply firstn_skipn.
Qed.

Lemma Hash_eq m p n seed : bytes_ok m -> (p + n <= length m)%nat -> seed < 2 ^ 32 ->
  Hash m p n seed = Ret (hash_spec (bytes_at m p n) seed).
Proof.
  intros Hok Hb Hs. destruct (bytes_at_split m p n Hb) as [E L].
  pose proof (Hash_at (firstn p m) (bytes_at m p n) (skipn (p + n) m) seed (bytes_at_ok _ _ _ Hok) Hs) as H.
  rewrite <- E, L, bytes_at_length in H by exact Hb. exact H.
Qed.

Lemma hash_spec_lt bs seed : seed < 2 ^ 32 -> hash_spec bs seed < 2 ^ 32.
Proof. intros H. apply absorb_lt, lxor_lt; [exact H|apply N.mod_lt; discriminate]. Qed.

Lemma hash_spec_seed_inj bs s s' : s < 2 ^ 32 -> s' < 2 ^ 32 -> hash_spec bs s = hash_spec bs s' -> s = s'.
Proof.
  intros H H' E. unfold hash_spec in E.
  set (k := (N.of_nat (length bs) * mult) mod 2 ^ 32) in *.
  assert (Hk : k < 2 ^ 32) by (apply N.mod_lt; discriminate).
  apply absorb_inj in E; [|apply lxor_lt; assumption|apply lxor_lt; assumption].
  assert (E2 := f_equal (fun x => N.lxor x k) E). cbv beta in E2.
  rewrite !N.lxor_assoc, N.lxor_nilpotent, !N.lxor_0_r in E2. exact E2.
Qed.

Lemma hash_spec_seed_surj bs y : y < 2 ^ 32 -> exists s, s < 2 ^ 32 /\ hash_spec bs s = y.
Proof.
  intros Hy. destruct (absorb_surj bs y Hy) as (h & Hh & E).
  set (k := (N.of_nat (length bs) * mult) mod 2 ^ 32).
  assert (Hk : k < 2 ^ 32) by (apply N.mod_lt; discriminate).
  exists (N.lxor h k). split; [apply lxor_lt; assumption|].
  unfold hash_spec. fold k. rewrite N.lxor_assoc, N.lxor_nilpotent, N.lxor_0_r. exact E.
Qed.

Lemma absorb_word_inj w w' post h : bytes_ok w -> bytes_ok w' -> length w = length w' ->
  (length w = 4 \/ (length w < 4 /\ post = []))%nat ->
  absorb (w ++ post) h = absorb (w' ++ post) h -> w = w'.
Proof.
  intros Hw Hw' HL Hc E.
  assert (Hb : le_value w < 2 ^ 32) by (apply le_value_lt; [exact Hw|lia]).
  assert (Hb' : le_value w' < 2 ^ 32) by (apply le_value_lt; [exact Hw'|lia]).
  apply (le_value_inj (length w) w w' Hw Hw' eq_refl (eq_sym HL)).
  destruct Hc as [H4|[H3 ->]].
  - destruct w as [|a [|b [|c [|d [|? ?]]]]]; try discriminate.
    destruct w' as [|a' [|b' [|c' [|d' [|? ?]]]]]; try discriminate.
    cbn [app] in E. rewrite !absorb_step in E. apply absorb_inj in E; [|apply mix_lt|apply mix_lt].
    eapply mix_word_inj; [|exact Hb|exact Hb'|exact E]. discriminate.
  - rewrite !app_nil_r in E. rewrite !tail_absorb in E by lia.
    destruct w, w'; try discriminate; [reflexivity|].
    eapply mix_word_inj; [|exact Hb|exact Hb'|exact E]. discriminate.
Qed.

Lemma hash_spec_word_inj a w w' post s : bytes_ok w -> bytes_ok w' -> length w = length w' ->
  (length a mod 4 = 0)%nat -> (length w = 4 \/ (length w < 4 /\ post = []))%nat ->
  hash_spec (a ++ w ++ post) s = hash_spec (a ++ w' ++ post) s -> w = w'.
Proof.
  intros Hw Hw' HL Ha Hc E. unfold hash_spec in E. rewrite (absorb_app a (w ++ post)), (absorb_app a (w' ++ post)) in E by exact Ha.
  rewrite !app_length, HL in E. exact (absorb_word_inj w w' post _ Hw Hw' HL Hc E).
Qed.

Lemma hash_spec_word_surj a post s y : (length a mod 4 = 0)%nat -> y < 2 ^ 32 ->
  exists w, bytes_ok w /\ length w = 4%nat /\ hash_spec (a ++ w ++ post) s = y.
Proof.
  intros Ha Hy. unfold hash_spec.
  set (h := absorb a (N.lxor s ((N.of_nat (length a + (4 + length post)) * mult) mod 2 ^ 32))).
  destruct (absorb_surj post y Hy) as (h1 & Hh1 & E1).
  destruct (mix_surj 16 h1 ltac:(discriminate) Hh1) as (x & Hx & Hm).
  destruct (sub_mod x h Hx) as (w & Hw & Ew).
  exists (le_block 4 w). split; [apply le_block_ok|]. split; [apply le_block_length|].
  rewrite absorb_app by exact Ha. rewrite !app_length, le_block_length. fold h.
  rewrite N.add_comm in Ew. apply Hm in Ew.
  rewrite <- (le_value_block4 w Hw) in Ew.
  destruct (le_block 4 w) as [|b0 [|b1 [|b2 [|b3 [|? ?]]]]] eqn:EB;
    try (apply (f_equal (@length N)) in EB; rewrite le_block_length in EB; discriminate).
  cbn [app]. rewrite absorb_step, Ew. exact E1.
Qed.
