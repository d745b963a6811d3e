(** RandomProps.v -- property theorems for util/random.h (C16, C17). *)
From Coq Require Import List NArith ZArith Arith Lia Bool ZifyN ZifyNat ZifyBool.
From Verif Require Import Outcome Random RandomProofs.
Import ListNotations.
Local Open Scope N_scope.

(** legal generator states *)
Definition legal (s : N) : Prop := 1 <= s <= 2 ^ 31 - 2.

Lemma legal_Z s : legal s <-> (1 <= Z.of_N s < P)%Z.
Proof. unfold legal, P. change (2 ^ 31 - 2) with 2147483646. lia. Qed.

(** ** C16 *)
Theorem C16_next_recurrence : forall s,
  legal (Random_new s) /\
  (legal s -> Random_Next s = ((16807 * s) mod (2 ^ 31 - 1), (16807 * s) mod (2 ^ 31 - 1)) /\
              legal ((16807 * s) mod (2 ^ 31 - 1))).
Proof.
  intros s. split; [apply legal_Z, new_range|]. intros Hs. apply legal_Z in Hs.
  destruct (Next_spec s Hs) as (r & E & Er & Hr).
  assert (Heq : r = (16807 * s) mod (2 ^ 31 - 1)).
  { apply N2Z.inj. rewrite Er. change (2 ^ 31 - 1) with 2147483647. rewrite N2Z.inj_mod, N2Z.inj_mul. reflexivity. }
  rewrite <- Heq. split; [exact E|]. apply legal_Z, Hr.
Qed.
Print Assumptions C16_next_recurrence.

Theorem C16_uniform : forall s n, legal s -> (0 < n < 2 ^ 31)%Z ->
  exists r s', Random_Uniform s n = Ret (r, s') /\ (Z.of_N r < n)%Z /\ legal s' /\
    Random_Next s = (s', s') /\ Z.of_N r = (Z.of_N s' mod n)%Z /\
    Random_OneIn s n = Ret ((Z.of_N s' mod n =? 0)%Z, s').
Proof.
  intros s n Hs Hn. destruct (C16_next_recurrence s) as [_ H]. destruct (H Hs) as [E Hl].
  set (x := (16807 * s) mod (2 ^ 31 - 1)) in *.
  change (2 ^ 31)%Z with 2147483648%Z in Hn.
  assert (En : (n mod 2 ^ 32)%Z = n) by (apply Z.mod_small; change (2 ^ 32)%Z with 4294967296%Z; lia).
  assert (Hx : Z.of_N (x mod Z.to_N n) = (Z.of_N x mod n)%Z) by (rewrite N2Z.inj_mod, Z2N.id by lia; reflexivity).
  exists (x mod Z.to_N n), x. unfold Random_Uniform, Random_OneIn. rewrite E. cbv zeta. rewrite En.
  destruct (N.eqb_spec (Z.to_N n) 0); [lia|].
  split; [reflexivity|]. rewrite Hx.
  split; [apply Z.mod_pos_bound; lia|]. split; [exact Hl|]. split; [reflexivity|]. split; [reflexivity|].
  f_equal. f_equal. destruct (N.eqb_spec (x mod Z.to_N n) 0) as [E0|E0]; destruct (Z.eqb_spec (Z.of_N x mod n) 0); try reflexivity; lia.
Qed.
Print Assumptions C16_uniform.

Theorem C16_skewed : forall s m, legal s -> (0 <= m <= 30)%Z ->
  exists r s1 s2, Random_Skewed s m = Ret (r, s2) /\
    (* two draws; the first, modulo m + 1, is the number of bits of the second kept *)
    Random_Next s = (s1, s1) /\ Random_Next s1 = (s2, s2) /\
    Z.of_N r = (Z.of_N s2 mod 2 ^ (Z.of_N s1 mod (m + 1)))%Z /\
    (Z.of_N r <= 2 ^ m - 1)%Z /\ legal s2.
Proof.
  intros s m Hs Hm. unfold Random_Skewed.
  destruct (C16_uniform s (m + 1) Hs) as (k & s1 & E & Hk & Hs1 & N1 & K1 & _); [change (2 ^ 31)%Z with 2147483648%Z; lia|].
  rewrite E. destruct (N.leb_spec 31 k); [lia|].
  assert (Hp : (0 < 2 ^ Z.of_N k <= 2 ^ m)%Z).
  { split; [apply Z.pow_pos_nonneg; lia|apply Z.pow_le_mono_r; lia]. }
  assert (Hp31 : (2 ^ Z.of_N k < 2 ^ 31)%Z) by (apply Z.pow_lt_mono_r; lia).
  destruct (C16_uniform s1 (2 ^ Z.of_N k) Hs1 ltac:(lia)) as (r & s2 & E2 & Hr & Hs2 & N2 & K2 & _).
  exists r, s1, s2. split; [exact E2|]. split; [exact N1|]. split; [exact N2|]. split; [rewrite <- K1; exact K2|]. split; [lia|exact Hs2].
Qed.
Print Assumptions C16_skewed.

Example C16_case :
  legal 301 /\ Random_new 301 = 301 /\ Random_Next 301 = (5058907, 5058907) /\
  Random_new 0 = 1 /\ Random_new 2147483647 = 1 /\ Random_Next 2147483646 = (2147466840, 2147466840).
Proof. repeat split; vm_compute; congruence. Qed.

(** ** C17 *)
(** 2^31-2 successive results contain every number of [1,2^31-2] exactly once,
    from any seed, and then the sequence repeats. *)
Theorem C17_full_period : forall seed n,
  N.of_nat n = 2 ^ 31 - 2 ->
  let outputs := Random_draws n (Random_new seed) in
  length outputs = n /\
  NoDup outputs /\
  (forall x, In x outputs <-> 1 <= x <= 2 ^ 31 - 2) /\
  last outputs 0 = Random_new seed.
Proof.
  intros seed n Hn outputs.
  assert (En : n = big).
  { pose proof big_eq as HB. unfold P in HB. change (2 ^ 31 - 2) with 2147483646 in Hn. lia. }
  pose proof (new_range seed) as Hs. set (s := Random_new seed) in *.
  split; [apply draws_length|]. split; [|split].
  - apply NoDup_nth_error. intros i j Hi E.
    assert (Hi' : (i < n)%nat) by (unfold outputs in Hi; rewrite draws_length in Hi; exact Hi).
    destruct (draws_nth n s i Hs Hi') as (r & Er & _ & _).
    assert (Ej : nth_error outputs j = Some r) by (rewrite <- E; exact Er).
    assert (Hj : (j < n)%nat).
    { rewrite <- (draws_length n s). apply nth_error_Some. unfold outputs in Ej. rewrite Ej. discriminate. }
    subst n. exact (draws_values_inj s i j big r Hs Hi' Hj (le_n big) Er Ej).
  - intros x. split; intros H.
    + apply In_nth_error in H. destruct H as (i & Ei).
      assert (Hi : (i < n)%nat) by (rewrite <- (draws_length n s); apply nth_error_Some; unfold outputs in Ei; rewrite Ei; discriminate).
      destruct (draws_nth n s i Hs Hi) as (r & Er & _ & Hr). unfold outputs in Ei. rewrite Ei in Er. injection Er as <-.
      apply legal_Z, Hr.
    + apply legal_Z in H. destruct (draws_cover s x Hs H) as (i & Hi & E). subst n.
      eapply nth_error_In. exact E.
  - pose proof big_eq as HB. unfold P in HB.
    destruct (draws_nth n s (n - 1) Hs ltac:(lia)) as (r & Er & V & Hr).
    assert (Hlast : last outputs 0 = r).
    { clear V. unfold outputs. rewrite <- (firstn_skipn (n - 1) (Random_draws n s)).
      apply nth_error_split in Er. destruct Er as (l1 & l2 & El & Hl1).
      assert (l2 = []).
      { assert (HL := f_equal (@length N) El). rewrite draws_length, app_length in HL. cbn in HL.
        destruct l2; [reflexivity|cbn in HL; lia]. }
      subst l2. rewrite firstn_skipn, El. apply last_last. }
    rewrite Hlast. apply N2Z.inj. rewrite V.
    replace (Z.of_nat (n - 1) + 1)%Z with (P - 1)%Z by (clear - HB En; unfold P; lia).
    rewrite powA_full, Z.mul_1_r. apply Z.mod_small. clear V Er. lia.
Qed.
Print Assumptions C17_full_period.

Example C17_case : Random_draws 3 (Random_new 1) = [16807; 282475249; 1622650073].
Proof. vm_compute; reflexivity. Qed.
