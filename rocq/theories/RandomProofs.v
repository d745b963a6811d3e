(** RandomProofs.v *)
From Coq Require Import List NArith ZArith Arith Lia Bool ZifyN ZifyNat ZifyBool Znumtheory Zpow_facts.
From Verif Require Import Outcome Random.
Import ListNotations.
Local Open Scope Z_scope.

Definition P : Z := 2147483647.
Definition A : Z := 16807.
Definition Ainv : Z := 1407677000.

Lemma Ainv_ok : (A * Ainv) mod P = 1.
Proof. vm_compute. reflexivity. Qed.

Lemma A_nonzero x : 1 <= x < P -> (A * x) mod P <> 0.
Proof.
  intros Hx E.
  assert (H : ((A * x) mod P * Ainv) mod P = x).
  { rewrite Z.mul_mod_idemp_l by discriminate.
    replace (A * x * Ainv) with (x * (A * Ainv)) by ring.
    rewrite <- Z.mul_mod_idemp_r, Ainv_ok by discriminate.
    rewrite Z.mul_1_r. apply Z.mod_small. lia. }
  rewrite E in H. cbn in H. lia.
Qed.

Lemma Next_spec s : 1 <= Z.of_N s < P ->
  exists r, Random_Next s = (r, r) /\ Z.of_N r = (A * Z.of_N s) mod P /\ 1 <= Z.of_N r < P.
Proof.
  intros Hs. unfold Random_Next. cbv zeta.
  assert (Hprod : u64 (s * 16807) = (s * 16807)%N).
  { unfold u64. apply N.mod_small. unfold P in Hs. change (2 ^ 64)%N with 18446744073709551616%N. lia. }
  rewrite Hprod.
  change 2147483647%N with (N.ones 31). rewrite N.land_ones, N.shiftr_div_pow2.
  change (N.ones 31) with 2147483647%N. change (2 ^ 31)%N with 2147483648%N.
  set (p := (s * 16807)%N).
  pose proof (N.div_mod p 2147483648 ltac:(discriminate)) as Hdm.
  pose proof (N.mod_lt p 2147483648 ltac:(discriminate)) as Hlo.
  set (hi := (p / 2147483648)%N) in *. set (lo := (p mod 2147483648)%N) in *.
  assert (Hhi : (hi < 16808)%N) by (unfold P in Hs; lia).
  assert (Hu : u32 (hi + lo) = (hi + lo)%N).
  { unfold u32. apply N.mod_small. change (2 ^ 32)%N with 4294967296%N. lia. }
  rewrite Hu.
  assert (Hmod : (A * Z.of_N s) mod P = (Z.of_N hi + Z.of_N lo) mod P).
  { replace (A * Z.of_N s) with (Z.of_N hi + Z.of_N lo + Z.of_N hi * P) by (unfold A, P; lia).
    apply Z.mod_add. discriminate. }
  pose proof (A_nonzero (Z.of_N s) Hs) as Hnz. rewrite Hmod in Hnz.
  assert (Hne : Z.of_N hi + Z.of_N lo <> P).
  { intros E. rewrite E in Hnz. apply Hnz. apply Z.mod_same. discriminate. }
  assert (Hne0 : Z.of_N hi + Z.of_N lo <> 0).
  { intros E. rewrite E in Hnz. apply Hnz. reflexivity. }
  rewrite Hmod. unfold P in *.
  destruct (N.ltb_spec 2147483647 (hi + lo)) as [H|H].
  - exists (hi + lo - 2147483647)%N.
    assert (E : u32 (hi + lo + 2 ^ 32 - 2147483647) = (hi + lo - 2147483647)%N).
    { unfold u32. replace (hi + lo + 2 ^ 32 - 2147483647)%N with (hi + lo - 2147483647 + 1 * 2 ^ 32)%N by lia.
      rewrite N.mod_add by discriminate. apply N.mod_small. change (2 ^ 32)%N with 4294967296%N. lia. }
    rewrite E. split; [reflexivity|].
    split; [|lia].
    replace (Z.of_N hi + Z.of_N lo) with (Z.of_N (hi + lo - 2147483647) + 1 * 2147483647) by lia.
    rewrite Z.mod_add by discriminate. symmetry. apply Z.mod_small. lia.
  - exists (hi + lo)%N. split; [reflexivity|]. split; [|lia].
    rewrite Z.mod_small by lia. lia.
Qed.

Lemma new_range s : 1 <= Z.of_N (Random_new s) < P.
Proof.
  unfold Random_new. change 2147483647%N with (N.ones 31). rewrite N.land_ones.
  pose proof (N.mod_lt s (2 ^ 31) ltac:(discriminate)) as H.
  change (2 ^ 31)%N with 2147483648%N in *. change (N.ones 31) with 2147483647%N.
  destruct (N.eqb_spec (s mod 2147483648) 0); [unfold P; cbn; lia|].
  destruct (N.eqb_spec (s mod 2147483648) 2147483647); [unfold P; cbn; lia|].
  cbn [orb]. unfold P. lia.
Qed.

(** * Order of A modulo P *)
Lemma mul_mod_cong a b c d : a mod P = b mod P -> c mod P = d mod P -> (a * c) mod P = (b * d) mod P.
Proof.
  intros H1 H2. rewrite <- Z.mul_mod_idemp_l, <- Z.mul_mod_idemp_r, H1, H2 by discriminate.
  rewrite Z.mul_mod_idemp_l, Z.mul_mod_idemp_r by discriminate. reflexivity.
Qed.

Definition powA (n : Z) : Z := A ^ n mod P.

Lemma powA_full : powA (P - 1) = 1.
Proof. unfold powA. rewrite <- Zpow_mod_correct by discriminate. vm_compute. reflexivity. Qed.

Lemma powA_q q : In q [2; 3; 7; 11; 31; 151; 331] -> powA ((P - 1) / q) <> 1.
Proof.
  unfold powA. intros H. rewrite <- Zpow_mod_correct by discriminate.
  cbn [In] in H.
  decompose [or] H; clear H; try subst q; try contradiction; vm_compute; discriminate.
Qed.

Lemma powA_add a b : 0 <= a -> 0 <= b -> powA (a + b) = (powA a * powA b) mod P.
Proof.
  intros Ha Hb. unfold powA. rewrite Z.pow_add_r by assumption.
  rewrite Z.mul_mod_idemp_l, Z.mul_mod_idemp_r by discriminate. reflexivity.
Qed.

Lemma powA_mul_one a k : 0 <= a -> 0 <= k -> powA a = 1 -> powA (a * k) = 1.
Proof.
  intros Ha Hk H. pattern k. apply natlike_ind; [| |exact Hk].
  - rewrite Z.mul_0_r. reflexivity.
  - intros x Hx IH. rewrite <- Z.add_1_r, Z.mul_add_distr_l, Z.mul_1_r.
    rewrite powA_add by (try assumption; apply Z.mul_nonneg_nonneg; assumption).
    rewrite IH, H. reflexivity.
Qed.

Lemma powA_cancel a b : 0 <= a -> 0 <= b -> powA (a + b) = powA a -> powA b = 1.
Proof.
  intros Ha Hb E. rewrite powA_add in E by assumption.
  assert (Hinv : (powA a * (Ainv ^ a mod P)) mod P = 1).
  { unfold powA. rewrite Z.mul_mod_idemp_l, Z.mul_mod_idemp_r by discriminate.
    rewrite <- Z.pow_mul_l. rewrite Zpower_mod by reflexivity. rewrite Ainv_ok, Z.pow_1_l by exact Ha. reflexivity. }
  assert (E2 : ((powA a * powA b) mod P * (Ainv ^ a mod P)) mod P = (powA a * (Ainv ^ a mod P)) mod P)
    by (rewrite E; reflexivity).
  rewrite Hinv in E2. rewrite Z.mul_mod_idemp_l in E2 by discriminate.
  replace (powA a * powA b * (Ainv ^ a mod P)) with (powA b * (powA a * (Ainv ^ a mod P))) in E2 by ring.
  rewrite <- Z.mul_mod_idemp_r, Hinv, Z.mul_1_r in E2 by discriminate.
  rewrite <- E2. unfold powA. rewrite Z.mod_mod by discriminate. reflexivity.
Qed.

(** if A^d = 1 then A^gcd(d,P-1) = 1 *)
Lemma powA_gcd d : 0 < d -> powA d = 1 -> powA (Z.gcd d (P - 1)) = 1.
Proof.
  intros Hd H. set (g := Z.gcd d (P - 1)).
  destruct (Z.gcd_bezout d (P - 1) g eq_refl) as (u & v & E).
  assert (Hg : 0 <= g) by apply Z.gcd_nonneg.
  (* make both coefficients usable: u d + v n = g; add multiples of d*n *)
  set (k := Z.abs u + Z.abs v).
  assert (Hn : 0 < P - 1) by (unfold P; lia).
  assert (Hk : 0 <= k) by (unfold k; lia).
  assert (Hu : 0 <= u + k * (P - 1)).
  { assert (k * 1 <= k * (P - 1)) by (apply Z.mul_le_mono_nonneg_l; lia). unfold k in *. lia. }
  assert (Hw : 0 <= k * d - v).
  { assert (k * 1 <= k * d) by (apply Z.mul_le_mono_nonneg_l; lia). unfold k in *. lia. }
  (* d (u + k n) = g + n (k d - v) *)
  assert (EE : d * (u + k * (P - 1)) = (P - 1) * (k * d - v) + g) by (rewrite <- E; ring).
  assert (E1 : powA (d * (u + k * (P - 1))) = 1) by (apply powA_mul_one; [lia|exact Hu|exact H]).
  assert (E2 : powA ((P - 1) * (k * d - v)) = 1) by (apply powA_mul_one; [lia|exact Hw|apply powA_full]).
  rewrite EE in E1.
  eapply powA_cancel; [| |rewrite E1; symmetry; exact E2]; [|exact Hg].
  apply Z.mul_nonneg_nonneg; [lia|exact Hw].
Qed.

Lemma small_prime q : In q [2; 3; 7; 11; 31; 151; 331] -> prime q.
Proof.
  intros H.
  assert (Hb : (1 <? q) && forallb (fun n => Z.gcd (Z.of_nat n) q =? 1) (seq 1 (Z.to_nat q - 1)) = true).
  { cbn [In] in H. decompose [or] H; clear H; try subst q; try contradiction; vm_compute; reflexivity. }
  apply andb_prop in Hb. destruct Hb as [H1 Hb]. apply Z.ltb_lt in H1.
  apply prime_intro; [exact H1|]. intros n Hn.
  rewrite forallb_forall in Hb. specialize (Hb (Z.to_nat n)).
  apply Zgcd_1_rel_prime. rewrite Z2Nat.id in Hb by lia. apply Z.eqb_eq, Hb. apply in_seq. lia.
Qed.

Definition primes : list Z := [2; 3; 7; 11; 31; 151; 331].

(** a divisor of P-1 other than 1 shares a prime of the list *)
Lemma has_prime e : 1 < e -> (e | P - 1) -> exists q, In q primes /\ (q | e).
Proof.
  intros He Hdiv.
  assert (Hcase : forall q, In q primes -> (q | e) \/ rel_prime e q).
  { intros q Hq. pose proof (small_prime q Hq) as Hp.
    destruct (Zdivide_dec q e) as [Hd|Hd]; [left; exact Hd|right].
    apply rel_prime_sym. apply prime_rel_prime; assumption. }
  destruct (Hcase 2 ltac:(cbn; tauto)) as [H|R2]; [exists 2; split; [cbn; tauto|exact H]|].
  destruct (Hcase 3 ltac:(cbn; tauto)) as [H|R3]; [exists 3; split; [cbn; tauto|exact H]|].
  destruct (Hcase 7 ltac:(cbn; tauto)) as [H|R7]; [exists 7; split; [cbn; tauto|exact H]|].
  destruct (Hcase 11 ltac:(cbn; tauto)) as [H|R11]; [exists 11; split; [cbn; tauto|exact H]|].
  destruct (Hcase 31 ltac:(cbn; tauto)) as [H|R31]; [exists 31; split; [cbn; tauto|exact H]|].
  destruct (Hcase 151 ltac:(cbn; tauto)) as [H|R151]; [exists 151; split; [cbn; tauto|exact H]|].
  destruct (Hcase 331 ltac:(cbn; tauto)) as [H|R331]; [exists 331; split; [cbn; tauto|exact H]|].
  exfalso.
  assert (R : rel_prime e (P - 1)).
  { change (P - 1) with (2 * (3 * (3 * (7 * (11 * (31 * (151 * 331))))))).
    repeat (apply rel_prime_mult; [assumption|]). assumption. }
  destruct R as [_ _ R]. specialize (R e (Z.divide_refl e) Hdiv).
  apply Z.divide_1_r_nonneg in R; lia.
Qed.

Lemma order_full d : 0 < d < P - 1 -> powA d <> 1.
Proof.
  intros Hd E. apply powA_gcd in E; [|lia]. set (g := Z.gcd d (P - 1)) in *.
  assert (Hgd : (g | d)) by apply Z.gcd_divide_l.
  assert (Hgn : (g | P - 1)) by apply Z.gcd_divide_r.
  assert (Hg0 : 0 < g).
  { assert (0 <= g) by apply Z.gcd_nonneg. assert (g <> 0); [|lia].
    intros Hz. rewrite Hz in Hgd. apply Z.divide_0_l in Hgd. lia. }
  assert (Hgle : g <= d) by (apply Z.divide_pos_le; [lia|exact Hgd]).
  destruct Hgn as (e & He).
  assert (He1 : 1 < e).
  { assert (e <> 0) by (intros ->; lia). assert (e <> 1) by (intros ->; lia).
    assert (0 < e); [|lia]. destruct (Z.lt_trichotomy e 0) as [Hneg|[Hz|Hpos]]; [|lia|exact Hpos].
    assert (e * g < 0) by (apply Z.mul_neg_pos; assumption). lia. }
  destruct (has_prime e He1) as (q & Hq & (f & Hf)); [exists g; rewrite Z.mul_comm; exact He|].
  pose proof (small_prime q Hq) as [Hq1 _].
  apply (powA_q q Hq).
  assert (Hf0 : 0 <= f).
  { assert (0 < f * q) by lia. destruct (Z.lt_trichotomy f 0) as [Hneg|[Hz|Hpos]]; [|lia|lia].
    assert (f * q < 0) by (apply Z.mul_neg_pos; lia). lia. }
  replace ((P - 1) / q) with (g * f).
  - apply powA_mul_one; [lia|exact Hf0|exact E].
  - rewrite He, Hf. replace (f * q * g) with ((g * f) * q) by ring.
    rewrite Z.div_mul by lia. reflexivity.
Qed.

Lemma powA_inj a b : 0 <= a < P - 1 -> 0 <= b < P - 1 -> powA a = powA b -> a = b.
Proof.
  intros Ha Hb E. destruct (Z.lt_trichotomy a b) as [H|[H|H]]; [|exact H|].
  - exfalso. apply (order_full (b - a)); [lia|]. apply (powA_cancel a); [lia|lia|].
    replace (a + (b - a)) with b by ring. symmetry. exact E.
  - exfalso. apply (order_full (a - b)); [lia|]. apply (powA_cancel b); [lia|lia|].
    replace (b + (a - b)) with a by ring. exact E.
Qed.

Lemma powA_range a : 0 <= a -> 1 <= powA a < P.
Proof.
  intros Ha. pattern a. apply natlike_ind; [| |exact Ha].
  - unfold powA, P. cbn. lia.
  - intros x Hx [H1 H2]. rewrite <- Z.add_1_r, powA_add by lia.
    replace (powA 1) with A by reflexivity. rewrite Z.mul_comm.
    pose proof (A_nonzero (powA x) (conj H1 H2)). pose proof (Z.mod_pos_bound (A * powA x) P ltac:(reflexivity)). lia.
Qed.

Lemma NoDup_map_in {X Y} (f : X -> Y) l : (forall x y, In x l -> In y l -> f x = f y -> x = y) ->
  NoDup l -> NoDup (map f l).
Proof.
  induction l as [|a l IH]; intros Hi Hnd; cbn; constructor.
  - inversion Hnd as [|? ? Hna Hnd']; subst. intros Hin. apply in_map_iff in Hin.
    destruct Hin as (b & E & Hb). apply Hna.
    rewrite (Hi a b (or_introl eq_refl) (or_intror Hb) (eq_sym E)). exact Hb.
  - inversion Hnd; subst. apply IH; [|assumption]. intros x y Hx Hy. apply Hi; right; assumption.
Qed.

(** every residue is a power of A, by counting *)
Definition big : nat := Z.to_nat (P - 1).
Lemma big_eq : Z.of_nat big = P - 1.
Proof. unfold big. apply Z2Nat.id. unfold P. lia. Qed.
Global Opaque big.

Lemma powA_surj x : 1 <= x < P -> exists k, 0 <= k < P - 1 /\ powA k = x.
Proof.
  intros Hx.
  set (l := map (fun i => powA (Z.of_nat i)) (seq 0 big)).
  set (l' := map (fun i => Z.of_nat i) (seq 1 big)).
  pose proof big_eq as HB.
  assert (Hnd : NoDup l).
  { unfold l. apply NoDup_map_in; [|apply seq_NoDup].
    intros i j Hi Hj E. apply in_seq in Hi, Hj. apply powA_inj in E; lia. }
  assert (Hincl : incl l l').
  { intros y Hy. apply in_map_iff in Hy. destruct Hy as (i & <- & Hi).
    pose proof (powA_range (Z.of_nat i) ltac:(lia)) as Hr.
    apply in_map_iff. exists (Z.to_nat (powA (Z.of_nat i))). split; [lia|].
    apply in_seq. lia. }
  assert (Hin : incl l' l).
  { apply NoDup_length_incl; [exact Hnd| |exact Hincl]. unfold l, l'. rewrite !map_length, !seq_length. lia. }
  assert (Hxin : In x l').
  { apply in_map_iff. exists (Z.to_nat x). split; [lia|]. apply in_seq. lia. }
  apply Hin, in_map_iff in Hxin. destruct Hxin as (i & E & Hi). apply in_seq in Hi.
  exists (Z.of_nat i). split; [lia|exact E].
Qed.

(** * Draws *)
Lemma powA_1 : powA 1 = A.
Proof. reflexivity. Qed.
Global Opaque powA.

Lemma draws_length n : forall s, length (Random_draws n s) = n.
Proof. induction n as [|n IH]; intros s; [reflexivity|]. cbn. f_equal. apply IH. Qed.

Lemma draws_nth n : forall s i, 1 <= Z.of_N s < P -> (i < n)%nat ->
  exists r, nth_error (Random_draws n s) i = Some r /\ Z.of_N r = (Z.of_N s * powA (Z.of_nat i + 1)) mod P
    /\ 1 <= Z.of_N r < P.
Proof.
  induction n as [|n IH]; intros s i Hs Hi; [lia|].
  destruct (Next_spec s Hs) as (r & E & Er & Hr).
  unfold Random_draws; fold Random_draws. rewrite E. destruct i as [|i].
  - exists r. split; [reflexivity|]. split; [|exact Hr]. rewrite Er.
    change (Z.of_nat 0 + 1) with 1. rewrite powA_1. rewrite (Z.mul_comm A). reflexivity.
  - destruct (IH r i Hr ltac:(lia)) as (r' & E' & Er' & Hr'). exists r'. split; [exact E'|].
    split; [|exact Hr']. rewrite Er', Er.
    replace (Z.of_nat (S i) + 1) with (1 + (Z.of_nat i + 1)) by lia.
    rewrite (powA_add 1 (Z.of_nat i + 1)) by lia. rewrite powA_1.
    rewrite Z.mul_mod_idemp_l, Z.mul_mod_idemp_r by discriminate.
    rewrite (Z.mul_comm A), Z.mul_assoc. reflexivity.
Qed.

Lemma draws_values_inj s i j n r : 1 <= Z.of_N s < P -> (i < n)%nat -> (j < n)%nat -> (n <= big)%nat ->
  nth_error (Random_draws n s) i = Some r -> nth_error (Random_draws n s) j = Some r -> i = j.
Proof.
  intros Hs Hi Hj Hn Ei Ej. pose proof big_eq as HB.
  destruct (draws_nth n s i Hs Hi) as (r1 & E1 & V1 & _).
  destruct (draws_nth n s j Hs Hj) as (r2 & E2 & V2 & _).
  rewrite Ei in E1. rewrite Ej in E2. injection E1 as <-. injection E2 as <-. rewrite V1 in V2.
  destruct (powA_surj (Z.of_N s) Hs) as (k & Hk & Ek). rewrite <- Ek in V2.
  assert (Hk0 : 0 <= k) by apply Hk.
  assert (Hi0 : 0 <= Z.of_nat i + 1) by (clear; lia).
  assert (Hj0 : 0 <= Z.of_nat j + 1) by (clear; lia).
  rewrite <- (powA_add k (Z.of_nat i + 1) Hk0 Hi0), <- (powA_add k (Z.of_nat j + 1) Hk0 Hj0) in V2.
  clear V1 Ei Ej.

  assert (Hgen : forall a b, (a < n)%nat -> (b < n)%nat -> (a < b)%nat ->
     powA (k + (Z.of_nat a + 1)) = powA (k + (Z.of_nat b + 1)) -> False).
  { intros a b Ha Hb Hab E. apply (order_full (Z.of_nat b - Z.of_nat a)); [lia|].
    apply (powA_cancel (k + (Z.of_nat a + 1))); [lia|lia|].
    replace (k + (Z.of_nat a + 1) + (Z.of_nat b - Z.of_nat a)) with (k + (Z.of_nat b + 1)) by ring.
    symmetry. exact E. }
  destruct (lt_eq_lt_dec i j) as [[H|H]|H]; [|exact H|].
  - exfalso. exact (Hgen i j Hi Hj H V2).
  - exfalso. exact (Hgen j i Hj Hi H (eq_sym V2)).
Qed.

Lemma draws_cover s x : 1 <= Z.of_N s < P -> 1 <= Z.of_N x < P ->
  exists i, (i < big)%nat /\ nth_error (Random_draws big s) i = Some x.
Proof.
  intros Hs Hx. pose proof big_eq as HB.
  destruct (powA_surj (Z.of_N s) Hs) as (k & Hk & Ek).
  destruct (powA_surj (Z.of_N x) Hx) as (l & Hl & El).
  (* need i + 1 + k = l mod (P-1), 0 <= i < P-1 *)
  set (i := if (k + 1 <=? l) then l - k - 1 else l - k - 1 + (P - 1)).
  assert (Hi : 0 <= i < P - 1) by (unfold i; destruct (Z.leb_spec (k + 1) l); lia).
  destruct (draws_nth big s (Z.to_nat i) Hs ltac:(lia)) as (r & E & V & Hr).
  exists (Z.to_nat i). split; [clear V E; lia|]. rewrite E. f_equal. apply N2Z.inj. rewrite V, <- Ek, <- El. clear V E.
  rewrite Z2Nat.id by apply Hi.
  assert (Hk0 : 0 <= k) by apply Hk. assert (Hi0 : 0 <= i + 1) by (clear - Hi; clearbody i; lia).
  rewrite <- (powA_add k (i + 1) Hk0 Hi0). clear Hk0 Hi0.
  unfold i. destruct (Z.leb_spec (k + 1) l).
  - f_equal. ring.
  - replace (k + (l - k - 1 + (P - 1) + 1)) with (l + (P - 1)) by ring.
    rewrite (powA_add l (P - 1)) by (unfold P in *; lia). rewrite powA_full, Z.mul_1_r.
    apply Z.mod_small. pose proof (powA_range l ltac:(lia)). lia.
Qed.
