(** CacheFullProps.v -- property theorems C111: what bounds the number of entries.

    C31 - C41 ask that fewer than 2^31 entries exist when Insert is called ([legal],
    CacheSpec.v).  The bound is sharp: with 2^31 entries in one shard the next Insert
    of a new key there never returns. *)
From Coq Require Import List Arith NArith Lia Bool Permutation.
From Verif Require Import Outcome Heap Cache CacheSpec CacheRun CacheShard CacheGlobal CacheHist CacheThms CacheProofs CacheProps CacheFullProofs.
Import ListNotations.
Local Open Scope outcome_scope.

(** How many entries of shard [s] are cached. *)
Definition shard_entries (hashf : bytes -> N) (cap : N) (s : N) (H : history) : nat :=
  length (filter (in_shard hashf s H) (cached_list cap H)).

(** The loop "new_length = 4; while (new_length < elems_) new_length *= 2" of
    HandleTable::Resize (cache.cc:152-155) on uint32_t's: for more than 2^31 elements no number of
    iterations ends it. *)
Theorem C111_growth_loop_never_ends : forall fuel e, (2 ^ 31 < e)%N -> grow fuel 4 e = OutOfFuel.
Proof. exact grow_never. Qed.
Print Assumptions C111_growth_loop_never_ends.

(** For 2^31 elements and fewer it does end, with a power of two that is enough. *)
Theorem C111_growth_loop_ends : forall e, (e <= 2 ^ 31)%N ->
  exists k, grow 31 4 e = Ret (2 ^ k)%N /\ (2 <= k <= 31)%N /\ (e <= 2 ^ k)%N.
Proof.
  intros e He.
  assert (K : forall n j fuel, j + n = 31 -> n < fuel ->
    exists k, grow fuel (2 ^ N.of_nat j) e = Ret (2 ^ k)%N /\ (N.of_nat j <= k <= 31)%N /\ (e <= 2 ^ k)%N).
  { induction n as [|n IH]; intros j fuel Hj Hf; (destruct fuel as [|f]; [lia|]); cbn [grow].
    - assert (j = 31) by lia. subst j. rewrite (proj2 (N.ltb_ge _ e)) by exact He. exists 31%N. repeat split; auto; lia.
    - destruct (N.ltb (2 ^ N.of_nat j) e) eqn:El.
      + replace (u32 (2 ^ N.of_nat j * 2)) with (2 ^ N.of_nat (S j))%N.
        * destruct (IH (S j) f ltac:(lia) ltac:(lia)) as (k & Ek & Hk & Hle). exists k. split; [exact Ek|]. split; [lia|exact Hle].
        * replace (2 ^ N.of_nat j * 2)%N with (2 ^ N.of_nat (S j))%N
            by (rewrite Nnat.Nat2N.inj_succ, N.pow_succ_r', N.mul_comm; reflexivity).
          unfold u32. symmetry. apply N.mod_small. apply N.pow_lt_mono_r; lia.
      + apply N.ltb_ge in El. exists (N.of_nat j). split; [reflexivity|]. split; [lia|exact El]. }
  destruct (K 29 2 31 eq_refl ltac:(lia)) as (k & Ek & Hk & Hle). exists k. split; [exact Ek|]. split; [lia|exact Hle].
Qed.
Print Assumptions C111_growth_loop_ends.

(** So an Insert of a new key into a shard that holds 2^31 entries does not return,
    whatever the history. *)
Theorem C111_insert_into_a_full_shard_never_returns :
  forall hashf alc dbg cap H c k v ch d,
    runs hashf alc dbg cap H c -> (0 < shard_cap cap)%N ->
    (forall i, cached cap H i = true -> key_of_insert H i <> k) ->
    N.of_nat (shard_entries hashf cap (shard_of hashf k) H) = (2 ^ 31)%N ->
    exec hashf alc dbg c (CInsert k v ch d) = OutOfFuel.
Proof.
  intros hashf alc dbg cap H c k v ch d (Hh & Ha & R) Hsc Hk Hn.
  destruct (reach_inv hashf Hh alc Ha dbg cap _ _ R) as (A & G & I). pose proof (GInv_AWf _ _ _ _ G) as W.
  pose proof (home_lt hashf Hh k) as Hi. destruct (g_shard _ _ _ _ _ G Hi) as (s & Hs).
  destruct (g_sh _ _ _ _ G _ _ Hs) as [Is Hc].
  unfold exec, dispatch, cache_insert, the_shard. cbn [clear_log c_shards c_mem c_last_id].
  change (Shard (hashf k)) with (home hashf k). rewrite Hs. cbn [bind].
  rewrite (shard_insert_full hashf alc dbg (m_heap (c_mem c)) [] s _ _ _ k v ch d Ha Is); [reflexivity| | |].
  - rewrite Hc. exact Hsc.
  - intros x Hx. rewrite <- (key_of_ent cap H A I _ x Hi (ent_lp A _ _ Hx)). apply Hk.
    apply (cached_iff hashf cap H A W I). exists (home hashf k), x. auto.
  - rewrite <- Hn. f_equal. unfold shard_entries. rewrite shard_of_home.
    rewrite (Permutation_length (shard_ids hashf cap H A W I (home hashf k) Hi)). symmetry. apply map_length.
Qed.
Print Assumptions C111_insert_into_a_full_shard_never_returns.

(** ** Such a history exists *)
Definition zero_hash : bytes -> N := fun _ => 0%N.
Definition nth_key (n : nat) : bytes := repeat 0%N n.
Lemma nth_key_inj n m : nth_key n = nth_key m -> n = m.
Proof. intros E. apply (f_equal (@length N)) in E. unfold nth_key in E. now rewrite !repeat_length in E. Qed.

Definition filled (alc : allocator) (dbg : bool) (n : nat) (H : history) (c : cache) : Prop :=
  runs zero_hash alc dbg 16 H c /\ length H = n /\
  forall i, i < n -> insert_at H i = Some (nth_key i, 0%N, 0%N, 0%N) /\ cached 16 H i = true.

Lemma insert_at_ext H ev i : i < length H -> insert_at (ev :: H) i = insert_at H i.
Proof. intros L. unfold insert_at. cbn [rev]. now rewrite nth_error_app1 by (rewrite rev_length; exact L). Qed.
Lemma insert_at_last H ev : insert_at (ev :: H) (length H) =
  match ev_call ev with CInsert k v c d => Some (k, v, c, d) | _ => None end.
Proof. unfold insert_at. cbn [rev]. rewrite nth_error_app2 by (rewrite rev_length; lia). now rewrite rev_length, Nat.sub_diag. Qed.
Lemma sumN_zero {A} (f : A -> N) l : (forall x, In x l -> f x = 0%N) -> sumN (map f l) = 0%N.
Proof.
  induction l as [|x l IH]; intros Hz; cbn [map sumN fold_right]; [reflexivity|].
  rewrite (Hz x (or_introl eq_refl)). unfold sumN in IH. rewrite IH; [reflexivity|]. intros y Hy. apply Hz. cbn. auto.
Qed.

Lemma fill alc dbg : allocator_ok alc -> forall n, (N.of_nat n <= 2 ^ 31)%N -> exists H c, filled alc dbg n H c.
Proof.
  intros Ha. induction n as [|n IH]; intros Hn.
  - destruct (C33_new_cache_ok alc dbg 16 Ha) as (c & E). exists [], c.
    split; [split; [reflexivity|split; [exact Ha|constructor; exact E]]|]. split; [reflexivity|]. intros i Hi. lia.
  - destruct IH as (H & c & R & Hl & F); [lia|].
    assert (L : legal H (CInsert (nth_key n) 0 0 0)).
    { split; [reflexivity|]. unfold alive_count. pose proof (filter_le (alive H) (seq 0 (length H))) as Q. rewrite seq_length in Q. lia. }
    destruct (C33_no_undefined_behaviour zero_hash alc dbg 16 H c _ R L) as (c' & ev & X & Ec).
    exists (ev :: H), c'.
    assert (R' : runs zero_hash alc dbg 16 (ev :: H) c').
    { destruct R as (Hh & _ & R). split; [exact Hh|]. split; [exact Ha|]. econstructor; eauto. }
    split; [exact R'|]. split; [cbn [length]; now rewrite Hl|].
    assert (At : forall i, i < S n -> insert_at (ev :: H) i = Some (nth_key i, 0%N, 0%N, 0%N)).
    { intros i Hi. destruct (Nat.eq_dec i n) as [->|Hne].
      - rewrite <- Hl at 1. rewrite insert_at_last, Ec. reflexivity.
      - rewrite insert_at_ext by lia. apply F. lia. }
    intros i Hi. split; [now apply At|]. destruct (Nat.eq_dec i n) as [->|Hne].
    + destruct (C35_insert_is_cached_and_held _ _ _ _ _ _ _ _ _ _ _ _ R L X) as (p & _ & _ & _ & _ & _ & Hc).
      rewrite Hl in Hc. rewrite Hc. reflexivity.
    + destruct (cached 16 (ev :: H) i) eqn:Ecc; [reflexivity|]. exfalso.
      assert (Hc : cached 16 H i = true) by (apply F; lia).
      assert (Ev : evicted 16 H ev (nth_key n) i = true).
      { unfold evicted. rewrite Hc, Ecc. cbn [negb andb]. unfold key_of_insert. rewrite (proj1 (F i ltac:(lia))).
        destruct (bytes_eqb (nth_key i) (nth_key n)) eqn:Eb; [|reflexivity]. apply bytes_eqb_eq, nth_key_inj in Eb. lia. }
      destruct (C36_eviction_is_lru_and_minimal _ _ _ _ _ _ _ _ _ _ _ _ i R L X Ev) as (_ & _ & _ & Hlt).
      revert Hlt. unfold shard_total. rewrite !sumN_zero.
      * intros Hlt. vm_compute in Hlt. discriminate.
      * intros j Hj. apply filter_In in Hj as [Hj _]. apply in_seq in Hj. unfold charge_of. rewrite (proj1 (F j ltac:(lia))). reflexivity.
      * intros j Hj. apply filter_In in Hj as [Hj _]. unfold cached_list in Hj. apply filter_In in Hj as [Hj _]. apply in_seq in Hj.
        unfold charge_of. rewrite At; [reflexivity|]. cbn [length] in Hj. lia.
Qed.

(** "Insert always returns" is false: 2^31 legal Inserts of charge 0, and one more. *)
Theorem C111_insert_returns_refuted :
  forall alc dbg, allocator_ok alc ->
  exists H c, runs zero_hash alc dbg 16 H c /\ N.of_nat (length H) = (2 ^ 31)%N /\
    (forall i, i < length H -> cached 16 H i = true) /\
    N.of_nat (shard_entries zero_hash 16 0 H) = (2 ^ 31)%N /\
    exec zero_hash alc dbg c (CInsert (nth_key (length H)) 0 0 0) = OutOfFuel.
Proof.
  intros alc dbg Ha.
  assert (Hn : exists n, N.of_nat n = (2 ^ 31)%N) by (exists (N.to_nat (2 ^ 31)); apply Nnat.N2Nat.id).
  destruct Hn as (n & Hn). destruct (fill alc dbg Ha n ltac:(rewrite Hn; apply N.le_refl)) as (H & c & R & Hl & F).
  exists H, c. split; [exact R|]. split; [rewrite Hl; exact Hn|].
  assert (Hc : forall i, i < length H -> cached 16 H i = true) by (intros i Hi; apply F; lia).
  assert (Es : shard_entries zero_hash 16 0 H = length H).
  { unfold shard_entries, cached_list.
    assert (K : forall l, (forall i, In i l -> i < length H) -> filter (in_shard zero_hash 0 H) (filter (cached 16 H) l) = l).
    { induction l as [|i l IH]; intros Hi; [reflexivity|]. cbn [filter]. rewrite (Hc i) by (apply Hi; cbn; auto). cbn [filter].
      unfold in_shard at 1. unfold shard_of, zero_hash at 1. change (0 / 2 ^ 28)%N with 0%N. cbn [N.eqb]. f_equal. apply IH. intros j Hj. apply Hi. cbn. auto. }
    rewrite K; [apply seq_length|]. intros i Hi. apply in_seq in Hi. lia. }
  split; [exact Hc|]. split; [rewrite Es, Hl; exact Hn|].
  apply (C111_insert_into_a_full_shard_never_returns zero_hash alc dbg 16 H c _ _ _ _ R); [reflexivity| |].
  - intros i Hi. assert (Hlt : i < length H).
    { unfold cached in Hi. destruct (insert_at H i) eqn:Ei; [|discriminate].
      rewrite <- rev_length. apply nth_error_Some. unfold insert_at in Ei. destruct (nth_error (rev H) i); discriminate. }
    unfold key_of_insert. rewrite (proj1 (F i ltac:(lia))). intros E. apply nth_key_inj in E. lia.
  - change (shard_of zero_hash (nth_key (length H))) with 0%N. rewrite Es, Hl. exact Hn.
Qed.
Print Assumptions C111_insert_returns_refuted.
