(** CacheProps.v -- property theorems C31 - C39 and C41 (the LRU cache, one
    caller at a time; threads are in CacheConcProps.v).

    All theorems range over every hash function with 32-bit results (the code's
    own is [hash_spec _ 0], see HashProps.v C11), every allocator that returns
    fresh non-null addresses, builds with and without assertions, every
    capacity, and every history of calls in which the caller keeps the rules
    [legal] of CacheSpec.v. *)
From Coq Require Import List Arith NArith Lia Bool Permutation.
From Verif Require Import Outcome Heap HashSpec HashProofs Cache CacheSpec CacheRun CacheGlobal CacheThms CacheProofs.
Import ListNotations.

(** [H] is a legal history on a cache made by NewLRUCache(cap), [c] its state after it. *)
Definition runs (hashf : bytes -> N) (alc : allocator) (dbg : bool) (cap : N) (H : history) (c : cache) : Prop :=
  (forall k, (hashf k < 2 ^ 32)%N) /\ allocator_ok alc /\ reach hashf alc dbg cap H c.

(** C31 *)
Theorem C31_lookup_returns_last_insert :
  forall hashf alc dbg cap H c k c' ev p,
    runs hashf alc dbg cap H c -> legal H (CLookup k) ->
    exec hashf alc dbg c (CLookup k) = Ret (c', ev) -> ev_res ev = RHandle p -> p <> 0 ->
    exists i v ch d, owner H p = Some i /\ insert_at H i = Some (k, v, ch, d) /\
      (forall j ev', i < j -> nth_error (rev H) j = Some ev' ->
         match ev_call ev' with CInsert k' _ _ _ | CErase k' => k' <> k | _ => True end) /\
      deaths H i = 0 /\
      (exists c'', exec hashf alc dbg c' (CValue p) = Ret (c'', mk_event (CValue p) (RNum v) [])).
Proof.
  intros hashf alc dbg cap H c k c' ev p (Hh & Ha & R) Hl Hx Er Hp.
  destruct (lookup_found hashf Hh alc Ha dbg cap H c k c' ev (reach_inv hashf Hh alc Ha dbg cap _ _ R) Hl Hx) as (p' & Er' & _ & [[-> _]|(_ & i & v & ch & d & Ho & Hi & Hc)]).
  { congruence. }
  assert (p' = p) by congruence. subst p'.
  exists i, v, ch, d. split; [exact Ho|]. split; [exact Hi|].
  unfold cached in Hc. rewrite Hi in Hc. apply andb_prop in Hc as [Hc Hd]. apply andb_prop in Hc as [_ Hs].
  apply negb_true_iff in Hs. split; [|split].
  - intros j ev' Hj Hn. pose proof (proj1 (superseded_false H i k) Hs j ev' Hj Hn) as O. unfold overwrites in O.
    destruct (ev_call ev'); auto; intros ->; rewrite (proj2 (bytes_eqb_eq k k) eq_refl) in O; discriminate.
  - now apply Nat.eqb_eq.
  - assert (Ec : ev_call ev = CLookup k).
    { destruct (step_ctx hashf Hh alc Ha dbg cap H c (CLookup k) c' ev (reach_inv hashf Hh alc Ha dbg cap _ _ R) Hl Hx) as (_ & _ & _ & _ & _ & _ & _ & E & _). exact E. }
    assert (R' : reach hashf alc dbg cap (ev :: H) c') by (econstructor; eauto).
    assert (Hh' : 0 < held (ev :: H) p).
    { cbn [held]. rewrite Ec, Er, Nat.eqb_refl. apply Nat.eqb_neq in Hp. rewrite Hp. cbn. lia. }
    destruct (held_value hashf Hh alc Ha dbg cap _ _ p (reach_inv hashf Hh alc Ha dbg cap _ _ R') Hh') as (i' & k' & v' & ch' & d' & c'' & Ho' & Hi' & _ & Hv).
    exists c''. rewrite Hv. do 3 f_equal.
    assert (owner (ev :: H) p = owner H p) by (cbn [owner]; now rewrite Ec). rewrite H0, Ho in Ho'. inversion Ho'; subst i'.
    assert (Hlt : i < length H).
    { rewrite <- rev_length. apply nth_error_Some. unfold insert_at in Hi. destruct (nth_error (rev H) i); [discriminate|discriminate]. }
    unfold insert_at in Hi, Hi'. cbn [rev] in Hi'. rewrite nth_error_app1 in Hi' by (rewrite rev_length; auto). congruence.
Qed.
Print Assumptions C31_lookup_returns_last_insert.

Theorem C31_cached_entry_is_found :
  forall hashf alc dbg cap H c k c' ev i v ch d,
    runs hashf alc dbg cap H c -> legal H (CLookup k) ->
    exec hashf alc dbg c (CLookup k) = Ret (c', ev) ->
    insert_at H i = Some (k, v, ch, d) -> cached cap H i = true ->
    exists p, ev_res ev = RHandle p /\ p <> 0 /\ owner H p = Some i.
Proof.
  intros hashf alc dbg cap H c k c' ev i v ch d (Hh & Ha & R) Hl Hx Hi Hc.
  destruct (lookup_found hashf Hh alc Ha dbg cap H c k c' ev (reach_inv hashf Hh alc Ha dbg cap _ _ R) Hl Hx) as (p & Er & _ & [[-> Hno]|(Hp & j & v' & ch' & d' & Ho & Hj & Hc')]).
  - exfalso. apply (Hno i Hc). unfold key_of_insert. now rewrite Hi.
  - exists p. split; [auto|]. split; [auto|]. rewrite Ho. f_equal.
    assert (Sup : forall a v a' d', insert_at H a = Some (k, v, a', d') -> cached cap H a = true -> forall b v2 a2 d2,
              insert_at H b = Some (k, v2, a2, d2) -> b <= a).
    { intros a va cha da Hia Hca b vb chb db Hib. destruct (le_lt_dec b a) as [|Hlt]; auto. exfalso.
      unfold cached in Hca. rewrite Hia in Hca. apply andb_prop in Hca as [Hca _]. apply andb_prop in Hca as [_ Hs].
      apply negb_true_iff in Hs. unfold insert_at in Hib. destruct (nth_error (rev H) b) as [eb|] eqn:Eb; [|discriminate].
      pose proof (proj1 (superseded_false H a k) Hs b eb Hlt Eb) as O. unfold overwrites in O.
      destruct (ev_call eb); try discriminate. inversion Hib; subst. rewrite (proj2 (bytes_eqb_eq k k) eq_refl) in O. discriminate. }
    apply Nat.le_antisymm; [eapply (Sup i); eauto|eapply (Sup j); eauto].
Qed.
Print Assumptions C31_cached_entry_is_found.

(** C32 *)
Theorem C32_deleter_at_most_once :
  forall hashf alc dbg cap H c i, runs hashf alc dbg cap H c -> deaths H i <= 1.
Proof. intros hashf alc dbg cap H c i (Hh & Ha & R). exact (deaths_le hashf Hh alc Ha dbg cap H c i (reach_inv hashf Hh alc Ha dbg cap _ _ R)). Qed.
Print Assumptions C32_deleter_at_most_once.

Theorem C32_deleter_call_is_right :
  forall hashf alc dbg cap H c x c' ev dc,
    runs hashf alc dbg cap H c -> legal H x -> exec hashf alc dbg c x = Ret (c', ev) -> In dc (ev_del ev) ->
    exists i k v ch d, owner H (d_addr dc) = Some i /\ insert_at H i = Some (k, v, ch, d) /\ deaths H i = 0 /\
      d_key dc = k /\ d_value dc = v /\ d_deleter dc = d /\
      (forall h, owner H h = Some i -> held (ev :: H) h = 0) /\ cached cap (ev :: H) i = false.
Proof.
  intros hashf alc dbg cap H c x c' ev dc (Hh & Ha & R) Hl Hx Hd.
  exact (deleter_call hashf Hh alc Ha dbg cap H c x c' ev dc (reach_inv hashf Hh alc Ha dbg cap _ _ R) Hl Hx Hd).
Qed.
Print Assumptions C32_deleter_call_is_right.

(** An entry whose deleter has not run is cached or held: equivalently, it ran as
    soon as the entry was neither. *)
Theorem C32_deleter_not_late :
  forall hashf alc dbg cap H c i x,
    runs hashf alc dbg cap H c -> insert_at H i = Some x -> deaths H i = 0 ->
    cached cap H i = true \/ in_use H i.
Proof.
  intros hashf alc dbg cap H c i x (Hh & Ha & R) Hi Hd. exact (alive_reason hashf Hh alc Ha dbg cap H c i x (reach_inv hashf Hh alc Ha dbg cap _ _ R) Hi Hd).
Qed.
Print Assumptions C32_deleter_not_late.

(** Release runs the deleter exactly if it gives back the last handle of an entry
    that has left the cache. *)
Theorem C32_release_deletes :
  forall hashf alc dbg cap H c h c' ev i k v ch d,
    runs hashf alc dbg cap H c -> 0 < held H h -> exec hashf alc dbg c (CRelease h) = Ret (c', ev) ->
    owner H h = Some i -> insert_at H i = Some (k, v, ch, d) ->
    ev_del ev = if (held H h =? 1) && negb (cached cap H i) then [mk_dcall h d k v] else [].
Proof.
  intros hashf alc dbg cap H c h c' ev i k v ch d (Hh & Ha & R) Hl Hx Ho Hi.
  exact (release_deletes hashf Hh alc Ha dbg cap H c h c' ev i k v ch d (reach_inv hashf Hh alc Ha dbg cap _ _ R) Hl Hx Ho Hi).
Qed.
Print Assumptions C32_release_deletes.

(** C33 *)
Theorem C33_new_cache_ok :
  forall alc dbg cap, allocator_ok alc -> exists c, cache_new alc dbg cap = Ret c.
Proof.
  intros alc dbg cap Ha. destruct (cache_new_spec (fun _ => 0%N) alc dbg cap Ha) as (c & E & _). eauto.
Qed.
Print Assumptions C33_new_cache_ok.

(** No legal call reads or writes freed or null memory, frees twice, fails an
    assertion or runs forever ([Ret] excludes all of these). *)
Theorem C33_no_undefined_behaviour :
  forall hashf alc dbg cap H c x,
    runs hashf alc dbg cap H c -> legal H x -> exists c' ev, exec hashf alc dbg c x = Ret (c', ev) /\ ev_call ev = x.
Proof.
  intros hashf alc dbg cap H c x (Hh & Ha & R) Hl. exact (exec_total_safe hashf Hh alc Ha dbg cap H c x R Hl).
Qed.
Print Assumptions C33_no_undefined_behaviour.

Theorem C33_held_handle_readable :
  forall hashf alc dbg cap H c h,
    runs hashf alc dbg cap H c -> 0 < held H h ->
    exists i k v ch d c', owner H h = Some i /\ insert_at H i = Some (k, v, ch, d) /\ deaths H i = 0 /\
      exec hashf alc dbg c (CValue h) = Ret (c', mk_event (CValue h) (RNum v) []).
Proof.
  intros hashf alc dbg cap H c h (Hh & Ha & R) Hp. exact (held_value hashf Hh alc Ha dbg cap H c h (reach_inv hashf Hh alc Ha dbg cap _ _ R) Hp).
Qed.
Print Assumptions C33_held_handle_readable.

(** While it stays held a handle keeps standing for the same Insert. *)
Theorem C33_held_handle_stable :
  forall hashf alc dbg cap H c x c' ev h,
    runs hashf alc dbg cap H c -> legal H x -> exec hashf alc dbg c x = Ret (c', ev) ->
    0 < held H h -> 0 < held (ev :: H) h -> owner (ev :: H) h = owner H h.
Proof.
  intros hashf alc dbg cap H c x c' ev h (Hh & Ha & R) Hl Hx H1 H2.
  exact (held_stable hashf Hh alc Ha dbg cap H c x c' ev h (reach_inv hashf Hh alc Ha dbg cap _ _ R) Hl Hx H1 H2).
Qed.
Print Assumptions C33_held_handle_stable.

(** C34 *)
Theorem C34_total_charge :
  forall hashf alc dbg cap H c c' ev,
    runs hashf alc dbg cap H c -> exec hashf alc dbg c CTotalCharge = Ret (c', ev) ->
    ev_res ev = RNum (total cap H mod 2 ^ 64) /\ ev_del ev = [].
Proof.
  intros hashf alc dbg cap H c c' ev (Hh & Ha & R) Hx. exact (total_charge hashf Hh alc Ha dbg cap H c c' ev (reach_inv hashf Hh alc Ha dbg cap _ _ R) Hx).
Qed.
Print Assumptions C34_total_charge.

(** C35 *)
Theorem C35_capacity_enforced_at_insert :
  forall hashf alc dbg cap H c k v ch d c' ev,
    runs hashf alc dbg cap H c -> legal H (CInsert k v ch d) ->
    exec hashf alc dbg c (CInsert k v ch d) = Ret (c', ev) ->
    (shard_total hashf cap (shard_of hashf k) (ev :: H) mod 2 ^ 64 <= shard_cap cap)%N \/
    (forall i, cached cap (ev :: H) i = true ->
       shard_of hashf (key_of_insert (ev :: H) i) = shard_of hashf k -> in_use (ev :: H) i).
Proof.
  intros hashf alc dbg cap H c k v ch d c' ev (Hh & Ha & R) Hl Hx.
  exact (insert_capacity hashf Hh alc Ha dbg cap H c k v ch d c' ev (reach_inv hashf Hh alc Ha dbg cap _ _ R) Hl Hx).
Qed.
Print Assumptions C35_capacity_enforced_at_insert.

Theorem C35_insert_is_cached_and_held :
  forall hashf alc dbg cap H c k v ch d c' ev,
    runs hashf alc dbg cap H c -> legal H (CInsert k v ch d) ->
    exec hashf alc dbg c (CInsert k v ch d) = Ret (c', ev) ->
    exists p, ev_res ev = RHandle p /\ p <> 0 /\ held H p = 0 /\ held (ev :: H) p = 1 /\
      owner (ev :: H) p = Some (length H) /\ cached cap (ev :: H) (length H) = N.ltb 0 (shard_cap cap).
Proof.
  intros hashf alc dbg cap H c k v ch d c' ev (Hh & Ha & R) Hl Hx.
  exact (insert_basic hashf Hh alc Ha dbg cap H c k v ch d c' ev (reach_inv hashf Hh alc Ha dbg cap _ _ R) Hl Hx).
Qed.
Print Assumptions C35_insert_is_cached_and_held.

(** C36: an entry dropped by an Insert for lack of room was not held, is in the
    new entry's shard, was given back before every idle entry that stays, and
    was needed: with it and the later evicted ones the shard would be over
    capacity. *)
Theorem C36_eviction_is_lru_and_minimal :
  forall hashf alc dbg cap H c k v ch d c' ev j,
    runs hashf alc dbg cap H c -> legal H (CInsert k v ch d) ->
    exec hashf alc dbg c (CInsert k v ch d) = Ret (c', ev) -> evicted cap H ev k j = true ->
    ~ in_use H j /\ shard_of hashf (key_of_insert H j) = shard_of hashf k /\
    (forall j', cached cap (ev :: H) j' = true -> j' <> length H -> ~ in_use H j' ->
       shard_of hashf (key_of_insert H j') = shard_of hashf k -> idle_since H j < idle_since H j') /\
    (shard_cap cap <
       (shard_total hashf cap (shard_of hashf k) (ev :: H) +
        sumN (map (charge_of H)
               (filter (fun j' => evicted cap H ev k j' && (idle_since H j <=? idle_since H j')%nat) (seq 0 (length H)))))
       mod 2 ^ 64)%N.
Proof.
  intros hashf alc dbg cap H c k v ch d c' ev j (Hh & Ha & R) Hl Hx Hj.
  exact (insert_evicts hashf Hh alc Ha dbg cap H c k v ch d c' ev (reach_inv hashf Hh alc Ha dbg cap _ _ R) Hl Hx j Hj).
Qed.
Print Assumptions C36_eviction_is_lru_and_minimal.

(** No other call drops anything but by name: Insert adds nothing but its own
    entry, and Lookup, Release, Value, TotalCharge and NewId change nothing. *)
Theorem C36_insert_adds_only_itself :
  forall hashf alc dbg cap H c k v ch d c' ev i,
    runs hashf alc dbg cap H c -> legal H (CInsert k v ch d) ->
    exec hashf alc dbg c (CInsert k v ch d) = Ret (c', ev) ->
    cached cap (ev :: H) i = true -> i = length H \/ (cached cap H i = true /\ key_of_insert H i <> k).
Proof.
  intros hashf alc dbg cap H c k v ch d c' ev i (Hh & Ha & R) Hl Hx.
  exact (insert_cached hashf Hh alc Ha dbg cap H c k v ch d c' ev i (reach_inv hashf Hh alc Ha dbg cap _ _ R) Hl Hx).
Qed.
Print Assumptions C36_insert_adds_only_itself.

(** C37 *)
Theorem C37_prune_keeps_exactly_the_held :
  forall hashf alc dbg cap H c c' ev i,
    runs hashf alc dbg cap H c -> exec hashf alc dbg c CPrune = Ret (c', ev) ->
    (cached cap (ev :: H) i = true <-> cached cap H i = true /\ in_use H i).
Proof.
  intros hashf alc dbg cap H c c' ev i (Hh & Ha & R) Hx. exact (prune_cached hashf Hh alc Ha dbg cap H c c' ev i (reach_inv hashf Hh alc Ha dbg cap _ _ R) Hx).
Qed.
Print Assumptions C37_prune_keeps_exactly_the_held.

Theorem C37_erase_removes_exactly_the_key :
  forall hashf alc dbg cap H c k c' ev i,
    runs hashf alc dbg cap H c -> exec hashf alc dbg c (CErase k) = Ret (c', ev) ->
    (cached cap (ev :: H) i = true <-> cached cap H i = true /\ key_of_insert H i <> k).
Proof.
  intros hashf alc dbg cap H c k c' ev i (Hh & Ha & R) Hx. exact (erase_cached hashf Hh alc Ha dbg cap H c k c' ev i (reach_inv hashf Hh alc Ha dbg cap _ _ R) Hx).
Qed.
Print Assumptions C37_erase_removes_exactly_the_key.

Theorem C37_other_calls_change_nothing :
  forall hashf alc dbg cap H c x c' ev i,
    runs hashf alc dbg cap H c -> legal H x -> exec hashf alc dbg c x = Ret (c', ev) ->
    match x with CLookup _ | CRelease _ | CValue _ | CTotalCharge | CNewId | CShardCharge _ => True | _ => False end ->
    cached cap (ev :: H) i = cached cap H i.
Proof.
  intros hashf alc dbg cap H c x c' ev i (Hh & Ha & R) Hl Hx Q.
  exact (quiet_cached hashf Hh alc Ha dbg cap H c x c' ev i (reach_inv hashf Hh alc Ha dbg cap _ _ R) Hl Hx Q).
Qed.
Print Assumptions C37_other_calls_change_nothing.

(** C38 *)
Theorem C38_capacity_zero_is_off :
  forall hashf alc dbg H c, runs hashf alc dbg 0 H c ->
    (forall k c' ev, legal H (CLookup k) -> exec hashf alc dbg c (CLookup k) = Ret (c', ev) -> ev_res ev = RHandle 0) /\
    (forall c' ev, exec hashf alc dbg c CTotalCharge = Ret (c', ev) -> ev_res ev = RNum 0) /\
    (forall h c' ev i k v ch d, held H h = 1 -> exec hashf alc dbg c (CRelease h) = Ret (c', ev) ->
       owner H h = Some i -> insert_at H i = Some (k, v, ch, d) -> ev_del ev = [mk_dcall h d k v]) /\
    (forall h, 0 < held H h -> exists i k v ch d c', owner H h = Some i /\ insert_at H i = Some (k, v, ch, d) /\
       exec hashf alc dbg c (CValue h) = Ret (c', mk_event (CValue h) (RNum v) [])).
Proof.
  intros hashf alc dbg H c (Hh & Ha & R).
  assert (Off : forall i, cached 0 H i = false).
  { intros i. unfold cached. destruct (insert_at H i) as [[[[? ?] ?] ?]|]; reflexivity. }
  split; [|split; [|split]].
  - intros k c' ev Hl Hx. destruct (lookup_found hashf Hh alc Ha dbg 0 H c k c' ev (reach_inv hashf Hh alc Ha dbg 0 _ _ R) Hl Hx) as (p & Er & _ & [[-> _]|(_ & i & v & ch & d & _ & _ & Hc)]); auto.
    rewrite Off in Hc. discriminate.
  - intros c' ev Hx. destruct (total_charge hashf Hh alc Ha dbg 0 H c c' ev (reach_inv hashf Hh alc Ha dbg 0 _ _ R) Hx) as [E _]. rewrite E.
    assert (Z : cached_list 0 H = []).
    { unfold cached_list. induction (seq 0 (length H)) as [|i l IH]; cbn [filter]; [reflexivity|]. now rewrite Off. }
    unfold total. rewrite Z. reflexivity.
  - intros h c' ev i k v ch d Hp Hx Ho Hi.
    rewrite (release_deletes hashf Hh alc Ha dbg 0 H c h c' ev i k v ch d (reach_inv hashf Hh alc Ha dbg 0 _ _ R) ltac:(lia) Hx Ho Hi), Hp, Off. reflexivity.
  - intros h Hp. destruct (held_value hashf Hh alc Ha dbg 0 H c h (reach_inv hashf Hh alc Ha dbg 0 _ _ R) Hp) as (i & k & v & ch & d & c' & A & B & _ & D).
    exists i, k, v, ch, d, c'. auto.
Qed.
Print Assumptions C38_capacity_zero_is_off.

(** C39 *)
Theorem C39_total_capacity :
  forall hashf alc dbg cap H c, runs hashf alc dbg cap H c -> (cap <= 2 ^ 64 - 16)%N ->
    length (c_shards c) = 16 /\ (forall s, In s (c_shards c) -> s_capacity s = shard_cap cap) /\
    (cap <= 16 * shard_cap cap < cap + 16)%N.
Proof.
  intros hashf alc dbg cap H c (Hh & Ha & R) Hc.
  destruct (capacity_shards hashf Hh alc Ha dbg cap H c (reach_inv hashf Hh alc Ha dbg cap _ _ R)) as [E1 E2]. split; [exact E1|]. split; [exact E2|].
  unfold shard_cap, u64. rewrite N.mod_small by lia.
  pose proof (N.div_mod (cap + 15) 16 ltac:(discriminate)). pose proof (N.mod_lt (cap + 15) 16 ltac:(discriminate)). lia.
Qed.
Print Assumptions C39_total_capacity.

(** Above that the size_t addition wraps around: asking for the largest
    capacities switches caching off. *)
Theorem C39_huge_capacity_refuted :
  forall hashf alc dbg cap H c, runs hashf alc dbg cap H c -> (2 ^ 64 - 16 < cap < 2 ^ 64)%N ->
    (forall s, In s (c_shards c) -> s_capacity s = 0%N) /\
    (forall k c' ev, legal H (CLookup k) -> exec hashf alc dbg c (CLookup k) = Ret (c', ev) -> ev_res ev = RHandle 0) /\
    (forall c' ev, exec hashf alc dbg c CTotalCharge = Ret (c', ev) -> ev_res ev = RNum 0).
Proof.
  intros hashf alc dbg cap H c (Hh & Ha & R) Hc.
  assert (Z : shard_cap cap = 0%N).
  { unfold shard_cap, u64. clear -Hc.
    replace (cap + 15)%N with ((cap - (2 ^ 64 - 15)) + 1 * 2 ^ 64)%N by lia.
    rewrite N.mod_add by discriminate. rewrite N.mod_small by lia. apply N.div_small. lia. }
  assert (Off : forall i, cached cap H i = false).
  { intros i. unfold cached. destruct (insert_at H i) as [[[[? ?] ?] ?]|]; [rewrite Z|]; reflexivity. }
  destruct (capacity_shards hashf Hh alc Ha dbg cap H c (reach_inv hashf Hh alc Ha dbg cap _ _ R)) as [_ E2].
  split; [intros s Hs; now rewrite (E2 s Hs)|]. split.
  - intros k c' ev Hl Hx. destruct (lookup_found hashf Hh alc Ha dbg cap H c k c' ev (reach_inv hashf Hh alc Ha dbg cap _ _ R) Hl Hx) as (p & Er & _ & [[-> _]|(_ & i & v & ch & d & _ & _ & Hc')]); auto.
    rewrite Off in Hc'. discriminate.
  - intros c' ev Hx. destruct (total_charge hashf Hh alc Ha dbg cap H c c' ev (reach_inv hashf Hh alc Ha dbg cap _ _ R) Hx) as [E _]. rewrite E.
    assert (Z' : cached_list cap H = []).
    { unfold cached_list. induction (seq 0 (length H)) as [|i l IH]; cbn [filter]; [reflexivity|]. now rewrite Off. }
    unfold total. rewrite Z'. reflexivity.
Qed.
Print Assumptions C39_huge_capacity_refuted.

(** C41 *)
Theorem C41_destructor_deletes_the_rest :
  forall hashf alc dbg cap H c,
    runs hashf alc dbg cap H c -> (forall h, held H h = 0) ->
    exists log l, cache_dtor dbg (clear_log c) = Ret (mk_mem [] log) /\ Permutation l (cached_list cap H) /\
      Forall2 (fun dc i => owner H (d_addr dc) = Some i /\
                 exists ch, insert_at H i = Some (d_key dc, d_value dc, ch, d_deleter dc)) log l.
Proof.
  intros hashf alc dbg cap H c (Hh & Ha & R) Hz. exact (dtor_all hashf Hh alc Ha dbg cap H c (reach_inv hashf Hh alc Ha dbg cap _ _ R) Hz).
Qed.
Print Assumptions C41_destructor_deletes_the_rest.

(** C40 for one caller: NewId numbers its calls, whatever calls are made in between. *)
Definition new_ids (H : history) : nat :=
  length (filter (fun ev => match ev_call ev with CNewId => true | _ => false end) H).
Lemma bind_ret {A B} (o : outcome A) (f : A -> outcome B) b : bind o f = Ret b -> exists a, o = Ret a /\ f a = Ret b.
Proof. destruct o; cbn [bind]; try discriminate. eauto. Qed.
Lemma ret_last {A} (c1 c2 : cache) (a1 a2 : A) : Ret (c1, a1) = Ret (c2, a2) -> c_last_id c2 = c_last_id c1.
Proof. intros E. injection E as -> _. reflexivity. Qed.
Lemma ret_last' (c1 c2 : cache) : Ret c1 = Ret c2 -> c_last_id c2 = c_last_id c1.
Proof. intros E. injection E as ->. reflexivity. Qed.
Lemma exec_last_id hashf alc dbg c x c' ev : exec hashf alc dbg c x = Ret (c', ev) ->
  ev_call ev = x /\ c_last_id c' = match x with CNewId => u64 (c_last_id c + 1) | _ => c_last_id c end.
Proof.
  unfold exec. intros E. apply bind_ret in E as ((c1 & r) & E & Q). cbn [fst snd] in Q. injection Q as Ec Ev. subst c' ev.
  split; [reflexivity|].
  destruct x; cbn [dispatch] in E.
  - apply bind_ret in E as ((c2 & p) & E & Q). injection Q as <- _. unfold cache_insert in E.
    apply bind_ret in E as (s & _ & E). apply bind_ret in E as (q & _ & E). apply ret_last in E. exact E.
  - apply bind_ret in E as ((c2 & p) & E & Q). injection Q as <- _. unfold cache_lookup in E.
    apply bind_ret in E as (s & _ & E). apply bind_ret in E as (q & _ & E). apply ret_last in E. exact E.
  - apply bind_ret in E as (c2 & E & Q). injection Q as <- _. unfold cache_release in E.
    apply bind_ret in E as (k & _ & E). apply bind_ret in E as (s & _ & E). apply bind_ret in E as (q & _ & E). apply ret_last' in E. exact E.
  - apply bind_ret in E as (v & _ & Q). injection Q as <- _. reflexivity.
  - apply bind_ret in E as (c2 & E & Q). injection Q as <- _. unfold cache_erase in E.
    apply bind_ret in E as (s & _ & E). apply bind_ret in E as (q & _ & E). apply ret_last' in E. exact E.
  - apply bind_ret in E as (c2 & E & Q). injection Q as <- _. unfold cache_prune in E. apply bind_ret in E as (q & _ & E). apply ret_last' in E. exact E.
  - apply ret_last in E. exact E.
  - apply ret_last in E. exact E.
  - apply bind_ret in E as (c2 & E & Q). injection Q as <- _. unfold cache_prune_shard in E.
    apply bind_ret in E as (s & _ & E). apply bind_ret in E as (q & _ & E). apply ret_last' in E. exact E.
  - apply bind_ret in E as (v & _ & Q). injection Q as <- _. reflexivity.
Qed.
Lemma reach_last_id hashf alc dbg cap H c : reach hashf alc dbg cap H c -> c_last_id c = (N.of_nat (new_ids H) mod 2 ^ 64)%N.
Proof.
  induction 1 as [c E|H c x c' ev R IH Hl Hx].
  - unfold cache_new in E. destruct (shards_new alc dbg kNumShards (mk_mem [] [])); cbn [bind] in E; try discriminate.
    injection E as <-. reflexivity.
  - destruct (exec_last_id _ _ _ _ _ _ _ Hx) as (Ec & El). rewrite El, IH. unfold new_ids. cbn [filter]. rewrite Ec.
    destruct x; auto. cbn [length]. unfold u64. rewrite N.add_mod_idemp_l by discriminate. f_equal. clear. lia.
Qed.
Theorem C40_new_id_in_a_history :
  forall hashf alc dbg cap H c, runs hashf alc dbg cap H c -> (N.of_nat (S (new_ids H)) < 2 ^ 64)%N ->
    exists c', exec hashf alc dbg c CNewId = Ret (c', mk_event CNewId (RNum (N.of_nat (S (new_ids H)))) []).
Proof.
  intros hashf alc dbg cap H c (_ & _ & R) Hn. unfold exec, dispatch, cache_newid. cbn [bind fst snd c_last_id clear_log c_mem m_log].
  rewrite (reach_last_id _ _ _ _ _ _ R). unfold u64. rewrite N.add_mod_idemp_l by discriminate.
  replace (N.of_nat (new_ids H) + 1)%N with (N.of_nat (S (new_ids H))) by (clear; lia). rewrite N.mod_small by exact Hn. eauto.
Qed.
Print Assumptions C40_new_id_in_a_history.

(** ** The hypotheses are met by real runs

    A run with the code's own hash function and an allocator that reuses freed
    addresses.  The keys 1, 10 and 19 fall into the same shard. *)
Definition legal_b (H : history) (x : call) : bool :=
  match x with
  | CInsert _ _ c _ => N.ltb c (2 ^ 64) && N.ltb (N.of_nat (length H)) 1000
  | CLookup _ => N.ltb (N.of_nat (length H)) 1000
  | CRelease h | CValue h => 0 <? held H h
  | CPruneShard i | CShardCharge i => i <? 16
  | _ => true
  end.
Lemma held_le H h : held H h <= length H.
Proof.
  induction H as [|ev H IH]; cbn [held length]; [lia|].
  destruct (ev_call ev); try lia; try (destruct (ev_res ev); try lia; destruct (negb _ && _); lia).
  destruct (ev_res ev), (handle =? h); lia.
Qed.
Lemma filter_le {A} (f : A -> bool) l : length (filter f l) <= length l.
Proof. induction l as [|x l IH]; cbn [filter]; [lia|]. destruct (f x); cbn [length]; lia. Qed.
Lemma legal_b_ok H x : legal_b H x = true -> legal H x.
Proof.
  destruct x; cbn [legal_b legal]; auto.
  - intros E. apply andb_prop in E as [E1 E2]. apply N.ltb_lt in E1, E2. split; [auto|].
    unfold alive_count. pose proof (filter_le (alive H) (seq 0 (length H))) as F. rewrite seq_length in F. lia.
  - intros E h. apply N.ltb_lt in E. pose proof (held_le H h). lia.
  - intros E. now apply Nat.ltb_lt.
  - intros E. now apply Nat.ltb_lt.
  - intros E. now apply Nat.ltb_lt.
  - intros E. now apply Nat.ltb_lt.
Qed.
Fixpoint run_calls (hashf : bytes -> N) (alc : allocator) (dbg : bool) (xs : list call) (H : history) (c : cache)
  : option (history * cache) :=
  match xs with
  | [] => Some (H, c)
  | x :: xs' => if legal_b H x then
      match exec hashf alc dbg c x with
      | Ret (c', ev) => run_calls hashf alc dbg xs' (ev :: H) c'
      | _ => None
      end else None
  end.
Lemma run_calls_ok hashf alc dbg cap xs : forall H c H' c', reach hashf alc dbg cap H c ->
  run_calls hashf alc dbg xs H c = Some (H', c') -> reach hashf alc dbg cap H' c'.
Proof.
  induction xs as [|x xs IH]; cbn [run_calls]; intros H c H' c' R E; [inversion E; subst; auto|].
  destruct (legal_b H x) eqn:El; [|discriminate]. destruct (exec hashf alc dbg c x) as [[c1 ev]| | |] eqn:Ex; try discriminate.
  eapply IH; [|exact E]. econstructor; eauto. now apply legal_b_ok.
Qed.

Definition real_hash : bytes -> N := fun k => hash_spec k 0.
Definition ex_calls : list call :=
  [ CInsert [1]%N 100 1 7; CRelease 33; CInsert [10]%N 200 1 8; CRelease 34;
    CLookup [1]%N; CRelease 33;          (* now 10 is the oldest *)
    CInsert [19]%N 300 1 9;              (* evicts 10 *)
    CInsert [1]%N 101 1 7;               (* replaces 1, whose memory the new entry cannot take *)
    CErase [19]%N; CTotalCharge; CLookup [1]%N; CLookup [10]%N; CPrune; CNewId ].

(** The history ends with entries evicted, replaced, erased while held, still
    held and cached; the theorems above apply to it and to its prefixes. *)
Example ex_runs :
  exists H c, runs real_hash alc_reuse true 32 H c /\
    map ev_res (rev H) = [RHandle 33; RNone; RHandle 34; RNone; RHandle 33; RNone; RHandle 35; RHandle 34;
                          RNone; RNum 1; RHandle 34; RHandle 0; RNone; RNum 1] /\
    map ev_del (rev H) = [[]; []; []; []; []; []; [mk_dcall 34 8 [10]%N 200]; [mk_dcall 33 7 [1]%N 100];
                          []; []; []; []; []; []] /\
    cached_list 32 H = [7] /\ owner H 34 = Some 7 /\ held H 34 = 2 /\ held H 35 = 1 /\ deaths H 2 = 1 /\ total 32 H = 1%N.
Proof.
  destruct (cache_new alc_reuse true 32) as [c| | |] eqn:E0; try (vm_compute in E0; discriminate).
  destruct (run_calls real_hash alc_reuse true ex_calls [] c) as [[H c']|] eqn:E.
  - exists H, c'. split.
    + split; [intros k; apply hash_spec_lt; reflexivity|]. split; [exact alc_reuse_ok|].
      eapply run_calls_ok; [|exact E]. constructor. exact E0.
    + vm_compute in E0. inversion E0; subst c. vm_compute in E. inversion E; subst H. repeat split.
  - vm_compute in E0. inversion E0; subst c. vm_compute in E. discriminate.
Qed.

(** A history after which nothing is held (C41) and one with caching off (C38). *)
Example ex_nothing_held :
  exists H c, runs real_hash alc_bump false 32 H c /\ (forall h, held H h = 0) /\ cached_list 32 H = [0; 2].
Proof.
  destruct (cache_new alc_bump false 32) as [c| | |] eqn:E0; try (vm_compute in E0; discriminate).
  set (xs := [CInsert [1]%N 100 1 7; CRelease 33; CInsert [10]%N 200 1 8; CRelease 34]).
  destruct (run_calls real_hash alc_bump false xs [] c) as [[H c']|] eqn:E.
  - exists H, c'. split.
    + split; [intros k; apply hash_spec_lt; reflexivity|]. split; [exact alc_bump_ok|].
      eapply run_calls_ok; [|exact E]. constructor. exact E0.
    + vm_compute in E0. inversion E0; subst c. vm_compute in E. inversion E; subst H. split; [|reflexivity].
      intros h. cbn [held ev_call ev_res]. do 40 (destruct h as [|h]; [reflexivity|]). reflexivity.
  - vm_compute in E0. inversion E0; subst c. vm_compute in E. discriminate.
Qed.
Example ex_off :
  exists H c, runs real_hash alc_reuse true 0 H c /\ held H 33 = 1 /\ owner H 33 = Some 0.
Proof.
  destruct (cache_new alc_reuse true 0) as [c| | |] eqn:E0; try (vm_compute in E0; discriminate).
  destruct (run_calls real_hash alc_reuse true [CInsert [1]%N 100 1 7; CLookup [1]%N] [] c) as [[H c']|] eqn:E.
  - exists H, c'. split.
    + split; [intros k; apply hash_spec_lt; reflexivity|]. split; [exact alc_reuse_ok|].
      eapply run_calls_ok; [|exact E]. constructor. exact E0.
    + vm_compute in E0. inversion E0; subst c. vm_compute in E. inversion E; subst H. split; reflexivity.
  - vm_compute in E0. inversion E0; subst c. vm_compute in E. discriminate.
Qed.

(** The sum of the charges is kept modulo 2^64 (usage_ is a size_t), so "mod 2^64" in
    C34 and C35 matters: two entries of charge 2^63 in one shard count as nothing.  The
    second Insert evicts nothing although the first entry is idle and either entry alone
    is far over the capacity, and TotalCharge says 0. *)
Definition huge_calls : list call :=
  [CInsert [1]%N 100 (2 ^ 63) 7; CRelease 33; CInsert [10]%N 200 (2 ^ 63) 8; CRelease 34].
Theorem C35_capacity_when_charges_overflow_refuted :
  exists H c c1, runs real_hash alc_bump true 64 H c /\
    shard_of real_hash [1]%N = shard_of real_hash [10]%N /\
    shard_total real_hash 64 (shard_of real_hash [10]%N) H = (2 ^ 64)%N /\ shard_cap 64 = 4%N /\
    cached_list 64 H = [0; 2] /\ held H 33 = 0 /\ owner H 33 = Some 0 /\ held H 34 = 0 /\ owner H 34 = Some 2 /\
    exec real_hash alc_bump true c CTotalCharge = Ret (c1, mk_event CTotalCharge (RNum 0) []).
Proof.
  destruct (cache_new alc_bump true 64) as [c| | |] eqn:E0; try (vm_compute in E0; discriminate E0).
  destruct (run_calls real_hash alc_bump true huge_calls [] c) as [[H c']|] eqn:E.
  - assert (R : reach real_hash alc_bump true 64 H c') by (eapply run_calls_ok; [|exact E]; constructor; exact E0).
    vm_compute in E0. inversion E0; subst c. clear E0. vm_compute in E. inversion E; subst H c'. clear E.
    do 3 eexists. split; [split; [intros k; apply hash_spec_lt; reflexivity|split; [exact alc_bump_ok|exact R]]|].
    repeat (split; [vm_compute; reflexivity|]). vm_compute. reflexivity.
  - vm_compute in E0. inversion E0; subst c. vm_compute in E. discriminate E.
Qed.
Print Assumptions C35_capacity_when_charges_overflow_refuted.
