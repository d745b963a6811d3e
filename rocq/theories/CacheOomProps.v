(** CacheOomProps.v -- property theorems C109 (the cache when Insert runs out of
    memory) and C110 (destroying the cache while handles are held). *)
From Coq Require Import List Arith NArith Lia Bool Permutation.
From Verif Require Import Outcome Heap HashSpec HashProofs Cache CacheSpec CacheRun CacheShard CacheGlobal CacheHist CacheThms CacheProofs CacheProps
  CacheOom CacheOomSpec CacheOomProofs CacheDtorProofs.
Import ListNotations.

(** [H] is a legal history on a cache made by NewLRUCache(cap) in which the Inserts
    with the numbers [T] threw std::bad_alloc and left their entries behind; [c] is
    the state after it.  Throwing Inserts that left nothing behind are not in [H]. *)
Definition runs_f (hashf : bytes -> N) (alc : allocator) (dbg : bool) (cap : N) (H : history) (T : list nat) (c : cache) : Prop :=
  (forall k, (hashf k < 2 ^ 32)%N) /\ allocator_ok alc /\ oreach hashf alc dbg olegal cap H T c.

Lemma runs_f_good hashf alc dbg cap H T c : runs_f hashf alc dbg cap H T c ->
  exists A, GInv hashf (per_shard cap) c A /\ HInv (per_shard cap) H A.
Proof. intros (Hh & Ha & R). exact (oreach_good hashf Hh alc Ha dbg cap H T c R). Qed.

(** Histories without failures are the ones of C31 - C41. *)
Theorem C109_no_failure_no_difference :
  forall hashf alc dbg cap H c, runs hashf alc dbg cap H c -> runs_f hashf alc dbg cap H [] c.
Proof.
  intros hashf alc dbg cap H c (Hh & Ha & R). split; [exact Hh|]. split; [exact Ha|].
  induction R as [c E|H c x c' ev R IH L X].
  - now constructor.
  - econstructor; [exact IH| |exact X]. clear - L.
    destruct x; cbn [olegal legal] in *; auto; unfold user_held, lost;
      match goal with |- context [owner H ?h] => destruct (owner H h) end; cbn [existsb]; lia.
Qed.
Print Assumptions C109_no_failure_no_difference.

(** Whatever threw before: a legal call has defined behaviour and returns. *)
Theorem C109_calls_stay_defined :
  forall hashf alc dbg cap H T c x,
    runs_f hashf alc dbg cap H T c -> olegal H T x ->
    exists c' ev, exec hashf alc dbg c x = Ret (c', ev) /\ ev_call ev = x.
Proof.
  intros hashf alc dbg cap H T c x R L. pose proof (runs_f_good _ _ _ _ _ _ _ R) as Gd. destruct R as (Hh & Ha & _).
  exact (good_safe hashf Hh alc Ha dbg cap H c x Gd (olegal_legal H T x L)).
Qed.
Print Assumptions C109_calls_stay_defined.

(** An Insert that cannot allocate its entry leaves the cache as it was. *)
Theorem C109_no_entry_no_effect :
  forall hashf alc dbg c k v ch d, cache_insert_f hashf alc dbg c FEntry k v ch d = Ret (c, Throws None).
Proof. reflexivity. Qed.
Print Assumptions C109_no_entry_no_effect.

Lemma insert_at_old H ev i : i < length H -> insert_at (ev :: H) i = insert_at H i.
Proof. intros L. unfold insert_at. cbn [rev]. now rewrite nth_error_app1 by (rewrite rev_length; exact L). Qed.
Lemma insert_at_new H ev : insert_at (ev :: H) (length H) =
  match ev_call ev with CInsert k v c d => Some (k, v, c, d) | _ => None end.
Proof. unfold insert_at. cbn [rev]. rewrite nth_error_app2 by (rewrite rev_length; lia). now rewrite rev_length, Nat.sub_diag. Qed.
Lemma insert_at_future H i : length H <= i -> insert_at H i = None.
Proof. intros L. unfold insert_at. rewrite (proj2 (nth_error_None (rev H) i)); [reflexivity|rewrite rev_length; exact L]. Qed.
Lemma superseded_future H : forall i k, length H <= S i -> superseded H i k = false.
Proof.
  induction H as [|ev H IH]; intros i k L; [reflexivity|]. cbn [superseded length] in *. rewrite IH by lia.
  assert (E : (i <? length H) = false) by (apply Nat.ltb_ge; lia). now rewrite E.
Qed.
Lemma deaths_zero_future H : forall i, length H <= i -> deaths H i = 0.
Proof.
  induction H as [|ev H IH]; intros i L; [reflexivity|].
  cbn [deaths length] in *. rewrite IH by lia. rewrite Nat.add_0_r.
  assert (E : filter (for_insert H i) (ev_del ev) = []).
  { induction (ev_del ev) as [|dc l IHl]; [reflexivity|]. cbn [filter].
    assert (E : for_insert H i dc = false).
    { unfold for_insert. destruct (owner H (d_addr dc)) as [j|] eqn:Eo; [|reflexivity].
      pose proof (owner_lt _ _ _ Eo). apply Nat.eqb_neq. lia. }
    now rewrite E. }
  now rewrite E.
Qed.
Lemma per_shard_cap cap : per_shard cap = shard_cap cap.
Proof. reflexivity. Qed.

(** An Insert that finds no memory for a bigger table when it needs one: either the
    table need not grow, and it is the ordinary Insert; or it throws, and then the
    entry IS in the cache, nothing was deleted and nothing evicted.  The history goes
    on as if it had returned a handle that is never given back. *)
Theorem C109_failing_table :
  forall hashf alc dbg cap H T c k v ch d,
    runs_f hashf alc dbg cap H T c -> legal H (CInsert k v ch d) ->
    (exists c' p dl, cache_insert_f hashf alc dbg (clear_log c) FTable k v ch d = Ret (c', Returns p) /\
       exec hashf alc dbg c (CInsert k v ch d) = Ret (c', mk_event (CInsert k v ch d) (RHandle p) dl)) \/
    (exists c' a, cache_insert_f hashf alc dbg (clear_log c) FTable k v ch d = Ret (c', Throws (Some a)) /\
       m_log (c_mem c') = [] /\ (0 < shard_cap cap)%N /\
       (forall i, cached cap H i = true -> key_of_insert H i <> k) /\
       let H' := mk_event (CInsert k v ch d) (RHandle a) [] :: H in
       runs_f hashf alc dbg cap H' (length H :: T) c' /\
       cached cap H' (length H) = true /\
       (forall i, i <> length H -> cached cap H' i = cached cap H i) /\
       total cap H' = (total cap H + ch)%N).
Proof.
  intros hashf alc dbg cap H T c k v ch d R L. pose proof (runs_f_good _ _ _ _ _ _ _ R) as Gd. destruct R as (Hh & Ha & R).
  destruct (insert_lost hashf Hh alc Ha dbg cap H c k v ch d Gd L)
    as [(c' & a & ev & E & X & Er & _)|(c' & a & E & El & Ha0 & Ehd & Hsc & Hk & Gd')].
  - left. exists c', a, (ev_del ev). split; [exact E|]. rewrite X. do 2 f_equal.
    pose proof (step_ctx hashf Hh alc Ha dbg cap H c _ c' ev Gd L X) as (_ & _ & _ & _ & _ & _ & _ & Ec & _).
    rewrite (event_eta ev), Ec, Er. reflexivity.
  - right. exists c', a. split; [exact E|]. split; [exact El|]. rewrite <- per_shard_cap. split; [exact Hsc|]. split; [exact Hk|].
    set (ev := mk_event (CInsert k v ch d) (RHandle a) []). cbn zeta.
    destruct Gd as (A & G & I). destruct Gd' as (A' & G' & I').
    assert (Enew : cached cap (ev :: H) (length H) = true).
    { unfold cached. rewrite insert_at_new. cbn [ev_call ev]. rewrite superseded_future by (cbn; lia).
      cbn [deaths ev_del ev filter length]. rewrite (deaths_zero_future H) by lia.
      rewrite <- per_shard_cap, (proj2 (N.ltb_lt 0 (per_shard cap)) Hsc). reflexivity. }
    assert (Eold : forall i, i <> length H -> cached cap (ev :: H) i = cached cap H i).
    { intros i Hi. destruct (le_lt_dec (length H) i) as [Hge|Hlt].
      - unfold cached. rewrite !insert_at_future by (cbn [length]; lia). reflexivity.
      - unfold cached at 1. rewrite (insert_at_old H ev i Hlt). unfold cached.
        destruct (insert_at H i) as [[[[k0 v0] c0] d0]|] eqn:Ei; [|reflexivity].
        cbn [superseded deaths ev_del ev filter length]. rewrite (proj2 (Nat.ltb_lt i (length H)) Hlt).
        unfold overwrites at 1. cbn [ev_call ev andb Nat.add]. destruct (bytes_eqb k0 k) eqn:Ek; [|reflexivity].
        cbn [orb negb]. rewrite andb_false_r. cbn [andb].
        destruct (N.ltb 0 (shard_cap cap) && negb (superseded H i k0) && (deaths H i =? 0)) eqn:Ec; [|reflexivity].
        exfalso. apply (Hk i); [unfold cached; rewrite Ei; exact Ec|]. unfold key_of_insert. rewrite Ei.
        now apply bytes_eqb_eq. }
    split; [|split; [exact Enew|split; [exact Eold|]]].
    + split; [exact Hh|]. split; [exact Ha|]. unfold ev. rewrite <- El. eapply oreach_lost; [exact R|exact L|exact E].
    + unfold total, cached_list. cbn [length]. rewrite seq_S, filter_app. cbn [filter Nat.add]. rewrite Enew.
      rewrite map_app. cbn [map]. unfold charge_of at 2. rewrite insert_at_new. cbn [ev_call ev].
      assert (Es : map (charge_of (ev :: H)) (filter (cached cap (ev :: H)) (seq 0 (length H))) =
                   map (charge_of H) (filter (cached cap H) (seq 0 (length H)))).
      { assert (K : forall l, (forall i, In i l -> i < length H) ->
          map (charge_of (ev :: H)) (filter (cached cap (ev :: H)) l) = map (charge_of H) (filter (cached cap H) l)).
        { induction l as [|i l IH]; intros Hl; [reflexivity|]. cbn [filter].
          pose proof (Hl i (or_introl eq_refl)) as Hi. rewrite Eold by lia.
          destruct (cached cap H i); cbn [map]; rewrite IH by (intros j Hj; apply Hl; cbn; auto); [|reflexivity].
          f_equal. unfold charge_of. now rewrite insert_at_old. }
        apply K. intros i Hi. apply in_seq in Hi. lia. }
      rewrite Es. generalize (map (charge_of H) (filter (cached cap H) (seq 0 (length H)))). intros l.
      induction l as [|x l IH]; cbn [app sumN fold_right] in *; [lia|]. unfold sumN in IH. rewrite IH. lia.
Qed.
Print Assumptions C109_failing_table.

(** What a throwing Insert left behind is found by Lookup, with its value, for as
    long as it is cached ... *)
Theorem C109_lost_entry_is_found :
  forall hashf alc dbg cap H T c i k v ch d,
    runs_f hashf alc dbg cap H T c -> In i T -> cached cap H i = true -> insert_at H i = Some (k, v, ch, d) ->
    legal H (CLookup k) ->
    exists c' p c'', exec hashf alc dbg c (CLookup k) = Ret (c', mk_event (CLookup k) (RHandle p) []) /\ p <> 0 /\
      owner H p = Some i /\ exec hashf alc dbg c' (CValue p) = Ret (c'', mk_event (CValue p) (RNum v) []).
Proof.
  intros hashf alc dbg cap H T c i k v ch d R Hi Hc Ei L. pose proof (runs_f_good _ _ _ _ _ _ _ R) as Gd. destruct R as (Hh & Ha & R).
  destruct (good_safe hashf Hh alc Ha dbg cap H c _ Gd L) as (c' & ev & X & Ec).
  destruct (lookup_found hashf Hh alc Ha dbg cap H c k c' ev Gd L X) as (p & Er & Ed & [[-> Hno]|(Hp & j & v' & ch' & d' & Ho & Hj & Hc')]).
  - exfalso. apply (Hno i Hc). unfold key_of_insert. now rewrite Ei.
  - assert (Sup : forall a v a' d', insert_at H a = Some (k, v, a', d') -> cached cap H a = true -> forall b v2 a2 d2,
              insert_at H b = Some (k, v2, a2, d2) -> b <= a).
    { intros a va cha da Hia Hca b vb chb db Hib. destruct (le_lt_dec b a) as [|Hlt]; auto. exfalso.
      unfold cached in Hca. rewrite Hia in Hca. apply andb_prop in Hca as [Hca _]. apply andb_prop in Hca as [_ Hs].
      apply negb_true_iff in Hs. unfold insert_at in Hib. destruct (nth_error (rev H) b) as [eb|] eqn:Eb; [|discriminate].
      pose proof (proj1 (superseded_false H a k) Hs b eb Hlt Eb) as O. unfold overwrites in O.
      destruct (ev_call eb); try discriminate. inversion Hib; subst. rewrite (proj2 (bytes_eqb_eq k k) eq_refl) in O. discriminate. }
    assert (Eji : j = i) by (apply Nat.le_antisymm; [eapply (Sup i)|eapply (Sup j)]; eauto). subst j.
    rewrite (event_eta ev), Ec, Er, Ed in X.
    assert (Hl : olegal H T (CLookup k)) by exact L.
    assert (R' : runs_f hashf alc dbg cap (mk_event (CLookup k) (RHandle p) [] :: H) T c').
    { split; [exact Hh|]. split; [exact Ha|]. eapply oreach_call; [exact R|exact Hl|exact X]. }
    assert (Hh' : 0 < held (mk_event (CLookup k) (RHandle p) [] :: H) p).
    { cbn [held ev_call ev_res]. rewrite Nat.eqb_refl. apply Nat.eqb_neq in Hp. rewrite Hp. cbn. lia. }
    destruct (held_value hashf Hh alc Ha dbg cap _ _ p (runs_f_good _ _ _ _ _ _ _ R') Hh') as (i' & k' & v2 & ch2 & d2 & c'' & Ho' & Hi' & _ & Hv).
    exists c', p, c''. split; [exact X|]. split; [exact Hp|]. split; [exact Ho|]. rewrite Hv. do 3 f_equal.
    cbn [owner ev_call] in Ho'. rewrite Ho in Ho'. injection Ho' as <-.
    assert (Hlt : i < length H) by (exact (owner_lt _ _ _ Ho)).
    rewrite insert_at_old in Hi' by exact Hlt. congruence.
Qed.
Print Assumptions C109_lost_entry_is_found.

(** ... and it stays for ever: no eviction and no Prune removes it, only an Insert or
    Erase of its key takes it out of the table, its deleter never runs and its memory
    stays in use. *)
Theorem C109_lost_entry_is_never_freed :
  forall hashf alc dbg cap H T c i,
    runs_f hashf alc dbg cap H T c -> In i T ->
    in_use H i /\ deaths H i = 0 /\ cached cap H i = negb (superseded H i (key_of_insert H i)).
Proof.
  intros hashf alc dbg cap H T c i R Hi. pose proof R as (Hh & Ha & R').
  destruct (lost_entries hashf Hh alc Ha dbg cap H T c i R' Hi) as (Hu & Hd & x & Ex).
  split; [exact Hu|]. split; [exact Hd|].
  assert (Hsc : (0 < shard_cap cap)%N).
  { clear - Hh Ha R' Hi. revert i Hi. induction R' as [c E|H T c x c' ev R IH L X|H T c f k v ch d c' R IH L X|H T c f k v ch d c' a R IH L X]; intros i Hi.
    - destruct Hi.
    - eauto.
    - eauto.
    - destruct f; cbn [cache_insert_f] in X; try discriminate.
      destruct (C109_failing_table hashf alc dbg cap H T c k v ch d (conj Hh (conj Ha R)) L)
        as [(c1 & p & dl & E & _)|(c1 & p & E & _ & Hsc & _)]; [|exact Hsc].
      cbn [cache_insert_f] in E. rewrite E in X. discriminate. }
  unfold cached, key_of_insert. rewrite Ex. destruct x as [[[k v] ch] d].
  rewrite (proj2 (N.ltb_lt 0 (shard_cap cap)) Hsc), Hd. cbn [andb Nat.eqb]. now rewrite andb_true_r.
Qed.
Print Assumptions C109_lost_entry_is_never_freed.

(** The books are right all the same: TotalCharge is the sum of the charges of the
    cached entries, the lost ones included, and no deleter runs twice, or with other
    arguments than its Insert's, or for an entry that is cached or held. *)
Theorem C109_total_charge :
  forall hashf alc dbg cap H T c, runs_f hashf alc dbg cap H T c ->
    exists c', exec hashf alc dbg c CTotalCharge = Ret (c', mk_event CTotalCharge (RNum (total cap H mod 2 ^ 64)) []).
Proof.
  intros hashf alc dbg cap H T c R. pose proof (runs_f_good _ _ _ _ _ _ _ R) as Gd. destruct R as (Hh & Ha & R).
  destruct (good_safe hashf Hh alc Ha dbg cap H c CTotalCharge Gd Logic.I) as (c' & ev & X & Ec).
  destruct (total_charge hashf Hh alc Ha dbg cap H c c' ev Gd X) as [Er Ed].
  exists c'. rewrite X. do 2 f_equal. rewrite (event_eta ev), Ec, Er, Ed. reflexivity.
Qed.
Print Assumptions C109_total_charge.

Theorem C109_deleters :
  forall hashf alc dbg cap H T c, runs_f hashf alc dbg cap H T c ->
    (forall i, deaths H i <= 1) /\
    (forall x c' ev dc, olegal H T x -> exec hashf alc dbg c x = Ret (c', ev) -> In dc (ev_del ev) ->
       exists i k v ch d, owner H (d_addr dc) = Some i /\ insert_at H i = Some (k, v, ch, d) /\ deaths H i = 0 /\ ~ In i T /\
         d_key dc = k /\ d_value dc = v /\ d_deleter dc = d /\
         (forall h, owner H h = Some i -> held (ev :: H) h = 0) /\ cached cap (ev :: H) i = false) /\
    (forall i x, insert_at H i = Some x -> deaths H i = 0 -> cached cap H i = true \/ in_use H i).
Proof.
  intros hashf alc dbg cap H T c R. pose proof (runs_f_good _ _ _ _ _ _ _ R) as Gd. pose proof R as (Hh & Ha & R').
  split; [|split].
  - intros i. exact (deaths_le hashf Hh alc Ha dbg cap H c i Gd).
  - intros x c' ev dc L X Hd.
    destruct (deleter_call hashf Hh alc Ha dbg cap H c x c' ev dc Gd (olegal_legal H T x L) X Hd)
      as (i & k & v & ch & d & E1 & E2 & E3 & E4 & E5 & E6 & E7 & E8).
    exists i, k, v, ch, d. repeat (split; [assumption|]). split; [|repeat (split; [assumption|]); assumption].
    intros Hi. assert (R2 : oreach hashf alc dbg olegal cap (ev :: H) T c') by (eapply oreach_call; eauto).
    destruct (lost_entries hashf Hh alc Ha dbg cap _ T c' i R2 Hi) as (_ & D0 & _). cbn [deaths] in D0.
    assert (D1 : length (filter (for_insert H i) (ev_del ev)) = 0) by lia. apply length_zero_iff_nil in D1.
    assert (Hin : In dc (filter (for_insert H i) (ev_del ev))).
    { apply filter_In. split; [exact Hd|]. unfold for_insert. rewrite E1. apply Nat.eqb_refl. }
    rewrite D1 in Hin. destruct Hin.
  - intros i x Hi Hd. exact (alive_reason hashf Hh alc Ha dbg cap H c i x Gd Hi Hd).
Qed.
Print Assumptions C109_deleters.

Lemma forall2_left {A B} (P : A -> B -> Prop) l l' x : Forall2 P l l' -> In x l -> exists y, In y l' /\ P x y.
Proof.
  induction 1 as [|a b l l' Hab F IH]; intros Hx; [destruct Hx|]. destruct Hx as [<-|Hx]; [exists b; cbn; auto|].
  destruct (IH Hx) as (y & ? & ?). exists y. cbn. auto.
Qed.

(** Destroying the cache afterwards: a build with assertions aborts if such an entry is
    still cached; one without frees neither the entry nor calls its deleter. *)
Theorem C109_destructor_leaks :
  forall hashf alc dbg cap H T c i, runs_f hashf alc dbg cap H T c -> In i T ->
    (cached cap H i = true -> cache_dtor true (clear_log c) = AssertFail) /\
    (exists m a, cache_dtor false (clear_log c) = Ret m /\ owner H a = Some i /\ hget (m_heap m) a <> None /\
       forall dc, In dc (m_log m) -> owner H (d_addr dc) <> Some i).
Proof.
  intros hashf alc dbg cap H T c i R Hi. pose proof (runs_f_good _ _ _ _ _ _ _ R) as (A & G & I). destruct R as (Hh & Ha & R).
  destruct (lost_entries hashf Hh alc Ha dbg cap H T c i R Hi) as (Hu & Hd & x & Ex).
  split.
  - intros Hc. apply (dtor_asserts hashf cap H c A G I). eauto.
  - destruct (dtor_rest hashf cap H c A G I false (or_introl eq_refl)) as (h' & log & l & E & _ & Hl & F & Hlive).
    destruct Hu as (a & Ho & Hh'). exists (mk_mem h' log), a. split; [exact E|]. split; [exact Ho|].
    cbn [m_heap m_log]. split; [now apply Hlive|].
    intros dc Hdc Eo. clear - F Hl Hdc Eo Ho Hh'. 
    destruct (forall2_left _ _ _ _ F Hdc) as (j & Hj & Ej & _).
    assert (j = i) by congruence. subst j.
    apply Hl in Hj as [_ Hn]. apply Hn. exists a. auto.
Qed.
Print Assumptions C109_destructor_leaks.

(** Four idle entries fill the smallest table and the capacity (4) of one shard; the
    fifth Insert there finds no memory for the bigger table. *)
Definition oom_calls : list call :=
  [ CInsert [1]%N 100 1 7; CRelease 33; CInsert [10]%N 200 1 8; CRelease 34;
    CInsert [19]%N 300 1 9; CRelease 35; CInsert [28]%N 400 1 5; CRelease 36 ].
Definition returned (H : history) : list nat :=
  flat_map (fun ev => match ev_res ev with RHandle p => [p] | _ => [] end) H.
Lemma held_returned h : forall H, held H h <> 0 -> In h (returned H).
Proof.
  induction H as [|ev H IH]; cbn [held]; [lia|]. intros Hh. unfold returned in *. cbn [flat_map]. apply in_app_iff.
  destruct (ev_call ev), (ev_res ev); auto;
    try (destruct (negb (h0 =? 0) && (h0 =? h)) eqn:E; [apply andb_prop in E as [_ E]; apply Nat.eqb_eq in E; cbn; auto|right; apply IH; exact Hh]);
    try (destruct (handle =? h); right; apply IH; lia).
Qed.
Lemma nothing_held H : forallb (fun h => held H h =? 0) (returned H) = true -> forall h, held H h = 0.
Proof.
  intros F h. destruct (Nat.eq_dec (held H h) 0) as [E|E]; [exact E|].
  apply held_returned in E. apply (proj1 (forallb_forall _ _) F) in E. now apply Nat.eqb_eq.
Qed.
Lemma oom_witness :
  exists H c c', runs real_hash alc_bump false 64 H c /\ (forall h, held H h = 0) /\
    (forall k, legal H (CLookup k)) /\ legal H (CInsert [59]%N 500 1 6) /\ length H = 8 /\
    cache_insert_f real_hash alc_bump false (clear_log c) FTable [59]%N 500 1 6 = Ret (c', Throws (Some 37)) /\
    (exists c1, exec real_hash alc_bump false c (CLookup [59]%N) = Ret (c1, mk_event (CLookup [59]%N) (RHandle 0) [])) /\
    (exists c1, exec real_hash alc_bump false c' (CLookup [59]%N) = Ret (c1, mk_event (CLookup [59]%N) (RHandle 37) [])) /\
    shard_total real_hash 64 (shard_of real_hash [59]%N) H = 4%N /\ shard_cap 64 = 4%N /\
    shard_total real_hash 64 (shard_of real_hash [59]%N) (mk_event (CInsert [59]%N 500 1 6) (RHandle 37) [] :: H) = 5%N /\
    cached 64 (mk_event (CInsert [59]%N 500 1 6) (RHandle 37) [] :: H) 8 = true.
Proof.
  destruct (cache_new alc_bump false 64) as [c| | |] eqn:E0; try (vm_compute in E0; discriminate).
  destruct (run_calls real_hash alc_bump false oom_calls [] c) as [[H c']|] eqn:E.
  - assert (R : reach real_hash alc_bump false 64 H c') by (eapply run_calls_ok; [|exact E]; constructor; exact E0).
    vm_compute in E0. inversion E0; subst c. clear E0. vm_compute in E. inversion E; subst H c'. clear E.
    eexists; eexists; eexists. split; [split; [intros k; apply hash_spec_lt; reflexivity|split; [exact alc_bump_ok|exact R]]|].
    split; [apply nothing_held; reflexivity|].
    split; [intros k; apply legal_b_ok; reflexivity|]. split; [apply legal_b_ok; reflexivity|]. split; [reflexivity|].
    split; [vm_compute; reflexivity|]. split; [eexists; vm_compute; reflexivity|]. split; [eexists; vm_compute; reflexivity|].
    repeat split; vm_compute; reflexivity.
  - vm_compute in E0. inversion E0; subst c. vm_compute in E. discriminate.
Qed.

(** So: an Insert that throws can change what Lookup answers ... *)
Theorem C109_throw_without_effect_refuted :
  ~ (forall hashf alc dbg cap H T c f k v ch d c' lost q,
       runs_f hashf alc dbg cap H T c -> legal H (CInsert k v ch d) ->
       cache_insert_f hashf alc dbg (clear_log c) f k v ch d = Ret (c', Throws lost) ->
       forall r r', exec hashf alc dbg c (CLookup q) = Ret r -> exec hashf alc dbg c' (CLookup q) = Ret r' ->
         ev_res (snd r) = ev_res (snd r')).
Proof.
  intros K. destruct oom_witness as (H & c & c' & R & _ & _ & Li & _ & E & (c1 & E1) & (c2 & E2) & _).
  specialize (K _ _ _ _ _ _ _ _ _ _ _ _ _ _ [59]%N (C109_no_failure_no_difference _ _ _ _ _ _ R) Li E _ _ E1 E2).
  cbn [snd ev_res] in K. discriminate.
Qed.
Print Assumptions C109_throw_without_effect_refuted.

(** ... and leave a shard over its capacity although it holds entries nobody uses. *)
Theorem C109_capacity_after_throw_refuted :
  ~ (forall hashf alc dbg cap H T c i, runs_f hashf alc dbg cap H (i :: T) c -> S i = length H ->
       let s := shard_of hashf (key_of_insert H i) in
       (shard_total hashf cap s H mod 2 ^ 64 <= shard_cap cap)%N \/
       (forall j, cached cap H j = true -> shard_of hashf (key_of_insert H j) = s -> in_use H j)).
Proof.
  intros K. destruct oom_witness as (H & c & c' & R & Hz & _ & Li & Hlen & E & _ & _ & Et & Ec & Et' & Ek).
  pose proof (C109_no_failure_no_difference _ _ _ _ _ _ R) as R0.
  destruct (C109_failing_table _ _ _ _ _ _ _ _ _ _ _ R0 Li) as [(c1 & p & dl & E' & _)|(c1 & a & E' & _ & _ & _ & R' & _ & Hold & _)].
  { rewrite E in E'. discriminate. }
  rewrite E in E'. injection E' as <- <-.
  specialize (K _ _ _ _ _ _ _ _ R' eq_refl). cbn zeta in K.
  unfold key_of_insert at 1 in K. rewrite insert_at_new in K. cbn [ev_call] in K.
  destruct K as [K|K].
  - rewrite Et', Ec in K. revert K. vm_compute. intros K. apply K. reflexivity.
  - (* some entry of the shard is cached and idle *)
    assert (N : exists j, j <> length H /\ j < length H /\ cached 64 H j = true /\ shard_of real_hash (key_of_insert H j) = shard_of real_hash [59]%N).
    { destruct (filter (in_shard real_hash (shard_of real_hash [59]%N) H) (cached_list 64 H)) as [|j l] eqn:El.
      - exfalso. unfold shard_total in Et. rewrite El in Et. discriminate.
      - assert (Hj : In j (filter (in_shard real_hash (shard_of real_hash [59]%N) H) (cached_list 64 H))) by (rewrite El; cbn; auto).
        apply filter_In in Hj as [Hj Hs]. unfold cached_list in Hj. apply filter_In in Hj as [Hj Hc]. apply in_seq in Hj.
        unfold in_shard in Hs. apply N.eqb_eq in Hs. exists j. repeat split; auto; lia. }
    destruct N as (j & Hne & Hlt & Hc & Hs).
    assert (Hu : in_use (mk_event (CInsert [59]%N 500 1 6) (RHandle 37) [] :: H) j).
    { apply K; [rewrite Hold by exact Hne; exact Hc|]. unfold key_of_insert in *. rewrite insert_at_old by exact Hlt. rewrite insert_at_new. exact Hs. }
    destruct Hu as (h & Ho & Hh). cbn [owner held ev_call ev_res] in Ho, Hh.
    destruct (37 =? h) eqn:E37; [injection Ho as Ho; lia|]. rewrite andb_false_r, Hz in Hh. lia.
Qed.
Print Assumptions C109_capacity_after_throw_refuted.

(** The hypotheses of the theorems above are met: a lost entry, cached. *)
Example ex_lost_entry :
  exists H c, runs_f real_hash alc_bump false 64 H [8] c /\ cached 64 H 8 = true /\
    insert_at H 8 = Some ([59]%N, 500%N, 1%N, 6%N) /\ legal H (CLookup [59]%N) /\ olegal H [8] (CErase [59]%N).
Proof.
  destruct oom_witness as (H & c & c' & R & Hz & Ll & Li & Hlen & E & _ & _ & _ & _ & _ & Ek).
  pose proof (C109_no_failure_no_difference _ _ _ _ _ _ R) as R0.
  destruct (C109_failing_table _ _ _ _ _ _ _ _ _ _ _ R0 Li) as [(c1 & p & dl & E' & _)|(c1 & a & E' & _ & _ & _ & R' & _)].
  { rewrite E in E'. discriminate. }
  rewrite E in E'. injection E' as <- <-. rewrite Hlen in R'. do 2 eexists. split; [exact R'|]. split; [exact Ek|].
  split; [rewrite <- Hlen; apply insert_at_new|]. split; [|exact Logic.I].
  cbn [legal held ev_call ev_res]. intros h. destruct (negb (37 =? 0) && (37 =? h)); rewrite Hz; reflexivity.
Qed.

(** malloc's result is not checked: out of memory for the key bytes is undefined
    behaviour, whatever the cache holds. *)
Theorem C109_unchecked_malloc_refuted :
  forall hashf alc dbg c k v ch d, cache_insert_f hashf alc dbg c FKey k v ch d = UB.
Proof. reflexivity. Qed.
Print Assumptions C109_unchecked_malloc_refuted.

(** C110: the cache is destroyed while the user still holds handles. *)
Lemma runs_good hashf alc dbg cap H c : runs hashf alc dbg cap H c ->
  exists A, GInv hashf (per_shard cap) c A /\ HInv (per_shard cap) H A.
Proof. intros (Hh & Ha & R). exact (reach_inv hashf Hh alc Ha dbg cap _ _ R). Qed.

(** A build with assertions aborts exactly if an entry that is still cached is held. *)
Theorem C110_assertion_fails_iff_a_cached_entry_is_held :
  forall hashf alc dbg cap H c, runs hashf alc dbg cap H c ->
    cache_dtor true (clear_log c) = AssertFail <-> exists i, cached cap H i = true /\ in_use H i.
Proof.
  intros hashf alc dbg cap H c R. destruct (runs_good _ _ _ _ _ _ R) as (A & G & I). split.
  - intros E. destruct (existsb (fun i => match aP (A i) with [] => false | _ => true end) (seq 0 16)) eqn:Ex.
    + apply existsb_exists in Ex as (i & Hi & Hp). apply in_seq in Hi. destruct (aP (A i)) as [|e P] eqn:EP; [discriminate|].
      exists (e_id e). apply (used_cached hashf cap H c A G I i e); [lia|]. rewrite EP. cbn. auto.
    + assert (Hno : forall j, cached cap H j = true -> ~ in_use H j).
      { intros j Hc Hu. destruct (cached_used hashf cap H c A G I j Hc Hu) as (i & e & Hi & He & _).
        assert (N : existsb (fun i => match aP (A i) with [] => false | _ => true end) (seq 0 16) = true).
        { apply existsb_exists. exists i. split; [apply in_seq; lia|]. destruct (aP (A i)); [destruct He|reflexivity]. }
        rewrite Ex in N. discriminate. }
      destruct (dtor_rest hashf cap H c A G I true (or_intror Hno)) as (h' & log & l & E' & _). rewrite E in E'. discriminate.
  - intros Hx. exact (dtor_asserts hashf cap H c A G I Hx).
Qed.
Print Assumptions C110_assertion_fails_iff_a_cached_entry_is_held.

(** Otherwise, and always in a build without assertions, it runs the deleters of
    exactly the cached entries nobody holds, with their Inserts' arguments, and frees
    everything but the entries that are held, cached or not: their handles still point
    to memory that is in use (leaked: no call can give it back any more). *)
Theorem C110_destructor_spares_exactly_the_held :
  forall hashf alc dbg dbg' cap H c, runs hashf alc dbg cap H c ->
    dbg' = false \/ (forall i, cached cap H i = true -> ~ in_use H i) ->
    exists m l, cache_dtor dbg' (clear_log c) = Ret m /\ NoDup l /\
      (forall i, In i l <-> cached cap H i = true /\ ~ in_use H i) /\
      Forall2 (fun dc i => owner H (d_addr dc) = Some i /\
                 exists ch, insert_at H i = Some (d_key dc, d_value dc, ch, d_deleter dc)) (m_log m) l /\
      (forall h, hget (m_heap m) h <> None <-> 0 < held H h).
Proof.
  intros hashf alc dbg dbg' cap H c R Hq. destruct (runs_good _ _ _ _ _ _ R) as (A & G & I).
  destruct (dtor_rest hashf cap H c A G I dbg' Hq) as (h' & log & l & E & K). exists (mk_mem h' log), l. split; [exact E|]. exact K.
Qed.
Print Assumptions C110_destructor_spares_exactly_the_held.

(** "Every entry's deleter runs by the time the cache is gone" is false of these runs. *)
Theorem C110_deleter_never_runs_refuted :
  exists H c m, runs real_hash alc_bump false 64 H c /\ cached 64 H 0 = true /\ deaths H 0 = 0 /\
    cache_dtor false (clear_log c) = Ret m /\ m_log m = [] /\ hget (m_heap m) 33 <> None /\
    cache_dtor true (clear_log c) = AssertFail.
Proof.
  destruct (cache_new alc_bump false 64) as [c| | |] eqn:E0; try (vm_compute in E0; discriminate).
  destruct (run_calls real_hash alc_bump false [CInsert [1]%N 100 1 7] [] c) as [[H c']|] eqn:E.
  - assert (R : reach real_hash alc_bump false 64 H c') by (eapply run_calls_ok; [|exact E]; constructor; exact E0).
    vm_compute in E0. inversion E0; subst c. clear E0. vm_compute in E. inversion E; subst H c'. clear E.
    do 3 eexists. split; [split; [intros k; apply hash_spec_lt; reflexivity|split; [exact alc_bump_ok|exact R]]|].
    split; [reflexivity|]. split; [reflexivity|]. split; [vm_compute; reflexivity|].
    split; [reflexivity|]. split; [vm_compute; discriminate|vm_compute; reflexivity].
  - vm_compute in E0. inversion E0; subst c. vm_compute in E. discriminate.
Qed.
Print Assumptions C110_deleter_never_runs_refuted.

(** A run in which a held entry has left the cache and another one is cached and idle:
    the assertion holds and the second theorem applies to both builds. *)
Example ex_dtor_held :
  exists H c, runs real_hash alc_bump true 64 H c /\ held H 33 = 1 /\ cached 64 H 0 = false /\ cached_list 64 H = [2] /\
    (forall i, cached 64 H i = true -> ~ in_use H i).
Proof.
  destruct (cache_new alc_bump true 64) as [c| | |] eqn:E0; try (vm_compute in E0; discriminate).
  destruct (run_calls real_hash alc_bump true [CInsert [1]%N 100 1 7; CErase [1]%N; CInsert [10]%N 200 1 8; CRelease 34] [] c) as [[H c']|] eqn:E.
  - assert (R : reach real_hash alc_bump true 64 H c') by (eapply run_calls_ok; [|exact E]; constructor; exact E0).
    vm_compute in E0. inversion E0; subst c. clear E0. vm_compute in E. inversion E; subst H c'. clear E.
    do 2 eexists. split; [split; [intros k; apply hash_spec_lt; reflexivity|split; [exact alc_bump_ok|exact R]]|].
    split; [reflexivity|]. split; [reflexivity|]. split; [reflexivity|].
    intros i Hc (h & Ho & Hh).
    cbn [owner ev_call ev_res length] in Ho. cbn [held ev_call ev_res] in Hh.
    destruct (34 =? h) eqn:E34.
    + apply Nat.eqb_eq in E34. subst h. cbn in Hh. lia.
    + destruct (33 =? h); [injection Ho as <-; vm_compute in Hc; discriminate|discriminate].
  - vm_compute in E0. inversion E0; subst c. vm_compute in E. discriminate.
Qed.
