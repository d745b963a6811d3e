(** CacheThms.v -- the statements about histories, proved from the invariants. *)
From Coq Require Import List Arith NArith Lia Bool Permutation Sorted.
From Verif Require Import Outcome Heap Cache CacheSpec CacheRun CacheHeap CacheTable CacheShard CacheShardOps CacheGlobal CacheHist CacheHistStep CacheProofs.
Import ListNotations.
Local Open Scope outcome_scope.

Lemma bytes_eqb_eq a b : bytes_eqb a b = true <-> a = b.
Proof.
  split.
  - intros E. destruct (list_eq_dec N.eq_dec a b) as [->|Hn]; auto. now rewrite (bytes_eqb_neq _ _ Hn) in E.
  - intros ->. apply bytes_eqb_refl.
Qed.

Lemma superseded_false H i k : superseded H i k = false <->
  forall j ev, i < j -> nth_error (rev H) j = Some ev -> overwrites ev k = false.
Proof.
  induction H as [|ev H IH]; cbn [superseded].
  - split; auto. intros _ j ev _ E. destruct j; discriminate.
  - rewrite orb_false_iff, IH. split.
    + intros [E1 E2] j ev' Hj Hn. destruct (Nat.lt_trichotomy j (length H)) as [Hlt|[->|Hgt]].
      * rewrite nth_rev_old in Hn by auto. eauto.
      * rewrite nth_rev_new in Hn. inversion Hn; subst ev'. apply Nat.ltb_lt in Hj. rewrite Hj in E1. exact E1.
      * assert (j < length (rev (ev :: H))) by (apply nth_error_Some; congruence). rewrite rev_length in H0. cbn in H0. lia.
    + intros E. split.
      * destruct (i <? length H) eqn:Hlt; cbn [andb]; auto. apply Nat.ltb_lt in Hlt.
        apply (E (length H)); auto. apply nth_rev_new.
      * intros j ev' Hj Hn. apply (E j); auto. rewrite nth_rev_old; auto.
        rewrite <- rev_length. apply nth_error_Some. congruence.
Qed.

Lemma owner_handle_of H h i : owner H h = Some i -> handle_of H i = h.
Proof.
  intros E. unfold handle_of. destruct (owner_event H h i E) as (ev & E1 & E2 & _). now rewrite E1, E2.
Qed.

Lemma NoDup_app_disj {B} (l1 l2 : list B) : NoDup (l1 ++ l2) -> forall x, In x l1 -> ~ In x l2.
Proof.
  induction l1 as [|y l1 IH]; cbn [app]; intros N x H H2; [destruct H|].
  apply NoDup_cons_iff in N as [N1 N2]. destruct H as [->|H].
  - apply N1. rewrite in_app_iff; auto.
  - exact (IH N2 x H H2).
Qed.

Section Thms.
  Variable hashf : bytes -> N.
  Hypothesis hash32 : forall k, (hashf k < 2 ^ 32)%N.
  Variable alc : allocator.
  Hypothesis Halc : allocator_ok alc.
  Variable dbg : bool.
  Variable cap : N.
  Notation sc := (per_shard cap).
  Notation home := (home hashf).
  (** The invariants hold: so they do after every history of legal calls
      ([reach_inv]); the lemmas below need no more. *)
  Notation good H c := (exists A, GInv hashf (per_shard cap) c A /\ HInv (per_shard cap) H A).
  Notation exec := (exec hashf alc dbg).
  Notation cached := (cached cap).

  Definition inC (A : astate) (j : nat) : Prop := exists i e, i < 16 /\ In e (aL (A i) ++ aP (A i)) /\ e_id e = j.

  Lemma step_ctx H c x c' ev : good H c -> legal H x -> exec c x = Ret (c', ev) ->
    exists A A' D, AWf hashf sc A /\ HInv sc H A /\ AWf hashf sc A' /\ HInv sc (ev :: H) A' /\
      ev_call ev = x /\ astep hashf sc (length H) A x (ev_res ev) (ev_del ev) A' /\ Step sc H A ev D A'.
  Proof.
    intros R Hl Hx. destruct R as (A & G & I).
    destruct (step_inv hashf hash32 alc Halc dbg cap H c A x c' ev G I Hl Hx) as (A' & D & G' & I' & E1 & E2 & S).
    exists A, A', D. split; [eapply GInv_AWf; eauto|]. split; [auto|]. split; [eapply GInv_AWf; eauto|].
    split; [auto|]. split; [auto|]. split; auto.
  Qed.

  Lemma good_ctx H c : good H c -> exists A, AWf hashf sc A /\ HInv sc H A.
  Proof.
    intros R. destruct R as (A & G & I). exists A.
    split; [eapply GInv_AWf; eauto|auto].
  Qed.

  Lemma inC_aupd A n x j : n < 16 -> inC (aupd A n x) j <->
    (exists i e, i < 16 /\ i <> n /\ In e (aL (A i) ++ aP (A i)) /\ e_id e = j) \/
    (exists e, In e (aL x ++ aP x) /\ e_id e = j).
  Proof.
    intros Hn. split.
    - intros (i & e & Hi & He & Ej). destruct (Nat.eq_dec i n) as [->|Hne].
      + rewrite aupd_eq in He. right. eauto.
      + rewrite aupd_ne in He by auto. left. exists i, e. auto.
    - intros [(i & e & Hi & Hne & He & Ej)|(e & He & Ej)].
      + exists i, e. rewrite aupd_ne by auto. auto.
      + exists n, e. rewrite aupd_eq. auto.
  Qed.
  Lemma inC_split A n j : n < 16 -> inC A j <->
    (exists i e, i < 16 /\ i <> n /\ In e (aL (A i) ++ aP (A i)) /\ e_id e = j) \/
    (exists e, In e (aL (A n) ++ aP (A n)) /\ e_id e = j).
  Proof.
    intros Hn. split.
    - intros (i & e & Hi & He & Ej). destruct (Nat.eq_dec i n) as [->|Hne]; [right; eauto|left; exists i, e; auto].
    - intros [(i & e & Hi & Hne & He & Ej)|(e & He & Ej)]; [exists i, e; auto|exists n, e; auto].
  Qed.
  Lemma inC_same A n x : n < 16 ->
    (forall j, In j (map e_id (aL x ++ aP x)) <-> In j (map e_id (aL (A n) ++ aP (A n)))) ->
    forall j, inC (aupd A n x) j <-> inC A j.
  Proof.
    intros Hn E j. rewrite inC_aupd, (inC_split A n) by auto. specialize (E j). rewrite !in_map_iff in E.
    assert (E' : (exists e, In e (aL x ++ aP x) /\ e_id e = j) <-> (exists e, In e (aL (A n) ++ aP (A n)) /\ e_id e = j)).
    { split; intros (e & H1 & H2).
      - destruct (proj1 E (ex_intro _ e (conj H2 H1))) as (e' & H3 & H4). eauto.
      - destruct (proj2 E (ex_intro _ e (conj H2 H1))) as (e' & H3 & H4). eauto. }
    tauto.
  Qed.

  Ltac ids_tac := intros j; cbn [aL aP]; rewrite ?map_app; cbn [map set_pins e_id]; rewrite ?map_app;
    cbn [map set_pins e_id]; rewrite ?in_app_iff; cbn [In]; rewrite ?in_app_iff; cbn [In]; tauto.

  (** Calls that do not change what is cached. *)
  Definition quiet (x : call) : Prop :=
    match x with CLookup _ | CRelease _ | CValue _ | CTotalCharge | CNewId | CShardCharge _ => True | _ => False end.
  Lemma quiet_inC A A' n x r d : astep hashf sc n A x r d A' -> quiet x -> forall j, inC A' j <-> inC A j.
  Proof.
    intros S Q. pose proof (home_lt hashf hash32) as HL.
    destruct S; cbn [quiet] in Q; try (destruct Q; fail); try (intros j; reflexivity);
      apply inC_same; auto; rewrite H || rewrite H0; ids_tac.
  Qed.

  Lemma quiet_cached H c x c' ev i : good H c -> legal H x -> exec c x = Ret (c', ev) -> quiet x ->
    cached (ev :: H) i = cached H i.
  Proof.
    intros R Hl Hx Q. destruct (step_ctx _ _ _ _ _ R Hl Hx) as (A & A' & D & W & I & W' & I' & E1 & E2 & S).
    apply eq_true_iff_eq. rewrite (cached_iff hashf cap _ A' W' I'), (cached_iff hashf cap _ A W I).
    apply (quiet_inC _ _ _ _ _ _ E2 Q).
  Qed.

  (** ** Lookup *)
  Lemma lookup_found H c k c' ev : good H c -> legal H (CLookup k) -> exec c (CLookup k) = Ret (c', ev) ->
    exists p, ev_res ev = RHandle p /\ ev_del ev = [] /\
      ((p = 0 /\ forall i, cached H i = true -> key_of_insert H i <> k) \/
       (p <> 0 /\ exists i v ch d, owner H p = Some i /\ insert_at H i = Some (k, v, ch, d) /\ cached H i = true)).
  Proof.
    intros R Hl Hx. destruct (step_ctx _ _ _ _ _ R Hl Hx) as (A & A' & D & W & I & W' & I' & E1 & E2 & S).
    pose proof (home_lt hashf hash32 k) as HL.
    assert (Hit : forall e, In e (aL (A (home k)) ++ aP (A (home k))) -> e_key e = k ->
      e_addr e <> 0 /\ exists i v ch d, owner H (e_addr e) = Some i /\ insert_at H i = Some (k, v, ch, d) /\ cached H i = true).
    { intros e He Ek. pose proof (ent_lp A _ _ He) as He'. split; [exact (w_nz _ _ _ W (home k) e HL He')|].
      exists (e_id e), (e_val e), (e_charge e), (e_del e). split; [exact (h_own _ _ _ I (home k) e HL He')|].
      split; [rewrite <- Ek; exact (h_ev _ _ _ I (home k) e HL He')|]. apply (cached_iff hashf cap _ A W I). exists (home k), e. auto. }
    remember (CLookup k) as x. destruct E2 as [k0 E0|k0 e L1 L2 P Z E0 Ek|k0 e L P1 P2 Z E0 Ek| | | | | | | | | | | | | | |]; try discriminate; injection Heqx as Ek0; rewrite Ek0 in *.
    - exists 0. split; [auto|]. split; [auto|]. left. split; [auto|]. intros i Hc.
      apply (cached_iff hashf cap _ A W I) in Hc as (n & e & Hn & He & <-).
      rewrite (key_of_ent cap H A I n e Hn (ent_lp _ _ _ He)). intros Ek.
      pose proof (w_home _ _ _ W n e Hn (ent_lp _ _ _ He)) as Eh. rewrite Ek in Eh. subst n. exact (E0 e He Ek).
    - exists (e_addr e). split; [auto|]. split; [auto|]. right. apply Hit; auto. rewrite E0. cbn [aL aP].
      rewrite !in_app_iff. cbn; auto.
    - exists (e_addr e). split; [auto|]. split; [auto|]. right. apply Hit; auto. rewrite E0. cbn [aL aP].
      rewrite !in_app_iff. cbn; auto.
  Qed.

  (** ** Held handles *)
  Lemma held_value H c h : good H c -> 0 < held H h ->
    exists i k v ch d c', owner H h = Some i /\ insert_at H i = Some (k, v, ch, d) /\ deaths H i = 0 /\
      exec c (CValue h) = Ret (c', mk_event (CValue h) (RNum v) []).
  Proof.
    intros R Hh.
    destruct (good_safe hashf hash32 alc Halc dbg cap H c (CValue h) R Hh) as (c' & ev & Hx & Ec).
    destruct (step_ctx _ _ (CValue h) _ _ R Hh Hx) as (A & A' & D & W & I & W' & I' & E1 & E2 & S).
    remember (CValue h) as x. rewrite (event_eta ev), E1 in Hx. revert Hx.
    destruct E2; try discriminate; inversion Heqx. subst h. intros Hx.
    assert (He : In e (ents (A i))) by (unfold ents; rewrite in_app_iff; auto).
    exists (e_id e), (e_key e), (e_val e), (e_charge e), (e_del e), c'.
    split; [eapply h_own; eauto|]. split; [eapply h_ev; eauto|]. split; [eapply h_alive; eauto|]. exact Hx.
  Qed.

  Lemma held_stable H c x c' ev h : good H c -> legal H x -> exec c x = Ret (c', ev) ->
    0 < held H h -> 0 < held (ev :: H) h -> owner (ev :: H) h = owner H h.
  Proof.
    intros R Hl Hx Hh Hh'. destruct (step_ctx _ _ _ _ _ R Hl Hx) as (A & A' & D & W & I & W' & I' & E1 & E2 & S).
    destruct (h_heldin _ _ _ I h Hh) as (i & e & Hi & He & <-).
    rewrite (h_own _ _ _ I i e Hi He).
    destruct (in_dec Nat.eq_dec (e_addr e) (addrs D)) as [Hd|Hd].
    - exfalso. apply in_map_iff in Hd as (y & Ey & Hy). rewrite <- Ey in Hh'.
      rewrite (st_D0 _ _ _ _ _ _ S y Hy) in Hh'. lia.
    - destruct (st_fwd _ _ _ _ _ _ S i e Hi He) as (p & Hp); [intros Hd'; apply Hd; now apply in_map|].
      apply (h_own _ _ _ I' i _ Hi Hp).
  Qed.

  (** ** Deleters *)
  Lemma not_insert_deaths H c i : good H c -> insert_at H i = None -> deaths H i = 0.
  Proof using hashf hash32 alc Halc dbg cap. intros (A & G & I). apply (h_none _ _ _ I). Qed.
  Lemma deaths_le H c i : good H c -> deaths H i <= 1.
  Proof using hashf hash32 alc Halc dbg cap.
    intros R. destruct (good_ctx _ _ R) as (A & W & I).
    destruct (le_lt_dec (length H) i) as [Hi|Hi]; [rewrite deaths_future by auto; lia|].
    destruct (Nat.eq_dec (deaths H i) 0) as [E|E]; [lia|].
    assert (K : (exists n e, n < 16 /\ In e (ents (A n)) /\ e_id e = i) \/
                (forall n e, n < 16 -> In e (ents (A n)) -> e_id e <> i)).
    { assert (K : forall m, m <= 16 -> (exists n e, n < m /\ In e (ents (A n)) /\ e_id e = i) \/
                (forall n e, n < m -> In e (ents (A n)) -> e_id e <> i)).
      { induction m as [|m IH]; intros Hm; [right; intros; lia|].
        destruct (IH ltac:(lia)) as [(n & e & Hn & He)|Hno]; [left; exists n, e; split; [lia|auto]|].
        destruct (in_dec Nat.eq_dec i (map e_id (ents (A m)))) as [Hin|Hin].
        - left. apply in_map_iff in Hin as (e & <- & He). exists m, e. auto.
        - right. intros n e Hn He. destruct (Nat.eq_dec n m) as [->|Hne]; [|apply (Hno n); auto; lia].
          intros <-. apply Hin. now apply in_map. }
      apply (K 16). lia. }
    destruct K as [(n & e & Hn & He & <-)|K]; [rewrite (h_alive _ _ _ I n e Hn He); lia|].
    destruct (insert_at H i) as [x|] eqn:Ei; [rewrite (h_gone _ _ _ I i x Ei K); lia|].
    exfalso. apply E. exact (not_insert_deaths H c i R Ei).
  Qed.

  Lemma deleter_call H c x c' ev dc : good H c -> legal H x -> exec c x = Ret (c', ev) -> In dc (ev_del ev) ->
    exists i k v ch d, owner H (d_addr dc) = Some i /\ insert_at H i = Some (k, v, ch, d) /\ deaths H i = 0 /\
      d_key dc = k /\ d_value dc = v /\ d_deleter dc = d /\
      (forall h, owner H h = Some i -> held (ev :: H) h = 0) /\ cached (ev :: H) i = false.
  Proof.
    intros R Hl Hx Hd. destruct (step_ctx _ _ _ _ _ R Hl Hx) as (A & A' & D & W & I & W' & I' & E1 & E2 & S).
    rewrite (st_del _ _ _ _ _ _ S) in Hd. apply in_map_iff in Hd as (e & <- & He).
    destruct (st_D _ _ _ _ _ _ S e He) as (n & Hn & He').
    exists (e_id e), (e_key e), (e_val e), (e_charge e), (e_del e). cbn [dcall_of d_addr d_key d_value d_deleter].
    pose proof (h_own _ _ _ I n e Hn He') as Ho.
    split; [auto|]. split; [eapply h_ev; eauto|]. split; [eapply h_alive; eauto|].
    split; [auto|]. split; [auto|]. split; [auto|]. split.
    - intros h Eh. rewrite <- (owner_inj _ _ _ _ Ho Eh). now apply (st_D0 _ _ _ _ _ _ S).
    - apply (cached_false hashf cap _ A' W' I'). intros i e' Hi Hin Ej. pose proof (ent_lp _ _ _ Hin) as Hin'.
      destruct (st_bwd _ _ _ _ _ _ S i e' Hi Hin') as [(e0 & p & He0 & Hn0 & ->)|(F1 & _)].
      + cbn [set_pins e_id] in Ej. destruct (ids_inj _ _ _ _ i n e0 e W I Hi Hn He0 He' Ej) as [_ ->]. contradiction.
      + pose proof (owner_lt _ _ _ Ho). lia.
  Qed.

  Lemma alive_reason H c i x : good H c -> insert_at H i = Some x -> deaths H i = 0 ->
    cached H i = true \/ in_use H i.
  Proof using hashf hash32 alc Halc dbg cap.
    intros R Hi Hd. destruct (good_ctx _ _ R) as (A & W & I).
    destruct (id_ents cap H A I i x Hi Hd) as (n & e & Hn & He & <-).
    assert (He' := He). unfold ents in He'. rewrite app_assoc, in_app_iff in He'. destruct He' as [He'|He'].
    - left. apply (cached_iff hashf cap _ A W I). exists n, e. auto.
    - right. apply (held_id_iff cap H A I n e Hn He). eapply w_held; eauto. rewrite in_app_iff; auto.
  Qed.

  (** ** TotalCharge *)
  Lemma total_charge H c c' ev : good H c -> exec c CTotalCharge = Ret (c', ev) ->
    ev_res ev = RNum (u64 (total cap H)) /\ ev_del ev = [].
  Proof.
    intros R Hx. destruct (step_ctx _ _ CTotalCharge _ _ R Logic.I Hx) as (A & A' & D & W & I & W' & I' & E1 & E2 & S).
    rewrite (total_charges hashf cap H A W I). remember CTotalCharge as x. destruct E2; try discriminate. auto.
  Qed.

  (** ** Erase and Prune *)
  Lemma erase_cached H c k c' ev i : good H c -> exec c (CErase k) = Ret (c', ev) ->
    (cached (ev :: H) i = true <-> cached H i = true /\ key_of_insert H i <> k).
  Proof.
    intros R Hx. destruct (step_ctx _ _ (CErase k) _ _ R Logic.I Hx) as (A & A' & D & W & I & W' & I' & E1 & E2 & S).
    pose proof (home_lt hashf hash32 k) as HL.
    rewrite (cached_iff hashf cap _ A' W' I'), (cached_iff hashf cap _ A W I).
    fold (inC A i) (inC A' i).
    assert (Other : forall n e, n < 16 -> n <> home k -> In e (aL (A n) ++ aP (A n)) -> key_of_insert H (e_id e) <> k).
    { intros n e Hn Hne He Ek. rewrite (key_of_ent cap H A I n e Hn (ent_lp _ _ _ He)) in Ek.
      apply Hne. rewrite <- Ek. symmetry. exact (w_home _ _ _ W n e Hn (ent_lp _ _ _ He)). }
    assert (Rem : forall X e Y A'', aL (A (home k)) ++ aP (A (home k)) = X ++ e :: Y -> e_key e = k ->
       aL A'' ++ aP A'' = X ++ Y -> inC (aupd A (home k) A'') i <-> inC A i /\ key_of_insert H i <> k).
    { intros X e Y A'' EA Ek EA'. rewrite inC_aupd, (inC_split A (home k)) by auto. rewrite EA', EA.
      pose proof (w_keys _ _ _ W _ HL) as NK. rewrite EA, map_app in NK. cbn [map] in NK.
      apply NoDup_remove_2 in NK. rewrite <- map_app in NK. 
      assert (Ke : forall y, In y (X ++ e :: Y) -> key_of_insert H (e_id y) = e_key y).
      { intros y Hy. apply (key_of_ent cap H A I (home k)); auto. apply ent_lp. now rewrite EA. }
      split.
      - intros [(n & y & Hn & Hne & Hy & <-)|(y & Hy & <-)].
        + split; [left; exists n, y; auto|eapply Other; eauto].
        + assert (Hy' : In y (X ++ e :: Y)) by (rewrite in_app_iff in *; cbn; tauto).
          split; [right; exists y; auto|]. rewrite Ke by auto. intros E. apply NK. rewrite Ek, <- E. now apply in_map.
      - intros [[(n & y & Hn & Hne & Hy & <-)|(y & Hy & <-)] Hk].
        + left. exists n, y. auto.
        + right. exists y. split; auto. rewrite Ke in Hk by auto. rewrite in_app_iff in *. cbn [In] in Hy.
          destruct Hy as [Hy|[Hy|Hy]]; auto. subst y. contradiction. }
    remember (CErase k) as x. destruct E2 as [ | | | | | | | |k0 E0|k0 e L1 L2 P Z E0 Ek|k0 e L P1 P2 Z E0 Ek| | | | | | |]; try discriminate; injection Heqx as Ek0; rewrite Ek0 in *.
    - split; [|tauto]. intros Hc. split; auto. destruct Hc as (n & e & Hn & He & <-).
      destruct (Nat.eq_dec n (home k)) as [->|Hne]; [|eapply Other; eauto].
      rewrite (key_of_ent cap H A I _ e Hn (ent_lp _ _ _ He)). auto.
    - apply (Rem L1 e (L2 ++ P)); auto; [rewrite E0|]; cbn [aL aP]; now rewrite <- app_assoc.
    - apply (Rem (L ++ P1) e P2); auto; [rewrite E0|]; cbn [aL aP]; now rewrite <- app_assoc.
  Qed.

  Lemma prune_cached H c c' ev i : good H c -> exec c CPrune = Ret (c', ev) ->
    (cached (ev :: H) i = true <-> cached H i = true /\ in_use H i).
  Proof.
    intros R Hx. destruct (step_ctx _ _ CPrune _ _ R Logic.I Hx) as (A & A' & D & W & I & W' & I' & E1 & E2 & S).
    rewrite (cached_iff hashf cap _ A' W' I'), (cached_iff hashf cap _ A W I).
    remember CPrune as x. destruct E2; try discriminate. cbn [aL aP app]. split.
    - intros (n & e & Hn & He & <-). split; [exists n, e; rewrite in_app_iff; auto|].
      apply (held_id_iff cap H A I n e Hn); [unfold ents; rewrite !in_app_iff; auto|].
      eapply w_held; eauto. rewrite in_app_iff; auto.
    - intros [(n & e & Hn & He & <-) Hu]. exists n, e. split; [auto|]. split; [|auto].
      apply (held_id_iff cap H A I n e Hn (ent_lp _ _ _ He)) in Hu. rewrite in_app_iff in He.
      destruct He as [He|He]; auto. rewrite (w_idle _ _ _ W n e Hn He) in Hu. lia.
  Qed.

  (** ** Release *)
  Lemma release_deletes H c h c' ev i k v ch d : good H c -> 0 < held H h -> exec c (CRelease h) = Ret (c', ev) ->
    owner H h = Some i -> insert_at H i = Some (k, v, ch, d) ->
    ev_del ev = if (held H h =? 1) && negb (cached H i) then [mk_dcall h d k v] else [].
  Proof.
    intros R Hh Hx Ho Hi. destruct (step_ctx _ _ (CRelease h) _ _ R Hh Hx) as (A & A' & D & W & I & W' & I' & E1 & E2 & S).
    remember (CRelease h) as x.
    assert (K : forall n e, n < 16 -> In e (ents (A n)) -> e_addr e = h ->
      e_id e = i /\ held H h = e_pins e /\ dcall_of e = mk_dcall h d k v).
    { intros n e Hn He Ea. pose proof (h_own _ _ _ I n e Hn He) as Ho'. rewrite Ea, Ho in Ho'. inversion Ho'; subst i.
      split; [auto|]. split; [rewrite <- Ea; exact (h_held _ _ _ I n e Hn He)|].
      rewrite (h_ev _ _ _ I n e Hn He) in Hi. inversion Hi. unfold dcall_of. now rewrite Ea. }
    destruct E2 as [| | |n e L P1 P2 Z Hn E0 Ep|n e L P1 P2 Z Hn E0 Ep|n e L P Z1 Z2 Hn E0 Ep|n e L P Z1 Z2 Hn E0 Ep| | | | | | | | | | |];
      try discriminate; injection Heqx as Ea;
      (destruct (K n e Hn) as (K1 & K2 & K3); [rewrite E0; unfold ents; cbn [aL aP aZ]; rewrite !in_app_iff; cbn; auto|auto|]);
      rewrite K2.
    - assert (Hc : cached H i = true).
      { apply (cached_iff hashf cap _ A W I). exists n, e. split; [auto|]. split; [|auto]. rewrite E0; cbn [aL aP]. rewrite !in_app_iff. cbn; auto. }
      rewrite Hc. now rewrite andb_false_r.
    - assert (E : (e_pins e =? 1) = false) by (apply Nat.eqb_neq; lia). now rewrite E.
    - rewrite Ep, Nat.eqb_refl, K3.
      assert (Hc : cached H i = false); [|now rewrite Hc].
      apply (cached_false hashf cap _ A W I). intros m e' Hm He' Ee. rewrite <- K1 in Ee.
      assert (HeZ : In e (ents (A n))) by (rewrite E0; unfold ents; cbn [aL aP aZ]; rewrite !in_app_iff; cbn; auto).
      destruct (ids_inj _ _ _ _ m n e' e W I Hm Hn (ent_lp _ _ _ He') HeZ Ee) as [-> ->].
      pose proof (w_nd _ _ _ W n Hn) as N. unfold ents in N. rewrite app_assoc in N. unfold addrs in N. rewrite map_app in N.
      apply (NoDup_app_disj _ _ N (e_addr e)); [now apply in_map|].
      rewrite E0. cbn [aZ]. rewrite map_app, in_app_iff. cbn; auto.
    - assert (E : (e_pins e =? 1) = false) by (apply Nat.eqb_neq; lia). now rewrite E.
  Qed.

  (** ** Insert *)
  Lemma insert_basic H c k v ch d c' ev : good H c -> legal H (CInsert k v ch d) -> exec c (CInsert k v ch d) = Ret (c', ev) ->
    exists p, ev_res ev = RHandle p /\ p <> 0 /\ held H p = 0 /\ held (ev :: H) p = 1 /\
      owner (ev :: H) p = Some (length H) /\ cached (ev :: H) (length H) = N.ltb 0 (shard_cap cap).
  Proof.
    intros R Hl Hx. destruct (step_ctx _ _ _ _ _ R Hl Hx) as (A & A' & D & W & I & W' & I' & E1 & E2 & S).
    pose proof (home_lt hashf hash32 k) as HL.
    assert (K : forall a, ev_res ev = RHandle a -> a <> 0 -> (forall i e, i < 16 -> In e (ents (A i)) -> e_addr e <> a) ->
      In (mk_ent a (length H) k v ch d 1) (ents (A' (home k))) ->
      (N.ltb 0 (shard_cap cap) = true -> In (mk_ent a (length H) k v ch d 1) (aL (A' (home k)) ++ aP (A' (home k)))) ->
      exists p, ev_res ev = RHandle p /\ p <> 0 /\ held H p = 0 /\ held (ev :: H) p = 1 /\
      owner (ev :: H) p = Some (length H) /\ cached (ev :: H) (length H) = N.ltb 0 (shard_cap cap)).
    { intros a Er Ha Hf Hin Hc. exists a. split; [auto|]. split; [auto|]. split.
      { destruct (held H a) eqn:Eh; auto. destruct (h_heldin _ _ _ I a) as (i & e & Hi & He & Ea); [lia|].
        exfalso. exact (Hf i e Hi He Ea). }
      split; [exact (h_held _ _ _ I' _ _ HL Hin)|]. split; [exact (h_own _ _ _ I' _ _ HL Hin)|].
      destruct (N.ltb 0 (shard_cap cap)) eqn:E.
      - apply (cached_iff hashf cap _ A' W' I'). exists (home k), (mk_ent a (length H) k v ch d 1). auto.
      - unfold CacheSpec.cached. destruct (insert_at (ev :: H) (length H)) as [[[[? ?] ?] ?]|]; auto. now rewrite E. }
    remember (CInsert k v ch d) as x. destruct E2; try discriminate.
    - injection Heqx as Ek Ev Ech Ed. rewrite Ek, Ev, Ech, Ed in *. apply (K a); auto; rewrite aupd_eq.
      + unfold ents. cbn [aL aP aZ]. rewrite !in_app_iff. cbn; auto.
      + intros E. exfalso. apply N.ltb_lt in E. unfold shard_cap in E. fold (per_shard cap) in E. lia.
    - injection Heqx as Ek Ev Ech Ed. rewrite Ek, Ev, Ech, Ed in *. apply (K a); auto; rewrite aupd_eq.
      + unfold ents. cbn [aL aP aZ]. rewrite !in_app_iff. cbn; auto.
      + intros _. cbn [aL aP]. rewrite !in_app_iff. cbn; auto.
  Qed.

  (** Everything there is to say about an Insert into a cache with capacity. *)
  Lemma insert_view H c k v ch d c' ev : good H c -> legal H (CInsert k v ch d) -> exec c (CInsert k v ch d) = Ret (c', ev) ->
    (0 < shard_cap cap)%N ->
    exists A A' L0 P0 D L' a, let nw := mk_ent a (length H) k v ch d 1 in
      AWf hashf sc A /\ HInv sc H A /\ AWf hashf sc A' /\ HInv sc (ev :: H) A' /\
      (forall j, j <> home k -> A' j = A j) /\
      aL (A' (home k)) = L' /\ aP (A' (home k)) = P0 ++ [nw] /\
      L0 = D ++ L' /\
      (forall e, In e (L0 ++ P0) <-> In e (aL (A (home k)) ++ aP (A (home k))) /\ e_key e <> k) /\
      (forall e, In e L0 -> In e (aL (A (home k)))) /\
      (forall e, In e P0 -> In e (aP (A (home k)))) /\
      StronglySorted (older H) L0 /\
      (L' = [] \/ (u64 (charges (L' ++ P0 ++ [nw])) <= sc)%N) /\
      (forall D1 x D2, D = D1 ++ x :: D2 -> (sc < u64 (charges (x :: D2 ++ L' ++ P0 ++ [nw])))%N).
  Proof.
    intros R Hl Hx Hsc. destruct (step_ctx _ _ _ _ _ R Hl Hx) as (A & A' & D & W & I & W' & I' & E1 & E2 & S).
    pose proof (home_lt hashf hash32 k) as HL. unfold shard_cap in Hsc. fold (per_shard cap) in Hsc.
    remember (CInsert k v ch d) as x.
    destruct E2 as [| | | | | | | | | | | | | | | | |a k0 v0 c0 d0 L P Z L0 P0 Z0 D0 D1 L' Ha Hf _ EA Hc Hr EL Hstop Hmin];
      try discriminate; injection Heqx as Ek Ev Ech Ed; rewrite Ek, Ev, Ech, Ed in *; [lia|].
    exists A, (aupd A (home k) (mk_ash L' (P0 ++ [mk_ent a (length H) k v ch d 1]) Z0)), L0, P0, D1, L', a. intros nw.
    split; [auto|]. split; [auto|]. split; [auto|]. split; [auto|].
    split; [intros j Hj; now apply aupd_ne|]. rewrite aupd_eq. cbn [aL aP].
    split; [auto|]. split; [auto|]. split; [auto|].
    pose proof (w_keys _ _ _ W _ HL) as NK. rewrite EA in NK |- *. cbn [aL aP] in *.
    pose proof (h_lru _ _ _ I _ HL) as SL. rewrite EA in SL. cbn [aL] in SL.
    assert (Rem : forall X y Y, L ++ P = X ++ y :: Y -> e_key y = k ->
       forall e, In e (X ++ Y) <-> In e (L ++ P) /\ e_key e <> k).
    { intros X y Y E Ey e. rewrite E in NK |- *. rewrite map_app in NK. cbn [map] in NK. apply NoDup_remove_2 in NK.
      rewrite <- map_app, Ey in NK. split.
      - intros He. split; [rewrite in_app_iff in *; cbn; tauto|]. intros Eq. apply NK. rewrite <- Eq. now apply in_map.
      - intros [He Hk]. rewrite in_app_iff in *. cbn [In] in He. destruct He as [He|[He|He]]; auto. subst e. contradiction. }
    destruct Hr as [(-> & -> & _ & _ & Hno)|[(L1 & y & L2 & -> & Ey & -> & -> & _)|(P1 & y & P2 & -> & Ey & -> & -> & _)]].
    - split; [intros e; split; [intros He; split; auto|tauto]|]. split; [auto|]. split; [auto|]. split; [auto|]. split; auto.
    - split. { intros e. rewrite <- app_assoc. apply (Rem L1 y (L2 ++ P)); auto. now rewrite <- app_assoc. }
      split; [intros e; rewrite !in_app_iff; cbn; tauto|]. split; [auto|]. split; [eapply SS_remove; eauto|]. split; auto.
    - split. { intros e. rewrite app_assoc. apply (Rem (L ++ P1) y P2); auto. now rewrite <- app_assoc. }
      split; [auto|]. split; [intros e; rewrite !in_app_iff; cbn; tauto|]. split; [auto|]. split; auto.
  Qed.

  Lemma insert_cached H c k v ch d c' ev i : good H c -> legal H (CInsert k v ch d) -> exec c (CInsert k v ch d) = Ret (c', ev) ->
    cached (ev :: H) i = true -> i = length H \/ (cached H i = true /\ key_of_insert H i <> k).
  Proof.
    intros R Hl Hx Hc. assert (Hsc : (0 < shard_cap cap)%N).
    { unfold CacheSpec.cached in Hc. destruct (insert_at _ _) as [[[[? ?] ?] ?]|]; [|discriminate].
      apply andb_prop in Hc as [Hc _]. apply andb_prop in Hc as [Hc _]. now apply N.ltb_lt in Hc. }
    destruct (insert_view _ _ _ _ _ _ _ _ R Hl Hx Hsc) as
      (A & A' & L0 & P0 & D & L' & a & W & I & W' & I' & Fr & EL & EP & E0 & Hin & _).
    apply (cached_iff hashf cap _ A' W' I') in Hc as (n & e & Hn & He & <-).
    assert (Old : forall e, In e (aL (A n) ++ aP (A n)) -> e_key e <> k ->
      e_id e = length H \/ (cached H (e_id e) = true /\ key_of_insert H (e_id e) <> k)).
    { intros e' He' Hk. right. split; [apply (cached_iff hashf cap _ A W I); exists n, e'; auto|].
      now rewrite (key_of_ent cap H A I n e' Hn (ent_lp _ _ _ He')). }
    destruct (Nat.eq_dec n (home k)) as [->|Hne].
    - rewrite EL, EP, !in_app_iff in He. cbn [In] in He. destruct He as [He|[He|[He|[]]]].
      + destruct (proj1 (Hin e)) as [H1 H2]; [rewrite E0, !in_app_iff; auto|]. auto.
      + destruct (proj1 (Hin e)) as [H1 H2]; [rewrite !in_app_iff; auto|]. auto.
      + left. now rewrite <- He.
    - rewrite (Fr n Hne) in He. apply Old; auto. intros Ek. apply Hne. rewrite <- Ek. symmetry.
      exact (w_home _ _ _ W n e Hn (ent_lp _ _ _ He)).
  Qed.

  Lemma insert_capacity H c k v ch d c' ev : good H c -> legal H (CInsert k v ch d) -> exec c (CInsert k v ch d) = Ret (c', ev) ->
    (u64 (shard_total hashf cap (shard_of hashf k) (ev :: H)) <= shard_cap cap)%N \/
    (forall i, cached (ev :: H) i = true -> shard_of hashf (key_of_insert (ev :: H) i) = shard_of hashf k -> in_use (ev :: H) i).
  Proof.
    intros R Hl Hx. pose proof (home_lt hashf hash32 k) as HL.
    destruct (N.eq_dec (shard_cap cap) 0) as [E|E].
    - right. intros i Hc. exfalso. unfold CacheSpec.cached in Hc. destruct (insert_at _ _) as [[[[? ?] ?] ?]|]; [|discriminate].
      rewrite E in Hc. discriminate.
    - destruct (insert_view _ _ _ _ _ _ _ _ R Hl Hx ltac:(lia)) as
        (A & A' & L0 & P0 & D & L' & a & W & I & W' & I' & Fr & EL & EP & E0 & Hin & HLs & HPs & _ & Hstop & _).
      destruct Hstop as [->|Hstop].
      + right. intros i Hc Hs. apply (cached_iff hashf cap _ A' W' I') in Hc as (n & e & Hn & He & <-).
        rewrite (key_of_ent cap _ A' I' n e Hn (ent_lp _ _ _ He)) in Hs. rewrite !shard_of_home in Hs.
        apply Nat2N.inj in Hs. rewrite (w_home _ _ _ W' n e Hn (ent_lp _ _ _ He)) in Hs. subst n.
        apply (held_id_iff cap _ A' I' _ e Hn (ent_lp _ _ _ He)). apply (w_held _ _ _ W' (home k)); auto.
        rewrite EL in He. rewrite in_app_iff. auto.
      + left. rewrite shard_of_home, (shard_total_charges hashf cap _ A' W' I') by auto. rewrite EL, EP.
        unfold shard_cap. fold (per_shard cap). exact Hstop.
  Qed.

  Lemma SS_mid {B} (Q : B -> B -> Prop) l1 x l2 : StronglySorted Q (l1 ++ x :: l2) ->
    Forall (Q x) l2 /\ Forall (fun y => Q y x) l1.
  Proof.
    induction l1 as [|y l1 IH]; cbn [app]; intros SS; apply StronglySorted_inv in SS as [SS F].
    - split; [auto|constructor].
    - destruct (IH SS) as [F1 F2]. split; [auto|]. constructor; [|auto].
      rewrite Forall_forall in F. apply F. rewrite in_app_iff. cbn; auto.
  Qed.

  Lemma SS_nodup H l l' : StronglySorted (older H) (l ++ l') -> NoDup (addrs l).
  Proof.
    induction l as [|x l IH]; cbn [app addrs map]; intros SS; [constructor|].
    apply StronglySorted_inv in SS as [SS F]. constructor; [|now apply IH].
    intros Hin. apply in_map_iff in Hin as (y & Ey & Hy). rewrite Forall_forall in F.
    assert (O : older H x y) by (apply F; rewrite in_app_iff; auto). unfold older in O. rewrite Ey in O. lia.
  Qed.

  Lemma idle_ent H A n e : HInv sc H A -> n < 16 -> In e (ents (A n)) -> idle_since H (e_id e) = last_release H (e_addr e).
  Proof. intros I Hn He. unfold idle_since. now rewrite (owner_handle_of _ _ _ (h_own _ _ _ I n e Hn He)). Qed.

  Lemma insert_evicts H c k v ch d c' ev : good H c -> legal H (CInsert k v ch d) -> exec c (CInsert k v ch d) = Ret (c', ev) ->
    forall j, evicted cap H ev k j = true ->
      ~ in_use H j /\ shard_of hashf (key_of_insert H j) = shard_of hashf k /\
      (forall j', cached (ev :: H) j' = true -> j' <> length H -> ~ in_use H j' ->
         shard_of hashf (key_of_insert H j') = shard_of hashf k -> idle_since H j < idle_since H j') /\
      (shard_cap cap < u64 (shard_total hashf cap (shard_of hashf k) (ev :: H) +
          sumN (map (charge_of H) (filter (fun j' => evicted cap H ev k j' && (idle_since H j <=? idle_since H j')%nat)
                                          (seq 0 (length H))))))%N.
  Proof.
    intros R Hl Hx j Hj. pose proof (home_lt hashf hash32 k) as HL.
    assert (Hsc : (0 < shard_cap cap)%N).
    { unfold evicted in Hj. apply andb_prop in Hj as [Hj _]. apply andb_prop in Hj as [Hj _].
      unfold CacheSpec.cached in Hj. destruct (insert_at _ _) as [[[[? ?] ?] ?]|]; [|discriminate].
      apply andb_prop in Hj as [Hj _]. apply andb_prop in Hj as [Hj _]. now apply N.ltb_lt in Hj. }
    destruct (insert_view _ _ _ _ _ _ _ _ R Hl Hx Hsc) as
        (A & A' & L0 & P0 & D & L' & a & W & I & W' & I' & Fr & EL & EP & E0 & Hin & HLs & HPs & SL & Hstop & Hmin).
    assert (DL : forall e, In e D -> In e (aL (A (home k)))).
    { intros e He. apply HLs. rewrite E0, in_app_iff. auto. }
    assert (DE : forall e, In e D -> In e (ents (A (home k)))).
    { intros e He. apply ent_lp. rewrite in_app_iff. auto. }
    assert (Ev : forall i, evicted cap H ev k i = true <-> exists e, In e D /\ e_id e = i).
    { intros i. unfold evicted. rewrite !andb_true_iff, !negb_true_iff. split.
      - intros [[H1 H2] H3]. apply (cached_iff hashf cap _ A W I) in H1 as (n & e & Hn & He & <-).
        rewrite (key_of_ent cap H A I n e Hn (ent_lp _ _ _ He)) in H3.
        assert (Hk : e_key e <> k) by (intros Ek; apply bytes_eqb_eq in Ek; congruence).
        assert (NotC : ~ inC A' (e_id e)).
        { intros Hc. apply (cached_iff hashf cap _ A' W' I') in Hc. congruence. }
        destruct (Nat.eq_dec n (home k)) as [->|Hne].
        + assert (He0 : In e (L0 ++ P0)) by (apply Hin; auto).
          rewrite E0, !in_app_iff in He0. destruct He0 as [[He0|He0]|He0]; [eauto| |].
          * exfalso. apply NotC. exists (home k), e. rewrite EL, EP, !in_app_iff. auto.
          * exfalso. apply NotC. exists (home k), e. rewrite EL, EP, !in_app_iff. auto.
        + exfalso. apply NotC. exists n, e. rewrite (Fr n Hne). auto.
      - intros (e & He & <-).
        assert (HeL : In e (aL (A (home k)) ++ aP (A (home k)))) by (rewrite in_app_iff; auto).
        split; [split|].
        + apply (cached_iff hashf cap _ A W I). exists (home k), e. auto.
        + apply (cached_false hashf cap _ A' W' I'). intros n e' Hn He' Ee.
          assert (Hold : forall m x, m < 16 -> In x (aL (A m) ++ aP (A m)) -> e_id x = e_id e -> m = home k /\ x = e).
          { intros m x Hm Hxx Ex. apply (ids_inj hashf sc H A m (home k) x e W I Hm HL (ent_lp _ _ _ Hxx) (DE e He) Ex). }
          destruct (Nat.eq_dec n (home k)) as [->|Hne].
          * rewrite EL, EP, !in_app_iff in He'. cbn [In] in He'.
            assert (ND : NoDup (addrs (aL (A (home k)) ++ aP (A (home k))))) by (apply (nodup_lp hashf cap A W); auto).
            destruct He' as [He'|[He'|[He'|[]]]].
            -- destruct (Hold (home k) e' HL) as [_ ->]; [rewrite in_app_iff; left; apply HLs; rewrite E0, in_app_iff; auto|auto|].
               apply in_split in He as (X1 & X2 & ->). rewrite E0, <- app_assoc in SL. cbn [app] in SL.
               apply SS_mid in SL as [SL _]. rewrite Forall_forall in SL.
               assert (older H e e) by (apply SL; rewrite in_app_iff; auto). unfold older in *. lia.
            -- destruct (Hold (home k) e' HL) as [_ ->]; [rewrite in_app_iff; right; now apply HPs|auto|].
               apply HPs in He'. pose proof (w_idle _ _ _ W _ e HL (DL e He)).
               pose proof (w_held _ _ _ W _ e HL (proj2 (in_app_iff _ _ _) (or_introl He'))). lia.
            -- rewrite <- He' in Ee. cbn [e_id] in Ee. pose proof (owner_lt _ _ _ (h_own _ _ _ I _ e HL (DE e He))). lia.
          * rewrite (Fr n Hne) in He'. destruct (Hold n e' Hn He' Ee) as [En _]. contradiction.
        + rewrite (key_of_ent cap H A I _ e HL (DE e He)). apply bytes_eqb_neq. apply Hin. rewrite E0, !in_app_iff. auto. }
    apply Ev in Hj as (e & He & <-).
    assert (Nu : ~ in_use H (e_id e)).
    { intros Hu. apply (held_id_iff cap H A I _ e HL (DE e He)) in Hu. rewrite (w_idle _ _ _ W _ e HL (DL e He)) in Hu. lia. }
    split; [exact Nu|]. split.
    { rewrite (key_of_ent cap H A I _ e HL (DE e He)), !shard_of_home. f_equal. exact (w_home _ _ _ W _ e HL (DE e He)). }
    assert (He2 := He). apply in_split in He2 as (D1 & D2 & ED).
    assert (SLx := SL). rewrite E0, ED, <- app_assoc in SLx. cbn [app] in SLx. apply SS_mid in SLx as [S1 S2].
    rewrite Forall_forall in S1, S2.
    rewrite (idle_ent H A _ e I HL (DE e He)). split.
    - intros j' Hc Hne Hnu Hs. apply (cached_iff hashf cap _ A' W' I') in Hc as (n & e' & Hn & He' & <-).
      assert (Hold : In e' (aL (A n) ++ aP (A n)) -> n = home k).
      { intros Ho. rewrite (key_of_ent cap H A I n e' Hn (ent_lp _ _ _ Ho)), !shard_of_home in Hs. apply Nat2N.inj in Hs.
        rewrite <- Hs. symmetry. exact (w_home _ _ _ W n e' Hn (ent_lp _ _ _ Ho)). }
      destruct (Nat.eq_dec n (home k)) as [->|Hnn]; [|rewrite (Fr n Hnn) in He'; apply Hold in He'; contradiction].
      rewrite EL, EP, !in_app_iff in He'. cbn [In] in He'. destruct He' as [He'|[He'|[He'|[]]]].
      + assert (HeL : In e' (aL (A (home k)))) by (apply HLs; rewrite E0, in_app_iff; auto).
        rewrite (idle_ent H A _ e' I HL) by (apply ent_lp; rewrite in_app_iff; auto).
        apply S1. rewrite in_app_iff. auto.
      + exfalso. apply Hnu. apply HPs in He'. apply (held_id_iff cap H A I _ e' HL); [apply ent_lp; rewrite in_app_iff; auto|].
        apply (w_held _ _ _ W (home k)); auto. rewrite in_app_iff; auto.
      + exfalso. apply Hne. now rewrite <- He'.
    - rewrite shard_of_home, (shard_total_charges hashf cap _ A' W' I') by auto. rewrite EL, EP.
      unfold shard_cap. fold (per_shard cap). specialize (Hmin D1 e D2 ED).
      assert (P : Permutation (filter (fun j' => evicted cap H ev k j' && (last_release H (e_addr e) <=? idle_since H j')) (seq 0 (length H)))
                              (map e_id (e :: D2))).
      { apply NoDup_Permutation.
        - apply NoDup_filter, seq_NoDup.
        - apply (ids_nodup hashf cap H A W I).
          + intros x Hxx. exists (home k). split; [auto|]. apply DE. rewrite ED, in_app_iff. auto.
          + assert (SD : StronglySorted (older H) ((e :: D2) ++ L')).
            { assert (SLy := SL). rewrite E0, ED, <- app_assoc in SLy. cbn [app] in SLy. eapply SS_suffix; eauto. }
            apply (SS_nodup H (e :: D2) L'). exact SD.
        - intros i. rewrite filter_In, andb_true_iff, in_seq, Ev, in_map_iff. split.
          + intros [_ [(x & Hxx & <-) Hle]]. exists x. split; [auto|]. apply Nat.leb_le in Hle.
            rewrite (idle_ent H A _ x I HL (DE x Hxx)) in Hle. rewrite ED, in_app_iff in Hxx.
            destruct Hxx as [Hxx|Hxx]; auto. specialize (S2 x Hxx). unfold older in S2. lia.
          + intros (x & <- & Hxx).
            assert (HxD : In x D) by (rewrite ED, in_app_iff; auto).
            split; [pose proof (owner_lt _ _ _ (h_own _ _ _ I _ x HL (DE x HxD))); lia|]. split; [eauto|].
            apply Nat.leb_le. rewrite (idle_ent H A _ x I HL (DE x HxD)). destruct Hxx as [->|Hxx]; [auto|].
            assert (O : older H e x) by (apply S1; rewrite in_app_iff; auto). unfold older in O. lia. }
      rewrite (sumN_perm _ _ (Permutation_map _ P)).
      rewrite (charges_ids cap H A I (home k)) by (auto; intros x Hxx; apply DE; rewrite ED, in_app_iff; auto).
      replace (charges (L' ++ P0 ++ [mk_ent a (length H) k v ch d 1]) + charges (e :: D2))%N
        with (charges (e :: D2 ++ L' ++ P0 ++ [mk_ent a (length H) k v ch d 1])); [exact Hmin|].
      change (e :: D2 ++ L' ++ P0 ++ [mk_ent a (length H) k v ch d 1]) with ((e :: D2) ++ L' ++ P0 ++ [mk_ent a (length H) k v ch d 1]).
      rewrite (charges_app (e :: D2)). lia.
  Qed.

  (** ** Destruction *)
  Lemma dtor_all H c : good H c -> (forall h, held H h = 0) ->
    exists log l, cache_dtor dbg (clear_log c) = Ret (mk_mem [] log) /\ Permutation l (cached_list cap H) /\
      Forall2 (fun dc i => owner H (d_addr dc) = Some i /\
                 exists ch, insert_at H i = Some (d_key dc, d_value dc, ch, d_deleter dc)) log l.
  Proof using hashf hash32 alc Halc dbg cap.
    intros R Hh. destruct R as (A & G & I).
    pose proof (GInv_AWf _ _ _ _ G) as W.
    assert (Em : forall i, i < 16 -> aP (A i) = [] /\ aZ (A i) = []).
    { intros i Hi.
      assert (K : forall e, In e (aP (A i) ++ aZ (A i)) -> False).
      { intros e He. pose proof (w_held _ _ _ W i e Hi He) as Hp.
        assert (He' : In e (ents (A i))) by (unfold ents; rewrite in_app_iff; auto).
        rewrite <- (h_held _ _ _ I i e Hi He'), Hh in Hp. lia. }
      split.
      - destruct (aP (A i)) as [|e l] eqn:E; auto. exfalso. apply (K e). cbn; auto.
      - destruct (aZ (A i)) as [|e l] eqn:E; auto. exfalso. apply (K e). rewrite in_app_iff. cbn; auto. }
    set (es := concat (map (fun i => aL (A i)) (rev (seq 0 16)))).
    exists (map dcall_of es), (map e_id es).
    assert (Hes : forall e, In e es <-> exists i, i < 16 /\ In e (aL (A i))).
    { intros e. unfold es. rewrite in_concat. split.
      - intros (l & Hl & He). apply in_map_iff in Hl as (i & <- & Hi). rewrite <- in_rev, in_seq in Hi. exists i.
        split; [lia|auto].
      - intros (i & Hi & He). exists (aL (A i)). split; auto. apply in_map_iff. exists i. split; [auto|].
        rewrite <- in_rev, in_seq. lia. }
    split.
    - rewrite (cache_dtor_spec hashf dbg sc (clear_log c) A); [|exact (GInv_clear hashf sc c A [] _ G)|reflexivity|exact Em].
      do 2 f_equal. unfold es. rewrite concat_map, map_map. reflexivity.
    - split.
      + apply NoDup_Permutation.
        * apply (ids_nodup hashf cap H A W I).
          -- intros e He. apply Hes in He as (i & Hi & He). exists i. split; [auto|]. unfold ents. rewrite in_app_iff; auto.
          -- unfold es, addrs. rewrite concat_map, map_map.
             assert (K : forall l, NoDup l -> (forall i, In i l -> i < 16) -> NoDup (concat (map (fun i => map e_addr (aL (A i))) l))).
             { induction l as [|i l IH]; intros N Hl; cbn [map concat]; [constructor|].
               apply NoDup_cons_iff in N as [N1 N2]. apply nodup_app.
               - pose proof (w_nd _ _ _ W i (Hl i (or_introl eq_refl))) as N. unfold ents, addrs in N. rewrite map_app in N.
                 now apply NoDup_app_l in N.
               - apply IH; auto. intros j Hj. apply Hl. cbn; auto.
               - intros a Ha Ha'. apply in_map_iff in Ha as (e & <- & He). apply in_concat in Ha' as (l' & Hl' & Ha').
                 apply in_map_iff in Hl' as (j & <- & Hj). apply in_map_iff in Ha' as (e' & Ee & He').
                 destruct (w_addr _ _ _ W j i e' e) as [Eji _]; auto; [apply Hl; cbn; auto|apply Hl; cbn; auto| | |].
                 + unfold ents. rewrite in_app_iff; auto.
                 + unfold ents. rewrite in_app_iff; auto.
                 + subst j. contradiction. }
             apply K; [apply NoDup_rev, seq_NoDup|]. intros i Hi. rewrite <- in_rev, in_seq in Hi. lia.
        * apply cached_list_nodup.
        * intros j. rewrite (cached_list_in hashf cap H A W I), (cached_iff hashf cap _ A W I), in_map_iff. split.
          -- intros (e & <- & He). apply Hes in He as (i & Hi & He). exists i, e. rewrite in_app_iff. auto.
          -- intros (i & e & Hi & He & <-). exists e. split; [auto|]. apply Hes. exists i. split; [auto|].
             destruct (Em i Hi) as [E1 _]. rewrite E1, app_nil_r in He. auto.
      + assert (K : forall l, (forall e, In e l -> exists i, i < 16 /\ In e (aL (A i))) ->
          Forall2 (fun dc i => owner H (d_addr dc) = Some i /\
                 exists ch, insert_at H i = Some (d_key dc, d_value dc, ch, d_deleter dc)) (map dcall_of l) (map e_id l)).
        { induction l as [|e l IH]; intros Hl; cbn [map]; [constructor|]. constructor.
          - destruct (Hl e (or_introl eq_refl)) as (i & Hi & He).
            assert (He' : In e (ents (A i))) by (unfold ents; rewrite in_app_iff; auto).
            cbn [dcall_of d_addr d_key d_value d_deleter]. split; [exact (h_own _ _ _ I i e Hi He')|].
            exists (e_charge e). exact (h_ev _ _ _ I i e Hi He').
          - apply IH. intros x Hx. apply Hl. cbn; auto. }
        apply K. intros e. apply Hes.
  Qed.

  Lemma capacity_shards H c : good H c ->
    length (c_shards c) = 16 /\ forall s, In s (c_shards c) -> s_capacity s = shard_cap cap.
  Proof using hashf hash32 alc Halc dbg cap.
    intros R. destruct R as (A & G & I).
    split; [exact (g_len _ _ _ _ G)|]. intros s Hs. apply In_nth_error in Hs as (i & Hi).
    exact (proj2 (g_sh _ _ _ _ G i s Hi)).
  Qed.
End Thms.
