(** CacheProofs.v -- from the invariants to statements about histories. *)
From Coq Require Import List Arith NArith Lia Bool Permutation Sorted.
From Verif Require Import Outcome Heap Cache CacheSpec CacheRun CacheHeap CacheTable CacheShard CacheShardOps CacheGlobal CacheHist CacheHistStep.
Import ListNotations.
Local Open Scope outcome_scope.

Lemma event_eta ev : ev = mk_event (ev_call ev) (ev_res ev) (ev_del ev).
Proof. destruct ev; reflexivity. Qed.

Section Proofs.
  Variable hashf : bytes -> N.
  Hypothesis hash32 : forall k, (hashf k < 2 ^ 32)%N.
  Notation home := (home hashf).

  Lemma shard_of_home k : shard_of hashf k = N.of_nat (home k).
  Proof.
    unfold shard_of, CacheGlobal.home, Shard. rewrite N.shiftr_div_pow2, N2Nat.id. reflexivity.
  Qed.

  Section Inv.
    Variable cap : N.
    Notation sc := (per_shard cap).
    Variable H : history.
    Variable A : astate.
    Hypothesis W : AWf hashf sc A.
    Hypothesis I : HInv sc H A.

    Lemma id_ents j x : insert_at H j = Some x -> deaths H j = 0 ->
      exists i e, i < 16 /\ In e (ents (A i)) /\ e_id e = j.
    Proof.
      intros Hj Hd.
      assert (Dec : (exists i e, i < 16 /\ In e (ents (A i)) /\ e_id e = j) \/
                    (forall i e, i < 16 -> In e (ents (A i)) -> e_id e <> j)).
      { assert (K : forall n, n <= 16 -> (exists i e, i < n /\ In e (ents (A i)) /\ e_id e = j) \/
                               (forall i e, i < n -> In e (ents (A i)) -> e_id e <> j)).
        { induction n as [|n IH]; intros Hn; [right; intros i e Hi; lia|].
          destruct (IH ltac:(lia)) as [(i & e & Hi & He)|Hno]; [left; exists i, e; split; [lia|auto]|].
          destruct (in_dec Nat.eq_dec j (map e_id (ents (A n)))) as [Hin|Hin].
          - left. apply in_map_iff in Hin as (e & <- & He). exists n, e. auto.
          - right. intros i e Hi He. destruct (Nat.eq_dec i n) as [->|Hne]; [|apply (Hno i); auto; lia].
            intros <-. apply Hin. now apply in_map. }
        apply (K 16). lia. }
      destruct Dec as [D|D]; auto. rewrite (h_gone _ _ _ I j x Hj D) in Hd. discriminate.
    Qed.

    Lemma cached_iff j : cached cap H j = true <->
      exists i e, i < 16 /\ In e (aL (A i) ++ aP (A i)) /\ e_id e = j.
    Proof.
      unfold cached. split.
      - destruct (insert_at H j) as [[[[k v] c] d]|] eqn:Ei; [|discriminate]. intros E.
        apply andb_prop in E as [E E3]. apply andb_prop in E as [E1 E2]. apply Nat.eqb_eq in E3.
        destruct (id_ents j _ Ei E3) as (i & e & Hi & He & Ej). exists i, e. split; [auto|]. split; [|auto].
        unfold ents in He. rewrite !in_app_iff in He. rewrite in_app_iff. destruct He as [He|[He|He]]; auto. exfalso.
        assert (Ek : e_key e = k).
        { assert (He' : In e (ents (A i))) by (unfold ents; rewrite !in_app_iff; auto).
          pose proof (h_ev _ _ _ I i e Hi He') as Ev. rewrite Ej, Ei in Ev. now inversion Ev. }
        destruct (h_out _ _ _ I i e Hi He) as [E|E].
        + rewrite Ej, Ek in E. rewrite E in E2. discriminate.
        + unfold shard_cap in E1. fold (per_shard cap) in E1. rewrite E in E1. discriminate.
      - intros (i & e & Hi & He & <-).
        assert (He' : In e (ents (A i))) by (unfold ents; rewrite !in_app_iff in *; tauto).
        rewrite (h_ev _ _ _ I i e Hi He'). rewrite (h_in _ _ _ I i e Hi He), (h_alive _ _ _ I i e Hi He').
        cbn [negb]. rewrite Nat.eqb_refl, !andb_true_r. apply N.ltb_lt. unfold shard_cap. fold (per_shard cap).
        destruct (N.eq_dec sc 0) as [E|E]; [|lia]. exfalso.
        destruct (w_off _ _ _ W i Hi E) as [E1 E2]. rewrite E1, E2 in He. destruct He.
    Qed.

    Lemma cached_false j : (forall i e, i < 16 -> In e (aL (A i) ++ aP (A i)) -> e_id e <> j) -> cached cap H j = false.
    Proof.
      intros Hn. destruct (cached cap H j) eqn:E; auto. exfalso. apply cached_iff in E as (i & e & Hi & He & Ej).
      exact (Hn i e Hi He Ej).
    Qed.

    Lemma key_of_ent i e : i < 16 -> In e (ents (A i)) -> key_of_insert H (e_id e) = e_key e.
    Proof. intros Hi He. unfold key_of_insert. now rewrite (h_ev _ _ _ I i e Hi He). Qed.
    Lemma charge_of_ent i e : i < 16 -> In e (ents (A i)) -> charge_of H (e_id e) = e_charge e.
    Proof. intros Hi He. unfold charge_of. now rewrite (h_ev _ _ _ I i e Hi He). Qed.

    Lemma ent_lp i e : In e (aL (A i) ++ aP (A i)) -> In e (ents (A i)).
    Proof. unfold ents. rewrite !in_app_iff. tauto. Qed.

    (** Held handles are exactly the held entries. *)
    Lemma held_ent h : 0 < held H h -> exists i e, i < 16 /\ In e (aP (A i) ++ aZ (A i)) /\ e_addr e = h.
    Proof.
      intros Hh. destruct (h_heldin _ _ _ I h Hh) as (i & e & Hi & He & E). exists i, e. split; [auto|]. split; [|auto].
      unfold ents in He. rewrite in_app_iff in He. destruct He as [He|He]; auto. exfalso.
      rewrite <- E in Hh. rewrite (h_held _ _ _ I i e Hi) in Hh; [|unfold ents; rewrite in_app_iff; auto].
      rewrite (w_idle _ _ _ W i e Hi He) in Hh. lia.
    Qed.

    (** [e] is held: in terms of histories *)
    Lemma held_id_iff i e : i < 16 -> In e (ents (A i)) ->
      ((exists h, owner H h = Some (e_id e) /\ 0 < held H h) <-> 0 < e_pins e).
    Proof.
      intros Hi He. split.
      - intros (h & Ho & Hh). assert (h = e_addr e) by (eapply owner_inj; [exact Ho|eapply h_own; eauto]). subst h.
        now rewrite (h_held _ _ _ I i e Hi He) in Hh.
      - intros Hp. exists (e_addr e). split; [eapply h_own; eauto|]. now rewrite (h_held _ _ _ I i e Hi He).
    Qed.

    Lemma ids_nodup l : (forall e, In e l -> exists i, i < 16 /\ In e (ents (A i))) -> NoDup (addrs l) -> NoDup (map e_id l).
    Proof.
      induction l as [|e l IH]; cbn [map addrs]; intros Hl N; [constructor|].
      apply NoDup_cons_iff in N as [N1 N2]. constructor.
      - intros Hin. apply in_map_iff in Hin as (e' & E & He'). apply N1.
        destruct (Hl e (or_introl eq_refl)) as (i & Hi & He). destruct (Hl e' (or_intror He')) as (j & Hj & He2).
        destruct (ids_inj _ _ _ _ j i e' e W I Hj Hi He2 He E) as [_ ->]. now apply in_map.
      - apply IH; auto. intros x Hx. apply Hl. cbn; auto.
    Qed.

    Lemma nodup_lp i : i < 16 -> NoDup (addrs (aL (A i) ++ aP (A i))).
    Proof.
      intros Hi. pose proof (w_nd _ _ _ W i Hi) as N. unfold ents in N. rewrite app_assoc in N.
      unfold addrs in *. rewrite map_app in N. eapply NoDup_app_l; eauto.
    Qed.

    Lemma alive_bound i : i < 16 -> length (aL (A i) ++ aP (A i)) <= alive_count H.
    Proof.
      intros Hi. rewrite <- (map_length e_id). unfold alive_count. apply NoDup_incl_length.
      - apply ids_nodup; [|now apply nodup_lp]. intros e He. exists i. split; [auto|]. now apply ent_lp.
      - intros j Hj. apply in_map_iff in Hj as (e & <- & He). apply ent_lp in He. apply filter_In. split.
        + apply in_seq. pose proof (owner_lt _ _ _ (h_own _ _ _ I i e Hi He)). lia.
        + unfold alive. rewrite (h_ev _ _ _ I i e Hi He), (h_alive _ _ _ I i e Hi He). reflexivity.
    Qed.

    Lemma legal_apre x : legal H x -> apre hashf A x.
    Proof.
      destruct x; cbn [legal apre]; auto.
      - intros [Hc Hs]. split; [auto|]. pose proof (alive_bound (home key) (home_lt hashf hash32 key)). lia.
      - intros Hh i e Hi He. rewrite <- (h_held _ _ _ I i e Hi); [apply Hh|]. unfold ents. rewrite !in_app_iff; auto.
      - apply held_ent.
      - apply held_ent.
    Qed.

    (** Sums *)
    Lemma sumN_app a b : sumN (a ++ b) = (sumN a + sumN b)%N.
    Proof. induction a as [|x a IH]; cbn [app sumN fold_right] in *; [reflexivity|]. unfold sumN in *. lia. Qed.
    Lemma sumN_perm a b : Permutation a b -> sumN a = sumN b.
    Proof. induction 1; cbn [sumN fold_right] in *; unfold sumN in *; lia. Qed.

    Lemma charges_ids i l : i < 16 -> (forall e, In e l -> In e (ents (A i))) ->
      sumN (map (charge_of H) (map e_id l)) = charges l.
    Proof.
      intros Hi. induction l as [|e l IH]; intros Hl; cbn [map sumN fold_right charges]; [reflexivity|].
      rewrite (charge_of_ent i e Hi) by (apply Hl; cbn; auto). f_equal. apply IH. intros x Hx. apply Hl. cbn; auto.
    Qed.

    Lemma cached_list_in j : In j (cached_list cap H) <-> cached cap H j = true.
    Proof.
      unfold cached_list. rewrite filter_In, in_seq. split; [tauto|]. intros E. split; auto.
      apply cached_iff in E as (i & e & Hi & He & <-). apply ent_lp in He.
      pose proof (owner_lt _ _ _ (h_own _ _ _ I i e Hi He)). lia.
    Qed.
    Lemma cached_list_nodup : NoDup (cached_list cap H).
    Proof. apply NoDup_filter, seq_NoDup. Qed.

    Lemma shard_ids i : i < 16 ->
      Permutation (filter (in_shard hashf (N.of_nat i) H) (cached_list cap H)) (map e_id (aL (A i) ++ aP (A i))).
    Proof.
      intros Hi. apply NoDup_Permutation.
      - apply NoDup_filter, cached_list_nodup.
      - apply ids_nodup; [|now apply nodup_lp]. intros e He. exists i. split; [auto|]. now apply ent_lp.
      - intros j. rewrite filter_In, cached_list_in, cached_iff. split.
        + intros [(i' & e & Hi' & He & <-) Hs]. apply in_map_iff. exists e. split; [auto|].
          unfold in_shard in Hs. apply N.eqb_eq in Hs. rewrite (key_of_ent i' e Hi' (ent_lp _ _ He)) in Hs.
          rewrite shard_of_home in Hs. apply Nat2N.inj in Hs.
          rewrite (w_home _ _ _ W i' e Hi' (ent_lp _ _ He)) in Hs. now subst i'.
        + intros Hin. apply in_map_iff in Hin as (e & <- & He). split; [exists i, e; auto|].
          unfold in_shard. apply N.eqb_eq. rewrite (key_of_ent i e Hi (ent_lp _ _ He)), shard_of_home. f_equal.
          now apply (w_home _ _ _ W i e Hi (ent_lp _ _ He)).
    Qed.

    Lemma shard_total_charges i : i < 16 -> shard_total hashf cap (N.of_nat i) H = charges (aL (A i) ++ aP (A i)).
    Proof.
      intros Hi. unfold shard_total. rewrite (sumN_perm _ _ (Permutation_map _ (shard_ids i Hi))).
      apply (charges_ids i); auto. intros e. apply ent_lp.
    Qed.

    Lemma total_charges : total cap H = sumN (map (fun i => charges (aL (A i) ++ aP (A i))) (seq 0 16)).
    Proof.
      assert (P : Permutation (cached_list cap H) (concat (map (fun i => map e_id (aL (A i) ++ aP (A i))) (seq 0 16)))).
      { apply NoDup_Permutation.
        - apply cached_list_nodup.
        - assert (K : forall m n, n + m <= 16 -> NoDup (concat (map (fun i => map e_id (aL (A i) ++ aP (A i))) (seq n m)))).
          { induction m as [|m IH]; intros n Hn; cbn [seq map concat]; [constructor|]. apply nodup_app.
            - apply ids_nodup; [|apply nodup_lp; lia]. intros e He. exists n. split; [lia|]. now apply ent_lp.
            - apply IH. lia.
            - intros j Hj Hj'. apply in_map_iff in Hj as (e & <- & He). apply in_concat in Hj' as (l & Hl & Hj').
              apply in_map_iff in Hl as (i & <- & Hi). apply in_seq in Hi. apply in_map_iff in Hj' as (e' & E & He').
              destruct (ids_inj _ _ _ _ i n e' e W I) as [E' _]; auto; try lia; now apply ent_lp. }
          apply (K 16 0). lia.
        - intros j. rewrite cached_list_in, cached_iff, in_concat. split.
          + intros (i & e & Hi & He & <-). exists (map e_id (aL (A i) ++ aP (A i))). split; [|now apply in_map].
            apply in_map_iff. exists i. split; [auto|]. apply in_seq. lia.
          + intros (l & Hl & Hj). apply in_map_iff in Hl as (i & <- & Hi). apply in_seq in Hi.
            apply in_map_iff in Hj as (e & <- & He). exists i, e. split; [lia|auto]. }
      unfold total. rewrite (sumN_perm _ _ (Permutation_map _ P)).
      assert (K : forall l, (forall i, In i l -> i < 16) ->
        sumN (map (charge_of H) (concat (map (fun i => map e_id (aL (A i) ++ aP (A i))) l)))
        = sumN (map (fun i => charges (aL (A i) ++ aP (A i))) l)).
      { induction l as [|i l IH]; intros Hl; cbn [map concat]; [reflexivity|].
        rewrite map_app, sumN_app. rewrite IH by (intros j Hj; apply Hl; cbn; auto).
        rewrite (charges_ids i) by (try (apply Hl; cbn; auto); intros e; apply ent_lp). reflexivity. }
      apply K. intros i Hi. apply in_seq in Hi. lia.
    Qed.
  End Inv.

  (** ** Reachable states *)
  Section Reach.
    Variable alc : allocator.
    Hypothesis Halc : allocator_ok alc.
    Variable dbg : bool.
    Variable cap : N.
    Notation sc := (per_shard cap).
    Notation reach := (reach hashf alc dbg cap).
    Notation exec := (exec hashf alc dbg).

    Lemma step_inv H c A x c' ev :
      GInv hashf sc c A -> HInv sc H A -> legal H x -> exec c x = Ret (c', ev) ->
      exists A' D, GInv hashf sc c' A' /\ HInv sc (ev :: H) A' /\ ev_call ev = x /\
        astep hashf sc (length H) A x (ev_res ev) (ev_del ev) A' /\ Step sc H A ev D A'.
    Proof.
      intros G I Hl Hx. pose proof (GInv_AWf _ _ _ _ G) as W.
      destruct (exec_ok hashf hash32 alc dbg sc (length H) Halc c A x G (legal_apre cap H A W I x Hl))
        as (c2 & ev2 & A' & E1 & E2 & E3 & E4).
      rewrite Hx in E1. inversion E1; subst c2 ev2.
      pose proof (GInv_AWf _ _ _ _ E3) as W'.
      destruct (astep_Step hashf hash32 sc H A W I x _ _ A' W' E4) as (D & S).
      assert (S' : Step sc H A ev D A') by (rewrite (event_eta ev), E2; exact S).
      exists A', D. split; [exact E3|]. split; [exact (HInv_step hashf sc H A ev D A' W W' I S')|].
      split; [exact E2|]. split; [exact E4|exact S'].
    Qed.

    Lemma reach_inv H c : reach H c -> exists A, GInv hashf sc c A /\ HInv sc H A.
    Proof.
      induction 1 as [c E|H c x c' ev R IH Hl Hx].
      - destruct (cache_new_spec hashf alc dbg cap Halc) as (c0 & E0 & G). rewrite E0 in E. inversion E; subst c0.
        exists A0. split; [exact G|apply HInv_nil].
      - destruct IH as (A & G & I). destruct (step_inv _ _ _ _ _ _ G I Hl Hx) as (A' & D & G' & I' & _). eauto.
    Qed.

    Lemma good_safe H c x : (exists A, GInv hashf sc c A /\ HInv sc H A) -> legal H x ->
      exists c' ev, exec c x = Ret (c', ev) /\ ev_call ev = x.
    Proof.
      intros (A & G & I) Hl. pose proof (GInv_AWf _ _ _ _ G) as W.
      destruct (exec_ok hashf hash32 alc dbg sc (length H) Halc c A x G (legal_apre cap H A W I x Hl))
        as (c2 & ev2 & A' & E1 & E2 & _). eauto.
    Qed.

    Lemma exec_total_safe H c x : reach H c -> legal H x -> exists c' ev, exec c x = Ret (c', ev) /\ ev_call ev = x.
    Proof.
      intros R Hl. destruct (reach_inv _ _ R) as (A & G & I). pose proof (GInv_AWf _ _ _ _ G) as W.
      destruct (exec_ok hashf hash32 alc dbg sc (length H) Halc c A x G (legal_apre cap H A W I x Hl))
        as (c2 & ev2 & A' & E1 & E2 & _). eauto.
    Qed.
  End Reach.
End Proofs.
