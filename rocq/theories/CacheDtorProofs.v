(** CacheDtorProofs.v -- the destructor of the cache (Cache.cache_dtor) when handles
    are still held. *)
From Coq Require Import List Arith NArith Lia Bool Permutation Sorted.
From Verif Require Import Outcome Heap Cache CacheSpec CacheRun CacheHeap CacheTable CacheShard CacheShardOps CacheShardLife CacheGlobal CacheHist CacheHistStep CacheProofs CacheThms.
Import ListNotations.
Local Open Scope outcome_scope.
Section Dtor.
  Variable hashf : bytes -> N.
  Hypothesis hash32 : forall k, (hashf k < 2 ^ 32)%N.
  Notation Inv := (Inv hashf).

  Lemma shard_dtor_held dbg h lg s L P Z :
    Inv h s L P Z -> P = [] \/ dbg = false ->
    exists h', shard_dtor dbg (mk_mem h lg) s = Ret (mk_mem h' (lg ++ map dcall_of L)) /\
      frame (own (s_lru s) (s_in_use s) L [] []) h h' /\
      (forall a, In a (own (s_lru s) (s_in_use s) L [] []) -> hget h' a = None).
  Proof.
    intros I HP. pose proof (i_l _ _ _ _ _ _ I) as IL. unfold shard_dtor.
    pose proof (dll_head_next _ _ _ (l_use _ _ _ _ _ _ _ IL)) as Hu. apply fld_Some in Hu as (nu & Hu & Hun).
    pose proof (dll_head_next _ _ _ (l_lru _ _ _ _ _ _ _ IL)) as Hl. apply fld_Some in Hl as (nl & Hl & Hln).
    rewrite (get_live _ _ _ _ Hu). cbn [bind].
    assert (Ea : assert_ dbg (n_next nu =? s_in_use s) = Ret tt).
    { destruct HP as [->| ->]; [|unfold assert_; destruct (n_next nu =? s_in_use s); reflexivity].
      rewrite Hun. cbn [addrs map hd]. rewrite Nat.eqb_refl. unfold assert_. cbn [negb]. now rewrite andb_false_r. }
    rewrite Ea. cbn [bind].
    rewrite (get_live _ _ _ _ Hl). cbn [bind]. rewrite Hln. cbn [m_heap].
    destruct (l_lru _ _ _ _ _ _ _ IL) as [N Hp].
    destruct (dtor_loop_spec hashf dbg s L (S (length h)) h lg N (path_nexts _ _ _ _ Hp)) as (h' & R1 & R2 & R3).
    { intros e He. now apply (l_L _ _ _ _ _ _ _ IL). }
    { pose proof (Inv_idle_length _ _ _ _ _ _ I). lia. }
    rewrite R1. cbn [bind m_heap m_log]. eexists. split; [reflexivity|]. split.
    - intros a Ha. assert (A : a <> s_lru s /\ a <> s_in_use s /\ ~ In a (addrs L)).
      { split; [|split]; intros H; apply Ha; subst; own_tac. }
      destruct A as (A1 & A2 & A3). rewrite !hget_hdel_ne by auto. apply R2; auto.
    - intros a Ha. rewrite !hget_hdel. destruct (a =? s_lru s) eqn:E1; auto. destruct (a =? s_in_use s) eqn:E2; auto.
      apply Nat.eqb_neq in E1, E2. apply R3. own_tac. destruct Ha as [Ha|[Ha|[Ha|[]]]]; congruence || auto.
  Qed.

  Lemma shard_dtor_assert h lg s L e P Z : Inv h s L (e :: P) Z -> shard_dtor true (mk_mem h lg) s = AssertFail.
  Proof.
    intros I. pose proof (i_l _ _ _ _ _ _ I) as IL. unfold shard_dtor.
    pose proof (dll_head_next _ _ _ (l_use _ _ _ _ _ _ _ IL)) as Hu. apply fld_Some in Hu as (nu & Hu & Hun).
    rewrite (get_live _ _ _ _ Hu). cbn [bind]. rewrite Hun. cbn [addrs map hd].
    assert (E : (e_addr e =? s_in_use s) = false).
    { apply Nat.eqb_neq. intros E. pose proof (l_nd _ _ _ _ _ _ _ IL) as N. unfold own in N.
      apply NoDup_cons_iff in N as [_ N]. apply NoDup_cons_iff in N as [N _]. apply N. rewrite <- E.
      apply in_map. rewrite !in_app_iff. cbn; auto. }
    rewrite E. reflexivity.
  Qed.

  Section Shards.
    Variable A : astate.
    Variable f : nat -> shard.
    (** what the destruction of shard [i] frees *)
    Definition freed (i : nat) : list nat := own (s_lru (f i)) (s_in_use (f i)) (aL (A i)) [] [].

    Lemma freed_own i a : In a (freed i) -> In a (aown (f i) (A i)).
    Proof. unfold freed, aown. intros H. own_tac. Qed.

    Lemma dtors_held dbg ix : forall h lg,
      NoDup ix -> (forall i, In i ix -> Inv h (f i) (aL (A i)) (aP (A i)) (aZ (A i))) ->
      (forall i j a, In i ix -> In j ix -> i <> j -> In a (aown (f i) (A i)) -> ~ In a (aown (f j) (A j))) ->
      (forall i, In i ix -> aP (A i) = [] \/ dbg = false) ->
      exists h', dtors dbg (mk_mem h lg) (map f ix) = Ret (mk_mem h' (lg ++ concat (map (fun i => map dcall_of (aL (A i))) ix))) /\
        (forall i a, In i ix -> In a (freed i) -> hget h' a = None) /\
        (forall a, (forall i, In i ix -> ~ In a (freed i)) -> hget h' a = hget h a).
    Proof.
      induction ix as [|i ix IH]; intros h lg N Hi Hd Hp; cbn [map dtors concat].
      - exists h. rewrite app_nil_r. split; [reflexivity|]. split; [intros i a []|auto].
      - apply NoDup_cons_iff in N as [N1 N2].
        destruct (shard_dtor_held dbg h lg (f i) _ _ _ (Hi i (or_introl eq_refl)) (Hp i (or_introl eq_refl))) as (h1 & R1 & R2 & R3).
        rewrite R1. cbn [bind].
        destruct (IH h1 (lg ++ map dcall_of (aL (A i))) N2) as (h' & K1 & K2 & K3).
        { intros j Hj. eapply Inv_frame; [|apply Hi; cbn; auto]. intros a Hin. apply R2.
          intros Hf. apply freed_own in Hf. apply (Hd i j a); cbn; auto. intros ->; tauto. }
        { intros j k a Hj Hk. apply Hd; cbn; auto. }
        { intros j Hj. apply Hp. cbn; auto. }
        rewrite K1, <- app_assoc. exists h'. split; [reflexivity|]. split.
        + intros j a [<-|Hj] Hin; [|eauto]. rewrite K3; [apply R3; exact Hin|]. intros k Hk Hin'.
          apply freed_own in Hin, Hin'. apply (Hd i k a); cbn; auto. intros ->; tauto.
        + intros a Hna. rewrite K3; [apply R2, Hna; cbn; auto|]. intros k Hk. apply Hna; cbn; auto.
    Qed.

    Lemma dtors_assert ix : forall h lg,
      NoDup ix -> (forall i, In i ix -> Inv h (f i) (aL (A i)) (aP (A i)) (aZ (A i))) ->
      (forall i j a, In i ix -> In j ix -> i <> j -> In a (aown (f i) (A i)) -> ~ In a (aown (f j) (A j))) ->
      (exists i, In i ix /\ aP (A i) <> []) ->
      dtors true (mk_mem h lg) (map f ix) = AssertFail.
    Proof.
      induction ix as [|i ix IH]; intros h lg N Hi Hd (i0 & Hin & Hne); [destruct Hin|]. cbn [map dtors].
      apply NoDup_cons_iff in N as [N1 N2].
      pose proof (Hi i (or_introl eq_refl)) as Ii.
      destruct (aP (A i)) as [|e P] eqn:EP.
      - destruct (shard_dtor_held true h lg (f i) _ _ _ Ii (or_introl eq_refl)) as (h1 & R1 & R2 & R3).
        rewrite R1. cbn [bind]. apply IH; auto.
        + intros j Hj. eapply Inv_frame; [|apply Hi; cbn; auto]. intros a Ha. apply R2.
          intros Hf. assert (Hf' : In a (aown (f i) (A i))) by (apply freed_own; exact Hf).
          apply (Hd i j a); cbn; auto. intros ->; tauto.
        + intros j k a Hj Hk. apply Hd; cbn; auto.
        + destruct Hin as [->|Hin]; [congruence|]. eauto.
      - rewrite (shard_dtor_assert h lg (f i) _ e P _ Ii). reflexivity.
    Qed.
  End Shards.

  Section Cache.
    Variable cap : N.
    Notation sc := (per_shard cap).
    Notation good H c := (exists A, GInv hashf sc c A /\ HInv sc H A).

    Section At.
      Variable H : history.
      Variable c : cache.
      Variable A : astate.
      Hypothesis G : GInv hashf sc c A.
      Hypothesis I : HInv sc H A.

      Lemma shards_fun : exists f, (forall i, i < 16 -> nth_error (c_shards c) i = Some (f i)) /\
        rev (c_shards c) = map f (rev (seq 0 16)) /\
        (forall i, In i (rev (seq 0 16)) -> Inv (m_heap (c_mem c)) (f i) (aL (A i)) (aP (A i)) (aZ (A i))) /\
        (forall i j a, In i (rev (seq 0 16)) -> In j (rev (seq 0 16)) -> i <> j -> In a (aown (f i) (A i)) -> ~ In a (aown (f j) (A j))).
      Proof.
        set (d := mk_shard 0 0 0 0 (mk_htable 0 0 [])).
        exists (fun i => nth i (c_shards c) d).
        assert (Hf : forall i, i < 16 -> nth_error (c_shards c) i = Some (nth i (c_shards c) d)).
        { intros i Hi. apply nth_error_nth'. rewrite (g_len _ _ _ _ G). exact Hi. }
        assert (Hin : forall i, In i (rev (seq 0 16)) -> i < 16) by (intros i Hi; apply in_rev, in_seq in Hi; lia).
        split; [exact Hf|]. split; [|split].
        - rewrite map_rev. f_equal. rewrite <- (g_len _ _ _ _ G). symmetry. apply map_nth_seq.
        - intros i Hi. apply Hin in Hi. apply (g_sh _ _ _ _ G i _ (Hf i Hi)).
        - intros i j a Hi Hj Hij. apply Hin in Hi, Hj. apply (g_disj _ _ _ _ G i j); auto.
      Qed.

      Lemma in_rev16 i : In i (rev (seq 0 16)) <-> i < 16.
      Proof. rewrite <- in_rev, in_seq. lia. Qed.

      Lemma in_use_ent i e : i < 16 -> In e (ents (A i)) -> in_use H (e_id e) <-> 0 < e_pins e.
      Proof. exact (held_id_iff cap H A I i e). Qed.

      (** Which cached entries are in use *)
      Lemma cached_used j : cached cap H j = true -> in_use H j -> exists i e, i < 16 /\ In e (aP (A i)) /\ e_id e = j.
      Proof.
        pose proof (GInv_AWf _ _ _ _ G) as W. intros Hc Hu.
        apply (cached_iff hashf cap _ A W I) in Hc as (i & e & Hi & He & <-). exists i, e. split; [exact Hi|]. split; [|reflexivity].
        apply in_app_iff in He as [He|He]; [|exact He]. exfalso.
        apply (in_use_ent i e Hi) in Hu; [|unfold ents; rewrite in_app_iff; auto].
        rewrite (w_idle _ _ _ W i e Hi He) in Hu. lia.
      Qed.
      Lemma used_cached i e : i < 16 -> In e (aP (A i)) -> cached cap H (e_id e) = true /\ in_use H (e_id e).
      Proof.
        pose proof (GInv_AWf _ _ _ _ G) as W. intros Hi He. split.
        - apply (cached_iff hashf cap _ A W I). exists i, e. rewrite in_app_iff. auto.
        - apply (in_use_ent i e Hi); [unfold ents; rewrite !in_app_iff; auto|].
          apply (w_held _ _ _ W i); [exact Hi|rewrite in_app_iff; auto].
      Qed.

      Lemma dtor_asserts : (exists j, cached cap H j = true /\ in_use H j) -> cache_dtor true (clear_log c) = AssertFail.
      Proof.
        intros (j & Hc & Hu). destruct (cached_used j Hc Hu) as (i & e & Hi & He & _).
        destruct shards_fun as (f & _ & Er & Hinv & Hd). unfold cache_dtor, clear_log. cbn [c_shards c_mem]. rewrite Er.
        apply (dtors_assert A f); auto; [apply NoDup_rev, seq_NoDup|].
        exists i. split; [now apply in_rev16|]. intros E. rewrite E in He. destruct He.
      Qed.

      Lemma dtor_rest dbg : dbg = false \/ (forall j, cached cap H j = true -> ~ in_use H j) ->
        exists h' log l, cache_dtor dbg (clear_log c) = Ret (mk_mem h' log) /\
          NoDup l /\ (forall j, In j l <-> cached cap H j = true /\ ~ in_use H j) /\
          Forall2 (fun dc j => owner H (d_addr dc) = Some j /\
                     exists ch, insert_at H j = Some (d_key dc, d_value dc, ch, d_deleter dc)) log l /\
          (forall a, hget h' a <> None <-> 0 < held H a).
      Proof.
        pose proof (GInv_AWf _ _ _ _ G) as W. intros Hq.
        destruct shards_fun as (f & Hnth & Er & Hinv & Hd). unfold cache_dtor, clear_log. cbn [c_shards c_mem]. rewrite Er.
        destruct (dtors_held A f dbg (rev (seq 0 16)) (m_heap (c_mem c)) []) as (h' & R1 & R2 & R3); auto.
        { apply NoDup_rev, seq_NoDup. }
        { intros i Hi. apply in_rev16 in Hi. destruct Hq as [->|Hq]; [auto|]. left.
          destruct (aP (A i)) as [|e P] eqn:E; [reflexivity|]. exfalso.
          destruct (used_cached i e Hi) as [K1 K2]; [rewrite E; cbn; auto|]. exact (Hq _ K1 K2). }
        set (es := concat (map (fun i => aL (A i)) (rev (seq 0 16)))).
        assert (Hes : forall e, In e es <-> exists i, i < 16 /\ In e (aL (A i))).
        { intros e. unfold es. rewrite in_concat. split.
          - intros (l & Hl & He). apply in_map_iff in Hl as (i & <- & Hi). apply in_rev16 in Hi. eauto.
          - intros (i & Hi & He). exists (aL (A i)). split; auto. apply in_map_iff. exists i. split; [auto|]. now apply in_rev16. }
        assert (Hin : forall i e, In e (aL (A i)) -> In e (ents (A i))) by (intros i e He; unfold ents; rewrite in_app_iff; auto).
        exists h', (map dcall_of es), (map e_id es). split; [|split; [|split; [|split]]].
        - rewrite R1. cbn [app]. do 2 f_equal. unfold es. rewrite concat_map, map_map. reflexivity.
        - apply (ids_nodup hashf cap H A W I).
          + intros e He. apply Hes in He as (i & Hi & He). eauto.
          + unfold es, addrs. rewrite concat_map, map_map.
            assert (K : forall l, NoDup l -> (forall i, In i l -> i < 16) -> NoDup (concat (map (fun i => map e_addr (aL (A i))) l))).
            { induction l as [|i l IH]; intros N Hl; cbn [map concat]; [constructor|].
              apply NoDup_cons_iff in N as [N1 N2]. apply nodup_app.
              - pose proof (w_nd _ _ _ W i (Hl i (or_introl eq_refl))) as N. unfold ents, addrs in N. rewrite map_app in N.
                now apply NoDup_app_l in N.
              - apply IH; auto. intros j Hj. apply Hl. cbn; auto.
              - intros a Ha Ha'. apply in_map_iff in Ha as (e & <- & He). apply in_concat in Ha' as (l' & Hl' & Ha').
                apply in_map_iff in Hl' as (j & <- & Hj). apply in_map_iff in Ha' as (e' & Ee & He').
                destruct (w_addr _ _ _ W j i e' e) as [Eji _]; auto; [apply Hl; cbn; auto|apply Hl; cbn; auto|].
                subst j. contradiction. }
            apply K; [apply NoDup_rev, seq_NoDup|]. intros i Hi. now apply in_rev16.
        - intros j. rewrite in_map_iff. split.
          + intros (e & <- & He). apply Hes in He as (i & Hi & He). split.
            * apply (cached_iff hashf cap _ A W I). exists i, e. rewrite in_app_iff. auto.
            * intros Hu. apply (in_use_ent i e Hi (Hin i e He)) in Hu. rewrite (w_idle _ _ _ W i e Hi He) in Hu. lia.
          + intros [Hc Hu]. apply (cached_iff hashf cap _ A W I) in Hc as (i & e & Hi & He & <-). exists e. split; [reflexivity|].
            apply Hes. exists i. split; [exact Hi|]. apply in_app_iff in He as [He|He]; [exact He|].
            exfalso. apply Hu. now apply (used_cached i e).
        - assert (K : forall l, (forall e, In e l -> exists i, i < 16 /\ In e (aL (A i))) ->
            Forall2 (fun dc i => owner H (d_addr dc) = Some i /\
                   exists ch, insert_at H i = Some (d_key dc, d_value dc, ch, d_deleter dc)) (map dcall_of l) (map e_id l)).
          { induction l as [|e l IH]; intros Hl; cbn [map]; [constructor|]. constructor.
            - destruct (Hl e (or_introl eq_refl)) as (i & Hi & He). pose proof (Hin i e He) as He'.
              cbn [dcall_of d_addr d_key d_value d_deleter]. split; [exact (h_own _ _ _ I i e Hi He')|].
              exists (e_charge e). exact (h_ev _ _ _ I i e Hi He').
            - apply IH. intros x Hx. apply Hl. cbn; auto. }
          apply K. intros e. apply Hes.
        - intros a. split.
          + intros Hl. assert (Hna : forall i, In i (rev (seq 0 16)) -> ~ In a (freed A f i)) by (intros i Hi Hf; apply Hl; eauto).
            rewrite (R3 a Hna) in Hl. destruct (g_live _ _ _ _ G a Hl) as (i & s & Hs & Ha).
            pose proof (g_lt _ _ _ _ _ _ G Hs) as Hi. rewrite (Hnth i Hi) in Hs. injection Hs as <-.
            assert (Ha' : In a (addrs (aP (A i) ++ aZ (A i)))).
            { specialize (Hna i (proj2 (in_rev16 i) Hi)). unfold aown, own, freed, own in *. cbn [In] in *.
              unfold addrs in *. rewrite !map_app, !in_app_iff in *. cbn [map In] in *. tauto. }
            apply in_map_iff in Ha' as (e & <- & He).
            assert (He' : In e (ents (A i))) by (unfold ents; rewrite in_app_iff; auto).
            rewrite (h_held _ _ _ I i e Hi He'). exact (w_held _ _ _ W i e Hi He).
          + intros Hh. destruct (h_heldin _ _ _ I a Hh) as (i & e & Hi & He & <-).
            assert (Hp : 0 < e_pins e) by (rewrite <- (h_held _ _ _ I i e Hi He); exact Hh).
            assert (HeP : In e (aP (A i) ++ aZ (A i))).
            { unfold ents in He. apply in_app_iff in He as [He|He]; [|exact He]. rewrite (w_idle _ _ _ W i e Hi He) in Hp. lia. }
            rewrite R3.
            * destruct (g_sh _ _ _ _ G i _ (Hnth i Hi)) as [Ii _]. apply (LInv_live _ _ _ _ _ _ _ _ (i_l _ _ _ _ _ _ Ii)).
              apply (ents_own (f i) (A i)). exact He.
            * intros j Hj Hf. apply in_rev16 in Hj. destruct (Nat.eq_dec j i) as [->|Hne].
              -- destruct (g_sh _ _ _ _ G i _ (Hnth i Hi)) as [Ii _]. pose proof (l_nd _ _ _ _ _ _ _ (i_l _ _ _ _ _ _ Ii)) as N.
                 apply (in_map e_addr) in HeP. unfold freed in Hf. clear - N Hf HeP. cnt_go N (e_addr e).
              -- apply freed_own in Hf. apply (g_disj _ _ _ _ G j i (f j) (f i) (e_addr e) Hne (Hnth j Hj) (Hnth i Hi) Hf).
                 apply (ents_own (f i) (A i)). exact He.
      Qed.
    End At.
  End Cache.
End Dtor.
