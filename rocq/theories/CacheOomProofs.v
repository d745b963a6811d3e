(** CacheOomProofs.v -- an Insert whose table cannot grow (CacheOom.v) keeps the
    invariants of the cache; it is a step like another, with a handle nobody has. *)
From Coq Require Import List Arith NArith Lia Bool Permutation Sorted.
From Verif Require Import Outcome Heap Cache CacheSpec CacheRun CacheHeap CacheTable CacheShard CacheShardOps CacheShardLife CacheGlobal CacheHist CacheHistStep CacheProofs CacheThms CacheOom CacheOomSpec.
Import ListNotations.
Local Open Scope outcome_scope.

(** ** The table *)
Lemma table_insert_f_same dbg m t e m' t' old :
  table_insert_f dbg m t e = Ret (m', t', old, false) -> table_insert dbg m t e = Ret (m', t', old).
Proof.
  unfold table_insert_f, table_insert. intros E.
  destruct (key_of dbg m e) as [k| | |]; cbn [bind] in *; try discriminate.
  destruct (get m e) as [n| | |]; cbn [bind] in *; try discriminate.
  destruct (find_pointer dbg m t k (n_hash n)) as [p| | |]; cbn [bind] in *; try discriminate.
  destruct (load_loc m (t_table t) p) as [o| | |]; cbn [bind] in *; try discriminate.
  destruct (if o =? 0 then Ret 0 else let! o0 := get m o in Ret (n_next_hash o0)) as [nh| | |]; cbn [bind] in *; try discriminate.
  destruct (upd m e (set_next_hash nh)) as [m1| | |]; cbn [bind] in *; try discriminate.
  destruct (store_loc m1 (t_table t) p e) as [mt| | |]; cbn [bind] in *; try discriminate.
  destruct (o =? 0); [|congruence]. cbn [t_length] in *.
  destruct (N.ltb (t_length t) (u32 (t_elems t + 1))); congruence.
Qed.

Lemma table_insert_f_spec dbg h lg t S e key hash :
  TInv h t S -> (forall a, In a S -> fld n_next h a <> Some a) ->
  ~ In e S -> e <> 0 -> matches h key hash e -> fld n_next h e <> Some e ->
  (N.of_nat (length S) < 2 ^ 31)%N ->
  (exists m' t' old, table_insert_f dbg (mk_mem h lg) t e = Ret (m', t', old, false)) \/
  (exists h' t', table_insert_f dbg (mk_mem h lg) t e = Ret (mk_mem h' lg, t', 0, true) /\
     (forall a, In a S -> ~ matches h key hash a) /\
     TInv h' t' (e :: S) /\ sim strip_nh h h' /\
     (forall b, ~ In b (e :: S) -> hget h' b = hget h b)).
Proof.
  intros T Hs He He0 Hm Hself Hsz. destruct (t_chains _ _ _ T) as (cs & C1 & C2 & C3).
  destruct (find_pointer_spec dbg h lg t S key hash cs T Hs C1 C2 C3)
    as (p & l1 & rest & r & E1 & E2 & E3 & E4 & E5 & E6 & E7).
  pose proof (t_nodup _ _ _ T) as N.
  assert (NE : NoDup ((l1 ++ rest) ++ r)).
  { eapply Permutation_NoDup; [|exact N]. rewrite E4. now rewrite <- app_assoc. }
  assert (NDc : NoDup (l1 ++ rest)) by (eapply NoDup_app_l; eauto).
  assert (HeN : ~ In e (l1 ++ rest ++ r)).
  { intros H. apply He. eapply Permutation_in; [symmetry; exact E4|exact H]. }
  pose proof Hm as Hm'. apply fld_Some in Hm' as (n & Hn & Hnk). inversion Hnk as [[Hnh Hnkey]].
  set (i := bucket hash (t_length t)) in *.
  unfold table_insert_f. unfold key_of. rewrite (get_live _ _ _ _ Hn). cbn [bind].
  assert (Hsf : (n_next n =? e) = false).
  { apply Nat.eqb_neq. intros E. apply Hself. apply fld_Some; eauto. }
  rewrite Hsf. cbn [negb]. unfold assert_. rewrite !andb_false_r. cbn [bind].
  rewrite Hnh, Hnkey, E5. cbn [bind]. rewrite E6. cbn [bind].
  assert (Hq : exists q l2, (if hd 0 rest =? 0 then Ret 0
                else let! o := get (mk_mem h lg) (hd 0 rest) in Ret (n_next_hash o)) = Ret q /\
               hchain h q l2 /\ match rest with [] => l2 = [] | _ :: r' => l2 = r' end).
  { destruct rest as [|a l2].
    - exists 0, []. cbn. auto.
    - assert (G : exists q, a <> 0 /\ fld n_next_hash h a = Some q /\ hchain h q l2).
      { clear - E3. revert p E3. induction l1 as [|b l1 IH]; intros p E3; cbn in E3.
        - destruct E3 as (_ & Z & q & Q & C). eauto.
        - destruct E3 as (_ & _ & q & Q & C). eauto. }
      destruct G as (q & Na & Q & C). exists q, l2. cbn [hd].
      apply Nat.eqb_neq in Na. rewrite Na. apply fld_Some in Q as (na & Hna & Hqa).
      rewrite (get_live _ _ _ _ Hna). cbn [bind]. rewrite Hqa. auto. }
  destruct Hq as (q & l2 & Q1 & Q2 & Q3). rewrite Q1. cbn [bind].
  assert (Le : live h e) by (eapply fld_live; eauto).
  rewrite upd_live by auto. cbn [bind]. set (h1 := hupd h e (set_next_hash q)).
  assert (Sm1 : sim strip_nh h h1) by (apply sim_hupd; reflexivity).
  assert (F1 : forall b, b <> e -> hget h1 b = hget h b) by (intros b Hb; now apply hget_hupd_ne).
  assert (Hl2 : forall b, In b l2 -> In b (l1 ++ rest)).
  { intros b Hb. destruct rest; subst l2; [destruct Hb|]. apply in_app_iff; cbn; auto. }
  destruct (store_chain h1 lg (t_table t) i p l1 rest (e :: l2) e E1) as (h' & p' & G1 & G2 & G3 & G4).
  { eapply hchain_frame; [|exact E3]. intros b Hb. unfold fld. rewrite F1; auto. intros ->.
    apply HeN. rewrite app_assoc. apply in_app_iff; auto. }
  { eapply NoDup_app_l; eauto. }
  { cbn. split; [auto|]. split; [auto|]. exists q. split.
    - unfold h1. apply fld_hupd_eq; [reflexivity|]. now apply live_fld.
    - eapply hchain_frame; [|exact Q2]. intros b Hb. unfold fld. rewrite F1; auto. intros ->.
      apply HeN. rewrite app_assoc. apply in_app_iff; auto. }
  { intros b Hb [<-|Hb2].
    - apply HeN. apply in_app_iff; auto.
    - destruct rest; subst l2; [destruct Hb2|]. apply (nodup_app_disj _ _ _ NDc Hb). right; auto. }
  rewrite G1. cbn [bind fst snd].
  assert (Sm : sim strip_nh h h') by (eapply sim_trans; eauto).
  assert (Fr : forall b, b <> e -> ~ In b l1 -> hget h' b = hget h b).
  { intros b Hb Hb1. rewrite G4, F1; auto. }
  assert (Hhash : forall b, fld n_hash h' b = fld n_hash h b)
    by (intros b; apply (sim_nh_hash _ _ _ Sm)).
  assert (Hehash : fld n_hash h e = Some hash) by (apply fld_Some; eauto).
  set (S' := e :: l1 ++ l2 ++ r).
  assert (NS' : NoDup S').
  { unfold S'. constructor.
    - intros H. apply HeN. rewrite !in_app_iff in *. destruct H as [H|[H|H]]; auto.
      apply Hl2 in H. rewrite in_app_iff in H. tauto.
    - destruct rest; subst l2; [exact (eq_rect _ _ NE _ (eq_sym (app_assoc _ _ _)))|].
      rewrite <- app_assoc in NE. cbn in NE. now apply NoDup_remove_1 in NE. }
  assert (TI : forall el, el = N.of_nat (length S') ->
             TInv h' (mk_htable (t_length t) el (set_nth i p' (t_table t))) S').
  { intros el ->. eapply (TInv_replace h h' t i p p' l1 rest (e :: l2) S S' cs); eauto.
    - intros b [<-|Hb].
      + exists hash. rewrite Hhash. auto.
      + destruct (C2 i _ b E2 (Hl2 b Hb)) as (hs & H1 & H2). exists hs. rewrite Hhash. auto.
    - intros j c b Hj Hjc Hb. unfold fld. rewrite Fr; auto.
      + intros ->. apply He. eapply Permutation_in; [exact C3|]. apply in_concat. exists c. split; auto.
        eapply nth_error_In; eauto.
      + intros Hl1. eapply (perm_other_chain cs i j); eauto.
        * eapply Permutation_NoDup; [symmetry; exact C3|exact N].
        * apply in_app_iff; auto.
    - intros r0 Hr0. assert (Permutation ((l1 ++ rest) ++ r0) ((l1 ++ rest) ++ r)).
      { rewrite <- Hr0, C3, E4. now rewrite <- app_assoc. }
      apply Permutation_app_inv_l in H. rewrite H. unfold S'. rewrite <- app_assoc. cbn.
      apply Permutation_middle. }
  destruct rest as [|old l2'].
  - subst l2. cbn [hd] in *. cbn [Nat.eqb].
    assert (Hlen : (u32 (t_elems t + 1) = N.of_nat (length S'))%N).
    { unfold S'. cbn [app length] in *. rewrite (t_el _ _ _ T), (Permutation_length E4). cbn [app] in *.
      rewrite (Permutation_length E4) in Hsz. cbn [app] in Hsz.
      unfold u32. rewrite N.mod_small; [lia|].
      change (2 ^ 31)%N with 2147483648%N in *. change (2 ^ 32)%N with 4294967296%N. lia. }
    assert (PS : Permutation S' (e :: S)).
    { unfold S'. constructor. symmetry. rewrite E4. cbn. reflexivity. }
    cbn [t_length]. destruct (N.ltb (t_length t) (u32 (t_elems t + 1))) eqn:Elt.
    + right. eexists h', _. split; [reflexivity|]. split; [exact E7|].
      split; [eapply TInv_perm; [exact PS|]; apply TI; exact Hlen|]. split; [exact Sm|].
      intros b Hb. apply Fr; auto.
      * intros ->; apply Hb; cbn; auto.
      * intros H; apply Hb. right. eapply Permutation_in; [symmetry; exact E4|]. apply in_app_iff; auto.
    + left. eauto.
  - left. subst l2'. cbn [hd] in *. destruct E7 as [M Iold].
    pose proof (TInv_live _ _ _ _ T Iold) as [Lo No]. apply Nat.eqb_neq in No. rewrite No. eauto.
Qed.

(** ** One shard *)
Section Shard.
  Variable hashf : bytes -> N.
  Hypothesis hash32 : forall k, (hashf k < 2 ^ 32)%N.
  Notation Inv := (Inv hashf).
  Notation LInv := (LInv hashf).

  Lemma shard_insert_f_spec alc dbg h lg s L P Z key val charge del id :
    allocator_ok alc ->
    Inv h s L P Z -> (charge < 2 ^ 64)%N -> (N.of_nat (length (L ++ P)) < 2 ^ 31)%N ->
    let a := alc (dom h) in
    let e := mk_ent a id key val charge del 1 in
    shard_insert_f alc dbg (mk_mem h lg) s key (hashf key) val charge del
      = (let! r := shard_insert alc dbg (mk_mem h lg) s key (hashf key) val charge del in Ret (fst r, Returns (snd r))) \/
    (exists h' s', shard_insert_f alc dbg (mk_mem h lg) s key (hashf key) val charge del
        = Ret (mk_mem h' lg, s', Throws (Some a)) /\
      Inv h' s' L (P ++ [e]) Z /\ frame (a :: own (s_lru s) (s_in_use s) L P Z) h h' /\
      s_lru s' = s_lru s /\ s_in_use s' = s_in_use s /\ s_capacity s' = s_capacity s /\
      hget h a = None /\ a <> 0 /\ (0 < s_capacity s)%N /\ (forall x, In x (L ++ P) -> e_key x <> key)).
  Proof.
    intros Ha I Hc Hsz a e.
    destruct (Ha (dom h)) as [Hna Hnz]. fold a in Hna, Hnz. apply not_dom_hget in Hna.
    pose proof (i_l _ _ _ _ _ _ I) as IL. pose proof (i_t _ _ _ _ _ _ I) as IT.
    assert (Hown : ~ In a (own (s_lru s) (s_in_use s) L P Z)).
    { intros H. apply (LInv_live _ _ _ _ _ _ _ _ IL H). exact Hna. }
    set (n0 := mk_node val del 0 0 0 charge false 1 (hashf key) key).
    set (h0 := hput h a n0).
    assert (Hh0 : forall b, b <> a -> hget h0 b = hget h b) by (intros b Hb; unfold h0; apply hget_hput_ne; auto).
    assert (Hh0a : hget h0 a = Some n0) by (unfold h0; apply hget_hput_eq).
    pose proof (alloc_LInv _ _ _ _ _ _ _ a n0 IL Hna) as IL0. fold h0 in IL0.
    assert (IT0 : TInv h0 (s_table s) (addrs (L ++ P))).
    { eapply TInv_frame; [|exact IT]. intros b Hb.
      assert (b <> a) by (intros ->; apply Hown; own_tac).
      unfold fld. rewrite Hh0 by auto. auto. }
    unfold shard_insert_f, shard_insert. cbn [m_heap m_log]. fold a n0 h0.
    destruct (N.ltb 0 (s_capacity s)) eqn:Ecap.
    - apply N.ltb_lt in Ecap.
      rewrite (get_live _ _ _ _ Hh0a). cbn [bind]. rewrite upd_live by (unfold live; congruence). cbn [bind].
      change (u32 (n_refs n0 + 1)) with 2%N.
      set (h1 := hupd h0 a (set_refs 2)). rewrite upd_live by (unfold live, h1; rewrite hupd_live; congruence).
      cbn [bind]. set (h2 := hupd h1 a (set_in_cache true)).
      assert (Hh2 : forall b, b <> a -> hget h2 b = hget h b).
      { intros b Hb. unfold h2, h1. rewrite !hget_hupd_ne by auto. auto. }
      assert (Hh2a : hget h2 a = Some (set_in_cache true (set_refs 2 n0))).
      { unfold h2, h1. rewrite !hget_hupd, !Nat.eqb_refl, Hh0a. reflexivity. }
      assert (IL2 : LInv h2 (s_lru s) (s_in_use s) L P Z).
      { eapply LInv_frame; [|exact IL]. intros b Hb. assert (b <> a) by (intros ->; tauto).
        unfold fld. rewrite Hh2 by auto. auto. }
      destruct (LRU_Append_spec h2 lg (s_in_use s) (addrs P) a) as (h3 & A1 & A2 & A3 & A4).
      { apply (l_use _ _ _ _ _ _ _ IL2). }
      { unfold live; congruence. }
      { intros H. apply Hown. own_tac. }
      rewrite A1. cbn [bind].
      assert (V3 : forall b, fld n_view h3 b = fld n_view h2 b) by (intros b; now apply sim_links_view).
      assert (V3a : fld n_view h3 a = Some (view hashf e true 2)).
      { rewrite V3. unfold fld. rewrite Hh2a. reflexivity. }
      pose proof (l_nd _ _ _ _ _ _ _ IL2) as ND2.
      assert (IL3 : LInv h3 (s_lru s) (s_in_use s) L (P ++ [e]) Z).
      { assert (NDn : NoDup (own (s_lru s) (s_in_use s) L (P ++ [e]) Z)).
        { assert (N1 : NoDup (a :: own (s_lru s) (s_in_use s) L P Z)) by (constructor; auto).
          eapply Permutation_NoDup; [|exact N1]. unfold e; perm_tac. }
        constructor.
        - eapply dll_frame; [|apply (l_lru _ _ _ _ _ _ _ IL2)]. intros b Hb.
          assert (E : hget h3 b = hget h2 b).
          { apply A4. intros Hin. assert (b <> a) by (intros ->; apply Hown; own_tac).
            destruct Hin as [->|Hin]; [tauto|]. clear - ND2 Hb Hin. cnt_go ND2 b. }
          unfold fld. rewrite E. auto.
        - unfold addrs. rewrite map_app. exact A2.
        - intros x Hx. rewrite V3. now apply (l_L _ _ _ _ _ _ _ IL2).
        - intros x Hx. apply in_app_iff in Hx as [Hx|[<-|[]]].
          + rewrite V3. now apply (l_P _ _ _ _ _ _ _ IL2).
          + cbn [e_addr e e_pins]. split; [exact V3a|]. split; [lia|]. vm_compute; reflexivity.
        - intros x Hx. rewrite V3. destruct (l_Z _ _ _ _ _ _ _ IL2 x Hx) as (Z1 & Z2 & Z3 & Z4).
          repeat (split; [auto|]). unfold fld. rewrite A4; [exact Z4|].
          intros Hin. assert (e_addr x <> a) by (intros E; apply Hown; rewrite <- E; apply (in_map e_addr) in Hx; own_tac).
          destruct Hin as [Hin|Hin]; [congruence|]. clear - ND2 Hx Hin. cnt_go ND2 (e_addr x).
        - exact NDn.
        - pose proof (l_nz _ _ _ _ _ _ _ IL2) as Nz. intros H. apply Nz. own_tac.
        }
      assert (Fr3 : frame (a :: own (s_lru s) (s_in_use s) L P Z) h h3).
      { intros b Hb. assert (b <> a) by (intros ->; apply Hb; cbn; auto).
        rewrite A4, Hh2; auto. intros Hin. apply Hb. right. cbn in Hin. destruct Hin as [->|Hin]; [tauto|]. own_tac. }
      assert (TS3 : forall b, b <> a -> fld n_next_hash h3 b = fld n_next_hash h b /\ fld n_hash h3 b = fld n_hash h b).
      { intros b Hb. destruct (sim_links_nh _ _ b A3) as [B1 B2]. rewrite B1, B2. unfold fld. rewrite Hh2 by auto. auto. }
      assert (IT3 : TInv h3 (s_table s) (addrs (L ++ P))).
      { eapply TInv_frame; [|exact IT]. intros b Hb. apply TS3. intros ->; apply Hown; own_tac. }
      set (s1 := set_usage (u64 (s_usage s + charge)) s).
      destruct (table_insert_f_spec dbg h3 lg (s_table s1) (addrs (L ++ P)) a key (hashf key) IT3)
        as [(m4 & t4 & old & B1)|(h4 & t4 & B1 & B2 & B3 & B4 & B5)].
      { intros b Hb. eapply LInv_noself; [exact IL3|]. unfold addrs in *. rewrite !map_app in *.
        rewrite !in_app_iff in *. tauto. }
      { intros H; apply Hown; own_tac. }
      { exact Hnz. }
      { apply view_node in V3a as (nn & Hnn & _ & _ & _ & K1 & K2 & _). unfold matches, fld. rewrite Hnn. cbn.
        rewrite K1, K2. reflexivity. }
      { eapply LInv_noself; [exact IL3|]. unfold addrs. rewrite !map_app, !in_app_iff. cbn. auto. }
      { rewrite addrs_length. exact Hsz. }
      + left. rewrite B1. cbn [bind fst snd]. rewrite (table_insert_f_same _ _ _ _ _ _ _ B1). cbn [bind fst snd].
        destruct (FinishErase dbg m4 (set_table t4 s1) old) as [[[m5 s5] b5]| | |] eqn:EF; cbn [bind fst snd]; try reflexivity.
        destruct (evict_loop (S (length (m_heap m5))) dbg m5 s5) as [[m6 s6]| | |]; reflexivity.
      + (* no old entry, and the table has to grow *)
        right. rewrite B1. cbn [bind fst snd].
        set (s2 := set_table t4 s1).
        assert (Nokey : forall x, In x (L ++ P) -> e_key x <> key).
        { intros x Hx Hk. apply (B2 (e_addr x)); [now apply in_map|].
          eapply (match_key hashf h3); [exact IL3| |exact Hk]. rewrite !in_app_iff in *. tauto. }
        assert (I4 : Inv h4 s2 L (P ++ [e]) Z).
        { constructor; cbn [s2 s1 set_table set_usage s_lru s_in_use s_table s_usage s_capacity]; auto.
          - eapply LInv_sim_nh; eauto.
          - eapply TInv_perm; [|exact B3]. unfold e. perm_tac.
          - rewrite app_assoc, map_app. cbn. apply NoDup_snoc; [apply (i_keys _ _ _ _ _ _ I)|].
            intros H. apply in_map_iff in H as (x & Hk & Hx). exact (Nokey x Hx Hk).
          - rewrite (i_usage _ _ _ _ _ _ I), u64_add. f_equal. rewrite !charges_app. cbn. lia.
          - lia.
          - intros x Hx. rewrite !in_app_iff in Hx. cbn in Hx.
            destruct Hx as [Hx|[[Hx|[<-|[]]]|Hx]]; [| |exact Hc|];
              apply (i_charge _ _ _ _ _ _ I); rewrite !in_app_iff; tauto.
          - rewrite app_assoc, app_length. cbn [length]. lia. }
        exists h4, s2. split; [reflexivity|]. split; [exact I4|].
        split; [|split; [reflexivity|split; [reflexivity|split; [reflexivity|split; [exact Hna|split; [exact Hnz|split; [exact Ecap|exact Nokey]]]]]]].
        intros b Hb. rewrite B5; [apply Fr3; exact Hb|]. intros Hc'. apply Hb. clear - Hc'. cbn [In] in *. unfold own.
        destruct Hc' as [Hc'|Hc']; [auto|]. right. right. right. unfold addrs in *. rewrite !map_app, !in_app_iff in *. tauto.
    - left. cbn [bind fst snd].
      destruct (evict_loop (S (length (m_heap (mk_mem h0 lg)))) dbg (mk_mem h0 lg) s) as [[m6 s6]| | |]; reflexivity.
  Qed.
End Shard.

(** ** The whole cache *)
Section Global.
  Variable hashf : bytes -> N.
  Hypothesis hash32 : forall k, (hashf k < 2 ^ 32)%N.
  Variable alc : allocator.
  Hypothesis Halc : allocator_ok alc.
  Variable dbg : bool.
  Notation home := (home hashf).

  Lemma insert_f_ok sc nid c A k v ch d : GInv hashf sc c A -> apre hashf A (CInsert k v ch d) ->
    cache_insert_f hashf alc dbg (clear_log c) FTable k v ch d
      = (let! r := cache_insert hashf alc dbg (clear_log c) k v ch d in Ret (fst r, Returns (snd r))) \/
    (exists c' a, cache_insert_f hashf alc dbg (clear_log c) FTable k v ch d = Ret (c', Throws (Some a)) /\
       m_log (c_mem c') = [] /\ a <> 0 /\ (forall i x, i < 16 -> In x (ents (A i)) -> e_addr x <> a) /\
       (0 < sc)%N /\ (forall x, In x (aL (A (home k)) ++ aP (A (home k))) -> e_key x <> k) /\
       GInv hashf sc c' (aupd A (home k) (mk_ash (aL (A (home k))) (aP (A (home k)) ++ [mk_ent a nid k v ch d 1]) (aZ (A (home k)))))).
  Proof.
    intros G [Hch Hsz]. pose proof (home_lt hashf hash32 k) as Hi. destruct (g_shard _ _ _ _ _ G Hi) as (s & Hs).
    destruct (g_sh _ _ _ _ G _ _ Hs) as [I Hc].
    unfold cache_insert_f, cache_insert, the_shard. cbn [clear_log c_shards c_mem c_last_id].
    change (Shard (hashf k)) with (home k). rewrite Hs. cbn [bind].
    destruct (shard_insert_f_spec hashf alc dbg (m_heap (c_mem c)) [] s _ _ _ k v ch d nid Halc I Hch Hsz)
      as [->|(h' & s' & R1 & R2 & R3 & R4 & R5 & R6 & R7 & R8 & R9 & R10)].
    - left. destruct (shard_insert alc dbg (mk_mem (m_heap (c_mem c)) []) s k (hashf k) v ch d) as [r| | |]; reflexivity.
    - right. rewrite R1. cbn [bind fst snd c_mem m_log].
      set (a := alc (dom (m_heap (c_mem c)))) in *. set (e := mk_ent a nid k v ch d 1) in *.
      do 2 eexists. split; [reflexivity|]. split; [reflexivity|]. split; [exact R8|]. split.
      { intros i x Hi' Hx E. destruct (g_shard _ _ _ _ _ G Hi') as (t & Ht). destruct (g_sh _ _ _ _ G _ _ Ht) as [It _].
        eapply LInv_live; [apply (i_l _ _ _ _ _ _ It)| |exact R7]. rewrite <- E. apply (ents_own t (A i)). exact Hx. }
      split; [rewrite <- Hc; exact R9|]. split; [exact R10|].
      eapply (GInv_update hashf _ _ _ _ s _ _ _ _ _ [a]); eauto; cbn [app].
      + intros a0 [<-|[]]. exact R7.
      + intros a0 Ha0. unfold aown in *. cbn [aL aP aZ] in *. rewrite R4, R5 in *. unfold e in *. clear - Ha0. own_tac.
      + intros a0 Ha0. left. unfold aown in *. cbn [aL aP aZ] in *. rewrite R4, R5 in *. unfold e in *. clear - Ha0. own_tac.
      + intros e0 He0. unfold ents in He0. cbn [aL aP aZ] in He0.
        assert (K : e0 = e \/ In e0 (ents (A (home k)))).
        { unfold ents. rewrite !in_app_iff in *. cbn [In] in *. intuition auto. }
        destruct K as [->|K]; [reflexivity|]. exact (g_key _ _ _ _ G _ _ Hi K).
  Qed.

  (** As a step on the history. *)
  Lemma insert_lost_Step sc H A a k v c d :
    let e' := mk_ent a (length H) k v c d 1 in
    let x' := mk_ash (aL (A (home k))) (aP (A (home k)) ++ [e']) (aZ (A (home k))) in
    AWf hashf sc A -> HInv sc H A -> AWf hashf sc (aupd A (home k) x') ->
    a <> 0 -> (forall i x, i < 16 -> In x (ents (A i)) -> e_addr x <> a) ->
    Step sc H A (mk_event (CInsert k v c d) (RHandle a) []) [] (aupd A (home k) x').
  Proof.
    intros e' x' W I W' Ha Hf. pose proof (home_lt hashf hash32 k) as Hi.
    assert (Ea : held H a = 0).
    { destruct (Nat.eq_dec (held H a) 0) as [E|E]; auto. exfalso.
      destruct (h_heldin _ _ _ I a ltac:(lia)) as (i & x & Hi' & Hx & E'). exact (Hf i x Hi' Hx E'). }
    eapply (Step_shard hashf sc H A W I _ (home k) [] (ents (A (home k))) [e']); cbn [ev_del ev_call ev_res]; auto.
    - unfold ents, x'. cbn [aL aP aZ]. rewrite app_assoc, <- app_assoc. cbn [app]. rewrite <- !app_assoc. cbn [app].
      transitivity (e' :: (aL (A (home k)) ++ aP (A (home k))) ++ aZ (A (home k))).
      + rewrite app_assoc. symmetry. apply Permutation_middle.
      + constructor. now rewrite <- app_assoc.
    - right. exists e'. split; [auto|]. split; [reflexivity|]. split; [reflexivity|]. split; [reflexivity|].
      split; [exact Hf|]. cbn [held ev_call ev_res e' e_addr e_pins]. rewrite Nat.eqb_refl.
      apply Nat.eqb_neq in Ha. rewrite Ha. cbn [negb andb]. now rewrite Ea.
    - intros x [].
    - intros i x Hi' Hx _. apply ins_held_ne. eauto.
    - intros q. unfold returns. cbn [ev_call ev_res]. intros [E _]. inversion E; subst q. exists e'. cbn. auto.
    - intros i x Hi' Hne Hx. unfold overwrites. cbn [ev_call]. apply (key_other hashf sc A W k i x); auto.
    - unfold x'. cbn [aL aP]. intros x Hx. rewrite app_assoc in Hx. apply in_app_iff in Hx as [Hx|[<-|[]]].
      + apply superseded_keep; [apply (h_in _ _ _ I (home k)); auto|].
        unfold overwrites. cbn [ev_call]. apply bytes_eqb_neq. intros E.
        pose proof (w_keys _ _ _ W' (home k) Hi) as N. rewrite aupd_eq in N. unfold x' in N. cbn [aL aP] in N.
        rewrite app_assoc, map_app in N. eapply nodup_app_disj; [exact N|apply in_map; exact Hx|]. cbn. auto.
      + apply superseded_new. cbn [length e_id e']. lia.
    - unfold x'. cbn [aZ]. intros x Hx. destruct (h_out _ _ _ I (home k) x Hi Hx) as [E|E]; [|auto].
      left. now apply superseded_mono.
    - unfold x'. cbn [aL]. pose proof (h_lru _ _ _ I (home k) Hi) as SS. eapply older_ext; [|exact SS]. intros x _. reflexivity.
  Qed.
End Global.

(** ** Reachable states *)
Section Reach.
  Variable hashf : bytes -> N.
  Hypothesis hash32 : forall k, (hashf k < 2 ^ 32)%N.
  Variable alc : allocator.
  Hypothesis Halc : allocator_ok alc.
  Variable dbg : bool.
  Variable cap : N.
  Notation sc := (per_shard cap).
  Notation home := (home hashf).
  Notation good H c := (exists A, GInv hashf sc c A /\ HInv sc H A).
  Notation exec := (exec hashf alc dbg).
  Notation oreach := (oreach hashf alc dbg olegal cap).
  Notation insert_f := (cache_insert_f hashf alc dbg).

  Lemma olegal_legal H T x : olegal H T x -> legal H x.
  Proof. destruct x; cbn [olegal legal]; auto; unfold user_held; lia. Qed.

  Lemma clear_GInv c A : GInv hashf sc c A -> GInv hashf sc (clear_log c) A.
  Proof. exact (GInv_clear hashf sc c A [] (c_last_id c)). Qed.

  (** Every way an Insert may meet the failing table ends well: it returns, and then
      the table did not have to grow; or it throws and leaves its entry held. *)
  Lemma insert_lost H c k v ch d : good H c -> legal H (CInsert k v ch d) ->
    (exists c' a ev, insert_f (clear_log c) FTable k v ch d = Ret (c', Returns a) /\ exec c (CInsert k v ch d) = Ret (c', ev) /\
       ev_res ev = RHandle a /\ m_log (c_mem c') = ev_del ev) \/
    (exists c' a, insert_f (clear_log c) FTable k v ch d = Ret (c', Throws (Some a)) /\ m_log (c_mem c') = [] /\ a <> 0 /\
       held H a = 0 /\ (0 < sc)%N /\ (forall i, cached cap H i = true -> key_of_insert H i <> k) /\
       good (mk_event (CInsert k v ch d) (RHandle a) [] :: H) c').
  Proof.
    intros (A & G & I) L. pose proof (GInv_AWf _ _ _ _ G) as W.
    destruct (insert_f_ok hashf hash32 alc Halc dbg sc (length H) c A k v ch d G (legal_apre hashf hash32 cap H A W I _ L))
      as [E|(c' & a & E1 & E2 & E3 & E4 & E5 & E6 & E7)].
    - left. destruct (good_safe hashf hash32 alc Halc dbg cap H c _ (ex_intro _ A (conj G I)) L) as (c1 & ev & X & _).
      pose proof X as X'. unfold CacheRun.exec in X. cbn [dispatch] in X.
      destruct (cache_insert hashf alc dbg (clear_log c) k v ch d) as [[c2 a]| | |]; cbn [bind fst snd] in *; try discriminate.
      injection X as <- <-. exists c2, a. eexists. split; [exact E|]. split; [exact X'|]. split; reflexivity.
    - right. exists c', a. pose proof (GInv_AWf _ _ _ _ E7) as W'.
      split; [exact E1|]. split; [exact E2|]. split; [exact E3|]. split; [|split; [exact E5|split]].
      + destruct (Nat.eq_dec (held H a) 0) as [E|E]; auto. exfalso.
        destruct (h_heldin _ _ _ I a ltac:(lia)) as (i & x & Hi' & Hx & E'). exact (E4 i x Hi' Hx E').
      + intros i Hc. apply (cached_iff hashf cap _ A W I) in Hc as (n & e & Hn & He & <-).
        rewrite (key_of_ent cap H A I n e Hn (ent_lp A _ _ He)). intros Ek.
        pose proof (w_home _ _ _ W n e Hn (ent_lp A _ _ He)) as Eh. rewrite Ek in Eh. subst n. exact (E6 e He Ek).
      + eexists. split; [exact E7|].
        eapply (HInv_step hashf sc H A); [exact W|exact W'|exact I|].
        exact (insert_lost_Step hashf hash32 sc H A a k v ch d W I W' E3 E4).
  Qed.

  Lemma oreach_good H T c : oreach H T c -> good H c.
  Proof.
    induction 1 as [c E|H T c x c' ev R IH L X|H T c f k v ch d c' R IH L X|H T c f k v ch d c' a R IH L X].
    - destruct (cache_new_spec hashf alc dbg cap Halc) as (c0 & E0 & G). rewrite E0 in E. inversion E; subst c0.
      exists A0. split; [exact G|apply HInv_nil].
    - destruct IH as (A & G & I). destruct (step_inv hashf hash32 alc Halc dbg cap _ _ _ _ _ _ G I (olegal_legal _ _ _ L) X) as (A' & D & G' & I' & _). eauto.
    - destruct f; cbn [cache_insert_f] in X.
      + injection X as <-. destruct IH as (A & G & I). exists A. split; [now apply clear_GInv|exact I].
      + discriminate.
      + destruct (insert_lost H c k v ch d IH (olegal_legal _ _ _ L)) as [(c1 & a & ev & E & _)|(c1 & a & E & _)];
          cbn [cache_insert_f] in E; rewrite E in X; discriminate.
    - destruct f; cbn [cache_insert_f] in X; try discriminate.
      destruct (insert_lost H c k v ch d IH (olegal_legal _ _ _ L)) as [(c1 & a1 & ev & E & _)|(c1 & a1 & E & El & _ & _ & _ & _ & Gd)];
        cbn [cache_insert_f] in E; rewrite E in X; [discriminate|]. injection X as <- <-. rewrite El. exact Gd.
  Qed.

  (** The lost references stay. *)
  Definition lost_ok (H : history) (T : list nat) : Prop :=
    NoDup T /\ forall i, In i T -> exists h, owner H h = Some i /\ 0 < held H h.

  Lemma in_existsb i T : existsb (Nat.eqb i) T = true <-> In i T.
  Proof.
    rewrite existsb_exists. split.
    - intros (x & Hx & E). apply Nat.eqb_eq in E. now subst.
    - intros Hi. exists i. split; [exact Hi|apply Nat.eqb_refl].
  Qed.

  Lemma held_drop H c x c' ev h : good H c -> legal H x -> exec c x = Ret (c', ev) ->
    (x <> CRelease h) -> held H h <= held (ev :: H) h.
  Proof.
    intros Gd L X Hx. destruct (step_ctx hashf hash32 alc Halc dbg cap H c x c' ev Gd L X) as (_ & _ & _ & _ & _ & _ & _ & E & _).
    cbn [held]. rewrite E. destruct x; auto; try (destruct (ev_res ev); auto; destruct (negb _ && _); lia).
    destruct (handle =? h) eqn:Eh; [|lia]. apply Nat.eqb_eq in Eh. congruence.
  Qed.

  Lemma oreach_lost_ok H T c : oreach H T c -> lost_ok H T.
  Proof.
    induction 1 as [c E|H T c x c' ev R IH L X|H T c f k v ch d c' R IH L X|H T c f k v ch d c' a R IH L X].
    - split; [constructor|intros i []].
    - pose proof (oreach_good _ _ _ R) as Gd. destruct IH as [N F]. split; [exact N|]. intros i Hi.
      destruct (F i Hi) as (h & Ho & Hh). exists h.
      assert (Hh' : 0 < held (ev :: H) h).
      { assert (Dec : x = CRelease h \/ x <> CRelease h).
        { destruct x; try (right; discriminate). destruct (Nat.eq_dec handle h) as [->|Hne]; [auto|right; congruence]. }
        destruct Dec as [->|Hne].
        - cbn [olegal] in L. unfold user_held, lost in L. rewrite Ho, (proj2 (in_existsb i T) Hi) in L.
          destruct (step_ctx hashf hash32 alc Halc dbg cap H c (CRelease h) c' ev Gd ltac:(cbn [legal]; lia) X) as (_ & _ & _ & _ & _ & _ & _ & E & _).
          cbn [held]. rewrite E, Nat.eqb_refl. lia.
        - pose proof (held_drop H c x c' ev h Gd (olegal_legal _ _ _ L) X Hne). lia. }
      split; [|exact Hh']. rewrite (held_stable hashf hash32 alc Halc dbg cap H c x c' ev h Gd (olegal_legal _ _ _ L) X Hh Hh'). exact Ho.
    - exact IH.
    - pose proof (oreach_good _ _ _ R) as Gd. destruct IH as [N F]. destruct f; cbn [cache_insert_f] in X; try discriminate.
      destruct (insert_lost H c k v ch d Gd (olegal_legal _ _ _ L)) as [(c1 & a1 & ev & E & _)|(c1 & a1 & E & El & Ea & Eh & _ & _ & Gd')];
        cbn [cache_insert_f] in E; rewrite E in X; [discriminate|]. injection X as <- <-. split.
      + constructor; [|exact N]. intros Hi. destruct (F _ Hi) as (h & Ho & _). pose proof (owner_lt _ _ _ Ho). lia.
      + intros i [<-|Hi].
        * exists a1. cbn [owner held ev_call ev_res]. rewrite Nat.eqb_refl. apply Nat.eqb_neq in Ea. rewrite Ea. cbn [negb andb]. split; [reflexivity|lia].
        * destruct (F i Hi) as (h & Ho & Hh). assert (Hne : a1 <> h) by (intros ->; lia).
          exists h. cbn [owner held ev_call ev_res]. apply Nat.eqb_neq in Hne. rewrite Hne, andb_false_r. auto.
  Qed.

  Lemma lost_entries H T c i : oreach H T c -> In i T -> in_use H i /\ deaths H i = 0 /\ exists x, insert_at H i = Some x.
  Proof.
    intros R Hi. destruct (oreach_lost_ok _ _ _ R) as [_ F]. destruct (F i Hi) as (h & Ho & Hh).
    split; [exists h; auto|]. destruct (oreach_good _ _ _ R) as (A & G & I).
    destruct (h_heldin _ _ _ I h Hh) as (n & e & Hn & He & Ea).
    pose proof (h_own _ _ _ I n e Hn He) as Ho'. rewrite Ea, Ho in Ho'. injection Ho' as ->.
    split; [exact (h_alive _ _ _ I n e Hn He)|]. eexists. exact (h_ev _ _ _ I n e Hn He).
  Qed.
End Reach.
