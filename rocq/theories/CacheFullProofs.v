(** CacheFullProofs.v -- a hash table that would need more than 2^31 places. *)
From Coq Require Import List Arith NArith Lia Bool Permutation Sorted.
From Verif Require Import Outcome Heap Cache CacheSpec CacheRun CacheHeap CacheTable CacheShard CacheShardOps CacheShardLife CacheGlobal CacheHist CacheHistStep CacheProofs CacheThms.
Import ListNotations.
Local Open Scope outcome_scope.

(** ** The loop that doubles new_length *)
Lemma grow_zero e : (0 < e)%N -> forall fuel, grow fuel 0 e = OutOfFuel.
Proof.
  intros He. induction fuel as [|f IH]; cbn [grow]; [reflexivity|].
  rewrite (proj2 (N.ltb_lt 0 e) He). exact IH.
Qed.
Lemma grow_pow e : (2 ^ 31 < e)%N -> forall n k fuel, k + n = 31 -> grow fuel (2 ^ N.of_nat k) e = OutOfFuel.
Proof.
  intros He. induction n as [|n IH]; intros k fuel Hk; destruct fuel as [|f]; try reflexivity; cbn [grow].
  - replace k with 31 by lia. change (2 ^ N.of_nat 31)%N with (2 ^ 31)%N.
    rewrite (proj2 (N.ltb_lt _ e) He). change (u32 (2 ^ 31 * 2)) with 0%N. apply grow_zero.
    eapply N.lt_trans; [|exact He]. reflexivity.
  - assert (Hlt : (2 ^ N.of_nat k < 2 ^ 31)%N) by (apply N.pow_lt_mono_r; lia).
    rewrite (proj2 (N.ltb_lt _ e)) by (eapply N.lt_trans; [exact Hlt|exact He]).
    replace (u32 (2 ^ N.of_nat k * 2)) with (2 ^ N.of_nat (S k))%N; [apply IH; lia|].
    replace (2 ^ N.of_nat k * 2)%N with (2 ^ N.of_nat (S k))%N
      by (rewrite Nnat.Nat2N.inj_succ, N.pow_succ_r', N.mul_comm; reflexivity).
    unfold u32. symmetry. apply N.mod_small. apply N.pow_lt_mono_r; lia.
Qed.
Lemma grow_never fuel e : (2 ^ 31 < e)%N -> grow fuel 4 e = OutOfFuel.
Proof. intros He. change 4%N with (2 ^ N.of_nat 2)%N. apply (grow_pow e He 29); reflexivity. Qed.

(** ** The table *)
Lemma table_insert_full dbg h lg t S e key hash :
  TInv h t S -> (forall a, In a S -> fld n_next h a <> Some a) ->
  ~ In e S -> e <> 0 -> matches h key hash e -> fld n_next h e <> Some e ->
  (forall a, In a S -> ~ matches h key hash a) ->
  N.of_nat (length S) = (2 ^ 31)%N ->
  table_insert dbg (mk_mem h lg) t e = OutOfFuel.
Proof.
  intros T Hs He He0 Hm Hself Hno Hsz. destruct (t_chains _ _ _ T) as (cs & C1 & C2 & C3).
  destruct (find_pointer_spec dbg h lg t S key hash cs T Hs C1 C2 C3)
    as (p & l1 & rest & r & E1 & E2 & E3 & E4 & E5 & E6 & E7).
  pose proof (t_nodup _ _ _ T) as N.
  assert (NE : NoDup ((l1 ++ rest) ++ r)).
  { eapply Permutation_NoDup; [|exact N]. rewrite E4. now rewrite <- app_assoc. }
  assert (NDc : NoDup (l1 ++ rest)) by (eapply NoDup_app_l; eauto).
  assert (HeN : ~ In e (l1 ++ rest ++ r)).
  { intros H. apply He. eapply Permutation_in; [symmetry; exact E4|exact H]. }
  pose proof Hm as Hm'. apply fld_Some in Hm' as (n & Hn & Hnk). inversion Hnk as [[Hnh Hnkey]].
  set (i := bucket hash (t_length t)) in *.
  unfold table_insert. unfold key_of. rewrite (get_live _ _ _ _ Hn). cbn [bind].
  assert (Hsf : (n_next n =? e) = false).
  { apply Nat.eqb_neq. intros E. apply Hself. apply fld_Some; eauto. }
  rewrite Hsf. cbn [negb]. unfold assert_. rewrite !andb_false_r. cbn [bind].
  rewrite Hnh, Hnkey, E5. cbn [bind]. rewrite E6. cbn [bind].
  assert (Hq : exists q l2, (if hd 0 rest =? 0 then Ret 0
                else let! o := get (mk_mem h lg) (hd 0 rest) in Ret (n_next_hash o)) = Ret q /\
               hchain h q l2 /\ match rest with [] => l2 = [] | _ :: r' => l2 = r' end).
  { destruct rest as [|a l2].
    - exists 0, []. cbn. auto.
    - assert (G : exists q, a <> 0 /\ fld n_next_hash h a = Some q /\ hchain h q l2).
      { clear - E3. revert p E3. induction l1 as [|b l1 IH]; intros p E3; cbn in E3.
        - destruct E3 as (_ & Z & q & Q & C). eauto.
        - destruct E3 as (_ & _ & q & Q & C). eauto. }
      destruct G as (q & Na & Q & C). exists q, l2. cbn [hd].
      apply Nat.eqb_neq in Na. rewrite Na. apply fld_Some in Q as (na & Hna & Hqa).
      rewrite (get_live _ _ _ _ Hna). cbn [bind]. rewrite Hqa. auto. }
  destruct Hq as (q & l2 & Q1 & Q2 & Q3). rewrite Q1. cbn [bind].
  assert (Le : live h e) by (eapply fld_live; eauto).
  rewrite upd_live by auto. cbn [bind]. set (h1 := hupd h e (set_next_hash q)).
  assert (Sm1 : sim strip_nh h h1) by (apply sim_hupd; reflexivity).
  assert (F1 : forall b, b <> e -> hget h1 b = hget h b) by (intros b Hb; now apply hget_hupd_ne).
  assert (Hl2 : forall b, In b l2 -> In b (l1 ++ rest)).
  { intros b Hb. destruct rest; subst l2; [destruct Hb|]. apply in_app_iff; cbn; auto. }
  destruct (store_chain h1 lg (t_table t) i p l1 rest (e :: l2) e E1) as (h' & p' & G1 & G2 & G3 & G4).
  { eapply hchain_frame; [|exact E3]. intros b Hb. unfold fld. rewrite F1; auto. intros ->.
    apply HeN. rewrite app_assoc. apply in_app_iff; auto. }
  { eapply NoDup_app_l; eauto. }
  { cbn. split; [auto|]. split; [auto|]. exists q. split.
    - unfold h1. apply fld_hupd_eq; [reflexivity|]. now apply live_fld.
    - eapply hchain_frame; [|exact Q2]. intros b Hb. unfold fld. rewrite F1; auto. intros ->.
      apply HeN. rewrite app_assoc. apply in_app_iff; auto. }
  { intros b Hb [<-|Hb2].
    - apply HeN. apply in_app_iff; auto.
    - destruct rest; subst l2; [destruct Hb2|]. apply (nodup_app_disj _ _ _ NDc Hb). right; auto. }
  rewrite G1. cbn [bind fst snd].
  destruct rest as [|old l2'].
  - cbn [hd Nat.eqb t_length]. rewrite (t_el _ _ _ T), Hsz. change (u32 (2 ^ 31 + 1)) with (2 ^ 31 + 1)%N.
    destruct (t_pow _ _ _ T) as (k & Ek & Hk).
    assert (Hlt : (t_length t < 2 ^ 31 + 1)%N).
    { rewrite Ek. assert (2 ^ k <= 2 ^ 31)%N by (apply N.pow_le_mono_r; lia). apply N.lt_succ_r in H. rewrite N.add_1_r. exact H. }
    rewrite (proj2 (N.ltb_lt _ _) Hlt). unfold resize. cbn [t_elems]. rewrite grow_never by reflexivity. reflexivity.
  - exfalso. destruct E7 as [M Iold]. exact (Hno old Iold M).
Qed.

(** ** One shard *)
Section Shard.
  Variable hashf : bytes -> N.
  Notation Inv := (Inv hashf).
  Notation LInv := (LInv hashf).

  Lemma shard_insert_full alc dbg h lg s L P Z key val charge del :
    allocator_ok alc -> Inv h s L P Z -> (0 < s_capacity s)%N ->
    (forall x, In x (L ++ P) -> e_key x <> key) -> N.of_nat (length (L ++ P)) = (2 ^ 31)%N ->
    shard_insert alc dbg (mk_mem h lg) s key (hashf key) val charge del = OutOfFuel.
  Proof.
    intros Ha I Ecap Hk Hsz.
    set (a := alc (dom h)). set (e := mk_ent a 0 key val charge del 1).
    destruct (Ha (dom h)) as [Hna Hnz]. fold a in Hna, Hnz. apply not_dom_hget in Hna.
    pose proof (i_l _ _ _ _ _ _ I) as IL. pose proof (i_t _ _ _ _ _ _ I) as IT.
    assert (Hown : ~ In a (own (s_lru s) (s_in_use s) L P Z)).
    { intros H. apply (LInv_live _ _ _ _ _ _ _ _ IL H). exact Hna. }
    set (n0 := mk_node val del 0 0 0 charge false 1 (hashf key) key).
    set (h0 := hput h a n0).
    assert (Hh0 : forall b, b <> a -> hget h0 b = hget h b) by (intros b Hb; unfold h0; apply hget_hput_ne; auto).
    assert (Hh0a : hget h0 a = Some n0) by (unfold h0; apply hget_hput_eq).
    pose proof (alloc_LInv _ _ _ _ _ _ _ a n0 IL Hna) as IL0. fold h0 in IL0.
    assert (IT0 : TInv h0 (s_table s) (addrs (L ++ P))).
    { eapply TInv_frame; [|exact IT]. intros b Hb.
      assert (b <> a) by (intros ->; apply Hown; own_tac).
      unfold fld. rewrite Hh0 by auto. auto. }
    unfold shard_insert. cbn [m_heap m_log]. fold a n0 h0.
    rewrite (proj2 (N.ltb_lt _ _) Ecap).
      rewrite (get_live _ _ _ _ Hh0a). cbn [bind]. rewrite upd_live by (unfold live; congruence). cbn [bind].
      change (u32 (n_refs n0 + 1)) with 2%N.
      set (h1 := hupd h0 a (set_refs 2)). rewrite upd_live by (unfold live, h1; rewrite hupd_live; congruence).
      cbn [bind]. set (h2 := hupd h1 a (set_in_cache true)).
      assert (Hh2 : forall b, b <> a -> hget h2 b = hget h b).
      { intros b Hb. unfold h2, h1. rewrite !hget_hupd_ne by auto. auto. }
      assert (Hh2a : hget h2 a = Some (set_in_cache true (set_refs 2 n0))).
      { unfold h2, h1. rewrite !hget_hupd, !Nat.eqb_refl, Hh0a. reflexivity. }
      assert (IL2 : LInv h2 (s_lru s) (s_in_use s) L P Z).
      { eapply LInv_frame; [|exact IL]. intros b Hb. assert (b <> a) by (intros ->; tauto).
        unfold fld. rewrite Hh2 by auto. auto. }
      destruct (LRU_Append_spec h2 lg (s_in_use s) (addrs P) a) as (h3 & A1 & A2 & A3 & A4).
      { apply (l_use _ _ _ _ _ _ _ IL2). }
      { unfold live; congruence. }
      { intros H. apply Hown. own_tac. }
      rewrite A1. cbn [bind].
      assert (V3 : forall b, fld n_view h3 b = fld n_view h2 b) by (intros b; now apply sim_links_view).
      assert (V3a : fld n_view h3 a = Some (view hashf e true 2)).
      { rewrite V3. unfold fld. rewrite Hh2a. reflexivity. }
      pose proof (l_nd _ _ _ _ _ _ _ IL2) as ND2.
      assert (IL3 : LInv h3 (s_lru s) (s_in_use s) L (P ++ [e]) Z).
      { assert (NDn : NoDup (own (s_lru s) (s_in_use s) L (P ++ [e]) Z)).
        { assert (N1 : NoDup (a :: own (s_lru s) (s_in_use s) L P Z)) by (constructor; auto).
          eapply Permutation_NoDup; [|exact N1]. unfold e; perm_tac. }
        constructor.
        - eapply dll_frame; [|apply (l_lru _ _ _ _ _ _ _ IL2)]. intros b Hb.
          assert (E : hget h3 b = hget h2 b).
          { apply A4. intros Hin. assert (b <> a) by (intros ->; apply Hown; own_tac).
            destruct Hin as [->|Hin]; [tauto|]. clear - ND2 Hb Hin. cnt_go ND2 b. }
          unfold fld. rewrite E. auto.
        - unfold addrs. rewrite map_app. exact A2.
        - intros x Hx. rewrite V3. now apply (l_L _ _ _ _ _ _ _ IL2).
        - intros x Hx. apply in_app_iff in Hx as [Hx|[<-|[]]].
          + rewrite V3. now apply (l_P _ _ _ _ _ _ _ IL2).
          + cbn [e_addr e e_pins]. split; [exact V3a|]. split; [lia|]. vm_compute; reflexivity.
        - intros x Hx. rewrite V3. destruct (l_Z _ _ _ _ _ _ _ IL2 x Hx) as (Z1 & Z2 & Z3 & Z4).
          repeat (split; [auto|]). unfold fld. rewrite A4; [exact Z4|].
          intros Hin. assert (e_addr x <> a) by (intros E; apply Hown; rewrite <- E; apply (in_map e_addr) in Hx; own_tac).
          destruct Hin as [Hin|Hin]; [congruence|]. clear - ND2 Hx Hin. cnt_go ND2 (e_addr x).
        - exact NDn.
        - pose proof (l_nz _ _ _ _ _ _ _ IL2) as Nz. intros H. apply Nz. own_tac.
        }
      assert (Fr3 : frame (a :: own (s_lru s) (s_in_use s) L P Z) h h3).
      { intros b Hb. assert (b <> a) by (intros ->; apply Hb; cbn; auto).
        rewrite A4, Hh2; auto. intros Hin. apply Hb. right. cbn in Hin. destruct Hin as [->|Hin]; [tauto|]. own_tac. }
      assert (TS3 : forall b, b <> a -> fld n_next_hash h3 b = fld n_next_hash h b /\ fld n_hash h3 b = fld n_hash h b).
      { intros b Hb. destruct (sim_links_nh _ _ b A3) as [B1 B2]. rewrite B1, B2. unfold fld. rewrite Hh2 by auto. auto. }
      assert (IT3 : TInv h3 (s_table s) (addrs (L ++ P))).
      { eapply TInv_frame; [|exact IT]. intros b Hb. apply TS3. intros ->; apply Hown; own_tac. }

      assert (Nm : forall b, In b (addrs (L ++ P)) -> ~ matches h3 key (hashf key) b).
      { intros b Hb M. apply in_map_iff in Hb as (x & <- & Hx). apply (Hk x Hx).
        eapply (match_key hashf h3); [exact IL3| |exact M]. rewrite !in_app_iff in *. tauto. }
      cbn [set_usage s_table]. rewrite (table_insert_full dbg h3 lg (s_table s) (addrs (L ++ P)) a key (hashf key) IT3).
      + reflexivity.
      + intros b Hb. eapply LInv_noself; [exact IL3|]. unfold addrs in *. rewrite !map_app in *.
        rewrite !in_app_iff in *. tauto.
      + intros H; apply Hown; own_tac.
      + exact Hnz.
      + apply view_node in V3a as (nn & Hnn & _ & _ & _ & K1 & K2 & _). unfold matches, fld. rewrite Hnn. cbn.
        rewrite K1, K2. reflexivity.
      + eapply LInv_noself; [exact IL3|]. unfold addrs. rewrite !map_app, !in_app_iff. cbn. auto.
      + exact Nm.
      + rewrite addrs_length. exact Hsz.
  Qed.
End Shard.
