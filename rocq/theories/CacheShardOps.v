(** CacheShardOps.v -- what each LRUCache method does to the entries of one
    shard, with the hash table and the usage counter. *)
From Coq Require Import List Arith NArith Lia Bool Permutation.
From Verif Require Import Outcome Heap Cache CacheHeap CacheTable CacheShard.
Import ListNotations.
Local Open Scope outcome_scope.

Definition charges (l : list ent) : N := fold_right (fun e a => (e_charge e + a)%N) 0%N l.

Lemma charges_app a b : charges (a ++ b) = (charges a + charges b)%N.
Proof. induction a as [|e a IH]; cbn [charges app fold_right] in *; [reflexivity|]. unfold charges in *. lia. Qed.
Lemma charges_cons e b : charges (e :: b) = (e_charge e + charges b)%N.
Proof. reflexivity. Qed.
Lemma charges_perm a b : Permutation a b -> charges a = charges b.
Proof. induction 1; rewrite ?charges_cons in *; try lia. Qed.
Lemma charges_set_pins p e : charges [set_pins p e] = charges [e].
Proof. reflexivity. Qed.

Lemma set_pins_same e : set_pins (e_pins e) e = e.
Proof. destruct e; reflexivity. Qed.
Lemma set_pins_twice p q e : set_pins p (set_pins q e) = set_pins p e.
Proof. reflexivity. Qed.

(** usage_ += c and usage_ -= c, mod 2^64 *)
Lemma u64_add x c : u64 (u64 x + c) = u64 (x + c).
Proof. unfold u64. rewrite N.add_mod_idemp_l; [reflexivity|discriminate]. Qed.
Lemma u64_sub x c : (c < 2 ^ 64)%N -> u64 (u64 (c + x) + (2 ^ 64 - c)) = u64 x.
Proof.
  intros H. rewrite u64_add. unfold u64.
  replace (c + x + (2 ^ 64 - c))%N with (x + 1 * 2 ^ 64)%N by lia.
  apply N.mod_add. discriminate.
Qed.

Section Ops.
  Variable hashf : bytes -> N.
  Notation LInv := (LInv hashf).

  Record Inv (h : heap node) (s : shard) (L P Z : list ent) : Prop := {
    i_l : LInv h (s_lru s) (s_in_use s) L P Z;
    i_t : TInv h (s_table s) (addrs (L ++ P));
    i_keys : NoDup (map e_key (L ++ P));
    i_usage : s_usage s = u64 (charges (L ++ P));
    i_cap : s_capacity s = 0%N -> L = [] /\ P = [];
    i_charge : forall e, In e (L ++ P ++ Z) -> (e_charge e < 2 ^ 64)%N;
    i_size : (N.of_nat (length (L ++ P)) <= 2 ^ 31)%N }.

  Lemma Inv_frame h h' s L P Z :
    (forall a, In a (own (s_lru s) (s_in_use s) L P Z) -> hget h' a = hget h a) ->
    Inv h s L P Z -> Inv h' s L P Z.
  Proof.
    intros F I. constructor; try apply I.
    - eapply LInv_frame; [|apply (i_l _ _ _ _ _ I)]. intros a Ha. unfold fld. rewrite F by auto. auto.
    - eapply TInv_frame; [|apply (i_t _ _ _ _ _ I)]. intros a Ha. unfold fld. rewrite F; auto.
      clear - Ha. own_tac.
  Qed.

  Lemma key_unique L P e e' :
    NoDup (map e_key (L ++ P)) -> In e (L ++ P) -> In e' (L ++ P) -> e_key e = e_key e' -> e = e'.
  Proof.
    generalize (L ++ P) as l. induction l as [|x l IH]; cbn; [tauto|].
    intros N [->|H] [->|H'] E; auto; apply NoDup_cons_iff in N as [N1 N2].
    - exfalso. apply N1. rewrite E. now apply in_map.
    - exfalso. apply N1. rewrite <- E. now apply in_map.
    - auto.
  Qed.

  Lemma match_key h d u L P Z e k :
    LInv h d u L P Z -> In e (L ++ P) -> (matches h k (hashf k) (e_addr e) <-> e_key e = k).
  Proof.
    intros I H. assert (V : exists ic r, fld n_view h (e_addr e) = Some (view hashf e ic r)).
    { apply in_app_iff in H as [H|H].
      - destruct (l_L _ _ _ _ _ _ _ I e H); eauto.
      - destruct (l_P _ _ _ _ _ _ _ I e H); eauto. }
    destruct V as (ic & r & V). apply view_node in V as (n & Hn & _ & _ & _ & Hh & Hk & _).
    unfold matches, fld. rewrite Hn. cbn. rewrite Hh, Hk. split; [congruence|now intros ->].
  Qed.

  Lemma tab_same_TInv h h' t S : tab_same h h' -> TInv h t S -> TInv h' t S.
  Proof. intros F. apply TInv_frame. intros a _. apply F. Qed.

  Lemma perm_keys a b : Permutation a b -> NoDup (map e_key a) -> NoDup (map e_key b).
  Proof. intros P. apply Permutation_NoDup. now apply Permutation_map. Qed.

  (** The entries of Inv carry the pin count, the rest of the bookkeeping does not. *)
  Lemma keys_set_pins p e l : map e_key (set_pins p e :: l) = map e_key (e :: l).
  Proof. reflexivity. Qed.

  Lemma find_ent h s L P Z a : Inv h s L P Z -> In a (addrs (L ++ P)) ->
    (exists L1 e L2, L = L1 ++ e :: L2 /\ a = e_addr e) \/ (exists P1 e P2, P = P1 ++ e :: P2 /\ a = e_addr e).
  Proof.
    intros _ H. apply in_map_iff in H as (e & <- & He). apply in_app_iff in He as [He|He];
      apply in_split in He as (l1 & l2 & ->); [left|right]; eauto.
  Qed.

  (** *** Lookup *)
  Lemma shard_lookup_spec dbg h lg s L P Z key :
    Inv h s L P Z -> (forall e, In e P -> N.of_nat (e_pins e) < 2 ^ 32 - 2)%N ->
    exists h' a L' P', shard_lookup dbg (mk_mem h lg) s key (hashf key) = Ret (mk_mem h' lg, a) /\
      Inv h' s L' P' Z /\ frame (own (s_lru s) (s_in_use s) L P Z) h h' /\
      ((a = 0 /\ L' = L /\ P' = P /\ forall e, In e (L ++ P) -> e_key e <> key) \/
       (exists L1 e L2, L = L1 ++ e :: L2 /\ e_key e = key /\ a = e_addr e /\
          L' = L1 ++ L2 /\ P' = P ++ [set_pins 1 e]) \/
       (exists P1 e P2, P = P1 ++ e :: P2 /\ e_key e = key /\ a = e_addr e /\
          L' = L /\ P' = P1 ++ set_pins (S (e_pins e)) e :: P2)).
  Proof.
    intros I Hp. pose proof (i_l _ _ _ _ _ I) as IL. pose proof (i_t _ _ _ _ _ I) as IT.
    destruct (table_lookup_spec dbg h lg (s_table s) (addrs (L ++ P)) key (hashf key) IT) as (p & E & [[-> H]|[Hn [Hin Hm]]]).
    { intros a Ha. eapply LInv_noself; eauto. }
    - exists h, 0, L, P. unfold shard_lookup. rewrite E. cbn [bind Nat.eqb].
      split; [reflexivity|]. split; [exact I|]. split; [intros a _; reflexivity|]. left.
      split; [auto|]. split; [auto|]. split; [auto|]. intros e He Hk.
      apply (H (e_addr e)); [now apply in_map|]. eapply match_key; eauto.
    - unfold shard_lookup. rewrite E. cbn [bind]. pose proof Hn as Hn'. apply Nat.eqb_neq in Hn'. rewrite Hn'.
      destruct (find_ent _ _ _ _ _ _ I Hin) as [(L1 & e & L2 & -> & ->)|(P1 & e & P2 & -> & ->)].
      + assert (Hk : e_key e = key).
        { eapply match_key; eauto. rewrite !in_app_iff; cbn; auto. }
        destruct (Ref_idle hashf h lg s L1 e L2 P Z IL) as (h' & R1 & R2 & R3 & R4).
        rewrite R1. cbn [bind]. exists h', (e_addr e), (L1 ++ L2), (P ++ [set_pins 1 e]).
        split; [reflexivity|]. split; [|split; [exact R3|right; left; eauto 10]].
        assert (PM : Permutation ((L1 ++ e :: L2) ++ P) ((L1 ++ L2) ++ P ++ [e])).
        { rewrite <- !app_assoc. apply Permutation_app_head. cbn. rewrite app_assoc. apply Permutation_cons_append. }
        constructor; auto.
        * eapply TInv_perm; [|eapply tab_same_TInv; [exact R4|exact IT]].
          apply (Permutation_map e_addr) in PM. unfold addrs. rewrite PM. rewrite !map_app. reflexivity.
        * pose proof (perm_keys _ _ PM (i_keys _ _ _ _ _ I)) as K. rewrite !map_app in *. exact K.
        * rewrite (i_usage _ _ _ _ _ I). f_equal. rewrite (charges_perm _ _ PM). rewrite !charges_app. reflexivity.
        * intros H0. apply (i_cap _ _ _ _ _ I) in H0 as [H0 _]. destruct L1; discriminate.
        * intros e0 He0. rewrite !in_app_iff in He0. cbn in He0.
          destruct He0 as [[H0|H0]|[[H0|[<-|[]]]|H0]];
            try (apply (i_charge _ _ _ _ _ I); rewrite !in_app_iff; cbn; tauto).
          cbn. apply (i_charge _ _ _ _ _ I). rewrite !in_app_iff; cbn; tauto.
        * pose proof (i_size _ _ _ _ _ I) as Sz. rewrite (Permutation_length PM) in Sz.
          rewrite !app_length in *. cbn in *. exact Sz.
      + assert (Hk : e_key e = key).
        { eapply match_key; eauto. rewrite !in_app_iff; cbn; auto. }
        destruct (Ref_pinned hashf h lg s L P1 e P2 Z IL) as (h' & R1 & R2 & R3 & R4).
        { apply Hp. rewrite in_app_iff; cbn; auto. }
        rewrite R1. cbn [bind]. exists h', (e_addr e), L, (P1 ++ set_pins (S (e_pins e)) e :: P2).
        split; [reflexivity|]. split; [|split; [exact R3|right; right; eauto 10]].
        constructor; auto.
        * pose proof (tab_same_TInv _ _ _ _ R4 IT) as T2. unfold addrs in *. rewrite !map_app in *. exact T2.
        * pose proof (i_keys _ _ _ _ _ I) as K. rewrite !map_app in *. exact K.
        * rewrite (i_usage _ _ _ _ _ I). f_equal. rewrite !charges_app, !charges_cons. reflexivity.
        * intros H0. apply (i_cap _ _ _ _ _ I) in H0 as [_ H0]. destruct P1; discriminate.
        * intros e0 He0. rewrite !in_app_iff in He0. cbn in He0.
          destruct He0 as [H0|[[H0|[<-|H0]]|H0]];
            try (apply (i_charge _ _ _ _ _ I); rewrite !in_app_iff; cbn; tauto).
          cbn. apply (i_charge _ _ _ _ _ I). rewrite !in_app_iff; cbn; tauto.
        * pose proof (i_size _ _ _ _ _ I) as Sz. rewrite !app_length in *. cbn in *. exact Sz.
  Qed.

  (** *** Release *)
  Lemma shard_release_pinned dbg h lg s L P1 e P2 Z :
    Inv h s L (P1 ++ e :: P2) Z ->
    exists h' L' P', shard_release dbg (mk_mem h lg) s (e_addr e) = Ret (mk_mem h' lg) /\
      Inv h' s L' P' Z /\ frame (own (s_lru s) (s_in_use s) L (P1 ++ e :: P2) Z) h h' /\
      ((e_pins e = 1 /\ L' = L ++ [set_pins 0 e] /\ P' = P1 ++ P2) \/
       (1 < e_pins e /\ L' = L /\ P' = P1 ++ set_pins (e_pins e - 1) e :: P2)).
  Proof.
    intros I. pose proof (i_l _ _ _ _ _ I) as IL. pose proof (i_t _ _ _ _ _ I) as IT.
    destruct (l_P _ _ _ _ _ _ _ IL e) as (_ & Pe & _); [apply in_app_iff; cbn; auto|].
    unfold shard_release. destruct (Nat.eq_dec (e_pins e) 1) as [E1|E1].
    - destruct (Unref_pinned_last hashf dbg h lg s L P1 e P2 Z IL E1) as (h' & R1 & R2 & R3 & R4).
      exists h', (L ++ [set_pins 0 e]), (P1 ++ P2). split; [exact R1|]. split; [|split; [exact R3|left; auto]].
      assert (PM : Permutation (L ++ P1 ++ e :: P2) ((L ++ [e]) ++ P1 ++ P2)).
      { rewrite <- !app_assoc. apply Permutation_app_head. cbn. symmetry. apply Permutation_middle. }
      constructor; auto.
      + eapply TInv_perm; [|eapply tab_same_TInv; [exact R4|exact IT]].
        apply (Permutation_map e_addr) in PM. unfold addrs. rewrite PM. rewrite !map_app. reflexivity.
      + pose proof (perm_keys _ _ PM (i_keys _ _ _ _ _ I)) as K. rewrite !map_app in *. exact K.
      + rewrite (i_usage _ _ _ _ _ I). f_equal. rewrite (charges_perm _ _ PM). rewrite !charges_app. reflexivity.
      + intros H0. apply (i_cap _ _ _ _ _ I) in H0 as [_ H0]. destruct P1; discriminate.
      + intros e0 He0. rewrite !in_app_iff in He0. cbn in He0.
        destruct He0 as [[H0|[<-|[]]]|[[H0|H0]|H0]];
          try (apply (i_charge _ _ _ _ _ I); rewrite !in_app_iff; cbn; tauto).
        cbn. apply (i_charge _ _ _ _ _ I). rewrite !in_app_iff; cbn; tauto.
      + pose proof (i_size _ _ _ _ _ I) as Sz. rewrite (Permutation_length PM) in Sz.
        rewrite !app_length in *. cbn in *. exact Sz.
    - destruct (Unref_pinned_dec hashf dbg h lg s L P1 e P2 Z IL ltac:(lia)) as (h' & R1 & R2 & R3 & R4).
      exists h', L, (P1 ++ set_pins (e_pins e - 1) e :: P2). split; [exact R1|].
      split; [|split; [exact R3|right; split; [lia|auto]]].
      constructor; auto.
      + pose proof (tab_same_TInv _ _ _ _ R4 IT) as T2. unfold addrs in *. rewrite !map_app in *. exact T2.
      + pose proof (i_keys _ _ _ _ _ I) as K. rewrite !map_app in *. exact K.
      + rewrite (i_usage _ _ _ _ _ I). f_equal. rewrite !charges_app, !charges_cons. reflexivity.
      + intros H0. apply (i_cap _ _ _ _ _ I) in H0 as [_ H0]. destruct P1; discriminate.
      + intros e0 He0. rewrite !in_app_iff in He0. cbn in He0.
        destruct He0 as [H0|[[H0|[<-|H0]]|H0]];
          try (apply (i_charge _ _ _ _ _ I); rewrite !in_app_iff; cbn; tauto).
        cbn. apply (i_charge _ _ _ _ _ I). rewrite !in_app_iff; cbn; tauto.
      + pose proof (i_size _ _ _ _ _ I) as Sz. rewrite !app_length in *. cbn in *. exact Sz.
  Qed.

  Lemma zombie_not_cached h d u L P Z1 e Z2 a :
    LInv h d u L P (Z1 ++ e :: Z2) -> In a (addrs (L ++ P)) -> a <> e_addr e.
  Proof.
    intros I Ha ->. pose proof (l_nd _ _ _ _ _ _ _ I) as N. unfold addrs in Ha. cnt_go N (e_addr e).
  Qed.

  Lemma shard_release_zombie dbg h lg s L P Z1 e Z2 :
    Inv h s L P (Z1 ++ e :: Z2) ->
    exists h' Z', shard_release dbg (mk_mem h lg) s (e_addr e)
        = Ret (mk_mem h' (lg ++ if e_pins e =? 1 then [dcall_of e] else [])) /\
      Inv h' s L P Z' /\ frame (own (s_lru s) (s_in_use s) L P (Z1 ++ e :: Z2)) h h' /\
      Z' = Z1 ++ (if e_pins e =? 1 then [] else [set_pins (e_pins e - 1) e]) ++ Z2 /\
      (e_pins e = 1 -> hget h' (e_addr e) = None) /\ 0 < e_pins e.
  Proof.
    intros I. pose proof (i_l _ _ _ _ _ I) as IL. pose proof (i_t _ _ _ _ _ I) as IT.
    destruct (l_Z _ _ _ _ _ _ _ IL e) as (_ & Pe & _); [apply in_app_iff; cbn; auto|].
    destruct (Unref_zombie hashf dbg h lg s L P Z1 e Z2 IL) as (h' & R1 & R2 & R3 & R4 & R5).
    unfold shard_release. eexists h', _. split; [exact R1|]. split; [|split; [exact R4|split; [reflexivity|auto]]].
    constructor; auto; try apply I.
    - eapply TInv_frame; [|exact IT]. intros a Ha. apply R5. eapply zombie_not_cached; eauto.
    - intros e0 He0. rewrite !in_app_iff in He0.
      destruct He0 as [H0|[H0|[H0|[H0|H0]]]];
        try (apply (i_charge _ _ _ _ _ I); rewrite !in_app_iff; cbn; tauto).
      destruct (e_pins e =? 1); [destruct H0|]. destruct H0 as [<-|[]].
      cbn. apply (i_charge _ _ _ _ _ I). rewrite !in_app_iff; cbn; tauto.
  Qed.

  (** *** FinishErase: the entry has already left the table. *)
  Lemma FinishErase_idle dbg h lg s L1 e L2 P Z :
    LInv h (s_lru s) (s_in_use s) (L1 ++ e :: L2) P Z ->
    exists h', FinishErase dbg (mk_mem h lg) s (e_addr e)
        = Ret (mk_mem h' (lg ++ [dcall_of e]),
               set_usage (u64 (s_usage s + (2 ^ 64 - e_charge e))) s, true) /\
      LInv h' (s_lru s) (s_in_use s) (L1 ++ L2) P Z /\ hget h' (e_addr e) = None /\
      frame (own (s_lru s) (s_in_use s) (L1 ++ e :: L2) P Z) h h' /\ tab_same_but (e_addr e) h h'.
  Proof.
    intros I. destruct (l_L _ _ _ _ _ _ _ I e) as [Ve _]; [apply in_app_iff; cbn; auto|].
    pose proof (view_node _ _ _ _ _ _ Ve) as (n & Hn & _ & _ & _ & _ & _ & Hic & _).
    assert (Nz : e_addr e <> 0).
    { intros E. apply (l_nz _ _ _ _ _ _ _ I). rewrite <- E. own_tac. }
    destruct (unlink_idle hashf h lg _ _ L1 e L2 P Z I) as (h1 & U1 & U2 & U3 & U4).
    set (s' := set_usage (u64 (s_usage s + (2 ^ 64 - e_charge e))) s).
    destruct (Unref_zombie hashf dbg h1 lg s' (L1 ++ L2) P Z (set_pins 1 e) [] U2) as (h' & R1 & R2 & R3 & R4 & R5).
    cbn [set_pins e_addr e_pins Nat.eqb] in *. rewrite !app_nil_r in R2.
    exists h'. split; [|split; [exact R2|split; [auto|split]]].
    - unfold FinishErase. apply Nat.eqb_neq in Nz. rewrite Nz.
      rewrite (get_live _ _ _ _ Hn). cbn [bind]. rewrite Hic. unfold assert_ at 1. cbn [negb].
      rewrite andb_false_r. cbn [bind].
      destruct (LRU_Remove (mk_mem h lg) (e_addr e)) as [m| | |] eqn:EL; cbn [bind] in U1 |- *; try discriminate.
      rewrite U1. cbn [bind].
      destruct (l_Z _ _ _ _ _ _ _ U2 (set_pins 1 e)) as [Ve1 _]; [apply in_app_iff; cbn; auto|].
      cbn [set_pins e_addr] in Ve1.
      pose proof (view_node _ _ _ _ _ _ Ve1) as (n1 & Hn1 & _ & _ & Hc1 & _).
      rewrite (get_live _ _ _ _ Hn1). cbn [bind]. cbn [set_pins e_charge] in Hc1. rewrite Hc1. fold s'.
      rewrite R1. cbn [bind]. reflexivity.
    - intros b Hb. rewrite R4; [apply U3; auto|]. intros Hc. apply Hb. own_tac.
    - intros b Hb. destruct (R5 b Hb), (U4 b). split; congruence.
  Qed.

  Lemma FinishErase_pinned dbg h lg s L P1 e P2 Z :
    LInv h (s_lru s) (s_in_use s) L (P1 ++ e :: P2) Z ->
    exists h', FinishErase dbg (mk_mem h lg) s (e_addr e)
        = Ret (mk_mem h' lg, set_usage (u64 (s_usage s + (2 ^ 64 - e_charge e))) s, true) /\
      LInv h' (s_lru s) (s_in_use s) L (P1 ++ P2) (Z ++ [e]) /\
      frame (own (s_lru s) (s_in_use s) L (P1 ++ e :: P2) Z) h h' /\ tab_same_but (e_addr e) h h'.
  Proof.
    intros I. destruct (l_P _ _ _ _ _ _ _ I e) as (Ve & Pe & Be); [apply in_app_iff; cbn; auto|].
    pose proof (view_node _ _ _ _ _ _ Ve) as (n & Hn & _ & _ & _ & _ & _ & Hic & _).
    assert (Nz : e_addr e <> 0).
    { intros E. apply (l_nz _ _ _ _ _ _ _ I). rewrite <- E. own_tac. }
    destruct (unlink_pinned hashf h lg _ _ L P1 e P2 Z I) as (h1 & U1 & U2 & U3 & U4).
    set (s' := set_usage (u64 (s_usage s + (2 ^ 64 - e_charge e))) s).
    destruct (Unref_zombie hashf dbg h1 lg s' L (P1 ++ P2) Z (set_pins (S (e_pins e)) e) [] U2)
      as (h' & R1 & R2 & R3 & R4 & R5).
    cbn [set_pins e_addr e_pins] in *.
    assert (E1 : (S (e_pins e) =? 1) = false) by (apply Nat.eqb_neq; lia).
    rewrite E1 in *. rewrite !app_nil_r in *. rewrite set_pins_twice in R2.
    replace (S (e_pins e) - 1) with (e_pins e) in R2 by lia. rewrite set_pins_same in R2.
    exists h'. split; [|split; [exact R2|split]].
    - unfold FinishErase. apply Nat.eqb_neq in Nz. rewrite Nz.
      rewrite (get_live _ _ _ _ Hn). cbn [bind]. rewrite Hic. unfold assert_ at 1. cbn [negb].
      rewrite andb_false_r. cbn [bind].
      destruct (LRU_Remove (mk_mem h lg) (e_addr e)) as [m| | |] eqn:EL; cbn [bind] in U1 |- *; try discriminate.
      rewrite U1. cbn [bind].
      destruct (l_Z _ _ _ _ _ _ _ U2 (set_pins (S (e_pins e)) e)) as [Ve1 _]; [apply in_app_iff; cbn; auto|].
      cbn [set_pins e_addr] in Ve1.
      pose proof (view_node _ _ _ _ _ _ Ve1) as (n1 & Hn1 & _ & _ & Hc1 & _).
      rewrite (get_live _ _ _ _ Hn1). cbn [bind]. cbn [set_pins e_charge] in Hc1. rewrite Hc1. fold s'.
      rewrite R1. cbn [bind]. reflexivity.
    - intros b Hb. rewrite R4; [apply U3; auto|]. intros Hc. apply Hb. own_tac.
    - intros b Hb. destruct (R5 b Hb), (U4 b). split; congruence.
  Qed.

  Lemma size32 (n : nat) : (N.of_nat n <= 2 ^ 31)%N -> (N.of_nat n < 2 ^ 32)%N.
  Proof. change (2 ^ 31)%N with 2147483648%N. change (2 ^ 32)%N with 4294967296%N. lia. Qed.

  Lemma LInv_heads h s t us L P Z :
    LInv h (s_lru s) (s_in_use s) L P Z ->
    LInv h (s_lru (set_usage us (set_table t s))) (s_in_use (set_usage us (set_table t s))) L P Z.
  Proof. auto. Qed.

  (** Removing an entry from the table and then from the lists. *)
  Definition removal (dbg : bool) (m : mem) (s : shard) (key : bytes) : outcome (mem * shard * bool) :=
    let! r := table_remove dbg m (s_table s) key (hashf key) in
    FinishErase dbg (fst (fst r)) (set_table (snd (fst r)) s) (snd r).

  Lemma addrs_length l : length (addrs l) = length l.
  Proof. apply map_length. Qed.

  Lemma removal_spec dbg h lg s L P Z key :
    Inv h s L P Z ->
    exists h' s' lg' L' P' Z' b, removal dbg (mk_mem h lg) s key = Ret (mk_mem h' (lg ++ lg'), s', b) /\
      Inv h' s' L' P' Z' /\ frame (own (s_lru s) (s_in_use s) L P Z) h h' /\
      s_lru s' = s_lru s /\ s_in_use s' = s_in_use s /\ s_capacity s' = s_capacity s /\
      ((b = false /\ lg' = [] /\ L' = L /\ P' = P /\ Z' = Z /\ (forall e, In e (L ++ P) -> e_key e <> key)) \/
       (exists L1 e L2, b = true /\ L = L1 ++ e :: L2 /\ e_key e = key /\ L' = L1 ++ L2 /\ P' = P /\ Z' = Z /\
          lg' = [dcall_of e] /\ hget h' (e_addr e) = None) \/
       (exists P1 e P2, b = true /\ P = P1 ++ e :: P2 /\ e_key e = key /\ L' = L /\ P' = P1 ++ P2 /\
          Z' = Z ++ [e] /\ lg' = [])).
  Proof.
    intros I. pose proof (i_l _ _ _ _ _ I) as IL. pose proof (i_t _ _ _ _ _ I) as IT.
    unfold removal.
    destruct (table_remove_spec dbg h lg (s_table s) (addrs (L ++ P)) key (hashf key) IT)
      as [[E H]|(h1 & t1 & a & S' & E & Na & Hm & PM & T1 & Sm & Fr)].
    { intros a Ha. eapply LInv_noself; eauto. }
    { rewrite addrs_length. apply size32, (i_size _ _ _ _ _ I). }
    - rewrite E. cbn [bind fst snd]. exists h, s, [], L, P, Z, false.
      unfold FinishErase. cbn [Nat.eqb]. rewrite app_nil_r.
      split; [f_equal; f_equal; f_equal; destruct s; reflexivity|].
      split; [exact I|]. split; [intros a _; reflexivity|]. repeat (split; [reflexivity|]). left.
      repeat (split; [reflexivity|]). intros e He Hk. apply (H (e_addr e)); [now apply in_map|].
      eapply match_key; eauto.
    - rewrite E. cbn [bind fst snd].
      assert (Hin : In a (addrs (L ++ P))) by (eapply Permutation_in; [symmetry; exact PM|cbn; auto]).
      pose proof (LInv_sim_nh hashf h h1 _ _ _ _ _ Sm IL) as IL1.
      assert (Fr1 : frame (own (s_lru s) (s_in_use s) L P Z) h h1).
      { intros b Hb. apply Fr. intros Hc. apply Hb.
        assert (In b (addrs (L ++ P))) by (eapply Permutation_in; [symmetry; exact PM|cbn; auto]). own_tac. }
      destruct (find_ent _ _ _ _ _ _ I Hin) as [(L1 & e & L2 & -> & ->)|(P1 & e & P2 & -> & ->)].
      + assert (Hk : e_key e = key).
        { eapply (match_key h); [exact IL| |exact Hm]. rewrite !in_app_iff; cbn; auto. }
        assert (PE : Permutation ((L1 ++ e :: L2) ++ P) (e :: (L1 ++ L2) ++ P)).
        { rewrite <- app_assoc. cbn. symmetry. rewrite <- app_assoc. apply Permutation_middle. }
        assert (PS : Permutation S' (addrs ((L1 ++ L2) ++ P))).
        { apply (Permutation_cons_inv (a := e_addr e)). eapply Permutation_trans; [symmetry; exact PM|]. apply (Permutation_map e_addr) in PE. exact PE. }
        destruct (FinishErase_idle dbg h1 lg (set_table t1 s) L1 e L2 P Z IL1) as (h' & R1 & R2 & R3 & R4 & R5).
        eexists h', _, [dcall_of e], (L1 ++ L2), P, Z, true. split; [exact R1|].
        split; [|split; [|repeat (split; [reflexivity|]); right; left; eauto 12]].
        * constructor; cbn [set_usage set_table s_lru s_in_use s_table s_usage s_capacity]; auto.
          -- eapply TInv_perm; [exact PS|]. eapply TInv_frame; [|exact T1].
             intros b Hb. apply R5. intros ->.
             pose proof (t_nodup _ _ _ IT) as ND. eapply Permutation_NoDup in ND; [|exact PM].
             inversion ND; auto.
          -- pose proof (perm_keys _ _ PE (i_keys _ _ _ _ _ I)) as K. cbn [map] in K. now inversion K.
          -- rewrite (i_usage _ _ _ _ _ I), (charges_perm _ _ PE), charges_cons.
             apply u64_sub. apply (i_charge _ _ _ _ _ I). rewrite !in_app_iff; cbn; auto.
          -- intros H0. apply (i_cap _ _ _ _ _ I) in H0 as [H0 _]. destruct L1; discriminate.
          -- intros e0 He0. apply (i_charge _ _ _ _ _ I). rewrite !in_app_iff in *; cbn; tauto.
          -- pose proof (i_size _ _ _ _ _ I) as Sz. rewrite (Permutation_length PE) in Sz. cbn [length] in Sz. lia.
        * intros b Hb. rewrite R4; [apply Fr1; auto|]. exact Hb.
      + assert (Hk : e_key e = key).
        { eapply (match_key h); [exact IL| |exact Hm]. rewrite !in_app_iff; cbn; auto. }
        assert (PE : Permutation (L ++ P1 ++ e :: P2) (e :: L ++ P1 ++ P2)).
        { symmetry. rewrite app_assoc. rewrite (app_assoc L P1 (e :: P2)). apply Permutation_middle. }
        assert (PS : Permutation S' (addrs (L ++ P1 ++ P2))).
        { apply (Permutation_cons_inv (a := e_addr e)). eapply Permutation_trans; [symmetry; exact PM|]. apply (Permutation_map e_addr) in PE. exact PE. }
        destruct (FinishErase_pinned dbg h1 lg (set_table t1 s) L P1 e P2 Z IL1) as (h' & R1 & R2 & R3 & R4).
        eexists h', _, [], L, (P1 ++ P2), (Z ++ [e]), true. rewrite app_nil_r. split; [exact R1|].
        split; [|split; [|repeat (split; [reflexivity|]); right; right; eauto 12]].
        * constructor; cbn [set_usage set_table s_lru s_in_use s_table s_usage s_capacity]; auto.
          -- eapply TInv_perm; [exact PS|]. eapply TInv_frame; [|exact T1].
             intros b Hb. apply R4. intros ->.
             pose proof (t_nodup _ _ _ IT) as ND. eapply Permutation_NoDup in ND; [|exact PM].
             inversion ND; auto.
          -- pose proof (perm_keys _ _ PE (i_keys _ _ _ _ _ I)) as K. cbn [map] in K. now inversion K.
          -- rewrite (i_usage _ _ _ _ _ I), (charges_perm _ _ PE), charges_cons.
             apply u64_sub. apply (i_charge _ _ _ _ _ I). rewrite !in_app_iff; cbn; auto.
          -- intros H0. apply (i_cap _ _ _ _ _ I) in H0 as [_ H0]. destruct P1; discriminate.
          -- intros e0 He0. apply (i_charge _ _ _ _ _ I). rewrite !in_app_iff in *; cbn in *; tauto.
          -- pose proof (i_size _ _ _ _ _ I) as Sz. rewrite (Permutation_length PE) in Sz. cbn [length] in Sz. lia.
        * intros b Hb. rewrite R3; [apply Fr1; auto|]. exact Hb.
  Qed.

  (** *** Dropping the oldest idle entry *)
  Lemma drop_oldest_spec dbg h lg s e L P Z :
    Inv h s (e :: L) P Z ->
    exists h' s', drop_oldest dbg (mk_mem h lg) s (e_addr e) = Ret (mk_mem h' (lg ++ [dcall_of e]), s') /\
      Inv h' s' L P Z /\ frame (own (s_lru s) (s_in_use s) (e :: L) P Z) h h' /\
      s_lru s' = s_lru s /\ s_in_use s' = s_in_use s /\ s_capacity s' = s_capacity s /\
      hget h' (e_addr e) = None.
  Proof.
    intros I. pose proof (i_l _ _ _ _ _ I) as IL.
    destruct (l_L _ _ _ _ _ _ _ IL e) as [Ve _]; [cbn; auto|].
    pose proof (view_node _ _ _ _ _ _ Ve) as (n & Hn & _ & _ & _ & Hh & Hk & _ & Hr).
    destruct (removal_spec dbg h lg s (e :: L) P Z (e_key e) I)
      as (h' & s' & lg' & L' & P' & Z' & b & R1 & R2 & R3 & R4 & R5 & R6 & C).
    unfold drop_oldest. rewrite (get_live _ _ _ _ Hn). cbn [bind]. rewrite Hr.
    unfold assert_ at 1. cbn [N.eqb Pos.eqb negb]. rewrite andb_false_r. cbn [bind].
    unfold key_of. rewrite (get_live _ _ _ _ Hn). cbn [bind].
    assert (Sf : (n_next n =? e_addr e) = false).
    { apply Nat.eqb_neq. intros E. eapply LInv_noself; [exact IL| |apply fld_Some; exists n; split; [exact Hn|exact E]].
      cbn. auto. }
    rewrite Sf. cbn [negb]. unfold assert_ at 1. rewrite andb_false_r. cbn [bind].
    rewrite Hh, Hk. unfold removal in R1.
    destruct (table_remove dbg (mk_mem h lg) (s_table s) (e_key e) (hashf (e_key e))) as [r| | |] eqn:ER;
      cbn [bind] in R1 |- *; try discriminate.
    rewrite R1. cbn [bind fst snd].
    assert (NL : NoDup (map e_key ((e :: L) ++ P))) by apply (i_keys _ _ _ _ _ I).
    destruct C as [(-> & -> & -> & -> & -> & H)|[(L1 & e1 & L2 & -> & E1 & E2 & -> & -> & -> & -> & E3)|(P1 & e1 & P2 & -> & E1 & E2 & _)]].
    - exfalso. apply (H e); cbn; auto.
    - assert (e1 = e).
      { eapply key_unique; [exact NL| | |exact E2]; [rewrite E1, !in_app_iff; cbn; auto|cbn; auto]. }
      subst e1.
      assert (L1 = [] /\ L2 = L) as [-> ->].
      { destruct L1 as [|x L1]; cbn in E1; inversion E1; subst; auto. exfalso.
        cbn in NL. inversion NL; subst. apply H1. rewrite map_app, in_app_iff. left. apply in_map, in_app_iff; cbn; auto. }
      unfold assert_. cbn [negb]. rewrite andb_false_r. cbn [bind].
      exists h', s'. cbn [app] in *. auto 10.
    - exfalso. assert (e1 = e).
      { eapply key_unique; [exact NL| | |exact E2]; [rewrite E1, !in_app_iff; cbn; auto|cbn; auto]. }
      subst e1. cbn in NL. inversion NL; subst. apply H1. rewrite map_app, in_app_iff. right.
      apply in_map. rewrite in_app_iff; cbn; auto.
  Qed.

  Lemma drop_next h lg s L P Z :
    Inv h s L P Z -> exists l, get (mk_mem h lg) (s_lru s) = Ret l /\
      n_next l = hd (s_lru s) (addrs L) /\ ((n_next l =? s_lru s) = match L with [] => true | _ => false end).
  Proof.
    intros I. pose proof (l_lru _ _ _ _ _ _ _ (i_l _ _ _ _ _ I)) as D.
    pose proof (dll_head_next _ _ _ D) as Hn. apply fld_Some in Hn as (l & Hl & Hnx).
    exists l. split; [now apply get_live|]. split; [exact Hnx|]. rewrite Hnx.
    destruct L as [|e L]; cbn; [apply Nat.eqb_refl|]. apply Nat.eqb_neq. intros E.
    destruct D as [N _]. inversion N; subst. apply H1. cbn. auto.
  Qed.

  Lemma Inv_idle_length h s L P Z : Inv h s L P Z -> length L <= length h.
  Proof.
    intros I. rewrite <- addrs_length. apply nodup_live_le.
    - pose proof (l_lru _ _ _ _ _ _ _ (i_l _ _ _ _ _ I)) as [N _]. now inversion N.
    - intros a Ha. eapply LInv_live; [apply (i_l _ _ _ _ _ I)|]. own_tac.
  Qed.

  (** *** The eviction loop *)
  Lemma evict_loop_spec dbg L : forall fuel h lg s P Z,
    Inv h s L P Z -> length L < fuel ->
    exists h' s' D L', evict_loop fuel dbg (mk_mem h lg) s = Ret (mk_mem h' (lg ++ map dcall_of D), s') /\
      L = D ++ L' /\ Inv h' s' L' P Z /\ frame (own (s_lru s) (s_in_use s) L P Z) h h' /\
      s_lru s' = s_lru s /\ s_in_use s' = s_in_use s /\ s_capacity s' = s_capacity s /\
      (forall x, In x D -> hget h' (e_addr x) = None) /\
      (L' = [] \/ (u64 (charges (L' ++ P)) <= s_capacity s)%N) /\
      (forall D1 x D2, D = D1 ++ x :: D2 -> (s_capacity s < u64 (charges (x :: D2 ++ L' ++ P)))%N).
  Proof.
    induction L as [|e L IH]; intros fuel h lg s P Z I Hf; destruct fuel as [|fuel]; cbn [length] in Hf; try lia.
    - exists h, s, [], []. cbn [evict_loop map app].
      destruct (drop_next h lg s [] P Z I) as (l & G1 & G2 & G3). rewrite G1. cbn [bind]. rewrite G3, app_nil_r.
      split; [destruct (N.ltb (s_capacity s) (s_usage s)); reflexivity|].
      split; [auto|]. split; [exact I|]. split; [intros a _; reflexivity|].
      repeat (split; [reflexivity|]). split; [intros x []|]. split; [auto|].
      intros D1 x D2 H. destruct D1; discriminate.
    - cbn [evict_loop]. destruct (N.ltb (s_capacity s) (s_usage s)) eqn:Ec.
      + apply N.ltb_lt in Ec.
        destruct (drop_next h lg s (e :: L) P Z I) as (l & G1 & G2 & G3). rewrite G1. cbn [bind]. rewrite G3.
        rewrite G2. cbn [addrs map hd].
        destruct (drop_oldest_spec dbg h lg s e L P Z I) as (h1 & s1 & R1 & R2 & R3 & R4 & R5 & R6 & R7).
        rewrite R1. cbn [bind fst snd].
        destruct (IH fuel h1 (lg ++ [dcall_of e]) s1 P Z R2 ltac:(lia))
          as (h' & s' & D & L' & K1 & K2 & K3 & K4 & K5 & K6 & K7 & K8 & K9 & K10).
        exists h', s', (e :: D), L'. rewrite K1. cbn [map]. rewrite <- app_assoc.
        split; [reflexivity|]. split; [cbn; congruence|]. split; [exact K3|].
        assert (Hne : ~ In (e_addr e) (own (s_lru s1) (s_in_use s1) L P Z)).
        { intros Hc. rewrite R4, R5 in Hc. pose proof (l_nd _ _ _ _ _ _ _ (i_l _ _ _ _ _ I)) as N.
          unfold own in Hc. cnt_go N (e_addr e). }
        split; [|split; [congruence|split; [congruence|split; [congruence|split; [|split; [rewrite <- R6; exact K9|]]]]]].
        * intros a Ha. rewrite K4; [apply R3; auto|]. intros Hc. apply Ha. rewrite R4, R5 in Hc. clear - Hc. own_tac.
        * intros x [<-|Hx]; [|auto]. rewrite K4; auto.
        * intros D1 x D2 H. rewrite <- R6. destruct D1 as [|y D1]; cbn in H; inversion H; subst.
          -- rewrite R6. rewrite (i_usage _ _ _ _ _ I) in Ec. cbn [app] in Ec. rewrite <- app_assoc in Ec. exact Ec.
          -- eapply K10; eauto.
      + apply N.ltb_ge in Ec. exists h, s, [], (e :: L). cbn [map]. rewrite app_nil_r.
        split; [reflexivity|]. split; [auto|]. split; [exact I|]. split; [intros a _; reflexivity|].
        repeat (split; [reflexivity|]). split; [intros x []|]. split.
        * right. rewrite <- (i_usage _ _ _ _ _ I). exact Ec.
        * intros D1 x D2 H. destruct D1; discriminate.
  Qed.

  (** *** Prune *)
  Lemma prune_loop_spec dbg L : forall fuel h lg s P Z,
    Inv h s L P Z -> length L < fuel ->
    exists h' s', prune_loop fuel dbg (mk_mem h lg) s = Ret (mk_mem h' (lg ++ map dcall_of L), s') /\
      Inv h' s' [] P Z /\ frame (own (s_lru s) (s_in_use s) L P Z) h h' /\
      s_lru s' = s_lru s /\ s_in_use s' = s_in_use s /\ s_capacity s' = s_capacity s /\
      (forall x, In x L -> hget h' (e_addr x) = None).
  Proof.
    induction L as [|e L IH]; intros fuel h lg s P Z I Hf; destruct fuel as [|fuel]; cbn [length] in Hf; try lia;
      cbn [prune_loop].
    - exists h, s. destruct (drop_next h lg s [] P Z I) as (l & G1 & G2 & G3). rewrite G1. cbn [bind].
      rewrite G3. cbn [map]. rewrite app_nil_r. split; [reflexivity|]. split; [exact I|].
      split; [intros a _; reflexivity|]. repeat (split; [reflexivity|]). intros x [].
    - destruct (drop_next h lg s (e :: L) P Z I) as (l & G1 & G2 & G3). rewrite G1. cbn [bind]. rewrite G3.
      rewrite G2. cbn [addrs map hd].
      destruct (drop_oldest_spec dbg h lg s e L P Z I) as (h1 & s1 & R1 & R2 & R3 & R4 & R5 & R6 & R7).
      rewrite R1. cbn [bind fst snd].
      destruct (IH fuel h1 (lg ++ [dcall_of e]) s1 P Z R2 ltac:(lia))
        as (h' & s' & K1 & K3 & K4 & K5 & K6 & K7 & K8).
      exists h', s'. rewrite K1. rewrite <- app_assoc.
      split; [reflexivity|]. split; [exact K3|].
      assert (Hne : ~ In (e_addr e) (own (s_lru s1) (s_in_use s1) L P Z)).
      { intros Hc. rewrite R4, R5 in Hc. pose proof (l_nd _ _ _ _ _ _ _ (i_l _ _ _ _ _ I)) as N.
        unfold own in Hc. cnt_go N (e_addr e). }
      split; [|split; [congruence|split; [congruence|split; [congruence|]]]].
      + intros a Ha. rewrite K4; [apply R3; auto|]. intros Hc. apply Ha. rewrite R4, R5 in Hc. clear - Hc. own_tac.
      + intros x [<-|Hx]; [|auto]. rewrite K4; auto.
  Qed.

  Lemma shard_prune_spec dbg h lg s L P Z :
    Inv h s L P Z ->
    exists h' s', shard_prune dbg (mk_mem h lg) s = Ret (mk_mem h' (lg ++ map dcall_of L), s') /\
      Inv h' s' [] P Z /\ frame (own (s_lru s) (s_in_use s) L P Z) h h' /\
      s_lru s' = s_lru s /\ s_in_use s' = s_in_use s /\ s_capacity s' = s_capacity s /\
      (forall x, In x L -> hget h' (e_addr x) = None).
  Proof.
    intros I. unfold shard_prune. cbn [m_heap]. apply prune_loop_spec; auto.
    pose proof (Inv_idle_length _ _ _ _ _ I). lia.
  Qed.

  (** *** Erase *)
  Lemma shard_erase_removal dbg m s key :
    shard_erase dbg m s key (hashf key) = let! r := removal dbg m s key in Ret (fst r).
  Proof.
    unfold shard_erase, removal.
    destruct (table_remove dbg m (s_table s) key (hashf key)) as [r| | |]; reflexivity.
  Qed.

  (** *** Insert *)
  Lemma alloc_LInv h d u L P Z a n :
    LInv h d u L P Z -> hget h a = None -> LInv (hput h a n) d u L P Z.
  Proof.
    intros I Ha. eapply LInv_frame; [|exact I]. intros b Hb.
    assert (b <> a). { intros ->. apply (LInv_live _ _ _ _ _ _ _ _ I Hb). exact Ha. }
    unfold fld. rewrite hget_hput_ne by auto. auto.
  Qed.

  Lemma shard_insert_spec alc dbg h lg s L P Z key val charge del id :
    allocator_ok alc ->
    Inv h s L P Z -> (charge < 2 ^ 64)%N -> (N.of_nat (length (L ++ P)) < 2 ^ 31)%N ->
    let a := alc (dom h) in
    let e := mk_ent a id key val charge del 1 in
    exists h' s' lg' L' P' Z', shard_insert alc dbg (mk_mem h lg) s key (hashf key) val charge del
        = Ret (mk_mem h' (lg ++ lg'), s', a) /\
      Inv h' s' L' P' Z' /\ frame (a :: own (s_lru s) (s_in_use s) L P Z) h h' /\
      s_lru s' = s_lru s /\ s_in_use s' = s_in_use s /\ s_capacity s' = s_capacity s /\
      hget h a = None /\ a <> 0 /\
      ((s_capacity s = 0%N /\ lg' = [] /\ L' = L /\ P' = P /\ Z' = Z ++ [e]) \/
       ((0 < s_capacity s)%N /\ exists L0 P0 Z0 lg0 D,
          (* the old entry for the key leaves the cache *)
          ((L0 = L /\ P0 = P /\ Z0 = Z /\ lg0 = [] /\ (forall x, In x (L ++ P) -> e_key x <> key)) \/
           (exists L1 x L2, L = L1 ++ x :: L2 /\ e_key x = key /\ L0 = L1 ++ L2 /\ P0 = P /\ Z0 = Z /\
              lg0 = [x]) \/
           (exists P1 x P2, P = P1 ++ x :: P2 /\ e_key x = key /\ L0 = L /\ P0 = P1 ++ P2 /\ Z0 = Z ++ [x] /\
              lg0 = [])) /\
          (* the oldest idle entries are evicted *)
          L0 = D ++ L' /\ P' = P0 ++ [e] /\ Z' = Z0 /\ lg' = map dcall_of (lg0 ++ D) /\
          (forall x, In x (lg0 ++ D) -> hget h' (e_addr x) = None) /\
          (L' = [] \/ (u64 (charges (L' ++ P')) <= s_capacity s)%N) /\
          (forall D1 x D2, D = D1 ++ x :: D2 -> (s_capacity s < u64 (charges (x :: D2 ++ L' ++ P')))%N))).
  Proof.
    intros Ha I Hc Hsz a e.
    destruct (Ha (dom h)) as [Hna Hnz]. fold a in Hna, Hnz. apply not_dom_hget in Hna.
    pose proof (i_l _ _ _ _ _ I) as IL. pose proof (i_t _ _ _ _ _ I) as IT.
    assert (Hown : ~ In a (own (s_lru s) (s_in_use s) L P Z)).
    { intros H. apply (LInv_live _ _ _ _ _ _ _ _ IL H). exact Hna. }
    set (n0 := mk_node val del 0 0 0 charge false 1 (hashf key) key).
    set (h0 := hput h a n0).
    assert (Hh0 : forall b, b <> a -> hget h0 b = hget h b) by (intros b Hb; unfold h0; apply hget_hput_ne; auto).
    assert (Hh0a : hget h0 a = Some n0) by (unfold h0; apply hget_hput_eq).
    pose proof (alloc_LInv _ _ _ _ _ _ a n0 IL Hna) as IL0. fold h0 in IL0.
    assert (IT0 : TInv h0 (s_table s) (addrs (L ++ P))).
    { eapply TInv_frame; [|exact IT]. intros b Hb.
      assert (b <> a) by (intros ->; apply Hown; own_tac).
      unfold fld. rewrite Hh0 by auto. auto. }
    unfold shard_insert. cbn [m_heap m_log]. fold a n0 h0.
    destruct (N.ltb 0 (s_capacity s)) eqn:Ecap.
    - apply N.ltb_lt in Ecap.
      rewrite (get_live _ _ _ _ Hh0a). cbn [bind]. rewrite upd_live by (unfold live; congruence). cbn [bind].
      change (u32 (n_refs n0 + 1)) with 2%N.
      set (h1 := hupd h0 a (set_refs 2)). rewrite upd_live by (unfold live, h1; rewrite hupd_live; congruence).
      cbn [bind]. set (h2 := hupd h1 a (set_in_cache true)).
      assert (Hh2 : forall b, b <> a -> hget h2 b = hget h b).
      { intros b Hb. unfold h2, h1. rewrite !hget_hupd_ne by auto. auto. }
      assert (Hh2a : hget h2 a = Some (set_in_cache true (set_refs 2 n0))).
      { unfold h2, h1. rewrite !hget_hupd, !Nat.eqb_refl, Hh0a. reflexivity. }
      assert (IL2 : LInv h2 (s_lru s) (s_in_use s) L P Z).
      { eapply LInv_frame; [|exact IL]. intros b Hb. assert (b <> a) by (intros ->; tauto).
        unfold fld. rewrite Hh2 by auto. auto. }
      destruct (LRU_Append_spec h2 lg (s_in_use s) (addrs P) a) as (h3 & A1 & A2 & A3 & A4).
      { apply (l_use _ _ _ _ _ _ _ IL2). }
      { unfold live; congruence. }
      { intros H. apply Hown. own_tac. }
      rewrite A1. cbn [bind].
      assert (V3 : forall b, fld n_view h3 b = fld n_view h2 b) by (intros b; now apply sim_links_view).
      assert (V3a : fld n_view h3 a = Some (view hashf e true 2)).
      { rewrite V3. unfold fld. rewrite Hh2a. reflexivity. }
      pose proof (l_nd _ _ _ _ _ _ _ IL2) as ND2.
      assert (IL3 : LInv h3 (s_lru s) (s_in_use s) L (P ++ [e]) Z).
      { assert (NDn : NoDup (own (s_lru s) (s_in_use s) L (P ++ [e]) Z)).
        { assert (N1 : NoDup (a :: own (s_lru s) (s_in_use s) L P Z)) by (constructor; auto).
          eapply Permutation_NoDup; [|exact N1]. unfold e; perm_tac. }
        constructor.
        - eapply dll_frame; [|apply (l_lru _ _ _ _ _ _ _ IL2)]. intros b Hb.
          assert (E : hget h3 b = hget h2 b).
          { apply A4. intros Hin. assert (b <> a) by (intros ->; apply Hown; own_tac).
            destruct Hin as [->|Hin]; [tauto|]. clear - ND2 Hb Hin. cnt_go ND2 b. }
          unfold fld. rewrite E. auto.
        - unfold addrs. rewrite map_app. exact A2.
        - intros x Hx. rewrite V3. now apply (l_L _ _ _ _ _ _ _ IL2).
        - intros x Hx. apply in_app_iff in Hx as [Hx|[<-|[]]].
          + rewrite V3. now apply (l_P _ _ _ _ _ _ _ IL2).
          + cbn [e_addr e e_pins]. split; [exact V3a|]. split; [lia|]. vm_compute; reflexivity.
        - intros x Hx. rewrite V3. destruct (l_Z _ _ _ _ _ _ _ IL2 x Hx) as (Z1 & Z2 & Z3 & Z4).
          repeat (split; [auto|]). unfold fld. rewrite A4; [exact Z4|].
          intros Hin. assert (e_addr x <> a) by (intros E; apply Hown; rewrite <- E; apply (in_map e_addr) in Hx; own_tac).
          destruct Hin as [Hin|Hin]; [congruence|]. clear - ND2 Hx Hin. cnt_go ND2 (e_addr x).
        - exact NDn.
        - pose proof (l_nz _ _ _ _ _ _ _ IL2) as Nz. intros H. apply Nz. own_tac.
        }
      assert (Fr3 : frame (a :: own (s_lru s) (s_in_use s) L P Z) h h3).
      { intros b Hb. assert (b <> a) by (intros ->; apply Hb; cbn; auto).
        rewrite A4, Hh2; auto. intros Hin. apply Hb. right. cbn in Hin. destruct Hin as [->|Hin]; [tauto|]. own_tac. }
      assert (TS3 : forall b, b <> a -> fld n_next_hash h3 b = fld n_next_hash h b /\ fld n_hash h3 b = fld n_hash h b).
      { intros b Hb. destruct (sim_links_nh _ _ b A3) as [B1 B2]. rewrite B1, B2. unfold fld. rewrite Hh2 by auto. auto. }
      assert (IT3 : TInv h3 (s_table s) (addrs (L ++ P))).
      { eapply TInv_frame; [|exact IT]. intros b Hb. apply TS3. intros ->; apply Hown; own_tac. }
      set (s1 := set_usage (u64 (s_usage s + charge)) s).
      destruct (table_insert_spec dbg h3 lg (s_table s1) (addrs (L ++ P)) a key (hashf key) IT3)
        as [(h4 & t4 & B1 & B2 & B3 & B4 & B5)|(h4 & t4 & old & S' & B1 & B2 & B3 & B4 & B5 & B6 & B7)].
      { intros b Hb. eapply LInv_noself; [exact IL3|]. unfold addrs in *. rewrite !map_app in *.
        rewrite !in_app_iff in *. tauto. }
      { intros H; apply Hown; own_tac. }
      { exact Hnz. }
      { apply view_node in V3a as (nn & Hnn & _ & _ & _ & K1 & K2 & _). unfold matches, fld. rewrite Hnn. cbn.
        rewrite K1, K2. reflexivity. }
      { eapply LInv_noself; [exact IL3|]. unfold addrs. rewrite !map_app, !in_app_iff. cbn. auto. }
      { rewrite addrs_length. exact Hsz. }
      + (* no old entry *)
        rewrite B1. cbn [bind fst snd]. unfold FinishErase at 1. cbn [Nat.eqb bind fst snd].
        set (s2 := set_table t4 s1).
        assert (Nokey : forall x, In x (L ++ P) -> e_key x <> key).
        { intros x Hx Hk. apply (B2 (e_addr x)); [now apply in_map|].
          eapply (match_key h3); [exact IL3| |exact Hk]. rewrite !in_app_iff in *. tauto. }
        assert (I4 : Inv h4 s2 L (P ++ [e]) Z).
        { constructor; cbn [s2 s1 set_table set_usage s_lru s_in_use s_table s_usage s_capacity]; auto.
          - eapply LInv_sim_nh; eauto.
          - eapply TInv_perm; [|exact B3]. unfold e. perm_tac.
          - rewrite app_assoc, map_app. cbn. apply NoDup_snoc; [apply (i_keys _ _ _ _ _ I)|].
            intros H. apply in_map_iff in H as (x & Hk & Hx). exact (Nokey x Hx Hk).
          - rewrite (i_usage _ _ _ _ _ I), u64_add. f_equal. rewrite !charges_app. cbn. lia.
          - lia.
          - intros x Hx. rewrite !in_app_iff in Hx. cbn in Hx.
            destruct Hx as [Hx|[[Hx|[<-|[]]]|Hx]]; [| |exact Hc|];
              apply (i_charge _ _ _ _ _ I); rewrite !in_app_iff; tauto.
          - rewrite app_assoc, app_length. cbn [length]. lia. }
        destruct (evict_loop_spec dbg L (S (length h4)) h4 lg s2 (P ++ [e]) Z I4)
          as (h' & s' & D & L' & K1 & K2 & K3 & K4 & K5 & K6 & K7 & K8 & K9 & K10).
        { pose proof (Inv_idle_length _ _ _ _ _ I4). lia. }
        cbn [m_heap]. rewrite K1. cbn [bind fst snd].
        exists h', s', (map dcall_of D), L', (P ++ [e]), Z. split; [reflexivity|]. split; [exact K3|].
        split; [|split; [exact K5|split; [exact K6|split; [exact K7|split; [exact Hna|split; [exact Hnz|]]]]]].
        * intros b Hb. rewrite K4; [rewrite B5; [apply Fr3; auto|]|].
          -- intros H. apply Hb. cbn in H. destruct H as [->|H]; [cbn; auto|]. right. own_tac.
          -- intros H. apply Hb. cbn [s2 s1 set_table set_usage s_lru s_in_use] in H. clear - H. unfold e in H. own_tac.
        * right. split; [exact Ecap|]. exists L, P, Z, [], D.
          split; [left; auto 10|]. cbn [app]. repeat (split; [auto|]). exact K10.
      + (* an old entry is replaced *)
        rewrite B1. cbn [bind fst snd]. set (s2 := set_table t4 s1).
        assert (IL4 : LInv h4 (s_lru s) (s_in_use s) L (P ++ [e]) Z) by (eapply LInv_sim_nh; eauto).
        assert (Hin : In old (addrs (L ++ P))) by (eapply Permutation_in; [symmetry; exact B4|cbn; auto]).
        assert (Fr4 : frame (a :: own (s_lru s) (s_in_use s) L P Z) h h4).
        { intros b Hb. rewrite B7; [apply Fr3; auto|]. intros H. apply Hb.
          cbn in H. destruct H as [->|H]; [cbn; auto|]. right.
          assert (In b (addrs (L ++ P))) by (eapply Permutation_in; [symmetry; exact B4|cbn; auto]). own_tac. }
        assert (Hoa : old <> a) by (intros ->; apply Hown; own_tac).
        assert (NDS : NoDup (old :: S')).
        { eapply Permutation_NoDup; [exact B4|]. apply (t_nodup _ _ _ IT). }
        assert (TE : forall h5, tab_same_but old h4 h5 -> TInv h5 t4 (a :: S')).
        { intros h5 H5. eapply TInv_frame; [|exact B5]. intros b Hb. apply H5. intros ->.
          inversion NDS; subst. destruct Hb as [Hb|Hb]; [congruence|tauto]. }
        destruct (find_ent _ _ _ _ _ _ I Hin) as [(L1 & x & L2 & -> & ->)|(P1 & x & P2 & -> & ->)].
        * assert (Hk : e_key x = key).
          { eapply (match_key h3); [exact IL3| |exact B3]. rewrite !in_app_iff; cbn; auto. }
          assert (PE : Permutation ((L1 ++ x :: L2) ++ P) (x :: (L1 ++ L2) ++ P)).
          { rewrite <- app_assoc. cbn. symmetry. rewrite <- app_assoc. apply Permutation_middle. }
          assert (PS : Permutation S' (addrs ((L1 ++ L2) ++ P))).
          { apply (Permutation_cons_inv (a := e_addr x)). eapply Permutation_trans; [symmetry; exact B4|]. apply (Permutation_map e_addr) in PE. exact PE. }
          destruct (FinishErase_idle dbg h4 lg s2 L1 x L2 (P ++ [e]) Z IL4) as (h5 & C1 & C2 & C3 & C4 & C5).
          rewrite C1. cbn [bind fst snd].
          set (s3 := set_usage (u64 (s_usage s2 + (2 ^ 64 - e_charge x))) s2) in *.
          assert (I5 : Inv h5 s3 (L1 ++ L2) (P ++ [e]) Z).
          { constructor; cbn [s3 s2 s1 set_table set_usage s_lru s_in_use s_table s_usage s_capacity]; auto.
            - eapply TInv_perm; [|apply TE; exact C5].
              rewrite PS. unfold e. perm_tac.
            - pose proof (perm_keys _ _ PE (i_keys _ _ _ _ _ I)) as K. cbn [map] in K.
              assert (K2 : NoDup (map e_key (e :: (L1 ++ L2) ++ P))) by (cbn [map e e_key]; rewrite <- Hk; exact K).
              eapply perm_keys; [|exact K2]. rewrite app_assoc. apply Permutation_cons_append.
            - rewrite (i_usage _ _ _ _ _ I), (u64_add (charges _) charge).
              rewrite (charges_perm _ _ PE), charges_cons.
              replace (e_charge x + charges ((L1 ++ L2) ++ P) + charge)%N
                with (e_charge x + charges ((L1 ++ L2) ++ P ++ [e]))%N
                by (rewrite !charges_app; cbn; lia).
              apply u64_sub. apply (i_charge _ _ _ _ _ I). rewrite !in_app_iff; cbn; auto.
            - lia.
            - intros y Hy. rewrite !in_app_iff in Hy. cbn in Hy.
              destruct Hy as [[Hy|Hy]|[[Hy|[<-|[]]]|Hy]]; [| | |exact Hc|];
                apply (i_charge _ _ _ _ _ I); rewrite !in_app_iff; cbn; tauto.
            - pose proof (i_size _ _ _ _ _ I) as Sz. rewrite (Permutation_length PE) in Sz.
              rewrite !app_length in *. cbn [length] in *. rewrite !app_length in Sz. lia. }
          destruct (evict_loop_spec dbg (L1 ++ L2) (S (length h5)) h5 (lg ++ [dcall_of x]) s3 (P ++ [e]) Z I5)
            as (h' & s' & D & L' & K1 & K2 & K3 & K4 & K5 & K6 & K7 & K8 & K9 & K10).
          { pose proof (Inv_idle_length _ _ _ _ _ I5). lia. }
          cbn [m_heap]. rewrite K1. cbn [bind fst snd].
          exists h', s', (map dcall_of (x :: D)), L', (P ++ [e]), Z.
          split; [rewrite <- app_assoc; reflexivity|]. split; [exact K3|].
          split; [|split; [exact K5|split; [exact K6|split; [exact K7|split; [exact Hna|split; [exact Hnz|]]]]]].
          -- intros b Hb. rewrite K4; [rewrite C4; [apply Fr4; auto|]|].
             ++ intros H. apply Hb. clear - H. cbn [s2 s1 set_table set_usage s_lru s_in_use] in H. unfold e in H. own_tac.
             ++ intros H. apply Hb. cbn [s3 s2 s1 set_table set_usage s_lru s_in_use] in H. clear - H. unfold e in H. own_tac.
          -- right. split; [exact Ecap|]. exists (L1 ++ L2), P, Z, [x], D.
             split; [right; left; exists L1, x, L2; auto 10|].
             split; [exact K2|]. split; [reflexivity|]. split; [reflexivity|]. split; [reflexivity|].
             split; [|split; [exact K9|exact K10]].
             intros y [<-|Hy]; [|auto]. rewrite K4; [exact C3|].
             cbn [s3 s2 s1 set_table set_usage s_lru s_in_use]. intros H.
             pose proof (l_nd _ _ _ _ _ _ _ IL) as ND. unfold e in H.
             assert (Hx : e_addr x = a -> False) by auto.
             assert (H' : In (e_addr x) (a :: own (s_lru s) (s_in_use s) (L1 ++ L2) P Z)) by (clear - H; own_tac).
             destruct H' as [H'|H']; [congruence|]. clear - ND H'. unfold own in H'. cnt_go ND (e_addr x).
        * assert (Hk : e_key x = key).
          { eapply (match_key h3); [exact IL3| |exact B3]. rewrite !in_app_iff; cbn; auto. }
          assert (PE : Permutation (L ++ P1 ++ x :: P2) (x :: L ++ P1 ++ P2)).
          { symmetry. rewrite app_assoc. rewrite (app_assoc L P1 (x :: P2)). apply Permutation_middle. }
          assert (PS : Permutation S' (addrs (L ++ P1 ++ P2))).
          { apply (Permutation_cons_inv (a := e_addr x)). eapply Permutation_trans; [symmetry; exact B4|]. apply (Permutation_map e_addr) in PE. exact PE. }
          rewrite <- app_assoc in IL4. cbn [app] in IL4.
          destruct (FinishErase_pinned dbg h4 lg s2 L P1 x (P2 ++ [e]) Z IL4) as (h5 & C1 & C2 & C3 & C4).
          rewrite C1. cbn [bind fst snd].
          set (s3 := set_usage (u64 (s_usage s2 + (2 ^ 64 - e_charge x))) s2) in *.
          assert (I5 : Inv h5 s3 L ((P1 ++ P2) ++ [e]) (Z ++ [x])).
          { rewrite <- (app_assoc P1 P2 [e]).
            constructor; cbn [s3 s2 s1 set_table set_usage s_lru s_in_use s_table s_usage s_capacity]; auto.
            - eapply TInv_perm; [|apply TE; exact C4].
              rewrite PS. unfold e. perm_tac.
            - pose proof (perm_keys _ _ PE (i_keys _ _ _ _ _ I)) as K. cbn [map] in K.
              assert (K2 : NoDup (map e_key (e :: L ++ P1 ++ P2))) by (cbn [map e e_key]; rewrite <- Hk; exact K).
              eapply perm_keys; [|exact K2]. rewrite (app_assoc P1 P2 [e]), (app_assoc L (P1 ++ P2) [e]). apply Permutation_cons_append.
            - rewrite (i_usage _ _ _ _ _ I), (u64_add (charges _) charge).
              rewrite (charges_perm _ _ PE), charges_cons.
              replace (e_charge x + charges (L ++ P1 ++ P2) + charge)%N
                with (e_charge x + charges (L ++ P1 ++ P2 ++ [e]))%N
                by (rewrite !charges_app; cbn; lia).
              apply u64_sub. apply (i_charge _ _ _ _ _ I). rewrite !in_app_iff; cbn; auto.
            - lia.
            - intros y Hy. rewrite !in_app_iff in Hy. cbn in Hy.
              destruct Hy as [Hy|[[Hy|[Hy|[<-|[]]]]|[Hy|[<-|[]]]]]; [| | |exact Hc| |];
                apply (i_charge _ _ _ _ _ I); rewrite !in_app_iff; cbn; tauto.
            - pose proof (i_size _ _ _ _ _ I) as Sz. rewrite (Permutation_length PE) in Sz.
              rewrite !app_length in *. cbn [length] in *. rewrite !app_length in Sz. lia. }
          destruct (evict_loop_spec dbg L (S (length h5)) h5 lg s3 ((P1 ++ P2) ++ [e]) (Z ++ [x]) I5)
            as (h' & s' & D & L' & K1 & K2 & K3 & K4 & K5 & K6 & K7 & K8 & K9 & K10).
          { pose proof (Inv_idle_length _ _ _ _ _ I5). lia. }
          cbn [m_heap]. rewrite K1. cbn [bind fst snd].
          exists h', s', (map dcall_of D), L', ((P1 ++ P2) ++ [e]), (Z ++ [x]).
          split; [reflexivity|]. split; [exact K3|].
          split; [|split; [exact K5|split; [exact K6|split; [exact K7|split; [exact Hna|split; [exact Hnz|]]]]]].
          -- intros b Hb. rewrite K4; [rewrite C3; [apply Fr4; auto|]|].
             ++ intros H. apply Hb. clear - H. cbn [s2 s1 set_table set_usage s_lru s_in_use] in H. unfold e in H. own_tac.
             ++ intros H. apply Hb. cbn [s3 s2 s1 set_table set_usage s_lru s_in_use] in H. clear - H. unfold e in H. own_tac.
          -- right. split; [exact Ecap|]. exists L, (P1 ++ P2), (Z ++ [x]), [], D.
             split; [right; right; exists P1, x, P2; auto 10|].
             split; [exact K2|]. split; [reflexivity|]. split; [reflexivity|]. split; [reflexivity|].
             split; [exact K8|]. split; [exact K9|exact K10].
    - (* capacity 0 *)
      apply N.ltb_ge in Ecap. assert (E0 : s_capacity s = 0%N) by lia.
      destruct (i_cap _ _ _ _ _ I E0) as [-> ->].
      cbn [bind fst snd]. cbn [evict_loop].
      rewrite E0. rewrite (i_usage _ _ _ _ _ I). change (N.ltb 0 (u64 (charges ([] ++ [])))) with false. cbn [bind fst snd].
      exists h0, s, [], [], [], (Z ++ [e]). rewrite app_nil_r. split; [reflexivity|].
      split; [|split; [|repeat (split; [auto|]); left; auto 10]].
      + constructor; auto; try apply I.
        * pose proof (l_nd _ _ _ _ _ _ _ IL) as ND. constructor; try apply IL0.
          -- intros x Hx. apply in_app_iff in Hx as [Hx|[<-|[]]]; [now apply (l_Z _ _ _ _ _ _ _ IL0)|].
             cbn [e e_addr e_pins]. unfold fld. rewrite Hh0a. split; [reflexivity|]. split; [lia|].
             split; [vm_compute; reflexivity|]. cbn. congruence.
          -- assert (N1 : NoDup (a :: own (s_lru s) (s_in_use s) [] [] Z)) by (constructor; auto).
             eapply Permutation_NoDup; [|exact N1]. unfold e; perm_tac.
          -- pose proof (l_nz _ _ _ _ _ _ _ IL) as Nz. intros H. apply Nz. unfold e in H. own_tac.
        * intros x Hx. cbn [app] in Hx. apply in_app_iff in Hx as [Hx|[<-|[]]]; [|exact Hc].
          apply (i_charge _ _ _ _ _ I). cbn. auto.
      + intros b Hb. apply Hh0. intros ->. apply Hb. cbn; auto.
  Qed.
End Ops.
