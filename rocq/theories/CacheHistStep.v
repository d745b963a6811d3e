(** CacheHistStep.v -- every abstract step preserves the history invariant. *)
From Coq Require Import List Arith NArith Lia Bool Permutation Sorted.
From Verif Require Import Outcome Heap Cache CacheSpec CacheRun CacheHeap CacheTable CacheShard CacheShardOps CacheGlobal CacheHist.
Import ListNotations.

Lemma older_ext H H' l : (forall e, In e l -> last_release H' (e_addr e) = last_release H (e_addr e)) ->
  StronglySorted (older H) l -> StronglySorted (older H') l.
Proof. intros E. apply SS_ext. intros x y Hx Hy. unfold older. now rewrite !E. Qed.

Lemma bytes_eqb_neq a b : a <> b -> bytes_eqb a b = false.
Proof. intros N. destruct (bytes_eqb a b) eqn:E; auto. apply bytes_eqb_eq in E. congruence. Qed.
Lemma bytes_eqb_refl a : bytes_eqb a a = true.
Proof. now apply bytes_eqb_eq. Qed.

Definition ent_eq_dec (x y : ent) : {x = y} + {x <> y}.
Proof. decide equality; try apply Nat.eq_dec; try apply N.eq_dec. apply list_eq_dec, N.eq_dec. Defined.
Lemma cnt_cons x l y : count_occ ent_eq_dec (x :: l) y = (if ent_eq_dec x y then 1 else 0) + count_occ ent_eq_dec l y.
Proof. cbn [count_occ]. destruct (ent_eq_dec x y); reflexivity. Qed.
Ltac pm := apply (Permutation_count_occ ent_eq_dec);
  let z := fresh "z" in intros z; unfold ents; cbn [aL aP aZ];
  repeat (rewrite ?count_occ_app, ?cnt_cons); cbn [count_occ]; lia.

Lemma nodup_app {B} (a b : list B) : NoDup a -> NoDup b -> (forall x, In x a -> ~ In x b) -> NoDup (a ++ b).
Proof.
  induction a as [|x a IH]; cbn [app]; intros N1 N2 Hd; auto. apply NoDup_cons_iff in N1 as [N1 N3].
  constructor.
  - rewrite in_app_iff. intros [Hx|Hx]; [tauto|]. apply (Hd x); cbn; auto.
  - apply IH; auto. intros y Hy. apply Hd. cbn; auto.
Qed.

Section Steps.
  Variable hashf : bytes -> N.
  Hypothesis hash32 : forall k, (hashf k < 2 ^ 32)%N.
  Variable sc : N.
  Variable H : history.
  Variable A : astate.
  Hypothesis W : AWf hashf sc A.
  Hypothesis I : HInv sc H A.
  Notation home := (home hashf).

  Lemma in_ents_lp i e : In e (aL (A i) ++ aP (A i)) -> In e (ents (A i)).
  Proof. unfold ents. rewrite !in_app_iff. tauto. Qed.

  Lemma Step_same ev :
    ev_del ev = [] -> (match ev_call ev with CInsert _ _ _ _ => False | _ => True end) ->
    (forall h, held (ev :: H) h = held H h) -> (forall q, ~ returns ev q) ->
    (forall i e, i < 16 -> In e (aL (A i) ++ aP (A i)) -> overwrites ev (e_key e) = false) ->
    (forall h, last_release (ev :: H) h = last_release H h) -> Step sc H A ev [] A.
  Proof.
    intros E1 E2 E3 E4 E5 E6. constructor.
    - exact E1.
    - intros e [].
    - constructor.
    - intros i e Hi He _. exists (e_pins e). now rewrite set_pins_same.
    - intros i e Hi He. left. exists e, (e_pins e). rewrite set_pins_same. auto.
    - intros i e Hi He. rewrite E3. eapply h_held; eauto.
    - intros e [].
    - intros p R. destruct (E4 p R).
    - destruct (ev_call ev); auto. destruct E2.
    - intros i e Hi He. apply superseded_keep; eauto. eapply h_in; eauto.
    - intros i e Hi He. destruct (h_out _ _ _ I i e Hi He) as [E|E]; auto. left. now apply superseded_mono.
    - intros i Hi. eapply older_ext; [|eapply h_lru; eauto]. auto.
  Qed.

  (** One entry's handle count changes, and perhaps its list. *)
  Lemma Step_pins ev i0 e p R x' :
    i0 < 16 -> Permutation (ents (A i0)) (e :: R) -> Permutation (ents x') (set_pins p e :: R) ->
    ev_del ev = [] -> (match ev_call ev with CInsert _ _ _ _ => False | _ => True end) ->
    held (ev :: H) (e_addr e) = p -> (forall h, h <> e_addr e -> held (ev :: H) h = held H h) ->
    (forall q, returns ev q -> q = e_addr e) ->
    (forall k, overwrites ev k = false) ->
    (forall e', In e' (aL x' ++ aP x') -> exists e0 q, In e0 (aL (A i0) ++ aP (A i0)) /\ e' = set_pins q e0) ->
    (forall e', In e' (aZ x') -> exists e0 q, In e0 (aZ (A i0)) /\ e' = set_pins q e0) ->
    (forall h, h <> e_addr e -> last_release (ev :: H) h = last_release H h) ->
    StronglySorted (older (ev :: H)) (aL x') -> Step sc H A ev [] (aupd A i0 x').
  Proof.
    intros Hi0 PA PX E1 E2 E3 E4 E5 E6 E7 E8 E9 E10.
    assert (HeA : In e (ents (A i0))) by (eapply Permutation_in; [symmetry; exact PA|cbn; auto]).
    assert (ND : NoDup (addrs (e :: R))).
    { eapply Permutation_NoDup; [apply Permutation_map; exact PA|]. apply (w_nd _ _ _ W i0 Hi0). }
    assert (HR : forall x, In x R -> In x (ents (A i0)) /\ e_addr x <> e_addr e).
    { intros x Hx. split; [eapply Permutation_in; [symmetry; exact PA|cbn; auto]|].
      intros E. cbn [addrs map] in ND. apply NoDup_cons_iff in ND as [N _]. apply N. rewrite <- E. now apply in_map. }
    assert (Hoth : forall i x, i < 16 -> i <> i0 -> In x (ents (A i)) -> e_addr x <> e_addr e).
    { intros i x Hi Hne Hx E. destruct (w_addr _ _ _ W i i0 x e Hi Hi0 Hx HeA E). auto. }
    constructor.
    - exact E1.
    - intros x [].
    - constructor.
    - intros i x Hi Hx _. destruct (Nat.eq_dec i i0) as [->|Hne].
      + rewrite aupd_eq. apply (Permutation_in _ PA) in Hx as [<-|Hx].
        * exists p. eapply Permutation_in; [symmetry; exact PX|cbn; auto].
        * exists (e_pins x). rewrite set_pins_same. eapply Permutation_in; [symmetry; exact PX|cbn; auto].
      + rewrite aupd_ne by auto. exists (e_pins x). now rewrite set_pins_same.
    - intros i x Hi Hx. left. destruct (Nat.eq_dec i i0) as [->|Hne].
      + rewrite aupd_eq in Hx. apply (Permutation_in _ PX) in Hx as [<-|Hx].
        * exists e, p. auto.
        * exists x, (e_pins x). rewrite set_pins_same. split; [now apply HR|auto].
      + rewrite aupd_ne in Hx by auto. exists x, (e_pins x). rewrite set_pins_same. auto.
    - intros i x Hi Hx. destruct (Nat.eq_dec i i0) as [->|Hne].
      + rewrite aupd_eq in Hx. apply (Permutation_in _ PX) in Hx as [<-|Hx].
        * exact E3.
        * destruct (HR x Hx). rewrite E4 by auto. eapply h_held; eauto.
      + rewrite aupd_ne in Hx by auto. rewrite E4 by eauto. eapply h_held; eauto.
    - intros x [].
    - intros q Q. rewrite (E5 q Q). exists i0, (set_pins p e). rewrite aupd_eq. split; [auto|]. split; [|reflexivity].
      eapply Permutation_in; [symmetry; exact PX|cbn; auto].
    - destruct (ev_call ev); auto. destruct E2.
    - intros i x Hi Hx. apply superseded_keep; auto. destruct (Nat.eq_dec i i0) as [->|Hne].
      + rewrite aupd_eq in Hx. destruct (E7 x Hx) as (e0 & q & He0 & ->). cbn [set_pins e_id e_key]. eapply h_in; eauto.
      + rewrite aupd_ne in Hx by auto. eapply h_in; eauto.
    - intros i x Hi Hx. destruct (Nat.eq_dec i i0) as [->|Hne].
      + rewrite aupd_eq in Hx. destruct (E8 x Hx) as (e0 & q & He0 & ->). cbn [set_pins e_id e_key].
        destruct (h_out _ _ _ I i0 e0 Hi He0) as [E|E]; auto. left. now apply superseded_mono.
      + rewrite aupd_ne in Hx by auto.
        destruct (h_out _ _ _ I i x Hi Hx) as [E|E]; auto. left. now apply superseded_mono.
    - intros i Hi. destruct (Nat.eq_dec i i0) as [->|Hne].
      + now rewrite aupd_eq.
      + rewrite aupd_ne by auto. eapply older_ext; [|eapply h_lru; eauto].
        intros x Hx. apply E9. eapply Hoth; eauto. unfold ents. rewrite in_app_iff; auto.
  Qed.

  (** Entries of one shard are deleted, one may be added, handle counts of the
      others do not change. *)
  Lemma Step_shard ev i0 D K N x' :
    i0 < 16 -> Permutation (ents (A i0)) (D ++ K) -> Permutation (ents x') (N ++ K) ->
    ev_del ev = map dcall_of D ->
    ((N = [] /\ match ev_call ev with CInsert _ _ _ _ => False | _ => True end) \/
     (exists e', N = [e'] /\ e_id e' = length H /\ ev_call ev = CInsert (e_key e') (e_val e') (e_charge e') (e_del e') /\
        ev_res ev = RHandle (e_addr e') /\ (forall j x, j < 16 -> In x (ents (A j)) -> e_addr x <> e_addr e') /\
        held (ev :: H) (e_addr e') = e_pins e')) ->
    (forall e, In e D -> held (ev :: H) (e_addr e) = 0) ->
    (forall i e, i < 16 -> In e (ents (A i)) -> ~ In e D -> held (ev :: H) (e_addr e) = held H (e_addr e)) ->
    (forall q, returns ev q -> exists e', In e' N /\ e_addr e' = q) ->
    (forall i e, i < 16 -> i <> i0 -> In e (ents (A i)) -> overwrites ev (e_key e) = false) ->
    (forall e', In e' (aL x' ++ aP x') -> superseded (ev :: H) (e_id e') (e_key e') = false) ->
    (forall e', In e' (aZ x') -> superseded (ev :: H) (e_id e') (e_key e') = true \/ sc = 0%N) ->
    (forall i e, i < 16 -> i <> i0 -> In e (aL (A i)) -> last_release (ev :: H) (e_addr e) = last_release H (e_addr e)) ->
    StronglySorted (older (ev :: H)) (aL x') -> Step sc H A ev D (aupd A i0 x').
  Proof.
    intros Hi0 PA PX E1 E2 E3 E4 E5 E6 E7 E8 E9 E10.
    assert (ND : NoDup (addrs (D ++ K))).
    { eapply Permutation_NoDup; [apply Permutation_map; exact PA|]. apply (w_nd _ _ _ W i0 Hi0). }
    assert (HDA : forall x, In x D -> In x (ents (A i0))).
    { intros x Hx. eapply Permutation_in; [symmetry; exact PA|]. apply in_app_iff; auto. }
    assert (HK : forall x, In x K -> In x (ents (A i0)) /\ ~ In x D).
    { intros x Hx. split; [eapply Permutation_in; [symmetry; exact PA|]; apply in_app_iff; auto|].
      intros Hd. unfold addrs in ND. rewrite map_app in ND. eapply nodup_app_disj; [exact ND| |]; apply in_map; eauto. }
    assert (Hoth : forall i x, i < 16 -> i <> i0 -> In x (ents (A i)) -> ~ In x D).
    { intros i x Hi Hne Hx Hd. apply HDA in Hd. destruct (w_addr _ _ _ W i i0 x x Hi Hi0 Hx Hd eq_refl). auto. }
    constructor.
    - exact E1.
    - intros x Hx. exists i0. auto.
    - unfold addrs in *. rewrite map_app in ND. eapply NoDup_app_l; eauto.
    - intros i x Hi Hx Hn. exists (e_pins x). rewrite set_pins_same. destruct (Nat.eq_dec i i0) as [->|Hne].
      + rewrite aupd_eq. apply (Permutation_in _ PA) in Hx. apply in_app_iff in Hx as [Hx|Hx]; [tauto|].
        eapply Permutation_in; [symmetry; exact PX|]. apply in_app_iff; auto.
      + now rewrite aupd_ne.
    - intros i x Hi Hx. destruct (Nat.eq_dec i i0) as [->|Hne].
      + rewrite aupd_eq in Hx. apply (Permutation_in _ PX) in Hx. apply in_app_iff in Hx as [Hx|Hx].
        * right. destruct E2 as [[-> _]|(e' & -> & F1 & F2 & F3 & F4 & _)]; [destruct Hx|].
          destruct Hx as [<-|[]]. auto.
        * left. exists x, (e_pins x). rewrite set_pins_same. destruct (HK x Hx). auto.
      + rewrite aupd_ne in Hx by auto. left. exists x, (e_pins x). rewrite set_pins_same. split; [auto|]. split; eauto.
    - intros i x Hi Hx. destruct (Nat.eq_dec i i0) as [->|Hne].
      + rewrite aupd_eq in Hx. apply (Permutation_in _ PX) in Hx. apply in_app_iff in Hx as [Hx|Hx].
        * destruct E2 as [[-> _]|(e' & -> & F1 & F2 & F3 & F4 & F5)]; [destruct Hx|].
          destruct Hx as [<-|[]]. exact F5.
        * destruct (HK x Hx). rewrite (E4 i0); auto. eapply h_held; eauto.
      + rewrite aupd_ne in Hx by auto. rewrite (E4 i); eauto. eapply h_held; eauto.
    - exact E3.
    - intros q Q. destruct (E5 q Q) as (e' & He' & <-). exists i0, e'. rewrite aupd_eq. split; [auto|]. split; [|reflexivity].
      eapply Permutation_in; [symmetry; exact PX|]. apply in_app_iff; auto.
    - destruct E2 as [[_ E2]|(e' & -> & F1 & F2 & _)].
      + destruct (ev_call ev); auto. destruct E2.
      + rewrite F2. exists i0, e'. rewrite aupd_eq. split; [auto|]. split; [|auto].
        eapply Permutation_in; [symmetry; exact PX|]. cbn; auto.
    - intros i x Hi Hx. destruct (Nat.eq_dec i i0) as [->|Hne].
      + rewrite aupd_eq in Hx. auto.
      + rewrite aupd_ne in Hx by auto. apply superseded_keep; [eapply h_in; eauto|]. eapply E6; eauto. now apply in_ents_lp.
    - intros i x Hi Hx. destruct (Nat.eq_dec i i0) as [->|Hne].
      + rewrite aupd_eq in Hx. auto.
      + rewrite aupd_ne in Hx by auto. destruct (h_out _ _ _ I i x Hi Hx) as [E|E]; auto. left. now apply superseded_mono.
    - intros i Hi. destruct (Nat.eq_dec i i0) as [->|Hne].
      + now rewrite aupd_eq.
      + rewrite aupd_ne by auto. eapply older_ext; [|eapply h_lru; eauto]. intros x Hx. eapply E9; eauto.
  Qed.

  Lemma perm_in {B} (l l' : list B) x : Permutation l' l -> In x l -> In x l'.
  Proof. intros P Hx. eapply Permutation_in; [symmetry; exact P|exact Hx]. Qed.

  Lemma rel_held e i : i < 16 -> In e (ents (A i)) -> forall r del,
    held (mk_event (CRelease (e_addr e)) r del :: H) (e_addr e) = e_pins e - 1.
  Proof. intros Hi He r del. cbn [held ev_call]. rewrite Nat.eqb_refl. now rewrite (h_held _ _ _ I i e Hi He). Qed.
  Lemma rel_held_ne h p r del : h <> p -> held (mk_event (CRelease p) r del :: H) h = held H h.
  Proof. intros Hn. cbn [held ev_call]. destruct (Nat.eqb_spec p h); congruence. Qed.
  Lemma lk_held e i k del : i < 16 -> In e (ents (A i)) ->
    held (mk_event (CLookup k) (RHandle (e_addr e)) del :: H) (e_addr e) = S (e_pins e).
  Proof.
    intros Hi He. cbn [held ev_call ev_res]. rewrite Nat.eqb_refl.
    pose proof (w_nz _ _ _ W i e Hi He) as Nz. apply Nat.eqb_neq in Nz. rewrite Nz. cbn [negb andb].
    now rewrite (h_held _ _ _ I i e Hi He).
  Qed.
  Lemma lk_held_ne h p k del : h <> p -> held (mk_event (CLookup k) (RHandle p) del :: H) h = held H h.
  Proof. intros Hn. cbn [held ev_call ev_res]. destruct (Nat.eqb_spec p h); [congruence|]. now rewrite andb_false_r. Qed.
  Lemma ins_held_ne h p k v c d del : h <> p -> held (mk_event (CInsert k v c d) (RHandle p) del :: H) h = held H h.
  Proof. intros Hn. cbn [held ev_call ev_res]. destruct (Nat.eqb_spec p h); [congruence|]. now rewrite andb_false_r. Qed.
  Lemma rel_lr_ne h p r del : h <> p -> last_release (mk_event (CRelease p) r del :: H) h = last_release H h.
  Proof. intros Hn. cbn [last_release ev_call]. destruct (Nat.eqb_spec p h); congruence. Qed.
  Lemma nonempty_H i e : i < 16 -> In e (ents (A i)) -> H <> [].
  Proof. intros Hi He E. pose proof (h_own _ _ _ I i e Hi He) as Ho. rewrite E in Ho. discriminate. Qed.

  (** Nothing idle has the address of an entry that is held. *)
  Lemma idle_ne i j e x : i < 16 -> j < 16 -> In e (aP (A i) ++ aZ (A i)) -> In x (aL (A j)) -> e_addr x <> e_addr e.
  Proof.
    intros Hi Hj He Hx E.
    assert (e_pins x = 0) by (apply (w_idle _ _ _ W j); auto).
    assert (0 < e_pins e) by (apply (w_held _ _ _ W i); auto).
    assert (Hx' : In x (ents (A j))) by (unfold ents; rewrite in_app_iff; auto).
    assert (He' : In e (ents (A i))) by (unfold ents; rewrite in_app_iff; auto).
    destruct (w_addr _ _ _ W j i x e Hj Hi Hx' He' E) as [_ Ex]. subst x. lia.
  Qed.

  Lemma key_other k i e : i < 16 -> i <> home k -> In e (ents (A i)) -> bytes_eqb (e_key e) k = false.
  Proof. intros Hi Hne He. apply bytes_eqb_neq. intros <-. apply Hne. symmetry. now apply (w_home _ _ _ W). Qed.

  Lemma id_lt i e : i < 16 -> In e (ents (A i)) -> e_id e < length H.
  Proof. intros Hi He. eapply owner_lt. eapply h_own; eauto. Qed.

  Ltac inl := rewrite ?in_app_iff in *; cbn [In] in *; tauto.

  Theorem astep_Step x r del A' :
    AWf hashf sc A' -> astep hashf sc (length H) A x r del A' -> exists D, Step sc H A (mk_event x r del) D A'.
  Proof.
    intros W' S.
    destruct S as [k Hk|k e L1 L2 P Z EA Ek|k e L P1 P2 Z EA Ek|i e L P1 P2 Z Hi EA Ep|i e L P1 P2 Z Hi EA Ep
      |i e L P Z1 Z2 Hi EA Ep|i e L P Z1 Z2 Hi EA Ep|i e Hi He|k Hk|k e L1 L2 P Z EA Ek|k e L P1 P2 Z EA Ek| | |i Hi|i Hi|n
      |a k v c d L P Z Ha Hf Hsc EA Hc|a k v c d L P Z L0 P0 Z0 D0 D L' Ha Hf Hsc EA Hc Q QL Q1 Q2].
    - (* miss *)
      exists []. apply Step_same; cbn [ev_del ev_call]; auto.
      intros q. unfold returns. cbn [ev_call ev_res]. intros [E Hq]. inversion E; congruence.
    - (* hit, idle *)
      pose proof (home_lt hashf hash32 k) as Hi. exists [].
      assert (He : In e (ents (A (home k)))) by (rewrite EA; unfold ents; cbn [aL aP aZ]; inl).
      eapply (Step_pins _ (home k) e 1 (L1 ++ L2 ++ P ++ Z)); cbn [ev_del ev_call]; auto.
      + rewrite EA. pm.
      + pm.
      + rewrite (lk_held e (home k)) by auto. f_equal. apply (w_idle _ _ _ W (home k)); auto. rewrite EA. cbn [aL]. inl.
      + intros h Hh. now apply lk_held_ne.
      + intros q. unfold returns. cbn [ev_call ev_res]. intros [E _]. now inversion E.
      + rewrite EA. cbn [aL aP]. intros e' He'. rewrite !in_app_iff in He'. cbn [In] in He'.
        assert (K : e' = set_pins 1 e \/ In e' ((L1 ++ e :: L2) ++ P)).
        { rewrite !in_app_iff. cbn [In]. intuition auto. }
        destruct K as [->|K]; [exists e, 1; split; [inl|auto]|exists e', (e_pins e'); rewrite set_pins_same; auto].
      + rewrite EA. cbn [aZ]. intros e' He'. exists e', (e_pins e'). now rewrite set_pins_same.
      + cbn [aL]. pose proof (h_lru _ _ _ I (home k) Hi) as SS. rewrite EA in SS. cbn [aL] in SS.
        apply SS_remove in SS. eapply older_ext; [|exact SS]. intros x _. reflexivity.
    - (* hit, held *)
      pose proof (home_lt hashf hash32 k) as Hi. exists [].
      assert (He : In e (ents (A (home k)))) by (rewrite EA; unfold ents; cbn [aL aP aZ]; inl).
      eapply (Step_pins _ (home k) e (S (e_pins e)) (L ++ P1 ++ P2 ++ Z)); cbn [ev_del ev_call]; auto.
      + rewrite EA. pm.
      + pm.
      + now apply (lk_held e (home k)).
      + intros h Hh. now apply lk_held_ne.
      + intros q. unfold returns. cbn [ev_call ev_res]. intros [E _]. now inversion E.
      + rewrite EA. cbn [aL aP]. intros e' He'. rewrite !in_app_iff in He'. cbn [In] in He'.
        assert (K : e' = set_pins (S (e_pins e)) e \/ In e' (L ++ P1 ++ e :: P2)).
        { rewrite !in_app_iff. cbn [In]. intuition auto. }
        destruct K as [->|K]; [exists e, (S (e_pins e)); split; [inl|auto]|exists e', (e_pins e'); rewrite set_pins_same; auto].
      + rewrite EA. cbn [aZ]. intros e' He'. exists e', (e_pins e'). now rewrite set_pins_same.
      + cbn [aL]. pose proof (h_lru _ _ _ I (home k) Hi) as SS. rewrite EA in SS. cbn [aL] in SS.
        eapply older_ext; [|exact SS]. intros x _. reflexivity.
    - (* release: becomes idle *)
      exists []. assert (He : In e (ents (A i))) by (rewrite EA; unfold ents; cbn [aL aP aZ]; inl).
      assert (HeP : In e (aP (A i) ++ aZ (A i))) by (rewrite EA; cbn [aP aZ]; inl).
      eapply (Step_pins _ i e 0 (L ++ P1 ++ P2 ++ Z)); cbn [ev_del ev_call]; auto.
      + rewrite EA. pm.
      + pm.
      + rewrite (rel_held e i) by auto. lia.
      + intros h Hh. now apply rel_held_ne.
      + intros q. unfold returns. cbn [ev_call]. tauto.
      + rewrite EA. cbn [aL aP]. intros e' He'. rewrite !in_app_iff in He'. cbn [In] in He'.
        assert (K : e' = set_pins 0 e \/ In e' (L ++ P1 ++ e :: P2)).
        { rewrite !in_app_iff. cbn [In]. intuition auto. }
        destruct K as [->|K]; [exists e, 0; split; [inl|auto]|exists e', (e_pins e'); rewrite set_pins_same; auto].
      + rewrite EA. cbn [aZ]. intros e' He'. exists e', (e_pins e'). now rewrite set_pins_same.
      + intros h Hh. now apply rel_lr_ne.
      + cbn [aL]. pose proof (h_lru _ _ _ I i Hi) as SS. rewrite EA in SS. cbn [aL] in SS.
        assert (Hn : forall x, In x L -> e_addr x <> e_addr e).
        { intros x Hx. apply (idle_ne i i); auto. rewrite EA. exact Hx. }
        apply SS_snoc.
        * eapply older_ext; [|exact SS]. intros x Hx. apply rel_lr_ne; auto.
        * apply Forall_forall. intros x Hx. unfold older. cbn [set_pins e_addr].
          rewrite rel_lr_ne by auto. cbn [last_release ev_call]. rewrite Nat.eqb_refl. apply last_release_lt.
          eapply nonempty_H; eauto.
    - (* release: still held *)
      exists []. assert (He : In e (ents (A i))) by (rewrite EA; unfold ents; cbn [aL aP aZ]; inl).
      assert (HeP : In e (aP (A i) ++ aZ (A i))) by (rewrite EA; cbn [aP aZ]; inl).
      eapply (Step_pins _ i e (e_pins e - 1) (L ++ P1 ++ P2 ++ Z)); cbn [ev_del ev_call]; auto.
      + rewrite EA. pm.
      + pm.
      + now apply (rel_held e i).
      + intros h Hh. now apply rel_held_ne.
      + intros q. unfold returns. cbn [ev_call]. tauto.
      + rewrite EA. cbn [aL aP]. intros e' He'. rewrite !in_app_iff in He'. cbn [In] in He'.
        assert (K : e' = set_pins (e_pins e - 1) e \/ In e' (L ++ P1 ++ e :: P2)).
        { rewrite !in_app_iff. cbn [In]. intuition auto. }
        destruct K as [->|K]; [exists e, (e_pins e - 1); split; [inl|auto]|exists e', (e_pins e'); rewrite set_pins_same; auto].
      + rewrite EA. cbn [aZ]. intros e' He'. exists e', (e_pins e'). now rewrite set_pins_same.
      + intros h Hh. now apply rel_lr_ne.
      + cbn [aL]. pose proof (h_lru _ _ _ I i Hi) as SS. rewrite EA in SS. cbn [aL] in SS.
        eapply older_ext; [|exact SS]. intros x Hx. apply rel_lr_ne. apply (idle_ne i i); auto. rewrite EA. exact Hx.
    - (* release of the last handle of an entry outside the cache *)
      exists [e]. assert (He : In e (ents (A i))) by (rewrite EA; unfold ents; cbn [aL aP aZ]; inl).
      assert (HeP : In e (aP (A i) ++ aZ (A i))) by (rewrite EA; cbn [aP aZ]; inl).
      assert (Hlr : forall j x, j < 16 -> In x (aL (A j)) -> e_addr x <> e_addr e).
      { intros j x Hj Hx. apply (idle_ne i j); auto. }
      eapply (Step_shard _ i [e] (L ++ P ++ Z1 ++ Z2) []); cbn [ev_del ev_call]; auto.
      + rewrite EA. pm.
      + intros x [<-|[]]. rewrite (rel_held e i) by auto. lia.
      + intros j x Hj Hx Hn. apply rel_held_ne. intros E. apply Hn. left.
        now destruct (w_addr _ _ _ W j i x e Hj Hi Hx He E).
      + intros q. unfold returns. cbn [ev_call]. tauto.
      + cbn [aL aP]. intros x Hx. apply superseded_keep; [|reflexivity]. eapply (h_in _ _ _ I i); auto. rewrite EA. exact Hx.
      + cbn [aZ]. intros x Hx. destruct (h_out _ _ _ I i x Hi) as [E|E]; [rewrite EA; cbn [aZ]; inl| |auto].
        left. now apply superseded_mono.
      + intros j x Hj _ Hx. apply rel_lr_ne. eauto.
      + cbn [aL]. pose proof (h_lru _ _ _ I i Hi) as SS. rewrite EA in SS. cbn [aL] in SS.
        eapply older_ext; [|exact SS]. intros x Hx. apply rel_lr_ne. apply (Hlr i); auto. rewrite EA. exact Hx.
    - (* release of an entry outside the cache, still held *)
      exists []. assert (He : In e (ents (A i))) by (rewrite EA; unfold ents; cbn [aL aP aZ]; inl).
      assert (HeP : In e (aP (A i) ++ aZ (A i))) by (rewrite EA; cbn [aP aZ]; inl).
      eapply (Step_pins _ i e (e_pins e - 1) (L ++ P ++ Z1 ++ Z2)); cbn [ev_del ev_call]; auto.
      + rewrite EA. pm.
      + pm.
      + now apply (rel_held e i).
      + intros h Hh. now apply rel_held_ne.
      + intros q. unfold returns. cbn [ev_call]. tauto.
      + rewrite EA. cbn [aL aP]. intros e' He'. exists e', (e_pins e'). now rewrite set_pins_same.
      + rewrite EA. cbn [aZ]. intros e' He'. rewrite !in_app_iff in He'. cbn [In] in He'.
        assert (K : e' = set_pins (e_pins e - 1) e \/ In e' (Z1 ++ e :: Z2)).
        { rewrite !in_app_iff. cbn [In]. intuition auto. }
        destruct K as [->|K]; [exists e, (e_pins e - 1); split; [inl|auto]|exists e', (e_pins e'); rewrite set_pins_same; auto].
      + intros h Hh. now apply rel_lr_ne.
      + cbn [aL]. pose proof (h_lru _ _ _ I i Hi) as SS. rewrite EA in SS. cbn [aL] in SS.
        eapply older_ext; [|exact SS]. intros x Hx. apply rel_lr_ne. apply (idle_ne i i); auto. rewrite EA. exact Hx.
    - (* value *)
      exists []. apply Step_same; cbn [ev_del ev_call]; auto.
    - (* erase, absent *)
      exists []. apply Step_same; cbn [ev_del ev_call]; auto.
      intros i e Hi He. unfold overwrites. cbn [ev_call].
      destruct (Nat.eq_dec i (home k)) as [->|Hne].
      + apply bytes_eqb_neq. auto.
      + apply (key_other k i e); auto. now apply in_ents_lp.
    - (* erase, idle *)
      pose proof (home_lt hashf hash32 k) as Hi. exists [e].
      assert (He : In e (ents (A (home k)))) by (rewrite EA; unfold ents; cbn [aL aP aZ]; inl).
      eapply (Step_shard _ (home k) [e] (L1 ++ L2 ++ P ++ Z) []); cbn [ev_del ev_call]; auto.
      + rewrite EA. pm.
      + pm.
      + intros x [<-|[]]. cbn [held ev_call]. rewrite (h_held _ _ _ I (home k) e Hi He).
        apply (w_idle _ _ _ W (home k)); auto. rewrite EA. cbn [aL]. inl.
      + intros q. unfold returns. cbn [ev_call]. tauto.
      + intros i x Hi' Hne Hx. unfold overwrites. cbn [ev_call]. apply (key_other k i x); auto.
      + cbn [aL aP]. intros x Hx. apply superseded_keep.
        * eapply (h_in _ _ _ I (home k)); auto. rewrite EA. cbn [aL aP]. inl.
        * unfold overwrites. cbn [ev_call]. apply bytes_eqb_neq. intros E.
          pose proof (w_keys _ _ _ W (home k) Hi) as N. rewrite EA in N. cbn [aL aP] in N.
          rewrite <- app_assoc in N. cbn [app] in N.
          eapply (Permutation_NoDup (l' := map e_key (e :: L1 ++ L2 ++ P))) in N; [|apply Permutation_map; pm].
          cbn [map] in N. apply NoDup_cons_iff in N as [N _]. apply N. rewrite Ek, <- E. apply in_map. inl.
      + cbn [aZ]. intros x Hx. destruct (h_out _ _ _ I (home k) x Hi) as [E|E]; [rewrite EA; exact Hx| |auto].
        left. now apply superseded_mono.
      + cbn [aL]. pose proof (h_lru _ _ _ I (home k) Hi) as SS. rewrite EA in SS. cbn [aL] in SS.
        apply SS_remove in SS. eapply older_ext; [|exact SS]. intros x _. reflexivity.
    - (* erase, held *)
      pose proof (home_lt hashf hash32 k) as Hi. exists [].
      assert (He : In e (ents (A (home k)))) by (rewrite EA; unfold ents; cbn [aL aP aZ]; inl).
      eapply (Step_shard _ (home k) [] (L ++ P1 ++ P2 ++ Z ++ [e]) []); cbn [ev_del ev_call]; auto.
      + rewrite EA. pm.
      + pm.
      + intros x [].
      + intros q. unfold returns. cbn [ev_call]. tauto.
      + intros i x Hi' Hne Hx. unfold overwrites. cbn [ev_call]. apply (key_other k i x); auto.
      + cbn [aL aP]. intros x Hx. apply superseded_keep.
        * eapply (h_in _ _ _ I (home k)); auto. rewrite EA. cbn [aL aP]. inl.
        * unfold overwrites. cbn [ev_call]. apply bytes_eqb_neq. intros E.
          pose proof (w_keys _ _ _ W (home k) Hi) as N. rewrite EA in N. cbn [aL aP] in N.
          eapply (Permutation_NoDup (l' := map e_key (e :: L ++ P1 ++ P2))) in N; [|apply Permutation_map; pm].
          cbn [map] in N. apply NoDup_cons_iff in N as [N _]. apply N. rewrite Ek, <- E. apply in_map. inl.
      + cbn [aZ]. intros x Hx. apply in_app_iff in Hx as [Hx|[<-|[]]].
        * destruct (h_out _ _ _ I (home k) x Hi) as [E|E]; [rewrite EA; exact Hx| |auto].
          left. now apply superseded_mono.
        * left. apply superseded_hit; [eapply id_lt; eauto|]. unfold overwrites. cbn [ev_call]. rewrite Ek. apply bytes_eqb_refl.
      + cbn [aL]. pose proof (h_lru _ _ _ I (home k) Hi) as SS. rewrite EA in SS. cbn [aL] in SS.
        eapply older_ext; [|exact SS]. intros x _. reflexivity.
    - (* prune *)
      exists (concat (map (fun i => aL (A i)) (seq 0 16))).
      assert (HIn : forall e, In e (concat (map (fun i => aL (A i)) (seq 0 16))) <-> exists i, i < 16 /\ In e (aL (A i))).
      { intros e. rewrite in_concat. split.
        - intros (l & Hl & He). apply in_map_iff in Hl as (i & <- & Hi). apply in_seq in Hi. exists i. split; [lia|auto].
        - intros (i & Hi & He). exists (aL (A i)). split; [|auto]. apply in_map_iff. exists i. split; [auto|]. apply in_seq. lia. }
      constructor; cbn [ev_del ev_call].
      + rewrite concat_map, map_map. reflexivity.
      + intros e He. apply HIn in He as (i & Hi & He). exists i. split; [auto|]. unfold ents. inl.
      + assert (K : forall m n, n + m <= 16 -> NoDup (addrs (concat (map (fun i => aL (A i)) (seq n m))))).
        { induction m as [|m IH]; intros n Hn; cbn [seq map concat]; [constructor|].
          unfold addrs. rewrite map_app. apply nodup_app.
          - pose proof (w_nd _ _ _ W n ltac:(lia)) as N. unfold ents, addrs in N. rewrite map_app in N. eapply NoDup_app_l; eauto.
          - apply IH. lia.
          - intros a Ha Ha'. apply in_map_iff in Ha as (e & <- & He). apply in_map_iff in Ha' as (e' & Ee & He').
            apply in_concat in He' as (l & Hl & He'). apply in_map_iff in Hl as (j & <- & Hj). apply in_seq in Hj.
            destruct (w_addr _ _ _ W j n e' e) as [E _]; auto; try lia.
            + unfold ents. inl.
            + unfold ents. inl. }
        apply (K 16 0). lia.
      + intros i e Hi He Hn. exists (e_pins e). rewrite set_pins_same. unfold ents in *. cbn [aL aP aZ app] in *.
        rewrite in_app_iff in He. destruct He as [He|He]; auto. exfalso. apply Hn, HIn. eauto.
      + intros i e Hi He. left. exists e, (e_pins e). rewrite set_pins_same. unfold ents in *. cbn [aL aP aZ app] in *.
        split; [inl|]. split; [|reflexivity]. intros Hd. apply HIn in Hd as (j & Hj & Hd).
        exact (idle_ne i j e e Hi Hj He Hd eq_refl).
      + intros i e Hi He. cbn [held ev_call]. eapply (h_held _ _ _ I i); auto. unfold ents in *. cbn [aL aP aZ app] in *. inl.
      + intros e He. apply HIn in He as (i & Hi & He). cbn [held ev_call].
        rewrite (h_held _ _ _ I i e Hi); [eapply (w_idle _ _ _ W); eauto|]. unfold ents. inl.
      + intros q. unfold returns. cbn [ev_call]. tauto.
      + auto.
      + intros i e Hi He. cbn [aL aP app] in He. apply superseded_keep; [|reflexivity]. eapply (h_in _ _ _ I i); auto. inl.
      + intros i e Hi He. cbn [aZ] in He. destruct (h_out _ _ _ I i e Hi He) as [E|E]; [|auto].
        left. now apply superseded_mono.
      + intros i Hi. constructor.
    - (* total *)
      exists []. apply Step_same; cbn [ev_del ev_call]; auto.
    - (* prune one shard *)
      exists (aL (A i)). eapply (Step_shard _ i (aL (A i)) (aP (A i) ++ aZ (A i)) []); cbn [ev_del ev_call ev_res]; auto.
      + intros e He. cbn [held ev_call]. rewrite (h_held _ _ _ I i e Hi); [eapply (w_idle _ _ _ W); eauto|]. unfold ents. inl.
      + intros q. unfold returns. cbn [ev_call]. tauto.
      + cbn [aL aP app]. intros e He. apply superseded_keep; [|reflexivity]. eapply (h_in _ _ _ I i); auto. inl.
      + cbn [aZ]. intros e He. destruct (h_out _ _ _ I i e Hi He) as [E|E]; [|auto]. left. now apply superseded_mono.
      + cbn [aL]. constructor.
    - (* charge of one shard *)
      exists []. apply Step_same; cbn [ev_del ev_call]; auto.
    - (* new id *)
      exists []. apply Step_same; cbn [ev_del ev_call]; auto.
    - (* insert, caching off *)
      pose proof (home_lt hashf hash32 k) as Hi. exists [].
      set (e' := mk_ent a (length H) k v c d 1) in *.
      destruct (w_off _ _ _ W (home k) Hi Hsc) as [EL EP]. rewrite EA in EL, EP. cbn [aL aP] in EL, EP. subst L P.
      assert (Ea : held H a = 0).
      { destruct (Nat.eq_dec (held H a) 0) as [E|E]; auto. exfalso.
        destruct (h_heldin _ _ _ I a ltac:(lia)) as (i & x & Hi' & Hx & E'). exact (Hf i x Hi' Hx E'). }
      eapply (Step_shard _ (home k) [] Z [e']); cbn [ev_del ev_call ev_res]; auto.
      + rewrite EA. pm.
      + pm.
      + right. exists e'. split; [auto|]. split; [reflexivity|]. split; [reflexivity|]. split; [reflexivity|].
        split; [exact Hf|]. cbn [held ev_call ev_res e' e_addr e_pins]. rewrite Nat.eqb_refl.
        apply Nat.eqb_neq in Ha. rewrite Ha. cbn [negb andb]. now rewrite Ea.
      + intros x [].
      + intros i x Hi' Hx _. apply ins_held_ne. eauto.
      + intros q. unfold returns. cbn [ev_call ev_res]. intros [E _]. inversion E; subst q. exists e'. cbn. auto.
      + intros i x Hi' Hne Hx. unfold overwrites. cbn [ev_call]. apply (key_other k i x); auto.
      + cbn [aL aP]. intros x [].
      + cbn [aL]. constructor.
    - (* insert *)
      pose proof (home_lt hashf hash32 k) as Hi. exists (D0 ++ D).
      set (e' := mk_ent a (length H) k v c d 1) in *.
      assert (Ea : held H a = 0).
      { destruct (Nat.eq_dec (held H a) 0) as [E|E]; auto. exfalso.
        destruct (h_heldin _ _ _ I a ltac:(lia)) as (i & x & Hi' & Hx & E'). exact (Hf i x Hi' Hx E'). }
      assert (PA : Permutation (ents (A (home k))) ((D0 ++ D) ++ (L' ++ P0 ++ Z0))).
      { rewrite EA. destruct Q as [(-> & -> & -> & -> & _)|[(L1 & x & L2 & -> & _ & -> & -> & -> & ->)|(P1 & x & P2 & -> & _ & -> & -> & -> & ->)]].
        - rewrite QL. pm.
        - transitivity (x :: (L1 ++ L2) ++ P ++ Z); [pm|]. rewrite QL. pm.
        - rewrite QL. pm. }
      assert (HDL : forall x, In x (D0 ++ D) -> In x L).
      { intros x Hx. apply in_app_iff in Hx.
        destruct Q as [(-> & -> & -> & -> & _)|[(L1 & y & L2 & -> & _ & -> & -> & -> & ->)|(P1 & y & P2 & -> & _ & -> & -> & -> & ->)]].
        - destruct Hx as [[]|Hx]. rewrite QL. inl.
        - destruct Hx as [[<-|[]]|Hx]; [inl|]. assert (In x (L1 ++ L2)) by (rewrite QL; inl). inl.
        - destruct Hx as [[]|Hx]. rewrite QL. inl. }
      assert (HLP : forall x, In x (L' ++ P0) -> In x (L ++ P)).
      { intros x Hx. assert (K : In x (L0 ++ P0)) by (rewrite QL; inl).
        destruct Q as [(-> & -> & _)|[(L1 & y & L2 & -> & _ & -> & -> & _)|(P1 & y & P2 & -> & _ & -> & -> & _)]]; inl. }
      eapply (Step_shard _ (home k) (D0 ++ D) (L' ++ P0 ++ Z0) [e']); cbn [ev_del ev_call ev_res]; auto.
      + pm.
      + right. exists e'. split; [auto|]. split; [reflexivity|]. split; [reflexivity|]. split; [reflexivity|].
        split; [exact Hf|]. cbn [held ev_call ev_res e' e_addr e_pins]. rewrite Nat.eqb_refl.
        apply Nat.eqb_neq in Ha. rewrite Ha. cbn [negb andb]. now rewrite Ea.
      + intros x Hx. apply HDL in Hx. assert (Hx' : In x (ents (A (home k)))) by (rewrite EA; unfold ents; cbn [aL]; inl).
        rewrite ins_held_ne by eauto. rewrite (h_held _ _ _ I (home k) x Hi Hx').
        apply (w_idle _ _ _ W (home k)); auto. rewrite EA. exact Hx.
      + intros i x Hi' Hx _. apply ins_held_ne. eauto.
      + intros q. unfold returns. cbn [ev_call ev_res]. intros [E _]. inversion E; subst q. exists e'. cbn. auto.
      + intros i x Hi' Hne Hx. unfold overwrites. cbn [ev_call]. apply (key_other k i x); auto.
      + cbn [aL aP]. intros x Hx. rewrite app_assoc in Hx. apply in_app_iff in Hx as [Hx|[<-|[]]].
        * apply superseded_keep.
          -- apply (h_in _ _ _ I (home k)); auto. rewrite EA. cbn [aL aP]. auto.
          -- unfold overwrites. cbn [ev_call]. apply bytes_eqb_neq. intros E.
             pose proof (w_keys _ _ _ W' (home k) Hi) as N. rewrite aupd_eq in N. cbn [aL aP] in N.
             rewrite app_assoc, map_app in N. eapply nodup_app_disj; [exact N|apply in_map; exact Hx|]. cbn. auto.
        * apply superseded_new. cbn [length e_id e']. lia.
      + cbn [aZ]. intros x Hx.
        assert (K : In x Z \/ (In x (L ++ P) /\ e_key x = k)).
        { destruct Q as [(_ & _ & -> & _)|[(L1 & y & L2 & _ & _ & _ & _ & -> & _)|(P1 & y & P2 & -> & Ek & _ & _ & -> & _)]]; auto.
          apply in_app_iff in Hx as [Hx|[<-|[]]]; auto. right. split; [inl|auto]. }
        destruct K as [K|[K Ek]].
        * destruct (h_out _ _ _ I (home k) x Hi) as [E|E]; [rewrite EA; exact K| |auto]. left. now apply superseded_mono.
        * left. apply superseded_hit.
          -- apply (id_lt (home k)); auto. rewrite EA. unfold ents. cbn [aL aP aZ]. inl.
          -- unfold overwrites. cbn [ev_call]. rewrite Ek. apply bytes_eqb_refl.
      + cbn [aL]. pose proof (h_lru _ _ _ I (home k) Hi) as SS. rewrite EA in SS. cbn [aL] in SS.
        assert (S0 : StronglySorted (older H) L0).
        { destruct Q as [(-> & _)|[(L1 & y & L2 & -> & _ & -> & _)|(P1 & y & P2 & _ & _ & -> & _)]]; auto. now apply SS_remove in SS. }
        rewrite QL in S0. apply SS_suffix in S0. eapply older_ext; [|exact S0]. intros x _. reflexivity.
  Qed.
End Steps.
