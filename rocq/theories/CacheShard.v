(** CacheShard.v -- one shard of the cache, seen as three lists of entries:
    idle (in the cache, no handle outstanding; oldest first), pinned (in the
    cache, handles outstanding), and zombies (no longer in the cache, handles
    outstanding).  Every operation of the pointer-level model moves entries
    between these lists as described by the lemmas below. *)
From Coq Require Import List Arith NArith Lia Bool Permutation.
From Verif Require Import Outcome Heap Cache CacheHeap CacheTable.
Import ListNotations.
Local Open Scope outcome_scope.

Record ent := mk_ent {
  e_addr : nat; e_id : nat; e_key : bytes; e_val : N; e_charge : N; e_del : N; e_pins : nat }.
Definition set_pins (p : nat) (e : ent) : ent :=
  mk_ent (e_addr e) (e_id e) (e_key e) (e_val e) (e_charge e) (e_del e) p.
Definition addrs (l : list ent) : list nat := map e_addr l.
Definition dcall_of (e : ent) : dcall := mk_dcall (e_addr e) (e_del e) (e_key e) (e_val e).

Definition own (d u : nat) (L P Z : list ent) : list nat := d :: u :: addrs (L ++ P ++ Z).

(** ** Tactics for lists without duplicates *)
Ltac norm_cnt :=
  unfold own, addrs in *; rewrite ?map_app in *; cbn [map app set_pins e_addr] in *;
  rewrite ?count_occ_app in *; cbn [count_occ] in *;
  rewrite ?count_occ_app in *; cbn [count_occ] in *;
  rewrite ?count_occ_app in *; cbn [count_occ] in *.
Ltac perm_tac :=
  apply (Permutation_count_occ Nat.eq_dec); let x := fresh "x" in intros x;
  norm_cnt; repeat match goal with |- context[Nat.eq_dec ?a ?b] => destruct (Nat.eq_dec a b) end; lia.
Ltac nodup_perm N := eapply Permutation_NoDup; [|exact N]; perm_tac.

Lemma cnt_in (l : list nat) x : In x l -> count_occ Nat.eq_dec l x > 0.
Proof. apply (count_occ_In Nat.eq_dec). Qed.
Lemma cnt_in_map (l : list ent) e : In e l -> count_occ Nat.eq_dec (map e_addr l) (e_addr e) > 0.
Proof. intros H. apply cnt_in, in_map, H. Qed.

(** From NoDup, an address cannot occur twice: closes goals whose hypotheses
    put [x] at two places of the list [N] speaks about. *)
Ltac in_cnt :=
  repeat match goal with
  | H : In _ (@cons nat _ _) |- _ => apply cnt_in in H
  | H : In _ (@app nat _ _) |- _ => apply cnt_in in H
  | H : In _ (addrs _) |- _ => apply cnt_in in H
  | H : In _ (map e_addr _) |- _ => apply cnt_in in H
  | H : In _ (@app ent _ _) |- _ => apply cnt_in_map in H
  | H : In _ (@cons ent _ _) |- _ => apply cnt_in_map in H
  | H : @In ent _ _ |- _ => apply cnt_in_map in H
  end.
Ltac cnt_go N x :=
  exfalso;
  let C := fresh "Cnt" in
  pose proof (proj1 (NoDup_count_occ Nat.eq_dec _) N x) as C;
  unfold own in *; in_cnt;
  repeat match goal with H : e_addr _ = e_addr _ |- _ => rewrite H in *; clear H end;
  unfold own in *; norm_cnt; rewrite ?Nat.eqb_refl in *;
  repeat match goal with
  | H : context[Nat.eq_dec ?a ?b] |- _ => destruct (Nat.eq_dec a b)
  end; try congruence; lia.

Ltac own_tac :=
  subst; unfold own, addrs in *; rewrite ?map_app in *; cbn [map app In set_pins e_addr] in *;
  repeat (progress (rewrite ?map_app, ?in_app_iff in *; cbn [map app In set_pins e_addr] in * )); try tauto.

Section Shard.
  Variable hashf : bytes -> N.

  Definition n_view (n : node) :=
    (n_value n, n_deleter n, n_charge n, n_hash n, n_key n, n_in_cache n, n_refs n).
  Definition view (e : ent) (ic : bool) (r : N) :=
    (e_val e, e_del e, e_charge e, hashf (e_key e), e_key e, ic, r).

  Record LInv (h : heap node) (d u : nat) (L P Z : list ent) : Prop := {
    l_lru : dll h d (addrs L);
    l_use : dll h u (addrs P);
    l_L : forall e, In e L -> fld n_view h (e_addr e) = Some (view e true 1) /\ e_pins e = 0;
    l_P : forall e, In e P -> fld n_view h (e_addr e) = Some (view e true (1 + N.of_nat (e_pins e))) /\
                              0 < e_pins e /\ (N.of_nat (e_pins e) < 2 ^ 32 - 1)%N;
    l_Z : forall e, In e Z -> fld n_view h (e_addr e) = Some (view e false (N.of_nat (e_pins e))) /\
                              0 < e_pins e /\ (N.of_nat (e_pins e) < 2 ^ 32)%N /\
                              fld n_next h (e_addr e) <> Some (e_addr e);
    l_nd : NoDup (own d u L P Z);
    l_nz : ~ In 0 (own d u L P Z) }.

  (** [LInv] does not depend on next_hash, nor on nodes it does not own. *)
  Lemma LInv_frame h h' d u L P Z :
    (forall a, In a (own d u L P Z) ->
       fld n_next h' a = fld n_next h a /\ fld n_prev h' a = fld n_prev h a /\
       fld n_view h' a = fld n_view h a) ->
    LInv h d u L P Z -> LInv h' d u L P Z.
  Proof.
    intros F I. assert (Fi : forall e, In e (L ++ P ++ Z) ->
        fld n_next h' (e_addr e) = fld n_next h (e_addr e) /\ fld n_view h' (e_addr e) = fld n_view h (e_addr e)).
    { intros e He. destruct (F (e_addr e)) as (A & B & C); [right; right; now apply in_map|]. auto. }
    constructor; try apply I.
    - eapply dll_frame; [|apply I]. intros a Ha. destruct (F a) as (A & B & C); auto.
      unfold own, addrs in *. rewrite !map_app. cbn in *. rewrite !in_app_iff. tauto.
    - eapply dll_frame; [|apply I]. intros a Ha. destruct (F a) as (A & B & C); auto.
      unfold own, addrs in *. rewrite !map_app. cbn in *. rewrite !in_app_iff. tauto.
    - intros e He. destruct (Fi e) as [_ E]; [rewrite !in_app_iff; auto|]. rewrite E. now apply I.
    - intros e He. destruct (Fi e) as [_ E]; [rewrite !in_app_iff; auto|]. rewrite E. now apply I.
    - intros e He. destruct (Fi e) as [E0 E]; [rewrite !in_app_iff; auto|]. rewrite E, E0. now apply I.
  Qed.

  Lemma LInv_sim_nh h h' d u L P Z : sim strip_nh h h' -> LInv h d u L P Z -> LInv h' d u L P Z.
  Proof.
    intros S. apply LInv_frame. intros a _.
    split; [|split]; apply (sim_fld _ strip_nh h h' a); auto.
  Qed.

  Lemma sim_links_view h h' a : sim strip_links h h' -> fld n_view h' a = fld n_view h a.
  Proof. intros S. apply (sim_fld _ strip_links h h' a); auto. Qed.
  Lemma sim_links_nh h h' a : sim strip_links h h' ->
    fld n_next_hash h' a = fld n_next_hash h a /\ fld n_hash h' a = fld n_hash h a.
  Proof. intros S. split; apply (sim_fld _ strip_links h h' a); auto. Qed.

  Lemma view_live h a v : fld n_view h a = Some v -> live h a.
  Proof. apply fld_live. Qed.

  Lemma LInv_live h d u L P Z a : LInv h d u L P Z -> In a (own d u L P Z) -> live h a.
  Proof.
    intros I [<-|[<-|Ha]].
    - eapply dll_live; [apply (l_lru _ _ _ _ _ _ I)|cbn; auto].
    - eapply dll_live; [apply (l_use _ _ _ _ _ _ I)|cbn; auto].
    - apply in_map_iff in Ha as (e & <- & He). rewrite !in_app_iff in He.
      destruct He as [He|[He|He]].
      + eapply fld_live. apply (l_L _ _ _ _ _ _ I _ He).
      + eapply fld_live. apply (l_P _ _ _ _ _ _ I _ He).
      + eapply fld_live. apply (l_Z _ _ _ _ _ _ I _ He).
  Qed.

  Lemma LInv_noself h d u L P Z a :
    LInv h d u L P Z -> In a (addrs (L ++ P)) -> fld n_next h a <> Some a.
  Proof.
    intros I Ha. unfold addrs in Ha. rewrite map_app in Ha. apply in_app_iff in Ha as [Ha|Ha].
    - eapply dll_next_ne; [apply (l_lru _ _ _ _ _ _ I)|auto].
    - eapply dll_next_ne; [apply (l_use _ _ _ _ _ _ I)|auto].
  Qed.

  Lemma u32_small x : (x < 2 ^ 32)%N -> u32 x = x.
  Proof. apply N.mod_small. Qed.

  (** The node behind an entry. *)
  Lemma view_node h a e ic r : fld n_view h a = Some (view e ic r) ->
    exists n, hget h a = Some n /\ n_value n = e_val e /\ n_deleter n = e_del e /\
      n_charge n = e_charge e /\ n_hash n = hashf (e_key e) /\ n_key n = e_key e /\
      n_in_cache n = ic /\ n_refs n = r.
  Proof.
    intros H. apply fld_Some in H as (n & Hn & Hv). exists n. unfold n_view, view in Hv.
    inversion Hv; subst; auto 10.
  Qed.

  Lemma fld_view_refs h a r e ic r0 :
    fld n_view h a = Some (view e ic r0) -> fld n_view (hupd h a (set_refs r)) a = Some (view e ic r).
  Proof.
    intros H. unfold fld in *. rewrite hget_hupd, Nat.eqb_refl.
    destruct (hget h a) as [n|]; cbn in *; [|discriminate]. f_equal.
    unfold n_view, view in *. cbn. inversion H; subst; auto.
  Qed.
  Lemma fld_view_ic h a ic' e ic r :
    fld n_view h a = Some (view e ic r) -> fld n_view (hupd h a (set_in_cache ic')) a = Some (view e ic' r).
  Proof.
    intros H. unfold fld in *. rewrite hget_hupd, Nat.eqb_refl.
    destruct (hget h a) as [n|]; cbn in *; [|discriminate]. f_equal.
    unfold n_view, view in *. cbn. inversion H; subst; auto.
  Qed.

  (** Frame facts shared by all steps: nodes that are not owned do not move,
      and the table fields of nodes other than a deleted one do not change. *)
  Definition frame (X : list nat) (h h' : heap node) : Prop :=
    forall a, ~ In a X -> hget h' a = hget h a.
  Definition tab_same (h h' : heap node) : Prop :=
    forall a, fld n_next_hash h' a = fld n_next_hash h a /\ fld n_hash h' a = fld n_hash h a.
  Definition tab_same_but (x : nat) (h h' : heap node) : Prop :=
    forall a, a <> x -> fld n_next_hash h' a = fld n_next_hash h a /\ fld n_hash h' a = fld n_hash h a.

  (** Ref on an idle entry: it becomes pinned once. *)
  Lemma Ref_idle h lg s L1 e L2 P Z :
    LInv h (s_lru s) (s_in_use s) (L1 ++ e :: L2) P Z ->
    exists h', Ref (mk_mem h lg) s (e_addr e) = Ret (mk_mem h' lg) /\
      LInv h' (s_lru s) (s_in_use s) (L1 ++ L2) (P ++ [set_pins 1 e]) Z /\
      frame (own (s_lru s) (s_in_use s) (L1 ++ e :: L2) P Z) h h' /\ tab_same h h'.
  Proof.
    intros I. set (d := s_lru s) in *. set (u := s_in_use s) in *.
    pose proof (l_nd _ _ _ _ _ _ I) as N. unfold own in N.
    destruct (l_L _ _ _ _ _ _ I e) as [Ve Pe]; [apply in_app_iff; cbn; auto|].
    pose proof (view_node _ _ _ _ _ Ve) as (n & Hn & _ & _ & _ & _ & _ & Hic & Hr).
    pose proof (l_lru _ _ _ _ _ _ I) as D. unfold addrs in D. rewrite map_app in D. cbn [map] in D.
    destruct (LRU_Remove_spec h lg d _ _ _ D) as (h1 & R1 & R2 & R3 & R4).
    assert (U1 : dll h1 u (addrs P)).
    { eapply dll_frame; [|apply (l_use _ _ _ _ _ _ I)]. intros b Hb.
      assert (E : hget h1 b = hget h b).
      { apply R4. intros Hin.
        cnt_go N b. }
      unfold fld. rewrite E. auto. }
    destruct (LRU_Append_spec h1 lg u (addrs P) (e_addr e)) as (h2 & A1 & A2 & A3 & A4).
    { exact U1. }
    { apply (sim_live _ _ _ _ R3). eapply fld_live; eauto. }
    { intros Hin. cnt_go N (e_addr e). }
    set (h3 := hupd h2 (e_addr e) (set_refs 2)).
    assert (V2 : forall b, fld n_view h2 b = fld n_view h b).
    { intros b. rewrite (sim_links_view h1 h2), (sim_links_view h h1); auto. }
    exists h3. split; [|split; [|split]].
    - unfold Ref. rewrite (get_live _ _ _ _ Hn). cbn [bind]. rewrite Hr, Hic. cbn [N.eqb Pos.eqb andb].
      rewrite R1. cbn [bind]. fold u. rewrite A1. cbn [bind].
      assert (V2a : fld n_view h2 (e_addr e) = Some (view e true 1)) by (rewrite V2; exact Ve).
      pose proof (view_node _ _ _ _ _ V2a) as (n2 & Hn2 & _ & _ & _ & _ & _ & _ & Hr2).
      rewrite (get_live _ _ _ _ Hn2). cbn [bind]. rewrite Hr2. apply upd_live.
      unfold live; congruence.
    - assert (V3 : forall b, b <> e_addr e -> fld n_view h3 b = fld n_view h b).
      { intros b Hb. unfold h3. rewrite fld_hupd_ne by auto. apply V2. }
      assert (K3 : forall b, fld n_next h3 b = fld n_next h2 b /\ fld n_prev h3 b = fld n_prev h2 b).
      { intros b. unfold h3. rewrite !fld_hupd_same by reflexivity. auto. }
      constructor.
      + eapply dll_frame.
        * intros b Hb. destruct (K3 b) as [K3a K3b]. rewrite K3a, K3b.
          assert (E : hget h2 b = hget h1 b).
          { apply A4. intros Hin.
            unfold addrs in Hb. rewrite map_app in Hb. cnt_go N b. }
          unfold fld. rewrite E. auto.
        * unfold addrs. rewrite map_app. exact R2.
      + unfold addrs. rewrite map_app. eapply dll_frame; [|exact A2]. intros b _. apply K3.
      + intros e0 He0. assert (Hin : In e0 (L1 ++ e :: L2)) by (rewrite in_app_iff in *; cbn; tauto).
        rewrite V3; [apply (l_L _ _ _ _ _ _ I); auto|].
        intros E. rewrite in_app_iff in He0. destruct He0; cnt_go N (e_addr e).
      + intros e0 He0. apply in_app_iff in He0 as [He0|[<-|[]]].
        * rewrite V3; [apply (l_P _ _ _ _ _ _ I); auto|].
          intros E. cnt_go N (e_addr e).
        * cbn [set_pins e_addr e_pins]. split; [|cbn; lia].
          eapply fld_view_refs with (e := set_pins 1 e). rewrite V2. exact Ve.
      + intros e0 He0.
        assert (E : e_addr e0 <> e_addr e).
        { intros E. cnt_go N (e_addr e). }
        rewrite V3 by auto. rewrite (proj1 (K3 _)).
        assert (Hno : ~ In (e_addr e0) (e_addr e :: u :: d :: addrs P ++ map e_addr L1 ++ map e_addr L2)).
        { intros Hin. cnt_go N (e_addr e0). }
        assert (E2 : hget h2 (e_addr e0) = hget h (e_addr e0)).
        { rewrite A4, R4; auto; intros Hin; apply Hno; cbn in *; rewrite !in_app_iff in *; tauto. }
        destruct (l_Z _ _ _ _ _ _ I e0 He0) as (Z1 & Z2 & Z3 & Z4).
        split; [auto|]. split; [auto|]. split; [auto|]. unfold fld in *. rewrite E2. auto.
      + unfold own. nodup_perm N.
      + pose proof (l_nz _ _ _ _ _ _ I) as Nz. unfold own, addrs in *. rewrite !map_app in *.
        cbn [map] in *. cbn in *. rewrite !in_app_iff in *. cbn in *. tauto.
    - intros b Hb. unfold h3. rewrite hget_hupd_ne; [rewrite A4, R4; auto|]; intros Hc; apply Hb; own_tac.
    - intros b. unfold h3. rewrite !fld_hupd_same by reflexivity.
      destruct (sim_links_nh _ _ b A3), (sim_links_nh _ _ b R3). split; congruence.
  Qed.

  (** Changing only refs/in_cache of one node. *)
  Lemma view_upd_links h a f :
    (forall n, n_next (f n) = n_next n) -> (forall n, n_prev (f n) = n_prev n) ->
    (forall n, n_next_hash (f n) = n_next_hash n) -> (forall n, n_hash (f n) = n_hash n) ->
    forall b, fld n_next (hupd h a f) b = fld n_next h b /\ fld n_prev (hupd h a f) b = fld n_prev h b /\
      fld n_next_hash (hupd h a f) b = fld n_next_hash h b /\ fld n_hash (hupd h a f) b = fld n_hash h b.
  Proof. intros A B C D b. rewrite !fld_hupd_same by auto. auto. Qed.

  (** Replacing the pin count of a pinned entry. *)
  Lemma LInv_P_pins h h' d u L P1 e P2 Z p :
    LInv h d u L (P1 ++ e :: P2) Z ->
    0 < p -> (N.of_nat p < 2 ^ 32 - 1)%N ->
    h' = hupd h (e_addr e) (set_refs (1 + N.of_nat p)) ->
    LInv h' d u L (P1 ++ set_pins p e :: P2) Z /\
    frame (own d u L (P1 ++ e :: P2) Z) h h' /\ tab_same h h'.
  Proof.
    intros I Hp Hb ->. pose proof (l_nd _ _ _ _ _ _ I) as N.
    pose proof (view_upd_links h (e_addr e) (set_refs (1 + N.of_nat p))
      (fun _ => eq_refl) (fun _ => eq_refl) (fun _ => eq_refl) (fun _ => eq_refl)) as K.
    assert (V : forall b, b <> e_addr e -> fld n_view (hupd h (e_addr e) (set_refs (1 + N.of_nat p))) b = fld n_view h b)
      by (intros b Hne; now apply fld_hupd_ne).
    set (h' := hupd h (e_addr e) (set_refs (1 + N.of_nat p))) in *.
    split; [constructor|split].
    - eapply dll_frame; [|apply (l_lru _ _ _ _ _ _ I)]. intros b _. destruct (K b) as (A & B & _). auto.
    - unfold addrs. rewrite map_app. cbn [map set_pins e_addr].
      pose proof (l_use _ _ _ _ _ _ I) as U. unfold addrs in U. rewrite map_app in U.
      eapply dll_frame; [|exact U]. intros b _. destruct (K b) as (A & B & _). auto.
    - intros e0 He0. rewrite V; [apply (l_L _ _ _ _ _ _ I); auto|].
      intros E. cnt_go N (e_addr e).
    - intros e0 He0. apply in_app_iff in He0 as [He0|[<-|He0]].
      + rewrite V; [apply (l_P _ _ _ _ _ _ I); apply in_app_iff; auto|]. intros E. cnt_go N (e_addr e).
      + cbn [set_pins e_addr e_pins]. split; [|auto].
        destruct (l_P _ _ _ _ _ _ I e) as [Ve _]; [apply in_app_iff; cbn; auto|].
        eapply fld_view_refs with (e := set_pins p e). exact Ve.
      + rewrite V; [apply (l_P _ _ _ _ _ _ I); apply in_app_iff; cbn; auto|]. intros E. cnt_go N (e_addr e).
    - intros e0 He0. assert (Hne : e_addr e0 <> e_addr e) by (intros E; cnt_go N (e_addr e)).
      rewrite V by auto. destruct (K (e_addr e0)) as (A & _). rewrite A. now apply (l_Z _ _ _ _ _ _ I).
    - nodup_perm N.
    - pose proof (l_nz _ _ _ _ _ _ I) as Nz. intros H. apply Nz. own_tac.
    - intros b Hnb. unfold h'. apply hget_hupd_ne. intros Hc; apply Hnb; own_tac.
    - intros b. destruct (K b) as (_ & _ & A & B). auto.
  Qed.

  Lemma Ref_pinned h lg s L P1 e P2 Z :
    LInv h (s_lru s) (s_in_use s) L (P1 ++ e :: P2) Z ->
    (N.of_nat (e_pins e) < 2 ^ 32 - 2)%N ->
    exists h', Ref (mk_mem h lg) s (e_addr e) = Ret (mk_mem h' lg) /\
      LInv h' (s_lru s) (s_in_use s) L (P1 ++ set_pins (S (e_pins e)) e :: P2) Z /\
      frame (own (s_lru s) (s_in_use s) L (P1 ++ e :: P2) Z) h h' /\ tab_same h h'.
  Proof.
    intros I Hp. destruct (l_P _ _ _ _ _ _ I e) as (Ve & Pe & Be); [apply in_app_iff; cbn; auto|].
    pose proof (view_node _ _ _ _ _ Ve) as (n & Hn & _ & _ & _ & _ & _ & Hic & Hr).
    eexists. split; [|eapply LInv_P_pins; eauto; lia].
    unfold Ref. rewrite (get_live _ _ _ _ Hn). cbn [bind].
    assert (E1 : (n_refs n =? 1)%N = false) by (apply N.eqb_neq; lia).
    rewrite E1. cbn [andb bind]. rewrite (get_live _ _ _ _ Hn). cbn [bind].
    rewrite upd_live by (unfold live; congruence). do 4 f_equal. rewrite Hr, u32_small by lia. lia.
  Qed.

  Lemma dec_refs r : (0 < r < 2 ^ 32)%N -> u32 (r + (2 ^ 32 - 1)) = (r - 1)%N.
  Proof.
    intros H. unfold u32. symmetry. apply (N.mod_unique _ _ 1); [lia|].
    change (2 ^ 32)%N with 4294967296%N in *. lia.
  Qed.

  Lemma Unref_pinned_dec dbg h lg s L P1 e P2 Z :
    LInv h (s_lru s) (s_in_use s) L (P1 ++ e :: P2) Z -> 1 < e_pins e ->
    exists h', Unref dbg (mk_mem h lg) s (e_addr e) = Ret (mk_mem h' lg) /\
      LInv h' (s_lru s) (s_in_use s) L (P1 ++ set_pins (e_pins e - 1) e :: P2) Z /\
      frame (own (s_lru s) (s_in_use s) L (P1 ++ e :: P2) Z) h h' /\ tab_same h h'.
  Proof.
    intros I Hp. destruct (l_P _ _ _ _ _ _ I e) as (Ve & Pe & Be); [apply in_app_iff; cbn; auto|].
    pose proof (view_node _ _ _ _ _ Ve) as (n & Hn & _ & _ & _ & _ & _ & Hic & Hr).
    eexists. split; [|eapply (LInv_P_pins _ _ _ _ _ _ _ _ _ (e_pins e - 1)); eauto; lia].
    unfold Unref. rewrite (get_live _ _ _ _ Hn). cbn [bind].
    assert (E0 : (0 <? n_refs n)%N = true) by (apply N.ltb_lt; lia).
    rewrite E0. unfold assert_. cbn [negb]. rewrite andb_false_r. cbn [bind].
    rewrite upd_live by (unfold live; congruence). cbn [bind].
    rewrite Hr, dec_refs by lia.
    replace (1 + N.of_nat (e_pins e) - 1)%N with (1 + N.of_nat (e_pins e - 1))%N by lia.
    set (h' := hupd h (e_addr e) (set_refs (1 + N.of_nat (e_pins e - 1)))).
    assert (Hn' : hget h' (e_addr e) = Some (set_refs (1 + N.of_nat (e_pins e - 1)) n)).
    { unfold h'. rewrite hget_hupd, Nat.eqb_refl, Hn. reflexivity. }
    rewrite (get_live _ _ _ _ Hn'). cbn [bind]. cbn [set_refs n_refs n_in_cache].
    assert (E1 : (1 + N.of_nat (e_pins e - 1) =? 0)%N = false) by (apply N.eqb_neq; lia).
    assert (E2 : (1 + N.of_nat (e_pins e - 1) =? 1)%N = false) by (apply N.eqb_neq; lia).
    rewrite E1, E2, andb_false_r. reflexivity.
  Qed.

  (** Releasing the last handle of a cached entry: it becomes the newest idle one. *)
  Lemma Unref_pinned_last dbg h lg s L P1 e P2 Z :
    LInv h (s_lru s) (s_in_use s) L (P1 ++ e :: P2) Z -> e_pins e = 1 ->
    exists h', Unref dbg (mk_mem h lg) s (e_addr e) = Ret (mk_mem h' lg) /\
      LInv h' (s_lru s) (s_in_use s) (L ++ [set_pins 0 e]) (P1 ++ P2) Z /\
      frame (own (s_lru s) (s_in_use s) L (P1 ++ e :: P2) Z) h h' /\ tab_same h h'.
  Proof.
    intros I Hp. destruct (l_P _ _ _ _ _ _ I e) as (Ve & Pe & Be); [apply in_app_iff; cbn; auto|].
    pose proof (view_node _ _ _ _ _ Ve) as (n & Hn & _ & _ & _ & _ & _ & Hic & Hr).
    set (d := s_lru s) in *. set (u := s_in_use s) in *.
    pose proof (l_nd _ _ _ _ _ _ I) as N.
    rewrite Hp in Ve, Hr. change (1 + N.of_nat 1)%N with 2%N in *.
    set (h0 := hupd h (e_addr e) (set_refs 1)).
    assert (K0 : forall b, fld n_next h0 b = fld n_next h b /\ fld n_prev h0 b = fld n_prev h b /\
      fld n_next_hash h0 b = fld n_next_hash h b /\ fld n_hash h0 b = fld n_hash h b)
      by (apply view_upd_links; auto).
    assert (Ve0 : fld n_view h0 (e_addr e) = Some (view (set_pins 0 e) true 1))
      by (eapply fld_view_refs with (e := set_pins 0 e); exact Ve).
    pose proof (l_use _ _ _ _ _ _ I) as D. unfold addrs in D. rewrite map_app in D. cbn [map] in D.
    assert (D0 : dll h0 u (map e_addr P1 ++ e_addr e :: map e_addr P2)).
    { eapply dll_frame; [|exact D]. intros b _. destruct (K0 b) as (A & B & _). auto. }
    destruct (LRU_Remove_spec h0 lg u _ _ _ D0) as (h1 & R1 & R2 & R3 & R4).
    assert (U1 : dll h1 d (addrs L)).
    { eapply dll_frame; [|apply (l_lru _ _ _ _ _ _ I)]. intros b Hb.
      assert (E : hget h1 b = hget h0 b).
      { apply R4. intros Hin. cnt_go N b. }
      unfold fld at 1 3. rewrite E. destruct (K0 b) as (A & B & _). auto. }
    destruct (LRU_Append_spec h1 lg d (addrs L) (e_addr e)) as (h2 & A1 & A2 & A3 & A4).
    { exact U1. }
    { apply (sim_live _ _ _ _ R3). eapply fld_live; eauto. }
    { intros Hin. cnt_go N (e_addr e). }
    assert (V2 : forall b, fld n_view h2 b = fld n_view h0 b).
    { intros b. rewrite (sim_links_view h1 h2), (sim_links_view h0 h1); auto. }
    assert (V3 : forall b, b <> e_addr e -> fld n_view h2 b = fld n_view h b).
    { intros b Hb. rewrite V2. unfold h0. now apply fld_hupd_ne. }
    exists h2. split; [|split; [constructor|split]].
    - unfold Unref. rewrite (get_live _ _ _ _ Hn). cbn [bind]. rewrite Hr.
      unfold assert_. cbn [N.ltb N.compare negb]. rewrite andb_false_r. cbn [bind].
      rewrite upd_live by (unfold live; congruence). cbn [bind].
      change (u32 (2 + (2 ^ 32 - 1))) with 1%N. fold h0.
      assert (Hn0 : hget h0 (e_addr e) = Some (set_refs 1 n)).
      { unfold h0. rewrite hget_hupd, Nat.eqb_refl, Hn. reflexivity. }
      rewrite (get_live _ _ _ _ Hn0). cbn [bind]. cbn [set_refs n_refs n_in_cache].
      rewrite Hic. cbn [N.eqb Pos.eqb andb]. rewrite R1. cbn [bind]. exact A1.
    - unfold addrs. rewrite map_app. exact A2.
    - unfold addrs. rewrite map_app. eapply dll_frame; [|exact R2]. intros b Hb.
      assert (E : hget h2 b = hget h1 b).
      { apply A4. intros Hin. cnt_go N b. }
      unfold fld. rewrite E. auto.
    - intros e0 He0. apply in_app_iff in He0 as [He0|[<-|[]]].
      + rewrite V3; [apply (l_L _ _ _ _ _ _ I); auto|]. intros E. cnt_go N (e_addr e).
      + cbn [set_pins e_addr e_pins]. split; [|auto]. rewrite V2. exact Ve0.
    - intros e0 He0. rewrite V3; [apply (l_P _ _ _ _ _ _ I); rewrite in_app_iff in *; cbn; tauto|].
      intros E. cnt_go N (e_addr e).
    - intros e0 He0. assert (E : e_addr e0 <> e_addr e) by (intros E; cnt_go N (e_addr e)).
      rewrite V3 by auto. destruct (l_Z _ _ _ _ _ _ I e0 He0) as (Z1 & Z2 & Z3 & Z4).
      split; [auto|]. split; [auto|]. split; [auto|].
      assert (E2 : hget h2 (e_addr e0) = hget h0 (e_addr e0)).
      { rewrite A4, R4; auto; intros Hin; cnt_go N (e_addr e0). }
      unfold fld at 1. rewrite E2. destruct (K0 (e_addr e0)) as (A & _). unfold fld in *. rewrite A. auto.
    - nodup_perm N.
    - pose proof (l_nz _ _ _ _ _ _ I) as Nz. intros H. apply Nz. own_tac.
    - intros b Hb. rewrite A4, R4.
      + unfold h0. apply hget_hupd_ne. intros Hc; apply Hb; own_tac.
      + intros Hc; apply Hb; own_tac.
      + intros Hc; apply Hb; own_tac.
    - intros b. destruct (sim_links_nh _ _ b A3), (sim_links_nh _ _ b R3), (K0 b) as (_ & _ & A & B).
      split; congruence.
  Qed.

  (** Zombies. *)
  Lemma Unref_zombie dbg h lg s L P Z1 e Z2 :
    LInv h (s_lru s) (s_in_use s) L P (Z1 ++ e :: Z2) ->
    exists h', Unref dbg (mk_mem h lg) s (e_addr e)
        = Ret (mk_mem h' (lg ++ if e_pins e =? 1 then [dcall_of e] else [])) /\
      LInv h' (s_lru s) (s_in_use s) L P
        (Z1 ++ (if e_pins e =? 1 then [] else [set_pins (e_pins e - 1) e]) ++ Z2) /\
      (e_pins e = 1 -> hget h' (e_addr e) = None) /\
      frame (own (s_lru s) (s_in_use s) L P (Z1 ++ e :: Z2)) h h' /\ tab_same_but (e_addr e) h h'.
  Proof.
    intros I. destruct (l_Z _ _ _ _ _ _ I e) as (Ve & Pe & Be & Se); [apply in_app_iff; cbn; auto|].
    pose proof (view_node _ _ _ _ _ Ve) as (n & Hn & Hv & Hd & _ & _ & Hk & Hic & Hr).
    set (d := s_lru s) in *. set (u := s_in_use s) in *.
    pose proof (l_nd _ _ _ _ _ _ I) as N.
    set (p := e_pins e) in *.
    set (h0 := hupd h (e_addr e) (set_refs (N.of_nat (p - 1)))).
    assert (Hn0 : hget h0 (e_addr e) = Some (set_refs (N.of_nat (p - 1)) n)).
    { unfold h0. rewrite hget_hupd, Nat.eqb_refl, Hn. reflexivity. }
    assert (K0 : forall b, fld n_next h0 b = fld n_next h b /\ fld n_prev h0 b = fld n_prev h b /\
      fld n_next_hash h0 b = fld n_next_hash h b /\ fld n_hash h0 b = fld n_hash h b)
      by (apply view_upd_links; auto).
    assert (HN : forall b, b <> e_addr e -> hget h0 b = hget h b) by (intros b Hb; now apply hget_hupd_ne).
    assert (Hrun : Unref dbg (mk_mem h lg) s (e_addr e) =
      Ret (if p =? 1 then mk_mem (hdel h0 (e_addr e)) (lg ++ [dcall_of e]) else mk_mem h0 lg)).
    { unfold Unref. rewrite (get_live _ _ _ _ Hn). cbn [bind].
      assert (E0 : (0 <? n_refs n)%N = true) by (apply N.ltb_lt; lia).
      rewrite E0. unfold assert_. cbn [negb]. rewrite andb_false_r. cbn [bind].
      rewrite upd_live by (unfold live; congruence). cbn [bind].
      rewrite Hr, dec_refs by lia. replace (N.of_nat p - 1)%N with (N.of_nat (p - 1)) by lia. fold h0.
      rewrite (get_live _ _ _ _ Hn0). cbn [bind]. cbn [set_refs n_refs n_in_cache].
      rewrite Hic. cbn [negb andb]. rewrite andb_false_r. cbn [bind].
      destruct (p =? 1) eqn:E1.
      - apply Nat.eqb_eq in E1. rewrite E1. cbn [Nat.sub N.of_nat N.eqb].
        unfold key_of. rewrite (get_live _ _ _ _ Hn0). cbn [bind]. cbn [set_refs n_next n_key].
        assert (E2 : (n_next n =? e_addr e) = false).
        { apply Nat.eqb_neq. intros E. apply Se. apply fld_Some; eauto. }
        rewrite E2. cbn [negb]. unfold assert_. rewrite andb_false_r. cbn [bind m_heap m_log].
        unfold dcall_of. cbn [set_refs n_deleter n_value n_key]. now rewrite Hv, Hd, Hk.
      - apply Nat.eqb_neq in E1.
        assert (E2 : (N.of_nat (p - 1) =? 0)%N = false) by (apply N.eqb_neq; lia).
        rewrite E2. reflexivity. }
    rewrite Hrun. destruct (p =? 1) eqn:E1.
    - apply Nat.eqb_eq in E1.
      set (h' := hdel h0 (e_addr e)).
      assert (H' : forall b, b <> e_addr e -> hget h' b = hget h b).
      { intros b Hb. unfold h'. rewrite hget_hdel_ne by auto. auto. }
      exists h'. split; [reflexivity|]. cbn [app]. split; [|split; [|split]].
      + assert (Hin : forall a, In a (own d u L P (Z1 ++ Z2)) -> a <> e_addr e).
        { intros b Hb ->. cnt_go N (e_addr e). }
        assert (I2 : LInv h d u L P (Z1 ++ Z2)).
        { constructor; try apply I.
          - intros e0 He0. apply (l_Z _ _ _ _ _ _ I). rewrite in_app_iff in *; cbn; tauto.
          - assert (N1 : NoDup (e_addr e :: own d u L P (Z1 ++ Z2))) by (unfold own in *; nodup_perm N).
            now inversion N1.
          - pose proof (l_nz _ _ _ _ _ _ I) as Nz. intros H. apply Nz. own_tac. }
        eapply LInv_frame; [|exact I2]. intros b Hb. unfold fld. rewrite H' by auto. auto.
      + intros _. unfold h'. apply hget_hdel_eq.
      + intros b Hb. apply H'. intros Hc; apply Hb; own_tac.
      + intros b Hb. unfold fld. rewrite H' by auto. auto.
    - apply Nat.eqb_neq in E1. rewrite app_nil_r. exists h0. split; [reflexivity|].
      cbn [app]. split; [constructor|split; [|split]].
      + eapply dll_frame; [|apply (l_lru _ _ _ _ _ _ I)]. intros b _. destruct (K0 b) as (A & B & _). auto.
      + eapply dll_frame; [|apply (l_use _ _ _ _ _ _ I)]. intros b _. destruct (K0 b) as (A & B & _). auto.
      + intros e0 He0. unfold fld. rewrite HN; [apply (l_L _ _ _ _ _ _ I); auto|]. intros E. cnt_go N (e_addr e).
      + intros e0 He0. unfold fld. rewrite HN; [apply (l_P _ _ _ _ _ _ I); auto|]. intros E. cnt_go N (e_addr e).
      + intros e0 He0. apply in_app_iff in He0 as [He0|[<-|He0]].
        * unfold fld. rewrite HN; [apply (l_Z _ _ _ _ _ _ I); apply in_app_iff; auto|]. intros E. cnt_go N (e_addr e).
        * cbn [set_pins e_addr e_pins]. split; [|split; [lia|split; [lia|]]].
          -- eapply fld_view_refs with (e := set_pins (p - 1) e). exact Ve.
          -- destruct (K0 (e_addr e)) as (A & _). rewrite A. exact Se.
        * unfold fld. rewrite HN; [apply (l_Z _ _ _ _ _ _ I); apply in_app_iff; cbn; auto|]. intros E. cnt_go N (e_addr e).
      + nodup_perm N.
      + pose proof (l_nz _ _ _ _ _ _ I) as Nz. intros H. apply Nz. own_tac.
      + intros; lia.
      + intros b Hb. apply HN. intros Hc; apply Hb; own_tac.
      + intros b _. destruct (K0 b) as (_ & _ & A & B). auto.
  Qed.

  (** Taking an entry off its list and clearing in_cache turns it into a zombie
      holding one more reference (the cache's own). *)
  Lemma unlink_idle h lg d u L1 e L2 P Z :
    LInv h d u (L1 ++ e :: L2) P Z ->
    exists h', (let! m := LRU_Remove (mk_mem h lg) (e_addr e) in upd m (e_addr e) (set_in_cache false))
        = Ret (mk_mem h' lg) /\
      LInv h' d u (L1 ++ L2) P (Z ++ [set_pins 1 e]) /\
      frame (own d u (L1 ++ e :: L2) P Z) h h' /\ tab_same h h'.
  Proof.
    intros I. pose proof (l_nd _ _ _ _ _ _ I) as N.
    destruct (l_L _ _ _ _ _ _ I e) as [Ve Pe]; [apply in_app_iff; cbn; auto|].
    pose proof (l_lru _ _ _ _ _ _ I) as D.
    assert (Sf : fld n_next h (e_addr e) <> Some (e_addr e)).
    { eapply dll_next_ne; [exact D|]. apply in_map, in_app_iff; cbn; auto. }
    unfold addrs in D. rewrite map_app in D. cbn [map] in D.
    destruct (LRU_Remove_spec h lg d _ _ _ D) as (h1 & R1 & R2 & R3 & R4).
    assert (V1 : forall b, fld n_view h1 b = fld n_view h b) by (intros b; now apply sim_links_view).
    set (h' := hupd h1 (e_addr e) (set_in_cache false)).
    assert (K0 : forall b, fld n_next h' b = fld n_next h1 b /\ fld n_prev h' b = fld n_prev h1 b /\
      fld n_next_hash h' b = fld n_next_hash h1 b /\ fld n_hash h' b = fld n_hash h1 b)
      by (apply view_upd_links; auto).
    assert (V2 : forall b, b <> e_addr e -> fld n_view h' b = fld n_view h b).
    { intros b Hb. unfold h'. rewrite fld_hupd_ne by auto. apply V1. }
    assert (E1 : forall b, ~ In b (d :: map e_addr L1 ++ map e_addr L2) -> fld n_next h' b = fld n_next h b /\ fld n_prev h' b = fld n_prev h b).
    { intros b Hb. destruct (K0 b) as (A & B & _). rewrite A, B. unfold fld. rewrite R4 by auto. auto. }
    exists h'. split; [|split; [constructor|split]].
    - rewrite R1. cbn [bind]. apply upd_live. apply (sim_live _ _ _ _ R3). eapply fld_live; eauto.
    - unfold addrs. rewrite map_app. eapply dll_frame; [|exact R2].
      intros b _. destruct (K0 b) as (A & B & _). auto.
    - eapply dll_frame; [|apply (l_use _ _ _ _ _ _ I)]. intros b Hb. apply E1. intros Hin. cnt_go N b.
    - intros e0 He0. rewrite V2; [apply (l_L _ _ _ _ _ _ I); rewrite in_app_iff in *; cbn; tauto|].
      intros E. cnt_go N (e_addr e).
    - intros e0 He0. rewrite V2; [apply (l_P _ _ _ _ _ _ I); auto|]. intros E. cnt_go N (e_addr e).
    - intros e0 He0. apply in_app_iff in He0 as [He0|[<-|[]]].
      + assert (E : e_addr e0 <> e_addr e) by (intros E; cnt_go N (e_addr e)).
        rewrite V2 by auto. destruct (l_Z _ _ _ _ _ _ I e0 He0) as (Z1 & Z2 & Z3 & Z4).
        split; [auto|]. split; [auto|]. split; [auto|].
        rewrite (proj1 (E1 (e_addr e0) ltac:(intros Hin; cnt_go N (e_addr e0)))). auto.
      + cbn [set_pins e_addr e_pins]. split; [|split; [lia|split; [lia|]]].
        * eapply fld_view_ic with (e := set_pins 1 e) (ic := true). rewrite V1. exact Ve.
        * rewrite (proj1 (E1 (e_addr e) ltac:(intros Hin; cnt_go N (e_addr e)))). auto.
    - nodup_perm N.
    - pose proof (l_nz _ _ _ _ _ _ I) as Nz. intros H. apply Nz. own_tac.
    - intros b Hb. unfold h'. rewrite hget_hupd_ne; [apply R4|]; intros Hc; apply Hb; own_tac.
    - intros b. destruct (K0 b) as (_ & _ & A & B). destruct (sim_links_nh _ _ b R3). split; congruence.
  Qed.

  Lemma unlink_pinned h lg d u L P1 e P2 Z :
    LInv h d u L (P1 ++ e :: P2) Z ->
    exists h', (let! m := LRU_Remove (mk_mem h lg) (e_addr e) in upd m (e_addr e) (set_in_cache false))
        = Ret (mk_mem h' lg) /\
      LInv h' d u L (P1 ++ P2) (Z ++ [set_pins (S (e_pins e)) e]) /\
      frame (own d u L (P1 ++ e :: P2) Z) h h' /\ tab_same h h'.
  Proof.
    intros I. pose proof (l_nd _ _ _ _ _ _ I) as N.
    destruct (l_P _ _ _ _ _ _ I e) as (Ve & Pe & Be); [apply in_app_iff; cbn; auto|].
    pose proof (l_use _ _ _ _ _ _ I) as D.
    assert (Sf : fld n_next h (e_addr e) <> Some (e_addr e)).
    { eapply dll_next_ne; [exact D|]. apply in_map, in_app_iff; cbn; auto. }
    unfold addrs in D. rewrite map_app in D. cbn [map] in D.
    destruct (LRU_Remove_spec h lg u _ _ _ D) as (h1 & R1 & R2 & R3 & R4).
    assert (V1 : forall b, fld n_view h1 b = fld n_view h b) by (intros b; now apply sim_links_view).
    set (h' := hupd h1 (e_addr e) (set_in_cache false)).
    assert (K0 : forall b, fld n_next h' b = fld n_next h1 b /\ fld n_prev h' b = fld n_prev h1 b /\
      fld n_next_hash h' b = fld n_next_hash h1 b /\ fld n_hash h' b = fld n_hash h1 b)
      by (apply view_upd_links; auto).
    assert (V2 : forall b, b <> e_addr e -> fld n_view h' b = fld n_view h b).
    { intros b Hb. unfold h'. rewrite fld_hupd_ne by auto. apply V1. }
    assert (E1 : forall b, ~ In b (u :: map e_addr P1 ++ map e_addr P2) -> fld n_next h' b = fld n_next h b /\ fld n_prev h' b = fld n_prev h b).
    { intros b Hb. destruct (K0 b) as (A & B & _). rewrite A, B. unfold fld. rewrite R4 by auto. auto. }
    exists h'. split; [|split; [constructor|split]].
    - rewrite R1. cbn [bind]. apply upd_live. apply (sim_live _ _ _ _ R3). eapply fld_live; eauto.
    - eapply dll_frame; [|apply (l_lru _ _ _ _ _ _ I)]. intros b Hb. apply E1. intros Hin. cnt_go N b.
    - unfold addrs. rewrite map_app. eapply dll_frame; [|exact R2].
      intros b _. destruct (K0 b) as (A & B & _). auto.
    - intros e0 He0. rewrite V2; [apply (l_L _ _ _ _ _ _ I); auto|]. intros E. cnt_go N (e_addr e).
    - intros e0 He0. rewrite V2; [apply (l_P _ _ _ _ _ _ I); rewrite in_app_iff in *; cbn; tauto|].
      intros E. cnt_go N (e_addr e).
    - intros e0 He0. apply in_app_iff in He0 as [He0|[<-|[]]].
      + assert (E : e_addr e0 <> e_addr e) by (intros E; cnt_go N (e_addr e)).
        rewrite V2 by auto. destruct (l_Z _ _ _ _ _ _ I e0 He0) as (Z1 & Z2 & Z3 & Z4).
        split; [auto|]. split; [auto|]. split; [auto|].
        rewrite (proj1 (E1 (e_addr e0) ltac:(intros Hin; cnt_go N (e_addr e0)))). auto.
      + cbn [set_pins e_addr e_pins]. split; [|split; [lia|split; [lia|]]].
        * replace (N.of_nat (S (e_pins e))) with (1 + N.of_nat (e_pins e))%N by lia.
          eapply fld_view_ic with (e := set_pins (S (e_pins e)) e) (ic := true). rewrite V1. exact Ve.
        * rewrite (proj1 (E1 (e_addr e) ltac:(intros Hin; cnt_go N (e_addr e)))). auto.
    - nodup_perm N.
    - pose proof (l_nz _ _ _ _ _ _ I) as Nz. intros H. apply Nz. own_tac.
    - intros b Hb. unfold h'. rewrite hget_hupd_ne; [apply R4|]; intros Hc; apply Hb; own_tac.
    - intros b. destruct (K0 b) as (_ & _ & A & B). destruct (sim_links_nh _ _ b R3). split; congruence.
  Qed.
End Shard.
