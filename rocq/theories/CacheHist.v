(** CacheHist.v -- the abstract state of the cache is determined by the history
    of calls: the invariant relating the two. *)
From Coq Require Import List Arith NArith Lia Bool Permutation Sorted.
From Verif Require Import Outcome Heap Cache CacheSpec CacheRun CacheHeap CacheTable CacheShard CacheShardOps CacheGlobal.
Import ListNotations.

(** ** Histories *)
Lemma nth_rev_old (H : history) ev i : i < length H -> nth_error (rev (ev :: H)) i = nth_error (rev H) i.
Proof. intros Hi. cbn [rev]. rewrite nth_error_app1; [reflexivity|]. now rewrite rev_length. Qed.
Lemma nth_rev_new (H : history) ev : nth_error (rev (ev :: H)) (length H) = Some ev.
Proof. cbn [rev]. rewrite nth_error_app2; rewrite rev_length; [|lia]. now rewrite Nat.sub_diag. Qed.

Lemma insert_at_lt H i x : insert_at H i = Some x -> i < length H.
Proof.
  unfold insert_at. intros E. rewrite <- rev_length. apply nth_error_Some. intros E'. rewrite E' in E. discriminate.
Qed.
Lemma insert_at_old H ev i : i < length H -> insert_at (ev :: H) i = insert_at H i.
Proof. intros Hi. unfold insert_at. now rewrite nth_rev_old. Qed.
Lemma insert_at_new H ev : insert_at (ev :: H) (length H)
  = match ev_call ev with CInsert k v c d => Some (k, v, c, d) | _ => None end.
Proof. unfold insert_at. now rewrite nth_rev_new. Qed.

Lemma owner_event H : forall h i, owner H h = Some i ->
  exists ev, nth_error (rev H) i = Some ev /\ ev_res ev = RHandle h /\ i < length H.
Proof.
  induction H as [|ev H IH]; intros h i E; cbn [owner] in E; [discriminate|].
  assert (Old : owner H h = Some i -> exists ev0, nth_error (rev (ev :: H)) i = Some ev0 /\ ev_res ev0 = RHandle h /\ i < length (ev :: H)).
  { intros E'. destruct (IH _ _ E') as (ev0 & E1 & E2 & E3). exists ev0. rewrite nth_rev_old by auto. cbn [length]. auto. }
  destruct (ev_call ev); auto. destruct (ev_res ev) as [p| |] eqn:Er; auto.
  destruct (p =? h) eqn:Ep; auto. apply Nat.eqb_eq in Ep. subst p. inversion E; subst i.
  exists ev. rewrite nth_rev_new. cbn [length]. auto.
Qed.
Lemma owner_lt H h i : owner H h = Some i -> i < length H.
Proof. intros E. destruct (owner_event _ _ _ E) as (_ & _ & _ & L). exact L. Qed.
Lemma owner_inj H h h' i : owner H h = Some i -> owner H h' = Some i -> h = h'.
Proof.
  intros E E'. destruct (owner_event _ _ _ E) as (ev & A1 & A2 & _).
  destruct (owner_event _ _ _ E') as (ev' & B1 & B2 & _). congruence.
Qed.

Lemma superseded_new H i k : length H <= S i -> superseded H i k = false.
Proof.
  induction H as [|ev H IH]; cbn [superseded length]; intros Hi; [reflexivity|].
  rewrite IH by lia. assert (E : (i <? length H) = false) by (apply Nat.ltb_ge; lia). rewrite E. reflexivity.
Qed.
Lemma superseded_mono H ev i k : superseded H i k = true -> superseded (ev :: H) i k = true.
Proof. intros E. cbn [superseded]. rewrite E. apply orb_true_r. Qed.
Lemma superseded_keep H ev i k : superseded H i k = false -> overwrites ev k = false -> superseded (ev :: H) i k = false.
Proof. intros E1 E2. cbn [superseded]. rewrite E1, E2. now rewrite andb_false_r. Qed.
Lemma superseded_hit H ev i k : i < length H -> overwrites ev k = true -> superseded (ev :: H) i k = true.
Proof. intros E1 E2. cbn [superseded]. apply Nat.ltb_lt in E1. now rewrite E1, E2. Qed.

Lemma deaths_future H i : length H <= i -> deaths H i = 0.
Proof.
  induction H as [|ev H IH]; cbn [deaths length]; intros Hi; [reflexivity|].
  rewrite IH by lia. rewrite Nat.add_0_r.
  assert (E : filter (for_insert H i) (ev_del ev) = []); [|now rewrite E].
  induction (ev_del ev) as [|d l IHl]; cbn [filter]; [reflexivity|].
  unfold for_insert at 1. destruct (owner H (d_addr d)) as [j|] eqn:E; [|exact IHl].
  apply owner_lt in E. destruct (Nat.eqb_spec j i); [lia|exact IHl].
Qed.

Lemma last_release_lt H h : H <> [] -> last_release H h < length H.
Proof.
  induction H as [|ev H IH]; [congruence|]. intros _. cbn [last_release length].
  assert (K : last_release H h < S (length H)).
  { destruct H as [|ev' H']; [cbn; lia|]. assert (last_release (ev' :: H') h < length (ev' :: H')) by (apply IH; discriminate). lia. }
  destruct (ev_call ev); auto. destruct (handle =? h); lia.
Qed.

Lemma SS_remove {A} (R : A -> A -> Prop) l1 x l2 : StronglySorted R (l1 ++ x :: l2) -> StronglySorted R (l1 ++ l2).
Proof.
  induction l1 as [|y l1 IH]; cbn [app]; intros S; apply StronglySorted_inv in S as [S F]; auto.
  constructor; auto. rewrite Forall_app in *. destruct F as [F1 F2]. inversion F2; auto.
Qed.
Lemma SS_suffix {A} (R : A -> A -> Prop) l1 l2 : StronglySorted R (l1 ++ l2) -> StronglySorted R l2.
Proof. induction l1 as [|y l1 IH]; cbn [app]; auto. intros S. apply StronglySorted_inv in S as [S F]; auto. Qed.
Lemma SS_snoc {A} (R : A -> A -> Prop) l x : StronglySorted R l -> Forall (fun y => R y x) l -> StronglySorted R (l ++ [x]).
Proof.
  induction l as [|y l IH]; cbn [app]; intros S F; [repeat constructor|].
  apply StronglySorted_inv in S as [S F1]. inversion F; subst. constructor; auto.
  apply Forall_app. split; auto.
Qed.
Lemma SS_ext {A} (R R' : A -> A -> Prop) l : (forall x y, In x l -> In y l -> R x y -> R' x y) -> StronglySorted R l -> StronglySorted R' l.
Proof.
  intros E S. induction S as [|x l S IH F]; constructor.
  - apply IH. intros y z Hy Hz. apply E; cbn; auto.
  - rewrite Forall_forall in *. intros y Hy. apply E; cbn; auto.
Qed.

(** ** Facts about the abstract state alone *)
Record AWf (hashf : bytes -> N) (sc : N) (A : astate) : Prop := {
  w_addr : forall i j e e', i < 16 -> j < 16 -> In e (ents (A i)) -> In e' (ents (A j)) ->
             e_addr e = e_addr e' -> i = j /\ e = e';
  w_nz : forall i e, i < 16 -> In e (ents (A i)) -> e_addr e <> 0;
  w_nd : forall i, i < 16 -> NoDup (addrs (ents (A i)));
  w_idle : forall i e, i < 16 -> In e (aL (A i)) -> e_pins e = 0;
  w_held : forall i e, i < 16 -> In e (aP (A i) ++ aZ (A i)) -> 0 < e_pins e;
  w_home : forall i e, i < 16 -> In e (ents (A i)) -> home hashf (e_key e) = i;
  w_keys : forall i, i < 16 -> NoDup (map e_key (aL (A i) ++ aP (A i)));
  w_off : forall i, i < 16 -> sc = 0%N -> aL (A i) = [] /\ aP (A i) = [] }.

Lemma nodup_addr_eq l e e' : NoDup (addrs l) -> In e l -> In e' l -> e_addr e = e_addr e' -> e = e'.
Proof.
  induction l as [|x l IH]; cbn [addrs map]; intros N H H' E; [destruct H|].
  apply NoDup_cons_iff in N as [N1 N2]. destruct H as [->|H], H' as [->|H']; auto.
  - exfalso. apply N1. rewrite E. now apply in_map.
  - exfalso. apply N1. rewrite <- E. now apply in_map.
Qed.

Lemma GInv_AWf hashf sc c A : GInv hashf sc c A -> AWf hashf sc A.
Proof.
  intros G.
  assert (Sh : forall i, i < 16 -> exists s, nth_error (c_shards c) i = Some s /\
             Inv hashf (m_heap (c_mem c)) s (aL (A i)) (aP (A i)) (aZ (A i)) /\ s_capacity s = sc).
  { intros i Hi. destruct (g_shard _ _ _ _ _ G Hi) as (s & Hs). exists s. split; [exact Hs|]. now apply (g_sh _ _ _ _ G). }
  assert (ND : forall i, i < 16 -> NoDup (addrs (ents (A i)))).
  { intros i Hi. destruct (Sh i Hi) as (s & Hs & I & _). pose proof (l_nd _ _ _ _ _ _ _ (i_l _ _ _ _ _ _ I)) as N.
    unfold own in N. apply NoDup_cons_iff in N as [_ N]. apply NoDup_cons_iff in N as [_ N]. exact N. }
  constructor.
  - intros i j e e' Hi Hj He He' E. destruct (Nat.eq_dec i j) as [->|Hne].
    + split; auto. eapply nodup_addr_eq; eauto.
    + exfalso. destruct (Sh i Hi) as (s & Hs & _), (Sh j Hj) as (t & Ht & _).
      apply (g_disj _ _ _ _ G i j s t (e_addr e) Hne Hs Ht); [now apply ents_own|]. rewrite E. now apply ents_own.
  - intros i e Hi He E. destruct (Sh i Hi) as (s & Hs & I & _).
    apply (l_nz _ _ _ _ _ _ _ (i_l _ _ _ _ _ _ I)). rewrite <- E. apply (ents_own s (A i)). exact He.
  - exact ND.
  - intros i e Hi He. destruct (Sh i Hi) as (s & Hs & I & _). now apply (l_L _ _ _ _ _ _ _ (i_l _ _ _ _ _ _ I)).
  - intros i e Hi He. destruct (Sh i Hi) as (s & Hs & I & _). apply in_app_iff in He as [He|He].
    + now apply (l_P _ _ _ _ _ _ _ (i_l _ _ _ _ _ _ I)).
    + now apply (l_Z _ _ _ _ _ _ _ (i_l _ _ _ _ _ _ I)).
  - apply (g_key _ _ _ _ G).
  - intros i Hi. destruct (Sh i Hi) as (s & Hs & I & _). apply (i_keys _ _ _ _ _ _ I).
  - intros i Hi E. destruct (Sh i Hi) as (s & Hs & I & Hc). apply (i_cap _ _ _ _ _ _ I). congruence.
Qed.

(** ** The invariant *)
Definition older (H : history) (e e' : ent) : Prop := last_release H (e_addr e) < last_release H (e_addr e').

Record HInv (sc : N) (H : history) (A : astate) : Prop := {
  h_ev : forall i e, i < 16 -> In e (ents (A i)) ->
           insert_at H (e_id e) = Some (e_key e, e_val e, e_charge e, e_del e);
  h_own : forall i e, i < 16 -> In e (ents (A i)) -> owner H (e_addr e) = Some (e_id e);
  h_held : forall i e, i < 16 -> In e (ents (A i)) -> held H (e_addr e) = e_pins e;
  h_alive : forall i e, i < 16 -> In e (ents (A i)) -> deaths H (e_id e) = 0;
  h_gone : forall j x, insert_at H j = Some x ->
           (forall i e, i < 16 -> In e (ents (A i)) -> e_id e <> j) -> deaths H j = 1;
  h_none : forall j, insert_at H j = None -> deaths H j = 0;
  h_heldin : forall h, 0 < held H h -> exists i e, i < 16 /\ In e (ents (A i)) /\ e_addr e = h;
  h_in : forall i e, i < 16 -> In e (aL (A i) ++ aP (A i)) -> superseded H (e_id e) (e_key e) = false;
  h_out : forall i e, i < 16 -> In e (aZ (A i)) -> superseded H (e_id e) (e_key e) = true \/ sc = 0%N;
  h_lru : forall i, i < 16 -> StronglySorted (older H) (aL (A i)) }.

Lemma HInv_nil sc : HInv sc [] A0.
Proof.
  constructor; cbn; try tauto.
  - intros j x E. unfold insert_at in E. cbn in E. destruct j; discriminate.
  - intros h H. lia.
  - intros. constructor.
Qed.

Lemma ids_inj hashf sc H A i j e e' : AWf hashf sc A -> HInv sc H A -> i < 16 -> j < 16 ->
  In e (ents (A i)) -> In e' (ents (A j)) -> e_id e = e_id e' -> i = j /\ e = e'.
Proof.
  intros W I Hi Hj He He' E. apply (w_addr _ _ _ W); auto.
  eapply owner_inj; [apply (h_own _ _ _ I i e)|]; eauto. rewrite E. eapply (h_own _ _ _ I j e'); eauto.
Qed.

(** Deleter calls of a list of known entries. *)
Lemma count_del H D j : (forall e, In e D -> owner H (e_addr e) = Some (e_id e)) ->
  length (filter (for_insert H j) (map dcall_of D)) = count_occ Nat.eq_dec (map e_id D) j.
Proof.
  induction D as [|e D IH]; intros HD; [reflexivity|]. cbn [map filter].
  unfold for_insert at 1. cbn [dcall_of d_addr]. rewrite (HD e) by (cbn; auto). cbn [count_occ].
  specialize (IH (fun x Hx => HD x (or_intror Hx))).
  destruct (Nat.eq_dec (e_id e) j) as [E|E].
  - rewrite (proj2 (Nat.eqb_eq _ _) E). cbn [length]. now rewrite IH.
  - rewrite (proj2 (Nat.eqb_neq _ _) E). exact IH.
Qed.

Definition returns (ev : event) (p : nat) : Prop :=
  match ev_call ev with
  | CInsert _ _ _ _ | CLookup _ => ev_res ev = RHandle p /\ p <> 0
  | _ => False
  end.

Lemma held_returns H ev h : 0 < held (ev :: H) h -> returns ev h \/ 0 < held H h.
Proof.
  cbn [held]. unfold returns. destruct (ev_call ev); auto.
  - destruct (ev_res ev) as [p| |]; auto. destruct (p =? 0) eqn:E0; cbn [negb andb]; auto.
    destruct (p =? h) eqn:E; auto. intros _. apply Nat.eqb_eq in E. subst p. apply Nat.eqb_neq in E0. auto.
  - destruct (ev_res ev) as [p| |]; auto. destruct (p =? 0) eqn:E0; cbn [negb andb]; auto.
    destruct (p =? h) eqn:E; auto. intros _. apply Nat.eqb_eq in E. subst p. apply Nat.eqb_neq in E0. auto.
  - destruct (handle =? h); [intros Hlt; right; lia|auto].
Qed.

(** What one call does, in terms of membership. *)
Record Step (sc : N) (H : history) (A : astate) (ev : event) (D : list ent) (A' : astate) : Prop := {
  st_del : ev_del ev = map dcall_of D;
  st_D : forall e, In e D -> exists i, i < 16 /\ In e (ents (A i));
  st_DN : NoDup (addrs D);
  st_fwd : forall i e, i < 16 -> In e (ents (A i)) -> ~ In e D -> exists p, In (set_pins p e) (ents (A' i));
  st_bwd : forall i e', i < 16 -> In e' (ents (A' i)) ->
             (exists e p, In e (ents (A i)) /\ ~ In e D /\ e' = set_pins p e) \/
             (e_id e' = length H /\ ev_call ev = CInsert (e_key e') (e_val e') (e_charge e') (e_del e') /\
              ev_res ev = RHandle (e_addr e') /\
              (forall j x, j < 16 -> In x (ents (A j)) -> e_addr x <> e_addr e'));
  st_pins : forall i e', i < 16 -> In e' (ents (A' i)) -> held (ev :: H) (e_addr e') = e_pins e';
  st_D0 : forall e, In e D -> held (ev :: H) (e_addr e) = 0;
  st_ret : forall p, returns ev p -> exists i e', i < 16 /\ In e' (ents (A' i)) /\ e_addr e' = p;
  st_new : match ev_call ev with CInsert _ _ _ _ => exists i e', i < 16 /\ In e' (ents (A' i)) /\ e_id e' = length H | _ => True end;
  st_in : forall i e', i < 16 -> In e' (aL (A' i) ++ aP (A' i)) -> superseded (ev :: H) (e_id e') (e_key e') = false;
  st_out : forall i e', i < 16 -> In e' (aZ (A' i)) -> superseded (ev :: H) (e_id e') (e_key e') = true \/ sc = 0%N;
  st_lru : forall i, i < 16 -> StronglySorted (older (ev :: H)) (aL (A' i)) }.

Lemma owner_other H ev h : (forall p, ev_res ev = RHandle p ->
    match ev_call ev with CInsert _ _ _ _ => p <> h | _ => True end) -> owner (ev :: H) h = owner H h.
Proof.
  intros N. cbn [owner]. destruct (ev_call ev); auto. destruct (ev_res ev) as [p| |]; auto.
  specialize (N p eq_refl). apply Nat.eqb_neq in N. now rewrite N.
Qed.

Lemma HInv_step hashf sc H A ev D A' :
  AWf hashf sc A -> AWf hashf sc A' -> HInv sc H A -> Step sc H A ev D A' -> HInv sc (ev :: H) A'.
Proof.
  intros W W' I S.
  assert (HD : forall e, In e D -> owner H (e_addr e) = Some (e_id e)).
  { intros e He. destruct (st_D _ _ _ _ _ _ S e He) as (i & Hi & He'). eapply h_own; eauto. }
  assert (NI : NoDup (map e_id D)).
  { pose proof (st_DN _ _ _ _ _ _ S) as N. clear - HD N. induction D as [|e D IH]; cbn [map addrs] in *; [constructor|].
    apply NoDup_cons_iff in N as [N1 N2]. constructor.
    - intros Hin. apply in_map_iff in Hin as (e' & E & He'). apply N1.
      assert (e_addr e = e_addr e'); [|rewrite H0; now apply in_map].
      eapply owner_inj; [apply HD; cbn; auto|]. rewrite <- E. apply HD. cbn; auto.
    - apply IH; auto. intros x Hx. apply HD. cbn; auto. }
  assert (Dth : forall j, deaths (ev :: H) j = count_occ Nat.eq_dec (map e_id D) j + deaths H j).
  { intros j. cbn [deaths]. rewrite (st_del _ _ _ _ _ _ S). now rewrite count_del. }
  assert (NotD : forall i e, i < 16 -> In e (ents (A i)) -> ~ In e D -> ~ In (e_id e) (map e_id D)).
  { intros i e Hi He Hn Hin. apply in_map_iff in Hin as (e' & E & He'). apply Hn.
    destruct (st_D _ _ _ _ _ _ S e' He') as (j & Hj & He''). 
    destruct (ids_inj _ _ _ _ j i e' e W I Hj Hi He'' He E) as [_ ->]. exact He'. }
  constructor.
  - intros i e' Hi He'. destruct (st_bwd _ _ _ _ _ _ S i e' Hi He') as [(e & p & He & _ & ->)|(E1 & E2 & _)].
    + pose proof (h_ev _ _ _ I i e Hi He) as Ev. cbn [set_pins e_id e_key e_val e_charge e_del].
      rewrite insert_at_old; [exact Ev|]. eapply insert_at_lt; eauto.
    + rewrite E1, insert_at_new, E2. reflexivity.
  - intros i e' Hi He'. destruct (st_bwd _ _ _ _ _ _ S i e' Hi He') as [(e & p & He & _ & ->)|(E1 & E2 & E3 & _)].
    + cbn [set_pins e_addr e_id]. rewrite owner_other; [eapply h_own; eauto|].
      intros q Eq. pose proof (st_new _ _ _ _ _ _ S) as Nw. destruct (ev_call ev) eqn:Ec; auto.
      destruct Nw as (j & x & Hj & Hx & Hid).
      destruct (st_bwd _ _ _ _ _ _ S j x Hj Hx) as [(x0 & q0 & Hx0 & _ & ->)|(_ & _ & F3 & F4)].
      * exfalso. cbn [set_pins e_id] in Hid. pose proof (owner_lt _ _ _ (h_own _ _ _ I j x0 Hj Hx0)). lia.
      * rewrite F3 in Eq. inversion Eq; subst q. intros E. apply (F4 i e Hi He). symmetry; exact E.
    + cbn [owner]. rewrite E2, E3, Nat.eqb_refl, E1. reflexivity.
  - apply (st_pins _ _ _ _ _ _ S).
  - intros i e' Hi He'. rewrite Dth.
    destruct (st_bwd _ _ _ _ _ _ S i e' Hi He') as [(e & p & He & Hn & ->)|(E1 & _)].
    + cbn [set_pins e_id]. rewrite (h_alive _ _ _ I i e Hi He), Nat.add_0_r.
      apply count_occ_not_In. eapply NotD; eauto.
    + rewrite E1, (deaths_future H) by lia. rewrite Nat.add_0_r. apply count_occ_not_In.
      intros Hin. apply in_map_iff in Hin as (x & Ex & Hx). apply HD, owner_lt in Hx. lia.
  - intros j x Hj Hno. rewrite Dth.
    destruct (in_dec Nat.eq_dec j (map e_id D)) as [Hin|Hin].
    + rewrite (proj1 (NoDup_count_occ' Nat.eq_dec _) NI j Hin).
      apply in_map_iff in Hin as (e & <- & He). destruct (st_D _ _ _ _ _ _ S e He) as (i & Hi & He').
      rewrite (h_alive _ _ _ I i e Hi He'). reflexivity.
    + rewrite (proj1 (count_occ_not_In Nat.eq_dec _ _) Hin). cbn [Nat.add].
      pose proof (insert_at_lt _ _ _ Hj) as Hlt. cbn [length] in Hlt.
      assert (Hne : j <> length H).
      { intros ->. rewrite insert_at_new in Hj. pose proof (st_new _ _ _ _ _ _ S) as Nw.
        destruct (ev_call ev); try discriminate. destruct Nw as (i & e' & Hi & He' & E). exact (Hno i e' Hi He' E). }
      rewrite insert_at_old in Hj by lia. eapply h_gone; eauto. intros i e Hi He E.
      destruct (in_dec Nat.eq_dec (e_id e) (map e_id D)) as [Hd|Hd]; [congruence|].
      destruct (st_fwd _ _ _ _ _ _ S i e Hi He) as (p & Hp).
      { intros Hd'. apply Hd. now apply in_map. }
      exact (Hno i _ Hi Hp E).
  - intros j Hj. rewrite Dth. assert (Hlj : ~ In j (map e_id D)).
    { intros Hin. apply in_map_iff in Hin as (e & <- & He). destruct (st_D _ _ _ _ _ _ S e He) as (i & Hi & He').
      pose proof (owner_lt _ _ _ (HD e He)) as Hlt. rewrite insert_at_old in Hj by exact Hlt.
      rewrite (h_ev _ _ _ I i e Hi He') in Hj. discriminate. }
    rewrite (proj1 (count_occ_not_In Nat.eq_dec _ _) Hlj). cbn [Nat.add].
    destruct (Nat.lt_ge_cases j (length H)) as [Hlt|Hge]; [|now apply deaths_future].
    rewrite insert_at_old in Hj by exact Hlt. now apply (h_none _ _ _ I).
  - intros h Hh. destruct (held_returns _ _ _ Hh) as [R|Hh'].
    + apply (st_ret _ _ _ _ _ _ S _ R).
    + destruct (h_heldin _ _ _ I h Hh') as (i & e & Hi & He & Ea).
      destruct (in_dec Nat.eq_dec (e_addr e) (addrs D)) as [Hd|Hd].
      * exfalso. apply in_map_iff in Hd as (x & Ex & Hx). rewrite <- Ea, <- Ex in Hh.
        rewrite (st_D0 _ _ _ _ _ _ S x Hx) in Hh. lia.
      * destruct (st_fwd _ _ _ _ _ _ S i e Hi He) as (p & Hp).
        { intros Hd'. apply Hd. now apply in_map. }
        exists i, (set_pins p e). auto.
  - apply (st_in _ _ _ _ _ _ S).
  - apply (st_out _ _ _ _ _ _ S).
  - apply (st_lru _ _ _ _ _ _ S).
Qed.
