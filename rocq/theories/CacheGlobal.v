(** CacheGlobal.v -- the whole cache: sixteen shards in one heap.  Each call is
    shown to be one step on an abstract state: per shard the idle entries
    (oldest first), the entries held by the user, and the entries held by the
    user that have left the cache. *)
From Coq Require Import List Arith NArith Lia Bool Permutation.
From Verif Require Import Outcome Heap Cache CacheSpec CacheRun CacheHeap CacheTable CacheShard CacheShardOps CacheShardLife.
Import ListNotations.
Local Open Scope outcome_scope.

Record ash := mk_ash { aL : list ent; aP : list ent; aZ : list ent }.
Definition ents (x : ash) : list ent := aL x ++ aP x ++ aZ x.
Definition astate := nat -> ash.
Definition aupd (A : astate) (i : nat) (x : ash) : astate := fun j => if j =? i then x else A j.

Lemma aupd_eq A i x : aupd A i x i = x.
Proof. unfold aupd. now rewrite Nat.eqb_refl. Qed.
Lemma aupd_ne A i x j : j <> i -> aupd A i x j = A j.
Proof. intros H. unfold aupd. apply Nat.eqb_neq in H. now rewrite H. Qed.

Definition aown (s : shard) (x : ash) : list nat := own (s_lru s) (s_in_use s) (aL x) (aP x) (aZ x).

Section Global.
  Variable hashf : bytes -> N.
  Hypothesis hash32 : forall k, (hashf k < 2 ^ 32)%N.
  Notation Inv := (Inv hashf).
  Definition home (k : bytes) : nat := Shard (hashf k).

  Lemma home_lt k : home k < 16.
  Proof.
    unfold home, Shard. rewrite N.shiftr_div_pow2. change (32 - kNumShardBits)%N with 28%N.
    assert (hashf k / 2 ^ 28 < 16)%N; [|lia].
    apply N.div_lt_upper_bound; [discriminate|]. change (2 ^ 28 * 16)%N with (2 ^ 32)%N. apply hash32.
  Qed.

  Record GInv (sc : N) (c : cache) (A : astate) : Prop := {
    g_len : length (c_shards c) = 16;
    g_sh : forall i s, nth_error (c_shards c) i = Some s ->
             Inv (m_heap (c_mem c)) s (aL (A i)) (aP (A i)) (aZ (A i)) /\ s_capacity s = sc;
    g_disj : forall i j s t a, i <> j -> nth_error (c_shards c) i = Some s -> nth_error (c_shards c) j = Some t ->
             In a (aown s (A i)) -> ~ In a (aown t (A j));
    g_live : forall a, live (m_heap (c_mem c)) a ->
             exists i s, nth_error (c_shards c) i = Some s /\ In a (aown s (A i));
    g_key : forall i e, i < 16 -> In e (ents (A i)) -> home (e_key e) = i }.

  Lemma g_shard sc c A i : GInv sc c A -> i < 16 -> exists s, nth_error (c_shards c) i = Some s.
  Proof.
    intros G Hi. destruct (nth_error (c_shards c) i) as [s|] eqn:E; eauto.
    apply nth_error_None in E. rewrite (g_len _ _ _ G) in E. lia.
  Qed.
  Lemma g_lt sc c A i s : GInv sc c A -> nth_error (c_shards c) i = Some s -> i < 16.
  Proof. intros G H. rewrite <- (g_len _ _ _ G). apply nth_error_Some. congruence. Qed.

  Lemma ents_own s x e : In e (ents x) -> In (e_addr e) (aown s x).
  Proof. intros H. unfold aown, own. right; right. now apply in_map. Qed.

  (** One shard changes, the others are framed. *)
  Lemma GInv_update sc c A i s h' s' x' ids lg X :
    GInv sc c A -> nth_error (c_shards c) i = Some s ->
    Inv h' s' (aL x') (aP x') (aZ x') ->
    s_lru s' = s_lru s -> s_in_use s' = s_in_use s -> s_capacity s' = s_capacity s ->
    frame (X ++ aown s (A i)) (m_heap (c_mem c)) h' ->
    (forall a, In a X -> hget (m_heap (c_mem c)) a = None) ->
    (forall a, In a (aown s' x') -> In a (X ++ aown s (A i))) ->
    (forall a, In a (X ++ aown s (A i)) -> In a (aown s' x') \/ hget h' a = None) ->
    (forall e, In e (ents x') -> home (e_key e) = i) ->
    GInv sc (mk_cache (mk_mem h' lg) (set_nth i s' (c_shards c)) ids) (aupd A i x').
  Proof.
    intros G Hs I' E1 E2 E3 Fr HX Hsub Hdel Hk. constructor; cbn [c_shards c_mem m_heap].
    - rewrite set_nth_length. apply (g_len _ _ _ G).
    - intros j t Hj. rewrite nth_error_set_nth in Hj. destruct (j =? i) eqn:E.
      + apply Nat.eqb_eq in E. subst j. rewrite aupd_eq.
        destruct (i <? length (c_shards c)); [|discriminate]. inversion Hj; subst t.
        split; [exact I'|]. rewrite E3. now apply (g_sh _ _ _ G i).
      + apply Nat.eqb_neq in E. rewrite aupd_ne by auto. destruct (g_sh _ _ _ G j t Hj) as [It Ct].
        split; [|exact Ct]. eapply Inv_frame; [|exact It]. intros a Ha. apply Fr.
        intros Hin. apply in_app_iff in Hin as [Hin|Hin].
        * eapply LInv_live; [apply (i_l _ _ _ _ _ _ It)|exact Ha|]. now apply HX.
        * eapply (g_disj _ _ _ G j i); eauto.
    - assert (K : forall j t a, j <> i -> nth_error (c_shards c) j = Some t -> In a (aown s' x') -> ~ In a (aown t (A j))).
      { intros j t a Hne Hj Ha Hin. apply Hsub in Ha. apply in_app_iff in Ha as [Ha|Ha].
        - destruct (g_sh _ _ _ G j t Hj) as [It _].
          eapply LInv_live; [apply (i_l _ _ _ _ _ _ It)|exact Hin|]. now apply HX.
        - eapply (g_disj _ _ _ G i j); eauto. }
      intros j k t r a Hjk Hj Hk' Ha. rewrite nth_error_set_nth in Hj, Hk'.
      destruct (j =? i) eqn:Ej; destruct (k =? i) eqn:Ek.
      + apply Nat.eqb_eq in Ej, Ek. congruence.
      + apply Nat.eqb_eq in Ej. apply Nat.eqb_neq in Ek. subst j. rewrite aupd_eq in Ha. rewrite aupd_ne by auto.
        destruct (i <? length (c_shards c)); [|discriminate]. inversion Hj; subst t. eauto.
      + apply Nat.eqb_eq in Ek. apply Nat.eqb_neq in Ej. subst k. rewrite aupd_ne in Ha by auto. rewrite aupd_eq.
        destruct (i <? length (c_shards c)); [|discriminate]. inversion Hk'; subst r. intros Hin. eapply K; eauto.
      + apply Nat.eqb_neq in Ej, Ek. rewrite aupd_ne in Ha by auto. rewrite aupd_ne by auto.
        eapply (g_disj _ _ _ G j k); eauto.
    - intros a Ha.
      destruct (in_dec Nat.eq_dec a (X ++ aown s (A i))) as [Hin|Hin].
      + destruct (Hdel a Hin) as [Hin'|Hn]; [|contradiction].
        exists i, s'. rewrite nth_error_set_nth, Nat.eqb_refl, aupd_eq.
        assert (Hlt : i < length (c_shards c)) by (apply nth_error_Some; congruence).
        apply Nat.ltb_lt in Hlt. rewrite Hlt. auto.
      + unfold live in Ha. rewrite (Fr a Hin) in Ha. destruct (g_live _ _ _ G a Ha) as (j & t & Hj & Hin').
        assert (Hne : j <> i).
        { intros ->. assert (t = s) by congruence. subst t. apply Hin. apply in_app_iff; auto. }
        exists j, t. rewrite nth_error_set_nth, aupd_ne by auto. apply Nat.eqb_neq in Hne. rewrite Hne. auto.
    - intros j e Hj He. destruct (Nat.eq_dec j i) as [->|Hne].
      + rewrite aupd_eq in He. auto.
      + rewrite aupd_ne in He by auto. now apply (g_key _ _ _ G).
  Qed.

  (** ** The abstract steps *)
  Inductive astep (sc : N) (nid : nat) (A : astate) : call -> result -> list dcall -> astate -> Prop :=
  | as_miss k : (forall e, In e (aL (A (home k)) ++ aP (A (home k))) -> e_key e <> k) ->
      astep sc nid A (CLookup k) (RHandle 0) [] A
  | as_hit_idle k e L1 L2 P Z : A (home k) = mk_ash (L1 ++ e :: L2) P Z -> e_key e = k ->
      astep sc nid A (CLookup k) (RHandle (e_addr e)) []
        (aupd A (home k) (mk_ash (L1 ++ L2) (P ++ [set_pins 1 e]) Z))
  | as_hit_held k e L P1 P2 Z : A (home k) = mk_ash L (P1 ++ e :: P2) Z -> e_key e = k ->
      astep sc nid A (CLookup k) (RHandle (e_addr e)) []
        (aupd A (home k) (mk_ash L (P1 ++ set_pins (S (e_pins e)) e :: P2) Z))
  | as_rel_last i e L P1 P2 Z : i < 16 -> A i = mk_ash L (P1 ++ e :: P2) Z -> e_pins e = 1 ->
      astep sc nid A (CRelease (e_addr e)) RNone [] (aupd A i (mk_ash (L ++ [set_pins 0 e]) (P1 ++ P2) Z))
  | as_rel_more i e L P1 P2 Z : i < 16 -> A i = mk_ash L (P1 ++ e :: P2) Z -> 1 < e_pins e ->
      astep sc nid A (CRelease (e_addr e)) RNone []
        (aupd A i (mk_ash L (P1 ++ set_pins (e_pins e - 1) e :: P2) Z))
  | as_rel_dead i e L P Z1 Z2 : i < 16 -> A i = mk_ash L P (Z1 ++ e :: Z2) -> e_pins e = 1 ->
      astep sc nid A (CRelease (e_addr e)) RNone [dcall_of e] (aupd A i (mk_ash L P (Z1 ++ Z2)))
  | as_rel_zmore i e L P Z1 Z2 : i < 16 -> A i = mk_ash L P (Z1 ++ e :: Z2) -> 1 < e_pins e ->
      astep sc nid A (CRelease (e_addr e)) RNone []
        (aupd A i (mk_ash L P (Z1 ++ set_pins (e_pins e - 1) e :: Z2)))
  | as_value i e : i < 16 -> In e (aP (A i) ++ aZ (A i)) ->
      astep sc nid A (CValue (e_addr e)) (RNum (e_val e)) [] A
  | as_erase_none k : (forall e, In e (aL (A (home k)) ++ aP (A (home k))) -> e_key e <> k) ->
      astep sc nid A (CErase k) RNone [] A
  | as_erase_idle k e L1 L2 P Z : A (home k) = mk_ash (L1 ++ e :: L2) P Z -> e_key e = k ->
      astep sc nid A (CErase k) RNone [dcall_of e] (aupd A (home k) (mk_ash (L1 ++ L2) P Z))
  | as_erase_held k e L P1 P2 Z : A (home k) = mk_ash L (P1 ++ e :: P2) Z -> e_key e = k ->
      astep sc nid A (CErase k) RNone [] (aupd A (home k) (mk_ash L (P1 ++ P2) (Z ++ [e])))
  | as_prune :
      astep sc nid A CPrune RNone (concat (map (fun i => map dcall_of (aL (A i))) (seq 0 16)))
        (fun i => mk_ash [] (aP (A i)) (aZ (A i)))
  | as_total :
      astep sc nid A CTotalCharge
        (RNum (u64 (sumN (map (fun i => charges (aL (A i) ++ aP (A i))) (seq 0 16))))) [] A
  | as_prune_shard i : i < 16 ->
      astep sc nid A (CPruneShard i) RNone (map dcall_of (aL (A i))) (aupd A i (mk_ash [] (aP (A i)) (aZ (A i))))
  | as_shard_charge i : i < 16 ->
      astep sc nid A (CShardCharge i) (RNum (u64 (charges (aL (A i) ++ aP (A i))))) [] A
  | as_newid n : astep sc nid A CNewId (RNum n) [] A
  | as_insert_off a k v c d L P Z : a <> 0 -> (forall i e, i < 16 -> In e (ents (A i)) -> e_addr e <> a) ->
      sc = 0%N -> A (home k) = mk_ash L P Z -> (c < 2 ^ 64)%N ->
      astep sc nid A (CInsert k v c d) (RHandle a) []
        (aupd A (home k) (mk_ash L P (Z ++ [mk_ent a nid k v c d 1])))
  | as_insert a k v c d L P Z L0 P0 Z0 D0 D L' :
      a <> 0 -> (forall i e, i < 16 -> In e (ents (A i)) -> e_addr e <> a) ->
      (0 < sc)%N -> A (home k) = mk_ash L P Z -> (c < 2 ^ 64)%N ->
      ((L0 = L /\ P0 = P /\ Z0 = Z /\ D0 = [] /\ (forall x, In x (L ++ P) -> e_key x <> k)) \/
       (exists L1 x L2, L = L1 ++ x :: L2 /\ e_key x = k /\ L0 = L1 ++ L2 /\ P0 = P /\ Z0 = Z /\ D0 = [x]) \/
       (exists P1 x P2, P = P1 ++ x :: P2 /\ e_key x = k /\ L0 = L /\ P0 = P1 ++ P2 /\ Z0 = Z ++ [x] /\ D0 = [])) ->
      L0 = D ++ L' ->
      (L' = [] \/ (u64 (charges (L' ++ P0 ++ [mk_ent a nid k v c d 1])) <= sc)%N) ->
      (forall D1 x D2, D = D1 ++ x :: D2 ->
         (sc < u64 (charges (x :: D2 ++ L' ++ P0 ++ [mk_ent a nid k v c d 1])))%N) ->
      astep sc nid A (CInsert k v c d) (RHandle a) (map dcall_of (D0 ++ D))
        (aupd A (home k) (mk_ash L' (P0 ++ [mk_ent a nid k v c d 1]) Z0)).

  Definition apre (A : astate) (x : call) : Prop :=
    match x with
    | CInsert k _ c _ => (c < 2 ^ 64)%N /\ (N.of_nat (length (aL (A (home k)) ++ aP (A (home k)))) < 2 ^ 31)%N
    | CLookup k => forall i e, i < 16 -> In e (aP (A i)) -> (N.of_nat (e_pins e) < 2 ^ 32 - 2)%N
    | CRelease h | CValue h => exists i e, i < 16 /\ In e (aP (A i) ++ aZ (A i)) /\ e_addr e = h
    | CPruneShard i | CShardCharge i => i < 16
    | _ => True
    end.

  Lemma ash_eta x : x = mk_ash (aL x) (aP x) (aZ x).
  Proof. destruct x; reflexivity. Qed.

  Lemma set_nth_id {A} (l : list A) i x : nth_error l i = Some x -> set_nth i x l = l.
  Proof. apply set_nth_same. Qed.

  Lemma GInv_clear sc c A lg ids :
    GInv sc c A -> GInv sc (mk_cache (mk_mem (m_heap (c_mem c)) lg) (c_shards c) ids) A.
  Proof. intros G. constructor; cbn [c_shards c_mem m_heap]; apply G. Qed.

  Lemma key_home sc c A i x' :
    GInv sc c A -> i < 16 ->
    (forall e, In e (ents x') -> exists e', In e' (ents (A i)) /\ e_key e' = e_key e) ->
    forall e, In e (ents x') -> home (e_key e) = i.
  Proof. intros G Hi H e He. destruct (H e He) as (e' & He' & <-). eapply g_key; eauto. Qed.

  Lemma GInv_ext sc c A A' : (forall i, i < 16 -> A' i = A i) -> GInv sc c A -> GInv sc c A'.
  Proof.
    intros E G. constructor.
    - apply G.
    - intros i s H. rewrite E by (eapply g_lt; eauto). eapply G; eauto.
    - intros i j s t a H1 H2 H3. rewrite !E by (eapply g_lt; eauto). eapply G; eauto.
    - intros a H. destruct (g_live _ _ _ G _ H) as (i & s & H1 & H2). exists i, s.
      rewrite E by (eapply g_lt; eauto). auto.
    - intros i e Hi. rewrite E by auto. eapply G; eauto.
  Qed.

  Lemma aupd_same A i x : A i = x -> forall j, A j = aupd A i x j.
  Proof. intros <- j. unfold aupd. destruct (j =? i) eqn:E; auto. apply Nat.eqb_eq in E. now subst. Qed.

  Section Exec.
    Variable alc : allocator.
    Variable dbg : bool.
    Variable sc : N.
    Variable nid : nat.
    Hypothesis Halc : allocator_ok alc.

    Definition ok_step (c : cache) (A : astate) (x : call) : Prop :=
      exists c' ev A', exec hashf alc dbg c x = Ret (c', ev) /\ ev_call ev = x /\ GInv sc c' A' /\
        astep sc nid A x (ev_res ev) (ev_del ev) A'.

    Ltac key_in := repeat (progress (rewrite ?in_app_iff; cbn [In])); tauto.
    Ltac key_tac :=
      unfold ents in *; cbn [aL aP aZ] in *; repeat (progress (rewrite ?in_app_iff in *; cbn [In] in * ));
      repeat match goal with H : _ \/ _ |- _ => destruct H as [H|H] end;
      match goal with
      | H : False |- _ => destruct H
      | H : set_pins ?p ?x = ?y |- exists e', _ => subst y; exists x; split; [key_in|reflexivity]
      | H : In ?y _ |- exists e', _ /\ e_key e' = e_key ?y => exists y; split; [key_in|reflexivity]
      | H : ?x = ?y |- exists e', _ /\ e_key e' = e_key ?y => subst y; exists x; split; [key_in|reflexivity]
      end.

    Lemma exec_lookup c A k : GInv sc c A -> apre A (CLookup k) -> ok_step c A (CLookup k).
    Proof.
      intros G Hp. pose proof (home_lt k) as Hi. destruct (g_shard _ _ _ _ G Hi) as (s & Hs).
      destruct (g_sh _ _ _ G _ _ Hs) as [I Hc].
      destruct (shard_lookup_spec hashf dbg (m_heap (c_mem c)) [] s _ _ _ k I (fun e => Hp (home k) e Hi))
        as (h' & a & L' & P' & R1 & R2 & R3 & R4).
      unfold ok_step, exec. cbn [dispatch]. unfold cache_lookup, the_shard. cbn [clear_log c_shards c_mem c_last_id].
      fold (home k). rewrite Hs. cbn [bind]. rewrite R1. cbn [bind fst snd c_mem m_log].
      assert (Gu : GInv sc (mk_cache (mk_mem h' []) (c_shards c) (c_last_id c))
                     (aupd A (home k) (mk_ash L' P' (aZ (A (home k)))))).
      { rewrite <- (set_nth_id (c_shards c) (home k) s Hs).
        eapply (GInv_update _ _ _ _ s _ _ _ _ _ []); eauto; cbn [app].
        - intros a0 [].
        - intros a0 Ha0. unfold aown in *. cbn [aL aP aZ] in *.
          destruct R4 as [(-> & -> & -> & _)|[(L1 & e & L2 & E & _ & _ & -> & ->)|(P1 & e & P2 & E & _ & _ & -> & ->)]]; auto;
            rewrite E; clear - Ha0; own_tac.
        - intros a0 Ha0. left. unfold aown in *. cbn [aL aP aZ] in *.
          destruct R4 as [(-> & -> & -> & _)|[(L1 & e & L2 & E & _ & _ & -> & ->)|(P1 & e & P2 & E & _ & _ & -> & ->)]]; auto;
            rewrite E in Ha0; clear - Ha0; own_tac.
        - eapply key_home; eauto. intros e0 He0. unfold ents in *. cbn [aL aP aZ] in *.
          destruct R4 as [(-> & -> & -> & _)|[(L1 & e & L2 & E & _ & _ & -> & ->)|(P1 & e & P2 & E & _ & _ & -> & ->)]];
            [eauto| |]; rewrite E; clear - He0; key_tac. }
      destruct R4 as [(-> & -> & -> & H)|[(L1 & e & L2 & E & Ek & -> & -> & ->)|(P1 & e & P2 & E & Ek & -> & -> & ->)]].
      - do 2 eexists. exists A. split; [reflexivity|]. split; [reflexivity|]. split.
        + eapply GInv_ext; [|exact Gu]. intros j _. apply aupd_same. apply ash_eta.
        + now apply as_miss.
      - do 3 eexists. split; [reflexivity|]. split; [reflexivity|]. split; [exact Gu|].
        apply as_hit_idle; auto. rewrite (ash_eta (A (home k))), E. reflexivity.
      - do 3 eexists. split; [reflexivity|]. split; [reflexivity|]. split; [exact Gu|].
        apply as_hit_held; auto. rewrite (ash_eta (A (home k))), E. reflexivity.
    Qed.

    Lemma ent_hash c A i e : GInv sc c A -> i < 16 -> In e (ents (A i)) ->
      exists n, hget (m_heap (c_mem c)) (e_addr e) = Some n /\ Shard (n_hash n) = i /\ n_value n = e_val e.
    Proof.
      intros G Hi He. destruct (g_shard _ _ _ _ G Hi) as (s & Hs). destruct (g_sh _ _ _ G _ _ Hs) as [I _].
      pose proof (i_l _ _ _ _ _ _ I) as IL.
      assert (V : exists ic r, fld n_view (m_heap (c_mem c)) (e_addr e) = Some (view hashf e ic r)).
      { unfold ents in He. rewrite !in_app_iff in He. destruct He as [He|[He|He]].
        - destruct (l_L _ _ _ _ _ _ _ IL e He); eauto.
        - destruct (l_P _ _ _ _ _ _ _ IL e He); eauto.
        - destruct (l_Z _ _ _ _ _ _ _ IL e He); eauto. }
      destruct V as (ic & r & V). apply view_node in V as (n & Hn & Hv & _ & _ & Hh & _).
      exists n. split; [exact Hn|]. split; [|exact Hv]. rewrite Hh. now apply (g_key _ _ _ G).
    Qed.

    Lemma exec_value c A a : GInv sc c A -> apre A (CValue a) -> ok_step c A (CValue a).
    Proof.
      intros G (i & e & Hi & He & <-).
      destruct (ent_hash c A i e G Hi) as (n & Hn & _ & Hv).
      { unfold ents. rewrite in_app_iff; auto. }
      unfold ok_step, exec. cbn [dispatch]. unfold cache_value, get. cbn [clear_log c_mem m_heap]. rewrite Hn.
      cbn [bind fst snd c_mem m_log]. do 2 eexists. exists A. split; [reflexivity|]. split; [reflexivity|].
      split; [now apply GInv_clear|]. cbn [ev_res ev_del]. rewrite Hv. econstructor; eauto.
    Qed.

    Lemma exec_release c A a : GInv sc c A -> apre A (CRelease a) -> ok_step c A (CRelease a).
    Proof.
      intros G (i & e & Hi & He & <-).
      destruct (ent_hash c A i e G Hi) as (n & Hn & Hh & _).
      { unfold ents. rewrite in_app_iff; auto. }
      unfold ok_step, exec. cbn [dispatch]. unfold cache_release, get. cbn [clear_log c_mem m_heap]. rewrite Hn.
      cbn [bind]. rewrite Hh. unfold the_shard. cbn [clear_log c_shards].
      destruct (g_shard _ _ _ _ G Hi) as (s & Hs). rewrite Hs. cbn [bind clear_log c_mem].
      destruct (g_sh _ _ _ G _ _ Hs) as [I Hc].
      apply in_app_iff in He as [He|He]; apply in_split in He as (X1 & X2 & E).
      - rewrite E in I. destruct (shard_release_pinned hashf dbg (m_heap (c_mem c)) [] s _ X1 e X2 _ I)
          as (h' & L' & P' & R1 & R2 & R3 & R4).
        rewrite R1. cbn [bind fst snd c_mem m_log].
        assert (Gu : GInv sc (mk_cache (mk_mem h' []) (c_shards c) (c_last_id c)) (aupd A i (mk_ash L' P' (aZ (A i))))).
        { rewrite <- (set_nth_id (c_shards c) i s Hs).
          eapply (GInv_update _ _ _ _ s _ _ _ _ _ []); eauto; cbn [app].
          - unfold aown. rewrite E. exact R3.
          - intros a0 [].
          - intros a0 Ha0. unfold aown in *. cbn [aL aP aZ] in *. rewrite E.
            destruct R4 as [(_ & -> & ->)|(_ & -> & ->)]; clear - Ha0; own_tac.
          - intros a0 Ha0. left. unfold aown in *. cbn [aL aP aZ] in *. rewrite E in Ha0.
            destruct R4 as [(_ & -> & ->)|(_ & -> & ->)]; clear - Ha0; own_tac.
          - eapply key_home; eauto. intros e0 He0. unfold ents in *. cbn [aL aP aZ] in *. rewrite E.
            destruct R4 as [(_ & -> & ->)|(_ & -> & ->)]; clear - He0; key_tac. }
        do 3 eexists. split; [reflexivity|]. split; [reflexivity|]. split; [exact Gu|]. cbn [ev_res ev_del].
        destruct R4 as [(E1 & -> & ->)|(E1 & -> & ->)].
        + eapply as_rel_last; eauto. rewrite (ash_eta (A i)), E. reflexivity.
        + eapply as_rel_more; eauto. rewrite (ash_eta (A i)), E. reflexivity.
      - rewrite E in I. destruct (shard_release_zombie hashf dbg (m_heap (c_mem c)) [] s _ _ X1 e X2 I)
          as (h' & Z' & R1 & R2 & R3 & R4 & R5 & R6).
        rewrite R1. cbn [bind fst snd c_mem m_log app].
        assert (Gu : GInv sc (mk_cache (mk_mem h' (if e_pins e =? 1 then [dcall_of e] else [])) (c_shards c) (c_last_id c))
                       (aupd A i (mk_ash (aL (A i)) (aP (A i)) Z'))).
        { rewrite <- (set_nth_id (c_shards c) i s Hs).
          eapply (GInv_update _ _ _ _ s _ _ _ _ _ []); eauto; cbn [app].
          - unfold aown. rewrite E. exact R3.
          - intros a0 [].
          - intros a0 Ha0. unfold aown in *. cbn [aL aP aZ] in *. rewrite E, R4 in *.
            destruct (e_pins e =? 1); clear - Ha0; own_tac.
          - intros a0 Ha0. unfold aown in *. cbn [aL aP aZ] in *. rewrite E, R4 in *.
            destruct (e_pins e =? 1) eqn:E1.
            + apply Nat.eqb_eq in E1. specialize (R5 E1). destruct (Nat.eq_dec a0 (e_addr e)) as [->|Hne]; [auto|].
              left. clear - Ha0 Hne. assert (e_addr e <> a0) by auto. own_tac.
            + left. clear - Ha0; own_tac.
          - eapply key_home; eauto. intros e0 He0. unfold ents in *. cbn [aL aP aZ] in *. rewrite E, R4 in *.
            destruct (e_pins e =? 1); clear - He0; key_tac. }
        do 3 eexists. split; [reflexivity|]. split; [reflexivity|]. split; [exact Gu|]. cbn [ev_res ev_del].
        rewrite R4. destruct (e_pins e =? 1) eqn:E1; cbn [app].
        + apply Nat.eqb_eq in E1. eapply as_rel_dead; eauto. rewrite (ash_eta (A i)), E. reflexivity.
        + apply Nat.eqb_neq in E1. eapply as_rel_zmore; eauto; [rewrite (ash_eta (A i)), E; reflexivity|lia].
    Qed.

    Lemma exec_erase c A k : GInv sc c A -> ok_step c A (CErase k).
    Proof.
      intros G. pose proof (home_lt k) as Hi. destruct (g_shard _ _ _ _ G Hi) as (s & Hs).
      destruct (g_sh _ _ _ G _ _ Hs) as [I Hc].
      destruct (removal_spec hashf dbg (m_heap (c_mem c)) [] s _ _ _ k I)
        as (h' & s' & lg' & L' & P' & Z' & b & R1 & R2 & R3 & R4 & R5 & R6 & R7).
      unfold ok_step, exec. cbn [dispatch]. unfold cache_erase, the_shard. cbn [clear_log c_shards c_mem c_last_id].
      fold (home k). rewrite Hs. cbn [bind]. rewrite shard_erase_removal, R1. cbn [bind fst snd c_mem m_log app].
      fold (home k).
      assert (Gu : GInv sc (mk_cache (mk_mem h' lg') (set_nth (home k) s' (c_shards c)) (c_last_id c))
                     (aupd A (home k) (mk_ash L' P' Z'))).
      { eapply (GInv_update _ _ _ _ s _ _ _ _ _ []); eauto; cbn [app].
        - intros a0 [].
        - intros a0 Ha0. unfold aown in *. cbn [aL aP aZ] in *. rewrite R4, R5 in *.
          destruct R7 as [(_ & _ & -> & -> & -> & _)|[(L1 & e & L2 & _ & E & _ & -> & -> & -> & _)|(P1 & e & P2 & _ & E & _ & -> & -> & -> & _)]]; auto;
            rewrite E; clear - Ha0; own_tac.
        - intros a0 Ha0. unfold aown in *. cbn [aL aP aZ] in *. rewrite R4, R5 in *.
          destruct R7 as [(_ & _ & -> & -> & -> & _)|[(L1 & e & L2 & _ & E & _ & -> & -> & -> & _ & Hd)|(P1 & e & P2 & _ & E & _ & -> & -> & -> & _)]]; auto.
          + rewrite E in Ha0. destruct (Nat.eq_dec a0 (e_addr e)) as [->|Hne]; [auto|].
            left. clear - Ha0 Hne. assert (e_addr e <> a0) by auto. own_tac.
          + left. rewrite E in Ha0. clear - Ha0. own_tac.
        - eapply key_home; eauto. intros e0 He0. unfold ents in *. cbn [aL aP aZ] in *.
          destruct R7 as [(_ & _ & -> & -> & -> & _)|[(L1 & e & L2 & _ & E & _ & -> & -> & -> & _)|(P1 & e & P2 & _ & E & _ & -> & -> & -> & _)]];
            [eauto| |]; rewrite E; clear - He0; key_tac. }
      destruct R7 as [(_ & -> & -> & -> & -> & H)|[(L1 & e & L2 & _ & E & Ek & -> & -> & -> & -> & _)|(P1 & e & P2 & _ & E & Ek & -> & -> & -> & ->)]].
      - do 2 eexists. exists A. split; [reflexivity|]. split; [reflexivity|]. split.
        + eapply GInv_ext; [|exact Gu]. intros j _. apply aupd_same. apply ash_eta.
        + now apply as_erase_none.
      - do 3 eexists. split; [reflexivity|]. split; [reflexivity|]. split; [exact Gu|].
        apply as_erase_idle; auto. rewrite (ash_eta (A (home k))), E. reflexivity.
      - do 3 eexists. split; [reflexivity|]. split; [reflexivity|]. split; [exact Gu|].
        apply as_erase_held; auto. rewrite (ash_eta (A (home k))), E. reflexivity.
    Qed.
    Lemma exec_total c A : GInv sc c A -> ok_step c A CTotalCharge.
    Proof.
      intros G. unfold ok_step, exec. cbn [dispatch bind fst snd clear_log c_mem m_log].
      do 2 eexists. exists A. split; [reflexivity|]. split; [reflexivity|].
      split; [exact (GInv_clear sc c A [] (c_last_id c) G)|]. cbn [ev_res ev_del].
      assert (E : cache_total_charge (clear_log c)
                  = u64 (sumN (map (fun i => charges (aL (A i) ++ aP (A i))) (seq 0 16)))).
      { unfold cache_total_charge. cbn [clear_log c_shards].
        assert (K : forall l n a x, (forall i s, nth_error l i = Some s -> s_usage s = u64 (charges (aL (A (n + i)) ++ aP (A (n + i))))) ->
          a = u64 x ->
          fold_left (fun total s => u64 (total + s_usage s)) l a
          = u64 (x + sumN (map (fun i => charges (aL (A i) ++ aP (A i))) (seq n (length l))))).
        { induction l as [|s l IH]; intros n a x Hl ->; cbn [fold_left length seq map].
          - cbn [sumN fold_right]. f_equal. lia.
          - erewrite IH with (n := S n) (x := (x + charges (aL (A n) ++ aP (A n)))%N).
            + f_equal. unfold sumN. cbn [fold_right]. lia.
            + intros i t Hi. replace (S n + i) with (n + S i) by lia. now apply Hl.
            + rewrite u64_add. rewrite (Hl 0 s eq_refl), Nat.add_0_r. rewrite (N.add_comm x), u64_add.
              f_equal. lia. }
        rewrite (K (c_shards c) 0 0%N 0%N); [rewrite (g_len _ _ _ G); reflexivity| |reflexivity].
        intros i s Hi. destruct (g_sh _ _ _ G i s Hi) as [I _]. apply (i_usage _ _ _ _ _ _ I). }
      rewrite E. constructor.
    Qed.

    Lemma exec_newid c A : GInv sc c A -> ok_step c A CNewId.
    Proof.
      intros G. unfold ok_step, exec. cbn [dispatch bind fst snd clear_log c_mem m_log].
      do 2 eexists. exists A. split; [reflexivity|]. split; [reflexivity|].
      split; [exact (GInv_clear sc c A [] _ G)|]. constructor.
    Qed.

    Lemma set_nth_app {B} (pre : list B) x y t : set_nth (length pre) y (pre ++ x :: t) = pre ++ y :: t.
    Proof. induction pre as [|z pre IH]; cbn; [reflexivity|]. now rewrite IH. Qed.
    Lemma nth_error_app_mid {B} (pre : list B) x t : nth_error (pre ++ x :: t) (length pre) = Some x.
    Proof. induction pre; cbn; auto. Qed.

    Definition pruned (x : ash) : ash := mk_ash [] (aP x) (aZ x).
    Lemma prune_from_spec l : forall pre h lg A ids,
      GInv sc (mk_cache (mk_mem h lg) (pre ++ l) ids) A ->
      exists h' l', prune_from dbg (mk_mem h lg) l
          = Ret (mk_mem h' (lg ++ concat (map (fun i => map dcall_of (aL (A i))) (seq (length pre) (length l)))), l') /\
        forall lg', GInv sc (mk_cache (mk_mem h' lg') (pre ++ l') ids)
          (fun i => if (length pre <=? i) && (i <? length pre + length l) then pruned (A i) else A i).
    Proof.
      induction l as [|s l IH]; intros pre h lg A ids G; cbn [prune_from length seq map concat].
      - exists h, []. rewrite app_nil_r. split; [reflexivity|]. intros lg'.
        eapply GInv_ext; [|apply (GInv_clear _ _ _ lg' ids) in G; exact G].
        intros i _. destruct ((length pre <=? i) && (i <? length pre + 0)) eqn:E; auto. exfalso.
        apply andb_prop in E as [E1 E2]. apply Nat.leb_le in E1. apply Nat.ltb_lt in E2. lia.
      - assert (Hs : nth_error (pre ++ s :: l) (length pre) = Some s) by apply nth_error_app_mid.
        destruct (g_sh _ _ _ G _ _ Hs) as [I Hc]. cbn [c_mem m_heap] in I.
        assert (Hi : length pre < 16) by (eapply (g_lt _ _ _ _ _ G); exact Hs).
        destruct (shard_prune_spec hashf dbg h lg s _ _ _ I) as (h1 & s1 & R1 & R2 & R3 & R4 & R5 & R6 & R7).
        rewrite R1. cbn [bind fst snd].
        assert (G1 : GInv sc (mk_cache (mk_mem h1 (lg ++ map dcall_of (aL (A (length pre))))) ((pre ++ [s1]) ++ l) ids)
                       (aupd A (length pre) (pruned (A (length pre))))).
        { rewrite <- app_assoc. cbn [app]. rewrite <- (set_nth_app pre s s1 l).
          eapply (GInv_update _ _ _ _ s _ s1 _ _ _ [] G); eauto; cbn [app].
          - intros a0 [].
          - intros a0 Ha0. unfold aown, pruned in *. cbn [aL aP aZ] in *. rewrite R4, R5 in *. clear - Ha0. own_tac.
          - intros a0 Ha0. unfold aown, pruned in *. cbn [aL aP aZ] in *. rewrite R4, R5 in *.
            destruct (in_dec Nat.eq_dec a0 (addrs (aL (A (length pre))))) as [Hin|Hin].
            + right. apply in_map_iff in Hin as (x & <- & Hx). auto.
            + left. clear - Ha0 Hin. own_tac.
          - eapply key_home; eauto. intros e0 He0. unfold pruned in He0. key_tac. }
        destruct (IH (pre ++ [s1]) _ _ _ _ G1) as (h' & l' & K1 & K2). rewrite K1. cbn [bind fst snd].
        exists h', (s1 :: l'). rewrite app_length. cbn [length]. rewrite Nat.add_1_r. split.
        + rewrite <- app_assoc. do 3 f_equal. f_equal. f_equal. f_equal. apply map_ext_in. intros j Hj.
          apply in_seq in Hj. rewrite aupd_ne by lia. reflexivity.
        + intros lg'. specialize (K2 lg'). rewrite <- app_assoc in K2. cbn [app] in K2.
          eapply GInv_ext; [|exact K2]. intros j Hj. rewrite app_length. cbn [length]. unfold aupd.
          destruct (Nat.eqb_spec j (length pre)) as [->|Hne].
          * rewrite (proj2 (Nat.leb_gt (length pre + 1) (length pre))) by lia. cbn [andb].
            rewrite Nat.leb_refl. cbn [andb]. rewrite (proj2 (Nat.ltb_lt _ _)) by lia. reflexivity.
          * replace (length pre <=? j) with (length pre + 1 <=? j).
            -- replace (length pre + S (length l)) with (length pre + 1 + length l) by lia. reflexivity.
            -- destruct (Nat.leb_spec (length pre + 1) j); destruct (Nat.leb_spec (length pre) j); auto; lia.
    Qed.

    Lemma exec_prune c A : GInv sc c A -> ok_step c A CPrune.
    Proof.
      intros G. unfold ok_step, exec. cbn [dispatch]. unfold cache_prune. cbn [clear_log c_mem c_shards c_last_id].
      destruct (prune_from_spec (c_shards c) [] (m_heap (c_mem c)) [] A (c_last_id c)) as (h' & l' & K1 & K2).
      { exact (GInv_clear sc c A [] _ G). }
      rewrite K1. cbn [bind fst snd c_mem m_log app length] in *. rewrite (g_len _ _ _ G) in *.
      do 3 eexists. split; [reflexivity|]. split; [reflexivity|]. split; [|apply as_prune].
      eapply GInv_ext; [|apply K2]. intros i Hi. cbn [Nat.leb andb]. apply Nat.ltb_lt in Hi. cbn [Nat.add]. rewrite Hi. reflexivity.
    Qed.

    Lemma exec_insert c A k v ch d : GInv sc c A -> apre A (CInsert k v ch d) -> ok_step c A (CInsert k v ch d).
    Proof.
      intros G [Hch Hsz]. pose proof (home_lt k) as Hi. destruct (g_shard _ _ _ _ G Hi) as (s & Hs).
      destruct (g_sh _ _ _ G _ _ Hs) as [I Hc].
      destruct (shard_insert_spec hashf alc dbg (m_heap (c_mem c)) [] s _ _ _ k v ch d nid Halc I Hch Hsz)
        as (h' & s' & lg' & L' & P' & Z' & R1 & R2 & R3 & R4 & R5 & R6 & R7 & R8 & R9).
      set (a := alc (dom (m_heap (c_mem c)))) in *. set (e := mk_ent a nid k v ch d 1) in *.
      unfold ok_step, exec. cbn [dispatch]. unfold cache_insert, the_shard. cbn [clear_log c_shards c_mem c_last_id].
      fold (home k). rewrite Hs. cbn [bind]. rewrite R1. cbn [bind fst snd c_mem m_log app].
      fold (home k).
      assert (Hfresh : forall i x, i < 16 -> In x (ents (A i)) -> e_addr x <> a).
      { intros i x Hi' Hx E. destruct (g_shard _ _ _ _ G Hi') as (t & Ht). destruct (g_sh _ _ _ G _ _ Ht) as [It _].
        eapply LInv_live; [apply (i_l _ _ _ _ _ _ It)| |exact R7]. rewrite <- E. apply (ents_own t (A i)). exact Hx. }
      assert (Gu : GInv sc (mk_cache (mk_mem h' lg') (set_nth (home k) s' (c_shards c)) (c_last_id c))
                     (aupd A (home k) (mk_ash L' P' Z'))).
      { eapply (GInv_update _ _ _ _ s _ _ _ _ _ [a]); eauto; cbn [app].
        - intros a0 [<-|[]]. exact R7.
        - intros a0 Ha0. unfold aown in *. cbn [aL aP aZ] in *. rewrite R4, R5 in *.
          destruct R9 as [(_ & _ & -> & -> & ->)|(_ & L0 & P0 & Z0 & D0 & D & Q & QL & -> & -> & _)].
          + clear - Ha0. unfold e in *. own_tac.
          + assert (K : In a0 (a :: own (s_lru s) (s_in_use s) L0 P0 Z0)) by (rewrite QL; clear - Ha0; unfold e in *; own_tac).
            destruct Q as [(-> & -> & -> & _)|[(L1 & x & L2 & E & _ & -> & -> & -> & _)|(P1 & x & P2 & E & _ & -> & -> & -> & _)]]; auto;
              rewrite E; clear - K; own_tac.
        - intros a0 Ha0. unfold aown in *. cbn [aL aP aZ] in *. rewrite R4, R5 in *.
          destruct R9 as [(_ & _ & -> & -> & ->)|(_ & L0 & P0 & Z0 & D0 & D & Q & QL & -> & -> & _ & Qd & _)].
          + left. clear - Ha0. unfold e in *. own_tac.
          + destruct (in_dec Nat.eq_dec a0 (addrs (D0 ++ D))) as [Hin|Hin].
            { right. apply in_map_iff in Hin as (x & <- & Hx). auto. }
            left. assert (K : In a0 (a :: own (s_lru s) (s_in_use s) L0 P0 Z0)).
            { destruct Q as [(-> & -> & -> & _)|[(L1 & x & L2 & E & _ & -> & -> & -> & ->)|(P1 & x & P2 & E & _ & -> & -> & -> & ->)]]; auto;
                rewrite E in Ha0; clear - Ha0 Hin; own_tac. }
            rewrite QL in K. clear - K Hin. unfold e. own_tac.
        - intros e0 He0. unfold ents in He0. cbn [aL aP aZ] in *.
          destruct R9 as [(_ & _ & -> & -> & ->)|(_ & L0 & P0 & Z0 & D0 & D & Q & QL & -> & -> & _)].
          + assert (K : e0 = e \/ In e0 (ents (A (home k)))).
            { unfold ents. rewrite !in_app_iff in *. cbn [In] in *. intuition auto. }
            destruct K as [->|K]; [reflexivity|]. eapply g_key; eauto.
          + assert (K : e0 = e \/ In e0 (L0 ++ P0 ++ Z0)).
            { rewrite QL. rewrite !in_app_iff in *. cbn [In] in *. intuition auto. }
            destruct K as [->|K]; [reflexivity|]. eapply key_home with (x' := mk_ash L0 P0 Z0); eauto.
            intros e1 He1. unfold ents in *. cbn [aL aP aZ] in *. clear - Q He1.
            destruct Q as [(-> & -> & -> & _)|[(L1 & x & L2 & E & _ & -> & -> & -> & _)|(P1 & x & P2 & E & _ & -> & -> & -> & _)]];
              [eauto| |]; rewrite E; clear - He1; key_tac. }
      do 3 eexists. split; [reflexivity|]. split; [reflexivity|]. split; [exact Gu|]. cbn [ev_res ev_del].
      destruct R9 as [(Q1 & -> & -> & -> & ->)|(Q0 & L0 & P0 & Z0 & D0 & D & Q & QL & -> & -> & -> & _ & Q1 & Q2)].
      - apply as_insert_off; auto; [congruence|]. apply ash_eta.
      - eapply as_insert; eauto; try congruence. apply ash_eta.
        + rewrite <- Hc. exact Q1.
        + rewrite <- Hc. exact Q2.
    Qed.

    Lemma exec_prune_shard c A i : GInv sc c A -> i < 16 -> ok_step c A (CPruneShard i).
    Proof.
      intros G Hi. unfold ok_step, exec. cbn [dispatch]. unfold cache_prune_shard, the_shard.
      cbn [clear_log c_mem c_shards c_last_id].
      destruct (g_shard _ _ _ _ G Hi) as (s & Hs). rewrite Hs. cbn [bind].
      destruct (g_sh _ _ _ G i s Hs) as [I Hc].
      destruct (shard_prune_spec hashf dbg (m_heap (c_mem c)) [] s _ _ _ I) as (h1 & s1 & R1 & R2 & R3 & R4 & R5 & R6 & R7).
      rewrite R1. cbn [bind fst snd c_mem m_log app].
      do 3 eexists. split; [reflexivity|]. split; [reflexivity|]. split; [|now apply as_prune_shard].
      change (mk_ash [] (aP (A i)) (aZ (A i))) with (pruned (A i)).
      eapply (GInv_update _ c _ _ s _ _ _ _ _ []); eauto; cbn [app].
      - intros a0 [].
      - intros a0 Ha0. unfold aown, pruned in *. cbn [aL aP aZ] in *. rewrite R4, R5 in *. clear - Ha0. own_tac.
      - intros a0 Ha0. unfold aown, pruned in *. cbn [aL aP aZ] in *. rewrite R4, R5 in *.
            destruct (in_dec Nat.eq_dec a0 (addrs (aL (A i)))) as [Hin|Hin].
            + right. apply in_map_iff in Hin as (x & <- & Hx). auto.
            + left. clear - Ha0 Hin. own_tac.
      - eapply key_home; eauto. intros e0 He0. unfold pruned in He0. key_tac.
    Qed.

    Lemma exec_shard_charge c A i : GInv sc c A -> i < 16 -> ok_step c A (CShardCharge i).
    Proof.
      intros G Hi. unfold ok_step, exec. cbn [dispatch]. unfold cache_shard_charge, the_shard.
      cbn [clear_log c_mem c_shards c_last_id].
      destruct (g_shard _ _ _ _ G Hi) as (s & Hs). rewrite Hs. cbn [bind fst snd clear_log c_mem m_log].
      do 2 eexists. exists A. split; [reflexivity|]. split; [reflexivity|].
      split; [exact (GInv_clear sc c A [] (c_last_id c) G)|]. cbn [ev_res ev_del].
      destruct (g_sh _ _ _ G i s Hs) as [I _]. rewrite (i_usage _ _ _ _ _ _ I). now apply as_shard_charge.
    Qed.

    Lemma exec_ok c A x : GInv sc c A -> apre A x -> ok_step c A x.
    Proof.
      destruct x; intros G Hp.
      - now apply exec_insert.
      - now apply exec_lookup.
      - now apply exec_release.
      - now apply exec_value.
      - now apply exec_erase.
      - now apply exec_prune.
      - now apply exec_total.
      - now apply exec_newid.
      - now apply exec_prune_shard.
      - now apply exec_shard_charge.
    Qed.
  End Exec.

  (** ** Construction *)
  Definition A0 : astate := fun _ => mk_ash [] [] [].

  Lemma shards_new_spec alc dbg : allocator_ok alc -> forall n h lg,
    exists h' l, shards_new alc dbg n (mk_mem h lg) = Ret (mk_mem h' lg, l) /\ length l = n /\
      (forall i s, nth_error l i = Some s -> Inv h' s [] [] []) /\
      (forall i s a, nth_error l i = Some s -> In a [s_lru s; s_in_use s] -> hget h a = None) /\
      (forall i j s t a, i <> j -> nth_error l i = Some s -> nth_error l j = Some t ->
         In a [s_lru s; s_in_use s] -> ~ In a [s_lru t; s_in_use t]) /\
      (forall a, live h a -> hget h' a = hget h a) /\
      (forall a, live h' a -> live h a \/ exists i s, nth_error l i = Some s /\ In a [s_lru s; s_in_use s]).
  Proof.
    intros Ha. induction n as [|n IH]; intros h lg; cbn [shards_new].
    - exists h, []. split; [reflexivity|]. split; [reflexivity|].
      split; [intros i s H; destruct i; discriminate|]. split; [intros i s a H; destruct i; discriminate|].
      split; [intros i j s t a _ H; destruct i; discriminate|]. auto.
    - destruct (shard_new_spec hashf alc dbg h lg Ha) as (h1 & s & R1 & R2 & R3 & R4 & R5).
      rewrite R1. cbn [bind fst snd]. destruct (IH h1 lg) as (h' & l & K1 & K2 & K3 & K4 & K5 & K6 & K7).
      rewrite K1. cbn [bind fst snd]. exists h', (s :: l). split; [reflexivity|]. split; [cbn; congruence|].
      assert (Hlive : forall a, In a [s_lru s; s_in_use s] -> live h1 a).
      { intros a Hin. eapply LInv_live; [apply (i_l _ _ _ _ _ _ R2)|]. unfold own. cbn in *. tauto. }
      split; [|split; [|split; [|split]]].
      + intros i t Hi. destruct i as [|i]; cbn in Hi; [inversion Hi; subst t|eauto].
        eapply Inv_frame; [|exact R2]. intros a Hin. apply K6. apply Hlive. cbn in *. tauto.
      + intros i t a Hi Hin. destruct i as [|i]; cbn in Hi.
        * inversion Hi; subst t. cbn in Hin. destruct Hin as [<-|[<-|[]]]; auto.
        * specialize (K4 i t a Hi Hin). destruct (in_dec Nat.eq_dec a [s_lru s; s_in_use s]) as [Hin'|Hin'].
          -- exfalso. exact (Hlive a Hin' K4).
          -- rewrite <- (R3 a Hin'). exact K4.
      + intros i j t r a Hij Hi Hj Hin Hin'. destruct i as [|i], j as [|j]; cbn in Hi, Hj; try congruence.
        * inversion Hi; subst t. apply (Hlive a Hin). eauto.
        * inversion Hj; subst r. apply (Hlive a Hin'). eauto.
        * eapply (K5 i j); eauto.
      + intros a Hl. assert (E : hget h1 a = hget h a).
        { apply R3. intros [<-|[<-|[]]]; contradiction. }
        rewrite K6; auto. unfold live. congruence.
      + intros a Hl. destruct (K7 a Hl) as [H|(i & t & H1 & H2)].
        * destruct (in_dec Nat.eq_dec a [s_lru s; s_in_use s]) as [Hin|Hin].
          -- right. exists 0, s. auto.
          -- left. unfold live in *. rewrite <- (R3 a Hin). exact H.
        * right. exists (S i), t. auto.
  Qed.

  Lemma cache_new_spec alc dbg cap : allocator_ok alc ->
    exists c, cache_new alc dbg cap = Ret c /\ GInv (per_shard cap) c A0.
  Proof.
    intros Ha. unfold cache_new. destruct (shards_new_spec alc dbg Ha kNumShards [] [])
      as (h' & l & K1 & K2 & K3 & K4 & K5 & K6 & K7).
    rewrite K1. cbn [bind fst snd]. eexists. split; [reflexivity|].
    assert (Nth : forall i s, nth_error (map (set_capacity (per_shard cap)) l) i = Some s ->
      exists t, nth_error l i = Some t /\ s = set_capacity (per_shard cap) t).
    { intros i s H. rewrite nth_error_map in H. destruct (nth_error l i) as [t|]; [|discriminate].
      inversion H; eauto. }
    constructor; cbn [c_shards c_mem m_heap].
    - rewrite map_length. exact K2.
    - intros i s H. apply Nth in H as (t & Ht & ->). split; [|reflexivity].
      apply set_capacity_Inv; auto. eapply K3; eauto.
    - intros i j s t a Hij H1 H2. apply Nth in H1 as (s0 & H1 & ->). apply Nth in H2 as (t0 & H2 & ->).
      apply (K5 i j s0 t0 a Hij H1 H2).
    - intros a Hl. destruct (K7 a Hl) as [H|(i & s & H1 & H2)]; [exfalso; apply H; reflexivity|].
      exists i, (set_capacity (per_shard cap) s). rewrite nth_error_map, H1. auto.
    - intros i e _ [].
  Qed.

  (** ** Destruction *)
  Lemma dtors_spec dbg (f : nat -> shard) (g : nat -> list ent) ix : forall h lg,
    NoDup ix -> (forall i, In i ix -> Inv h (f i) (g i) [] []) ->
    (forall i j a, In i ix -> In j ix -> i <> j -> In a (own (s_lru (f i)) (s_in_use (f i)) (g i) [] []) ->
       ~ In a (own (s_lru (f j)) (s_in_use (f j)) (g j) [] [])) ->
    exists h', dtors dbg (mk_mem h lg) (map f ix) = Ret (mk_mem h' (lg ++ concat (map (fun i => map dcall_of (g i)) ix))) /\
      (forall i a, In i ix -> In a (own (s_lru (f i)) (s_in_use (f i)) (g i) [] []) -> hget h' a = None) /\
      (forall a, (forall i, In i ix -> ~ In a (own (s_lru (f i)) (s_in_use (f i)) (g i) [] [])) -> hget h' a = hget h a).
  Proof.
    induction ix as [|i ix IH]; intros h lg N Hi Hd; cbn [map dtors concat].
    - exists h. rewrite app_nil_r. split; [reflexivity|]. split; [intros i a []|auto].
    - apply NoDup_cons_iff in N as [N1 N2].
      destruct (shard_dtor_spec hashf dbg h lg (f i) (g i)) as (h1 & R1 & R2 & R3); [apply Hi; cbn; auto|].
      rewrite R1. cbn [bind].
      destruct (IH h1 (lg ++ map dcall_of (g i)) N2) as (h' & K1 & K2 & K3).
      { intros j Hj. eapply Inv_frame; [|apply Hi; cbn; auto]. intros a Hin. apply R2.
        apply (Hd j i); cbn; auto. intros ->; tauto. }
      { intros j k a Hj Hk. apply Hd; cbn; auto. }
      rewrite K1, <- app_assoc. exists h'. split; [reflexivity|]. split.
      + intros j a [<-|Hj] Hin; [|eauto]. rewrite K3; [auto|]. intros k Hk Hin'.
        apply (Hd i k a); cbn; auto. intros ->; tauto.
      + intros a Hna. rewrite K3; [apply R2, Hna; cbn; auto|]. intros k Hk. apply Hna; cbn; auto.
  Qed.

  Lemma map_nth_seq {B} (d : B) l : map (fun i => nth i l d) (seq 0 (length l)) = l.
  Proof.
    induction l as [|x l IH]; cbn [length seq map nth]; [reflexivity|].
    f_equal. rewrite <- seq_shift, map_map. exact IH.
  Qed.

  Lemma cache_dtor_spec dbg sc c A : GInv sc c A -> m_log (c_mem c) = [] ->
    (forall i, i < 16 -> aP (A i) = [] /\ aZ (A i) = []) ->
    cache_dtor dbg c = Ret (mk_mem [] (concat (map (fun i => map dcall_of (aL (A i))) (rev (seq 0 16))))).
  Proof.
    intros G Hlg Hn. unfold cache_dtor.
    set (d := mk_shard 0 0 0 0 (mk_htable 0 0 [])).
    set (f := fun i => nth i (c_shards c) d).
    assert (Hf : forall i, i < 16 -> nth_error (c_shards c) i = Some (f i)).
    { intros i Hi. apply nth_error_nth'. rewrite (g_len _ _ _ G). exact Hi. }
    assert (E : rev (c_shards c) = map f (rev (seq 0 16))).
    { rewrite map_rev. f_equal. rewrite <- (g_len _ _ _ G). symmetry. apply map_nth_seq. }
    rewrite E. destruct c as [[h lg] sh ids]; cbn [c_mem m_log m_heap c_shards] in *. subst lg.
    assert (Hin : forall i, In i (rev (seq 0 16)) -> i < 16).
    { intros i H. apply in_rev, in_seq in H. lia. }
    assert (Own : forall i, i < 16 -> aown (f i) (A i) = own (s_lru (f i)) (s_in_use (f i)) (aL (A i)) [] []).
    { intros i Hi. unfold aown. destruct (Hn i Hi) as [-> ->]. reflexivity. }
    destruct (dtors_spec dbg f (fun i => aL (A i)) (rev (seq 0 16)) h []) as (h' & K1 & K2 & K3).
    - apply NoDup_rev, seq_NoDup.
    - intros i Hi. apply Hin in Hi. destruct (g_sh _ _ _ G i (f i) (Hf i Hi)) as [I _].
      destruct (Hn i Hi) as [E1 E2]. rewrite E1, E2 in I. exact I.
    - intros i j a Hi Hj Hij. apply Hin in Hi, Hj. rewrite <- !Own by auto.
      apply (g_disj _ _ _ G i j (f i) (f j) a Hij); auto.
    - rewrite K1. cbn [app]. do 2 f_equal. apply heap_empty. intros a.
      destruct (hget h' a) eqn:E1; auto. exfalso.
      assert (Hna : forall i, In i (rev (seq 0 16)) -> ~ In a (own (s_lru (f i)) (s_in_use (f i)) (aL (A i)) [] [])).
      { intros i Hi Ha. rewrite (K2 i a Hi Ha) in E1. discriminate. }
      destruct (g_live _ _ _ G a) as (i & s & H1 & H2).
      { unfold live. cbn [c_mem m_heap]. rewrite <- K3 by auto. congruence. }
      assert (Hi : i < 16) by (eapply (g_lt _ _ _ _ _ G); eauto).
      cbn [c_shards] in H1. rewrite (Hf i Hi) in H1. inversion H1; subst s.
      apply (Hna i); [apply -> in_rev; apply in_seq; lia|]. rewrite <- Own by auto. exact H2.
  Qed.
End Global.
