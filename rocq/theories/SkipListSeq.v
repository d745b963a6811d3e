(** SkipListSeq.v -- histories of insertions and the sequential operations. *)
From Coq Require Import List Arith ZArith NArith Lia Bool Sorted Permutation.
From Verif Require Import Outcome Random SkipList SkipListSpec SkipListProofs SkipListInsert.
Import ListNotations.
Local Open Scope outcome_scope.

Section Seq.
  Context {K : Type} (cmp : K -> K -> Z) (Hc : comparator_ok cmp).
  Notation mem := (mem K). Notation store := (store K). Notation skiplist := (skiplist K).
  Notation ghost := (@ghost K).
  Notation Good := (Good cmp).
  Notation lt_nodes := (lt_nodes cmp).
  Notation node_lt := (node_lt cmp).
  Notation node_ge := (node_ge cmp).
  Notation trace := (trace cmp).
  Notation ltk := (fun a b => (cmp a b < 0)%Z).

  Definition mem0 (k0 : K) : mem :=
    {| nodes := [{| nkey := k0; next_ := repeat (Some None) kMaxHeight |}]; max_height_ := 1 |}.
  Definition ghost0 (k0 : K) : ghost :=
    {| g_mem := mem0 k0; g_l := []; g_lv := fun a => if a =? 0 then kMaxHeight else 0 |}.
  Definition skiplist0 (k0 : K) : skiplist :=
    {| sl_mem := mem0 k0; rnd_ := Random_new 0xdeadbeef; sl_log := [] |}.

  Lemma ctor_eq k0 : SkipList_ctor k0 = Ret (skiplist0 k0).
  Proof. reflexivity. Qed.

  Lemma ghost0_good k0 : Good (ghost0 k0).
  Proof.
    split; cbn [g_mem g_l g_lv ghost0].
    - intros a [].
    - cbn. auto with arith.
    - intros a. unfold height_of. destruct a as [|a]; cbn [mem0 nodes nth_error Nat.eqb]; [apply Nat.leb_le; reflexivity|]. apply Nat.le_0_l.
    - cbn. unfold kMaxHeight. lia.
    - intros a [].
    - constructor.
    - intros p x s i E Hi. destruct p as [|a p]; cbn [app] in E.
      + injection E as <- <-. cbn [find]. cbn [Nat.eqb] in Hi.
        do 12 (destruct i as [|i]; [reflexivity|]). unfold kMaxHeight in Hi. lia.
      + injection E as _ E. destruct p; discriminate.
  Qed.

  Lemma ghost0_full k0 : full (ghost0 k0).
  Proof. split; cbn; [tauto|]. intros a Ha. lia. Qed.

  (** keys of the ghost list *)
  Definition keysof (g : ghost) (ks : list K) : Prop :=
    Forall2 (fun a k => key_of (g_mem g) a = Ret k) (g_l g) ks.

  Lemma forall2_app_inv {A B} (R : A -> B -> Prop) l1 l2 ks :
    Forall2 R (l1 ++ l2) ks -> exists k1 k2, ks = k1 ++ k2 /\ Forall2 R l1 k1 /\ Forall2 R l2 k2.
  Proof.
    revert ks; induction l1 as [|a t IH]; intros ks H; cbn [app] in H.
    - exists [], ks. auto.
    - inversion H; subst. destruct (IH _ H4) as (k1 & k2 & -> & H5 & H6).
      exists (y :: k1), k2. auto.
  Qed.

  Lemma forall2_in_l (m : mem) l ks a k :
    Forall2 (fun a k => key_of m a = Ret k) l ks -> In a l -> key_of m a = Ret k -> In k ks.
  Proof.
    induction 1 as [|b k' l ks Hb _ IH]; cbn; [tauto|].
    intros [<-|Ha] Hk; [left; congruence|right; auto].
  Qed.

  Lemma forall2_in_r {A B} (R : A -> B -> Prop) l ks k :
    Forall2 R l ks -> In k ks -> exists a, In a l /\ R a k.
  Proof.
    induction 1 as [|b k' l ks Hb _ IH]; cbn; [tauto|].
    intros [<-|H]; [exists b; auto|]. destruct (IH H) as (a & ? & ?). exists a; auto.
  Qed.

  Lemma forall2_impl_in {A B} (R S : A -> B -> Prop) l ks :
    (forall a b, In a l -> R a b -> S a b) -> Forall2 R l ks -> Forall2 S l ks.
  Proof.
    intros H. induction 1; constructor; auto.
    - apply H; cbn; auto.
    - apply IHForall2. intros; apply H; cbn; auto.
  Qed.

  Lemma keysof_sorted g ks : Good g -> keysof g ks -> StronglySorted ltk ks.
  Proof.
    intros G Hk. pose proof (G_sorted _ _ G) as Hs. unfold keysof in Hk.
    revert ks Hk. induction Hs as [|a l H IH Hf]; intros ks Hk; inversion Hk; subst; constructor; auto.
    clear - H2 Hf H4. revert Hf. induction H4 as [|b k l ks Hb _ IH]; intros Hf; constructor.
    - inversion Hf; subst. destruct H1 as (ka & kb & E1 & E2 & E3).
      rewrite H2 in E1. rewrite Hb in E2. inversion E1; inversion E2; subst. exact E3.
    - apply IH. inversion Hf; auto.
  Qed.

  (** One insertion in terms of keys. *)
  Lemma InsertH_keys dbg s g key h ks :
    Good g -> full g -> at_ghost s g -> 1 <= h <= kMaxHeight -> keysof g ks ->
    (forall k, In k ks -> cmp key k <> 0%Z) ->
    exists s' tr ks', InsertH cmp dbg s key h = Ret s' /\ trace g tr /\
      at_ghost s' (final g tr) /\ sl_log s' = sl_log s ++ map fst tr /\ rnd_ s' = rnd_ s /\
      Good (final g tr) /\ full (final g tr) /\ keysof (final g tr) ks' /\ Permutation (key :: ks) ks'.
  Proof.
    intros G Hf Hat Hh Hk Hne.
    destruct (InsertH_ok cmp Hc dbg s g key h G Hf Hat Hh) as
      (s' & tr & P & S & E1 & T & A & L & R & F & El & El' & Kx & _ & _).
    { intros a ka Ha Hka. apply Hne. clear - Hk Ha Hka. unfold keysof in Hk.
      induction Hk as [|b k l ks Hb _ IH]; cbn in *; [tauto|].
      destruct Ha as [<-|Ha]; [left; congruence|right; auto]. }
    destruct (trace_good cmp Hc g tr G T) as [G' M].
    unfold keysof in Hk. rewrite El in Hk.
    destruct (forall2_app_inv _ _ _ _ Hk) as (k1 & k2 & -> & H1 & H2).
    exists s', tr, (k1 ++ key :: k2).
    split; [exact E1|]. split; [exact T|]. split; [exact A|]. split; [exact L|]. split; [exact R|].
    split; [exact G'|]. split; [exact F|]. split.
    - unfold keysof. rewrite El'. apply Forall2_app; [|constructor; [exact Kx|]];
        (eapply forall2_impl_in; [|eassumption]); intros a b _ Hab; apply (m_key _ _ M); exact Hab.
    - apply Permutation_middle.
  Qed.

  Definition heights_ok (ks : list (K * nat)) : Prop :=
    Forall (fun kh => 1 <= snd kh <= kMaxHeight) ks.

  Lemma insert_all_keys dbg : forall hist s g ks,
    Good g -> full g -> at_ghost s g -> heights_ok hist -> keysof g ks ->
    distinct cmp (map fst hist) ->
    (forall k k', In k ks -> In k' (map fst hist) -> cmp k' k <> 0%Z) ->
    exists s' tr ks', insert_all cmp dbg s hist = Ret s' /\ trace g tr /\
      at_ghost s' (final g tr) /\ sl_log s' = sl_log s ++ map fst tr /\ rnd_ s' = rnd_ s /\
      Good (final g tr) /\ full (final g tr) /\ keysof (final g tr) ks' /\
      Permutation (map fst hist ++ ks) ks'.
  Proof.
    induction hist as [|[k h] r IH]; intros s g ks G Hf Hat Hh Hk Hd Hne.
    - exists s, [], ks. cbn. rewrite app_nil_r. auto 12.
    - cbn [insert_all]. inversion Hh; subst. cbn [map fst] in *. destruct Hd as [Hd1 Hd2].
      destruct (InsertH_keys dbg s g k h ks G Hf Hat H1 Hk) as
        (s1 & tr1 & ks1 & E1 & T1 & A1 & L1 & R1 & G1 & F1 & K1 & P1).
      { intros k' Hk'. apply Hne; cbn; auto. }
      rewrite E1. cbn [bind].
      destruct (IH s1 (final g tr1) ks1 G1 F1 A1 H2 K1 Hd2) as
        (s' & tr & ks' & E2 & T2 & A2 & L2 & R2 & G2 & F2 & K2 & P2).
      { intros x y Hx Hy. apply (Permutation_in _ (Permutation_sym P1)) in Hx.
        destruct Hx as [<-|Hx].
        - intros E. apply (cmp_zero _ Hc) in E. apply (Hd1 y Hy E).
        - apply Hne; cbn; auto. }
      exists s', (tr1 ++ tr), ks'. rewrite final_app.
      split; [exact E2|]. split; [apply trace_app; auto|]. split; [exact A2|].
      split; [rewrite L2, L1, map_app, <- app_assoc; reflexivity|]. split; [congruence|].
      split; [exact G2|]. split; [exact F2|]. split; [exact K2|].
      rewrite <- P2, <- P1. cbn [app]. apply Permutation_middle.
  Qed.

  (** A whole history from construction. *)
  Lemma history_ok dbg k0 hist : heights_ok hist -> distinct cmp (map fst hist) ->
    exists s tr sk, insert_all cmp dbg (skiplist0 k0) hist = Ret s /\ trace (ghost0 k0) tr /\
      at_ghost s (final (ghost0 k0) tr) /\ sl_log s = map fst tr /\
      Good (final (ghost0 k0) tr) /\ full (final (ghost0 k0) tr) /\
      keysof (final (ghost0 k0) tr) sk /\ sorted_view cmp (map fst hist) sk.
  Proof.
    intros Hh Hd.
    destruct (insert_all_keys dbg hist (skiplist0 k0) (ghost0 k0) [] (ghost0_good k0) (ghost0_full k0))
      as (s & tr & sk & E & T & A & L & R & G & F & Kk & P); auto.
    - reflexivity.
    - constructor.
    - exists s, tr, sk. split; [exact E|]. split; [exact T|]. split; [exact A|].
      split; [rewrite L; reflexivity|]. split; [exact G|]. split; [exact F|]. split; [exact Kk|].
      split; [rewrite app_nil_r in P; exact P|]. eapply keysof_sorted; eauto.
  Qed.

  (** *** The generator *)
  Lemma height_loop_range : forall n rnd h r h', height_loop n rnd h = (r, h') -> h <= h' <= h + n.
  Proof.
    induction n as [|n IH]; intros rnd h r h' E; cbn [height_loop] in E.
    - inversion E; lia.
    - destruct (Random_Next rnd) as [v rnd']. destruct (v mod 4 =? 0)%N.
      + apply IH in E. lia.
      + inversion E; lia.
  Qed.

  Lemma RandomHeight_ok dbg rnd : exists r h, RandomHeight dbg false rnd = Ret (r, h) /\ 1 <= h <= kMaxHeight.
  Proof.
    unfold RandomHeight. destruct (height_loop (kMaxHeight - 1) rnd 1) as [r h] eqn:E.
    apply height_loop_range in E. exists r, h. unfold kMaxHeight in *.
    assert (Hle : (h <=? 12) = true) by (apply Nat.leb_le; lia).
    unfold assert_. rewrite Hle. cbn [negb andb]. rewrite Bool.andb_false_r. cbn [bind].
    split; [reflexivity|lia].
  Qed.

  (** The heights the generator yields along a history. *)
  Lemma insert_real_keys dbg : forall ks s g ks0,
    Good g -> full g -> at_ghost s g -> keysof g ks0 -> distinct cmp ks ->
    (forall k k', In k ks0 -> In k' ks -> cmp k' k <> 0%Z) ->
    exists s' tr ks', insert_real cmp dbg false s ks = Ret s' /\ trace g tr /\
      at_ghost s' (final g tr) /\ sl_log s' = sl_log s ++ map fst tr /\
      Good (final g tr) /\ full (final g tr) /\ keysof (final g tr) ks' /\
      Permutation (ks ++ ks0) ks'.
  Proof.
    induction ks as [|k r IH]; intros s g ks0 G Hf Hat Hk Hd Hne.
    - exists s, [], ks0. cbn. rewrite app_nil_r. auto 12.
    - cbn [insert_real]. destruct Hd as [Hd1 Hd2].
      destruct (RandomHeight_ok dbg (rnd_ s)) as (rnd & h & Hr & Hh).
      rewrite (Insert_InsertH cmp dbg false s k rnd h Hr).
      set (s0 := {| sl_mem := sl_mem s; rnd_ := rnd; sl_log := sl_log s |}).
      destruct (InsertH_keys dbg s0 g k h ks0 G Hf Hat Hh Hk) as
        (s1 & tr1 & ks1 & E1 & T1 & A1 & L1 & R1 & G1 & F1 & K1 & P1).
      { intros k' Hk'. apply Hne; cbn; auto. }
      rewrite E1. cbn [bind].
      destruct (IH s1 (final g tr1) ks1 G1 F1 A1 K1 Hd2) as
        (s' & tr & ks' & E2 & T2 & A2 & L2 & G2 & F2 & K2 & P2).
      { intros x y Hx Hy. apply (Permutation_in _ (Permutation_sym P1)) in Hx.
        destruct Hx as [<-|Hx].
        - intros E. apply (cmp_zero _ Hc) in E. apply (Hd1 y Hy E).
        - apply Hne; cbn; auto. }
      exists s', (tr1 ++ tr), ks'. rewrite final_app.
      split; [exact E2|]. split; [apply trace_app; auto|]. split; [exact A2|].
      split; [rewrite L2, L1, map_app, <- app_assoc; reflexivity|].
      split; [exact G2|]. split; [exact F2|]. split; [exact K2|].
      rewrite <- P2, <- P1. cbn [app]. apply Permutation_middle.
  Qed.

  Lemma real_history_ok dbg k0 ks : distinct cmp ks ->
    exists s tr sk, insert_real cmp dbg false (skiplist0 k0) ks = Ret s /\ trace (ghost0 k0) tr /\
      at_ghost s (final (ghost0 k0) tr) /\ sl_log s = map fst tr /\
      Good (final (ghost0 k0) tr) /\ full (final (ghost0 k0) tr) /\
      keysof (final (ghost0 k0) tr) sk /\ sorted_view cmp ks sk.
  Proof.
    intros Hd.
    destruct (insert_real_keys dbg ks (skiplist0 k0) (ghost0 k0) [] (ghost0_good k0) (ghost0_full k0))
      as (s & tr & sk & E & T & A & L & G & F & Kk & P); auto.
    - reflexivity.
    - constructor.
    - exists s, tr, sk. split; [exact E|]. split; [exact T|]. split; [exact A|].
      split; [rewrite L; reflexivity|]. split; [exact G|]. split; [exact F|]. split; [exact Kk|].
      split; [rewrite app_nil_r in P; exact P|]. eapply keysof_sorted; eauto.
  Qed.

  (** *** Operations on a full list with keys [sk] *)
  Section Ops.
    Variables (g : ghost) (sk : list K).
    Hypotheses (G : Good g) (F : full g) (HK : keysof g sk).

    Let Hpos : forall a, In a (g_l g) -> 1 <= g_lv g a.
    Proof. intros a Ha. apply F; auto. Qed.

    Lemma key_in a k : In a (g_l g) -> key_of (g_mem g) a = Ret k -> In k sk.
    Proof. intros Ha Hk. eapply forall2_in_l; eauto. Qed.

    Lemma in_key k : In k sk -> exists a, In a (g_l g) /\ key_of (g_mem g) a = Ret k.
    Proof. intros Hk. exact (forall2_in_r _ _ _ k HK Hk). Qed.

    Lemma Contains_ok key : exists b, Contains cmp (g_mem g) key = Ret b /\ (b = true <-> member cmp key sk).
    Proof.
      destruct (FGE_ok cmp Hc g key G Hpos) as (v & prev & E & _ & _ & Hv).
      unfold Contains. rewrite E. cbn [bind]. destruct v as [a|].
      - destruct Hv as (Ha & (ka & Hka & Hge) & Hmin). rewrite Hka. cbn [bind].
        eexists; split; [reflexivity|]. rewrite Z.eqb_eq. split.
        + intros E0. exists ka. split; auto. eapply key_in; eauto.
        + intros (k' & Hk' & E0). destruct (in_key k' Hk') as (z & Hz & Hkz).
          destruct (Hmin z Hz) as [->|(ka' & kz & H1 & H2 & H3)].
          * exists k'. split; auto. apply (cmp_zero _ Hc) in E0. lia.
          * rewrite Hkz in Hka. inversion Hka; subst. exact E0.
          * rewrite Hka in H1. rewrite Hkz in H2. inversion H1; inversion H2; subst.
            apply (cmp_zero _ Hc) in E0.
            pose proof (cmp_lt_le _ Hc ka' kz key H3 ltac:(lia)). lia.
      - eexists; split; [reflexivity|]. split; [discriminate|].
        intros (k' & Hk' & E0). destruct (in_key k' Hk') as (z & Hz & Hkz).
        destruct (Hv z Hz) as (kz & H1 & H2). rewrite Hkz in H1; inversion H1; subst.
        apply (cmp_zero _ Hc) in E0. lia.
    Qed.

    Lemma Next0_ok p a s : 0 :: g_l g = p ++ a :: s -> Next (g_mem g) a 0 = Ret (hd_error s).
    Proof.
      intros E.
      assert (Ha : 0 < g_lv g a).
      { assert (Hin : In a (0 :: g_l g)) by (rewrite E; apply in_or_app; cbn; auto).
        destruct Hin as [<-|Hin]; [|specialize (Hpos a Hin); lia].
        destruct (G_head _ _ G) as (_ & -> & _). unfold kMaxHeight; lia. }
      rewrite (G_links _ _ G p a s 0 E Ha). f_equal. destruct s as [|b s]; [reflexivity|].
      cbn [find hd_error]. destruct (split_nodes cmp g p a (b :: s) G E) as (S1 & _).
      assert (Hb : In b (g_l g)) by (apply S1; cbn; auto). specialize (Hpos b Hb).
      destruct (Nat.ltb_spec 0 (g_lv g b)); [reflexivity|lia].
    Qed.

    Lemma key_valid a : In a (g_l g) -> exists k, key_of (g_mem g) a = Ret k.
    Proof. intros Ha. apply key_of_ret. apply (G_nodes _ _ G) in Ha. lia. Qed.

    Lemma SeekToFirst_ok : iter_SeekToFirst (g_mem g) = Ret (hd_error (g_l g)).
    Proof. apply (Next0_ok [] 0 (g_l g)). reflexivity. Qed.

    Lemma iNext_ok dbg p a s : g_l g = p ++ a :: s ->
      iter_Next dbg (g_mem g) (Some a) = Ret (hd_error s).
    Proof.
      intros E. unfold iter_Next, iter_node, assert_, Valid. cbn [negb]. rewrite Bool.andb_false_r.
      cbn [bind]. apply (Next0_ok (0 :: p) a s). rewrite E. reflexivity.
    Qed.

    Lemma last_before p : 0 :: p = removelast (0 :: p) ++ [last (0 :: p) 0].
    Proof. apply app_removelast_last. discriminate. Qed.

    Lemma iPrev_ok dbg p a s : g_l g = p ++ a :: s ->
      iter_Prev cmp dbg (g_mem g) (Some a) = Ret (hd_error (rev p)).
    Proof.
      intros E. unfold iter_Prev, iter_node, assert_, Valid. cbn [negb]. rewrite Bool.andb_false_r.
      cbn [bind].
      assert (Ha : In a (g_l g)) by (rewrite E; apply in_or_app; cbn; auto).
      destruct (key_valid a Ha) as [k Hk]. rewrite Hk. cbn [bind].
      destruct (FLT_ok cmp Hc dbg g k G Hpos) as (r & Hr & Hb & Hmax). rewrite Hr. cbn [bind].
      assert (E' : 0 :: g_l g = (0 :: p) ++ a :: s) by (rewrite E; reflexivity).
      destruct (split_nodes cmp g (0 :: p) a s G E') as (S1 & S2 & S3 & S4 & _).
      assert (Ha0 : a <> 0) by (apply (G_nodes _ _ G) in Ha; lia).
      f_equal. destruct (rev p) as [|z pr] eqn:Ep.
      - cbn [hd_error]. assert (p = []) by (rewrite <- (rev_involutive p), Ep; reflexivity). subst p.
        destruct Hb as [->|[Hin (kr & Hkr & Hlt)]]; [reflexivity|].
        exfalso. rewrite E in Hin. destruct Hin as [<-|Hin].
        + rewrite Hk in Hkr; inversion Hkr; subst. rewrite (cmp_refl _ Hc) in Hlt. lia.
        + destruct (S2 r Hin Ha0) as (k1 & k2 & B1 & B2 & B3).
          rewrite Hk in B1; rewrite Hkr in B2; inversion B1; inversion B2; subst.
          pose proof (cmp_lt_trans _ Hc _ _ _ B3 Hlt). rewrite (cmp_refl _ Hc) in H. lia.
      - cbn [hd_error]. assert (Ep' : p = rev pr ++ [z]) by (rewrite <- (rev_involutive p), Ep; reflexivity).
        assert (Hz : In z p) by (rewrite Ep'; apply in_or_app; cbn; auto).
        assert (Hzl : In z (g_l g)) by (rewrite E; apply in_or_app; auto).
        assert (Hz0 : z <> 0) by (apply (G_nodes _ _ G) in Hzl; lia).
        destruct (S3 Ha0 z (or_intror Hz) Hz0) as (kz & ka & B1 & B2 & B3).
        rewrite Hk in B2; inversion B2; subst ka.
        destruct (Hmax z Hzl) as [<-|[Hr0 Hlt]]; [exists kz; auto| |].
        + destruct (z =? 0) eqn:Ez; [apply Nat.eqb_eq in Ez; congruence|reflexivity].
        + exfalso. destruct Hb as [->|[Hin (kr & Hkr & Hltk)]]; [congruence|].
          assert (Hra : ~ lt_nodes (g_mem g) a r).
          { intros (k1 & k2 & C1 & C2 & C3). rewrite Hk in C1; rewrite Hkr in C2.
            inversion C1; inversion C2; subst. pose proof (cmp_lt_trans _ Hc _ _ _ C3 Hltk).
            rewrite (cmp_refl _ Hc) in H. lia. }
          assert (Hne : r <> a).
          { intros ->. rewrite Hk in Hkr; inversion Hkr; subst. rewrite (cmp_refl _ Hc) in Hltk. lia. }
          assert (E2 : 0 :: g_l g = (0 :: rev pr) ++ z :: (a :: s)).
          { rewrite E, Ep'. cbn [app]. rewrite <- app_assoc. reflexivity. }
          destruct (split_nodes cmp g _ z _ G E2) as (_ & _ & T3 & _).
          rewrite E in Hin. apply in_app_or in Hin. destruct Hin as [Hin|[Hin|Hin]].
          * rewrite Ep' in Hin. apply in_app_or in Hin. destruct Hin as [Hin|[<-|[]]].
            -- apply (lt_nodes_irrefl cmp Hc (g_mem g) z). eapply lt_nodes_trans; eauto.
               apply T3; auto. cbn; auto.
            -- eapply lt_nodes_irrefl; eauto.
          * congruence.
          * apply Hra. apply S2; auto.
    Qed.

    Lemma SeekToLast_ok : iter_SeekToLast (g_mem g) = Ret (hd_error (rev (g_l g))).
    Proof.
      unfold iter_SeekToLast. destruct (FLast_ok cmp Hc g G Hpos) as (p' & r & E & El).
      rewrite E. cbn [bind]. f_equal.
      destruct p' as [|b p']; cbn [app] in El.
      - injection El as <- El. rewrite El. reflexivity.
      - injection El as <- El. rewrite El, rev_app_distr. cbn [rev app hd_error].
        assert (Hin : In r (g_l g)) by (rewrite El; apply in_or_app; cbn; auto).
        apply (G_nodes _ _ G) in Hin. destruct (r =? 0) eqn:Er; [apply Nat.eqb_eq in Er; lia|reflexivity].
    Qed.

    Lemma iSeek_ok t : exists p s, iter_Seek cmp (g_mem g) t = Ret (hd_error s) /\ g_l g = p ++ s /\
      Forall (fun a => node_lt (g_mem g) a t) p /\ Forall (fun a => node_ge (g_mem g) a t) s.
    Proof.
      destruct (FGE_ok cmp Hc g t G Hpos) as (v & prev & E & _ & _ & Hv).
      destruct (split_at_key cmp Hc g t G) as (P & S & El & HP & HS).
      exists P, S. unfold iter_Seek. rewrite E. cbn [bind]. split; [|auto]. f_equal.
      assert (Hsp : forall a, In a (g_l g) -> node_ge (g_mem g) a t -> In a S).
      { intros a Ha (ka & H1 & H2). rewrite El in Ha. apply in_app_or in Ha. destruct Ha as [Ha|]; auto.
        exfalso. rewrite Forall_forall in HP. destruct (HP a Ha) as (k' & H3 & H4).
        rewrite H1 in H3; inversion H3; subst; lia. }
      destruct S as [|b S]; cbn [hd_error].
      - destruct v as [a|]; auto. exfalso. destruct Hv as (Ha & Hge & _). apply (Hsp a Ha Hge).
      - assert (Hbl : In b (g_l g)) by (rewrite El; apply in_or_app; cbn; auto).
        assert (Hbge : node_ge (g_mem g) b t) by (inversion HS; auto).
        destruct v as [a|].
        + destruct Hv as (Ha & Hge & Hmin). f_equal.
          destruct (Hsp a Ha Hge) as [|HaS]; [auto|].
          exfalso.
          assert (E' : 0 :: g_l g = (0 :: P) ++ b :: S) by (rewrite El; reflexivity).
          destruct (split_nodes cmp g _ b S G E') as (_ & S2 & _).
          assert (Hlt : lt_nodes (g_mem g) b a).
          { apply S2; auto. apply (G_nodes _ _ G) in Hbl. lia. }
          destruct (Hmin b Hbl Hbge) as [<-|Hlt2].
          * eapply lt_nodes_irrefl; eauto.
          * apply (lt_nodes_irrefl cmp Hc (g_mem g) a). eapply lt_nodes_trans; eauto.
        + exfalso. destruct (Hv b Hbl) as (k1 & H1 & H2). destruct Hbge as (k2 & H3 & H4).
          rewrite H1 in H3; inversion H3; subst; lia.
    Qed.

    (** walks *)
    Lemma walk_fwd dbg : forall s p ks, g_l g = p ++ s ->
      Forall2 (fun a k => key_of (g_mem g) a = Ret k) s ks ->
      visits (iter_key dbg (g_mem g)) (iter_Next dbg (g_mem g)) (hd_error s) ks.
    Proof.
      induction s as [|a s IH]; intros p ks E Hk; inversion Hk; subst; cbn [hd_error].
      - apply visits_end. reflexivity.
      - eapply visits_step; [reflexivity| | |].
        + unfold iter_key, iter_node, assert_, Valid. cbn [negb]. rewrite Bool.andb_false_r. exact H1.
        + apply (iNext_ok dbg p a s E).
        + apply (IH (p ++ [a])); auto. rewrite <- app_assoc. exact E.
    Qed.

    Lemma walk_bwd dbg : forall p s ks, g_l g = rev p ++ s ->
      Forall2 (fun a k => key_of (g_mem g) a = Ret k) p ks ->
      visits (iter_key dbg (g_mem g)) (iter_Prev cmp dbg (g_mem g)) (hd_error p) ks.
    Proof.
      induction p as [|a p IH]; intros s ks E Hk; inversion Hk; subst; cbn [hd_error].
      - apply visits_end. reflexivity.
      - cbn [rev] in E. rewrite <- app_assoc in E. cbn [app] in E.
        eapply visits_step; [reflexivity| | |].
        + unfold iter_key, iter_node, assert_, Valid. cbn [negb]. rewrite Bool.andb_false_r. exact H1.
        + rewrite (iPrev_ok dbg (rev p) a s E), rev_involutive. reflexivity.
        + apply (IH (a :: s)); auto.
    Qed.

    Lemma forall2_rev {A B} (R : A -> B -> Prop) l ks : Forall2 R l ks -> Forall2 R (rev l) (rev ks).
    Proof.
      induction 1; cbn [rev]; auto. apply Forall2_app; auto.
    Qed.

    Lemma positioned_in dbg it : positioned cmp dbg (g_mem g) it ->
      match it with None => True | Some a => In a (g_l g) end.
    Proof.
      assert (Hhd : forall (l : list nat), incl l (g_l g) ->
                match hd_error l with None => True | Some a => In a (g_l g) end).
      { intros [|a l] Hi; cbn; auto. apply Hi; cbn; auto. }
      induction 1 as [it H|it H|t it H|it it' _ IH Hv H|it it' _ IH Hv H].
      - rewrite SeekToFirst_ok in H. inversion H; subst. apply Hhd, incl_refl.
      - rewrite SeekToLast_ok in H. inversion H; subst. apply Hhd. intros a Ha. apply in_rev; auto.
      - destruct (iSeek_ok t) as (p & s & E & El & _). rewrite E in H. inversion H; subst.
        apply Hhd. rewrite El. apply incl_appr, incl_refl.
      - destruct it as [a|]; [|discriminate]. apply in_split in IH. destruct IH as (p & s & E).
        rewrite (iNext_ok dbg p a s E) in H. inversion H; subst. apply Hhd. rewrite E.
        apply incl_appr. intros x Hx; cbn; auto.
      - destruct it as [a|]; [|discriminate]. apply in_split in IH. destruct IH as (p & s & E).
        rewrite (iPrev_ok dbg p a s E) in H. inversion H; subst. apply Hhd. rewrite E.
        intros x Hx. apply in_or_app. left. apply in_rev; auto.
    Qed.
  End Ops.
End Seq.
