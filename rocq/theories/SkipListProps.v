(** SkipListProps.v -- property theorems C24 - C27 (sequential skip list).

    [hist] is an arbitrary list of (key, height): the heights stand for
    whatever the random generator produces; the _random versions use the code's
    own generator.  [dbg] is an assertion-enabled build, except the assertion
    of skiplist.h:249 which has its own switch (C27). *)
From Coq Require Import List Arith ZArith NArith Lia Bool Sorted Permutation.
From Verif Require Import Outcome Random SkipList SkipListSpec SkipListProofs SkipListInsert SkipListSeq.
Import ListNotations.
Local Open Scope outcome_scope.

(** The heights of a history are between 1 and kMaxHeight = 12. *)
Definition heights_1_12 {K} (hist : list (K * nat)) : Prop :=
  Forall (fun kh => 1 <= snd kh <= 12) hist.

(** All operations of C24 - C26 on a given list state [s] that holds exactly the
    keys [ks]. *)
Definition contains_exactly {K} (cmp : K -> K -> Z) (s : skiplist K) (ks : list K) : Prop :=
  forall k, exists b, Contains cmp (sl_mem s) k = Ret b /\ (b = true <-> member cmp k ks).

Lemma member_perm {K} (cmp : K -> K -> Z) k a b : Permutation a b -> member cmp k a <-> member cmp k b.
Proof.
  intros P. split; intros (k' & H1 & H2); exists k'; split; auto.
  - eapply Permutation_in; eauto.
  - eapply Permutation_in; [apply Permutation_sym|]; eauto.
Qed.

(** C24 *)
Theorem C24_contains_iff_inserted :
  forall (K : Type) (cmp : K -> K -> Z) (dbg : bool) (k0 : K) (hist : list (K * nat)),
    comparator_ok cmp -> heights_1_12 hist -> distinct cmp (map fst hist) ->
    exists s0 s, SkipList_ctor k0 = Ret s0 /\ insert_all cmp dbg s0 hist = Ret s /\
      contains_exactly cmp s (map fst hist).
Proof.
  intros K cmp dbg k0 hist Hc Hh Hd.
  destruct (history_ok cmp Hc dbg k0 hist Hh Hd) as (s & tr & sk & E & T & A & L & G & F & HK & [P S]).
  exists (skiplist0 k0), s. split; [reflexivity|]. split; [exact E|].
  intros k. rewrite A. destruct (Contains_ok cmp Hc _ sk G F HK k) as (b & H1 & H2).
  exists b. split; [exact H1|]. rewrite H2. symmetry. apply member_perm. exact P.
Qed.
Print Assumptions C24_contains_iff_inserted.

(** C24 with the heights drawn by the code. *)
Theorem C24_contains_iff_inserted_random :
  forall (K : Type) (cmp : K -> K -> Z) (dbg : bool) (k0 : K) (ks : list K),
    comparator_ok cmp -> distinct cmp ks ->
    exists s0 s, SkipList_ctor k0 = Ret s0 /\ insert_real cmp dbg false s0 ks = Ret s /\
      contains_exactly cmp s ks.
Proof.
  intros K cmp dbg k0 ks Hc Hd.
  destruct (real_history_ok cmp Hc dbg k0 ks Hd) as (s & tr & sk & E & T & A & L & G & F & HK & [P S]).
  exists (skiplist0 k0), s. split; [reflexivity|]. split; [exact E|].
  intros k. rewrite A. destruct (Contains_ok cmp Hc _ sk G F HK k) as (b & H1 & H2).
  exists b. split; [exact H1|]. rewrite H2. symmetry. apply member_perm. exact P.
Qed.
Print Assumptions C24_contains_iff_inserted_random.

(** C24, the precondition: in an assertion-enabled build inserting a key that
    is already there aborts. *)
Theorem C24_duplicate_insert_aborts :
  forall (K : Type) (cmp : K -> K -> Z) (dbg : bool) (k0 : K) (hist : list (K * nat)) s0 s k h,
    comparator_ok cmp -> heights_1_12 hist -> distinct cmp (map fst hist) ->
    SkipList_ctor k0 = Ret s0 -> insert_all cmp dbg s0 hist = Ret s ->
    member cmp k (map fst hist) -> InsertH cmp true s k h = AssertFail.
Proof.
  intros K cmp dbg k0 hist s0 s k h Hc Hh Hd E0 Ei Hm.
  destruct (history_ok cmp Hc dbg k0 hist Hh Hd) as (s' & tr & sk & E & T & A & L & G & F & HK & [P S]).
  rewrite ctor_eq in E0. inversion E0; subst s0. rewrite E in Ei. inversion Ei; subst s'.
  assert (Hpos : forall a, In a (g_l (final (ghost0 k0) tr)) -> 1 <= g_lv (final (ghost0 k0) tr) a)
    by (intros a Ha; apply F; auto).
  destruct (FGE_ok cmp Hc _ k G Hpos) as (v & prev & E1 & _ & _ & Hv).
  apply (member_perm cmp k _ _ P) in Hm.
  unfold InsertH. unfold at_ghost in A. rewrite !A, E1. cbn [bind].
  destruct (Contains_ok cmp Hc _ sk G F HK k) as (b & H1 & H2).
  unfold Contains in H1. rewrite E1 in H1. cbn [bind] in H1.
  destruct v as [a|].
  - destruct (key_of (g_mem (final (ghost0 k0) tr)) a) as [ka| | |]; cbn [bind] in *; try discriminate.
    apply H2 in Hm. subst b. inversion H1 as [H3]. rewrite H3. reflexivity.
  - inversion H1; subst b. apply H2 in Hm. discriminate.
Qed.
Print Assumptions C24_duplicate_insert_aborts.

(** C25: forward and backward iteration, Prev after Next. *)
Definition iterates_in_order {K} (cmp : K -> K -> Z) (dbg : bool) (m : mem K) (ks : list K) : Prop :=
  exists sk, sorted_view cmp ks sk /\
    (exists it, iter_SeekToFirst m = Ret it /\ (Valid it = true <-> ks <> []) /\
       visits (iter_key dbg m) (iter_Next dbg m) it sk) /\
    (exists it, iter_SeekToLast m = Ret it /\ (Valid it = true <-> ks <> []) /\
       visits (iter_key dbg m) (iter_Prev cmp dbg m) it (rev sk)) /\
    (forall it, positioned cmp dbg m it -> Valid it = true ->
       exists it2, iter_Next dbg m it = Ret it2 /\
         (Valid it2 = true -> iter_Prev cmp dbg m it2 = Ret it)) /\
    (forall it, positioned cmp dbg m it -> Valid it = true ->
       exists it2, iter_Prev cmp dbg m it = Ret it2 /\
         (Valid it2 = true -> iter_Next dbg m it2 = Ret it)).

Lemma iterates_ok {K} (cmp : K -> K -> Z) (Hc : comparator_ok cmp) dbg g sk ks :
  Good cmp g -> full g -> keysof g sk -> sorted_view cmp ks sk ->
  iterates_in_order cmp dbg (g_mem g) ks.
Proof.
  intros G F HK Hs. exists sk. split; [exact Hs|]. destruct Hs as [P S].
  assert (Hne : g_l g <> [] <-> ks <> []).
  { unfold keysof in HK. split; intros H E; apply H.
    - subst ks. apply Permutation_nil in P. subst sk. inversion HK; auto.
    - rewrite E in HK. inversion HK; subst. apply Permutation_sym, Permutation_nil in P. exact P. }
  split; [|split; [|split]].
  - exists (hd_error (g_l g)). split; [eapply SeekToFirst_ok; eauto|]. split.
    + rewrite <- Hne. destruct (g_l g); cbn; split; congruence.
    + exact (walk_fwd cmp g G F dbg (g_l g) [] sk eq_refl HK).
  - exists (hd_error (rev (g_l g))). split; [eapply SeekToLast_ok; eauto|]. split.
    + rewrite <- Hne. destruct (g_l g) as [|a l] eqn:E; [cbn; split; congruence|].
      destruct (rev (a :: l)) as [|b r] eqn:Er.
      * exfalso. assert (length (rev (a :: l)) = 0) by (rewrite Er; reflexivity).
        rewrite rev_length in H. discriminate.
      * cbn; split; congruence.
    + eapply (walk_bwd cmp Hc g G F dbg (rev (g_l g)) []).
      * rewrite rev_involutive, app_nil_r. reflexivity.
      * apply forall2_rev. exact HK.
  - intros it Hp Hv. apply (positioned_in cmp Hc g G F) in Hp. destruct it as [a|]; [|discriminate].
    apply in_split in Hp. destruct Hp as (p & s & E).
    exists (hd_error s). split; [eapply iNext_ok; eauto|].
    destruct s as [|b s]; [discriminate|]. intros _. cbn [hd_error].
    rewrite (iPrev_ok cmp Hc g G F dbg (p ++ [a]) b s) by (rewrite E, <- app_assoc; reflexivity).
    rewrite rev_app_distr. reflexivity.
  - intros it Hp Hv. apply (positioned_in cmp Hc g G F) in Hp. destruct it as [a|]; [|discriminate].
    apply in_split in Hp. destruct Hp as (p & s & E).
    exists (hd_error (rev p)). split; [eapply iPrev_ok; eauto|].
    destruct (rev p) as [|b r] eqn:Er; [discriminate|]. intros _. cbn [hd_error].
    assert (Ep : p = rev r ++ [b]) by (rewrite <- (rev_involutive p), Er; reflexivity).
    rewrite (iNext_ok cmp g G F dbg (rev r) b (a :: s)); [reflexivity|].
    rewrite E, Ep, <- app_assoc. reflexivity.
Qed.

Theorem C25_iteration_in_order :
  forall (K : Type) (cmp : K -> K -> Z) (dbg : bool) (k0 : K) (hist : list (K * nat)),
    comparator_ok cmp -> heights_1_12 hist -> distinct cmp (map fst hist) ->
    exists s0 s, SkipList_ctor k0 = Ret s0 /\ insert_all cmp dbg s0 hist = Ret s /\
      iterates_in_order cmp dbg (sl_mem s) (map fst hist).
Proof.
  intros K cmp dbg k0 hist Hc Hh Hd.
  destruct (history_ok cmp Hc dbg k0 hist Hh Hd) as (s & tr & sk & E & T & A & L & G & F & HK & Hs).
  exists (skiplist0 k0), s. split; [reflexivity|]. split; [exact E|]. rewrite A.
  eapply iterates_ok; eauto.
Qed.
Print Assumptions C25_iteration_in_order.

Theorem C25_iteration_in_order_random :
  forall (K : Type) (cmp : K -> K -> Z) (dbg : bool) (k0 : K) (ks : list K),
    comparator_ok cmp -> distinct cmp ks ->
    exists s0 s, SkipList_ctor k0 = Ret s0 /\ insert_real cmp dbg false s0 ks = Ret s /\
      iterates_in_order cmp dbg (sl_mem s) ks.
Proof.
  intros K cmp dbg k0 ks Hc Hd.
  destruct (real_history_ok cmp Hc dbg k0 ks Hd) as (s & tr & sk & E & T & A & L & G & F & HK & Hs).
  exists (skiplist0 k0), s. split; [reflexivity|]. split; [exact E|]. rewrite A.
  eapply iterates_ok; eauto.
Qed.
Print Assumptions C25_iteration_in_order_random.

(** C26: Seek. *)
Definition seek_ok {K} (cmp : K -> K -> Z) (dbg : bool) (m : mem K) (ks : list K) (t : K) : Prop :=
  exists it, iter_Seek cmp m t = Ret it /\
    (* invalid iff no key is >= the target *)
    (Valid it = false <-> forall k, In k ks -> (cmp k t < 0)%Z) /\
    (* otherwise at the smallest such key *)
    (Valid it = true -> exists k, iter_key dbg m it = Ret k /\ In k ks /\ (0 <= cmp k t)%Z /\
       forall k', In k' ks -> (0 <= cmp k' t)%Z -> (cmp k k' <= 0)%Z) /\
    (* and Next then visits all of them in order *)
    exists sk, sorted_view cmp ks sk /\
      visits (iter_key dbg m) (iter_Next dbg m) it (filter (fun k => (0 <=? cmp k t)%Z) sk).

Lemma filter_all {A} (f : A -> bool) l : Forall (fun x => f x = true) l -> filter f l = l.
Proof. induction 1; cbn; [reflexivity|]. now rewrite H, IHForall. Qed.
Lemma filter_none {A} (f : A -> bool) l : Forall (fun x => f x = false) l -> filter f l = [].
Proof. induction 1; cbn; [reflexivity|]. now rewrite H. Qed.

Lemma forall2_forall {A B} (R : A -> B -> Prop) (P : A -> Prop) (Q : B -> Prop) l ks :
  (forall a b, P a -> R a b -> Q b) -> Forall P l -> Forall2 R l ks -> Forall Q ks.
Proof. intros H HP H2. revert HP. induction H2; intros HP; constructor; inversion HP; eauto. Qed.

Lemma seek_ok_ghost {K} (cmp : K -> K -> Z) (Hc : comparator_ok cmp) dbg g sk ks t :
  Good cmp g -> full g -> keysof g sk -> sorted_view cmp ks sk ->
  seek_ok cmp dbg (g_mem g) ks t.
Proof.
  intros G F HK Hs. destruct (iSeek_ok cmp Hc g G F t) as (p & s & E & El & Hp & Hge).
  exists (hd_error s). split; [exact E|]. destruct Hs as [P S].
  pose proof HK as HK'. unfold keysof in HK'. rewrite El in HK'.
  destruct (forall2_app_inv _ _ _ _ HK') as (k1 & k2 & Ek & H1 & H2).
  assert (Q1 : Forall (fun k => (cmp k t < 0)%Z) k1).
  { eapply forall2_forall; [|exact Hp|exact H1]. intros a b (ka & A1 & A2) A3. cbn in *.
    rewrite A1 in A3. inversion A3; subst; auto. }
  assert (Q2 : Forall (fun k => (0 <= cmp k t)%Z) k2).
  { eapply forall2_forall; [|exact Hge|exact H2]. intros a b (ka & A1 & A2) A3. cbn in *.
    rewrite A1 in A3. inversion A3; subst; auto. }
  assert (Hin : forall k, In k ks <-> In k k1 \/ In k k2).
  { intros k. rewrite <- in_app_iff, <- Ek. split; intros Hk.
    - eapply Permutation_in; eauto.
    - eapply Permutation_in; [apply Permutation_sym|]; eauto. }
  rewrite Forall_forall in Q1, Q2.
  split; [|split].
  - destruct s as [|a s]; cbn [hd_error Valid].
    + inversion H2; subst k2. split; auto. intros _ k Hk. apply Hin in Hk. destruct Hk as [|[]]; auto.
    + split; [discriminate|]. intros Hall. exfalso. inversion H2; subst.
      assert (Hy : In y ks) by (apply Hin; cbn; auto). specialize (Hall y Hy).
      specialize (Q2 y (or_introl eq_refl)). lia.
  - destruct s as [|a s]; [discriminate|]. intros _. inversion H2; subst. exists y.
    split; [|split; [|split]].
    + unfold iter_key, iter_node, assert_, Valid. cbn [hd_error negb]. rewrite Bool.andb_false_r. auto.
    + apply Hin; cbn; auto.
    + apply Q2; cbn; auto.
    + intros k' Hk' Hk't. apply Hin in Hk'. destruct Hk' as [Hk'|[<-|Hk']].
      * specialize (Q1 k' Hk'). lia.
      * rewrite (cmp_refl _ Hc). lia.
      * assert (Hsy : StronglySorted (fun a b => (cmp a b < 0)%Z) (y :: l')).
        { clear - S. induction k1 as [|z k1 IH]; cbn in S; auto. inversion S; auto. }
        apply StronglySorted_inv in Hsy as [_ Hfy]. rewrite Forall_forall in Hfy. specialize (Hfy k' Hk'). lia.
  - exists sk. split; [split; auto|]. rewrite Ek, filter_app.
    rewrite filter_none.
    2:{ apply Forall_forall. intros k Hk. specialize (Q1 k Hk). apply Z.leb_gt. exact Q1. }
    rewrite filter_all.
    2:{ apply Forall_forall. intros k Hk. apply Z.leb_le. auto. }
    cbn [app]. eapply (walk_fwd cmp g G F dbg s p); auto.
Qed.

Theorem C26_seek :
  forall (K : Type) (cmp : K -> K -> Z) (dbg : bool) (k0 : K) (hist : list (K * nat)),
    comparator_ok cmp -> heights_1_12 hist -> distinct cmp (map fst hist) ->
    exists s0 s, SkipList_ctor k0 = Ret s0 /\ insert_all cmp dbg s0 hist = Ret s /\
      forall t, seek_ok cmp dbg (sl_mem s) (map fst hist) t.
Proof.
  intros K cmp dbg k0 hist Hc Hh Hd.
  destruct (history_ok cmp Hc dbg k0 hist Hh Hd) as (s & tr & sk & E & T & A & L & G & F & HK & Hs).
  exists (skiplist0 k0), s. split; [reflexivity|]. split; [exact E|]. intros t. rewrite A.
  eapply seek_ok_ghost; eauto.
Qed.
Print Assumptions C26_seek.

Theorem C26_seek_random :
  forall (K : Type) (cmp : K -> K -> Z) (dbg : bool) (k0 : K) (ks : list K),
    comparator_ok cmp -> distinct cmp ks ->
    exists s0 s, SkipList_ctor k0 = Ret s0 /\ insert_real cmp dbg false s0 ks = Ret s /\
      forall t, seek_ok cmp dbg (sl_mem s) ks t.
Proof.
  intros K cmp dbg k0 ks Hc Hd.
  destruct (real_history_ok cmp Hc dbg k0 ks Hd) as (s & tr & sk & E & T & A & L & G & F & HK & Hs).
  exists (skiplist0 k0), s. split; [reflexivity|]. split; [exact E|]. intros t. rewrite A.
  eapply seek_ok_ghost; eauto.
Qed.
Print Assumptions C26_seek_random.

(** C27: every height drawn is in 1..12, from every generator state, and the
    assertion height <= kMaxHeight holds. *)
Theorem C27_height_range :
  forall (dbg : bool) (rnd : N),
    exists r h, RandomHeight dbg false rnd = Ret (r, h) /\ 1 <= h <= 12.
Proof. exact RandomHeight_ok. Qed.
Print Assumptions C27_height_range.

(** C27: the height is one more than the number of leading draws that are
    multiples of 4 (11 draws at most), and the generator has made just these
    draws and the one that stopped it. *)
Lemma Random_draws_length n : forall s, length (Random_draws n s) = n.
Proof.
  induction n as [|n IH]; intros s; [reflexivity|]. cbn [Random_draws].
  destruct (Random_Next s). cbn [length]. rewrite IH. reflexivity.
Qed.
Lemma height_loop_law n : forall rnd height r h,
  height_loop n rnd height = (r, h) ->
  exists j, h = height + j /\ j <= n /\
    Forall (fun v => (v mod 4 = 0)%N) (firstn j (Random_draws n rnd)) /\
    (j < n -> (nth j (Random_draws n rnd) 0 mod 4 <> 0)%N) /\
    r = last (firstn (Nat.min (S j) n) (Random_draws n rnd)) rnd.
Proof.
  induction n as [|n IH]; intros rnd height r h E; cbn [height_loop Random_draws] in *.
  - injection E as <- <-. exists 0. split; [lia|]. split; [lia|]. split; [constructor|].
    split; [intros H; inversion H|reflexivity].
  - assert (Eq : fst (Random_Next rnd) = snd (Random_Next rnd)) by reflexivity.
    destruct (Random_Next rnd) as [v rnd']. cbn [fst snd] in Eq. subst rnd'.
    destruct (N.eqb_spec (v mod 4) 0) as [D|D].
    + destruct (IH _ _ _ _ E) as (j & -> & Hj & HF & HN & HL). exists (S j). split; [lia|]. split; [lia|].
      split; [cbn [firstn]; constructor; assumption|]. split; [intros Hlt; cbn [nth]; apply HN; lia|].
      rewrite HL. destruct n as [|n]; [replace j with 0 by lia; reflexivity|].
      replace (Nat.min (S (S j)) (S (S n))) with (S (Nat.min (S j) (S n))) by lia. cbn [firstn].
      remember (firstn (Nat.min (S j) (S n)) (Random_draws (S n) v)) as l eqn:El.
      destruct l as [|a l].
      2:{ assert (Hd : forall (l : list N) a d d', last (a :: l) d = last (a :: l) d').
          { clear. induction l as [|b l IH]; intros a d d'; [reflexivity|]. exact (IH b d d'). }
          transitivity (last (a :: l) rnd); [apply Hd|reflexivity]. }
      exfalso. apply (f_equal (@length N)) in El. rewrite firstn_length, Random_draws_length in El.
      cbn [length] in El. lia.
    + injection E as <- <-. exists 0. split; [lia|]. split; [lia|]. split; [constructor|]. split; [intros _; exact D|].
      replace (Nat.min 1 (S n)) with 1 by lia. reflexivity.
Qed.
Theorem C27_height_law :
  forall (dbg : bool) (rnd : N) r h, RandomHeight dbg false rnd = Ret (r, h) ->
    let draws := Random_draws 11 rnd in
    Forall (fun v => (v mod 4 = 0)%N) (firstn (h - 1) draws) /\
    (h < 12 -> (nth (h - 1) draws 0 mod 4 <> 0)%N) /\
    r = last (firstn (Nat.min h 11) draws) rnd.
Proof.
  intros dbg rnd r h E draws. unfold RandomHeight in E. destruct (height_loop (kMaxHeight - 1) rnd 1) as [r' h'] eqn:E1.
  destruct (height_loop_law _ _ _ _ _ E1) as (j & Hj & Hn & A & B & C). change (kMaxHeight - 1) with 11 in *. fold draws in A, B, C.
  assert (X : r' = r /\ h' = h).
  { unfold assert_ in E. cbn [andb bind] in E. destruct (dbg && negb (h' <=? kMaxHeight)); cbn [bind] in E; [discriminate|]. injection E as -> ->. auto. }
  destruct X as (-> & ->). subst h. replace (1 + j - 1) with j by lia. replace (Nat.min (1 + j) 11) with (Nat.min (S j) 11) by lia.
  split; [exact A|]. split; [intros; apply B; lia|exact C].
Qed.
Print Assumptions C27_height_law.


(** C27, as the code stands: in an assertion-enabled build every Insert of a
    fresh key into every reachable list aborts, because of skiplist.h:249. *)
Theorem C27_assertions_on_refuted :
  forall (K : Type) (cmp : K -> K -> Z) (k0 : K) (ks : list K) (k : K) s0 s,
    comparator_ok cmp -> distinct cmp (ks ++ [k]) ->
    SkipList_ctor k0 = Ret s0 -> insert_real cmp true false s0 ks = Ret s ->
    Insert cmp true true s k = AssertFail.
Proof.
  intros K cmp k0 ks k s0 s Hc Hd E0 Ei.
  assert (Hd' : distinct cmp ks /\ forall x, In x ks -> cmp x k <> 0%Z).
  { clear - Hd. induction ks as [|a t IH]; cbn [app distinct] in *; [split; auto; intros x []|].
    destruct Hd as [H1 H2]. destruct (IH H2) as [H3 H4]. split; [split; auto|].
    - intros k' Hk'. apply H1. apply in_or_app; auto.
    - intros x [<-|Hx]; auto. apply H1. apply in_or_app; cbn; auto. }
  destruct Hd' as [Hd' Hnew].
  destruct (real_history_ok cmp Hc true k0 ks Hd') as (s' & tr & sk & E & T & A & L & G & F & HK & [P S]).
  rewrite ctor_eq in E0. inversion E0; subst s0. rewrite E in Ei. inversion Ei; subst s'.
  assert (Hr : RandomHeight true true (rnd_ s) = AssertFail).
  { unfold RandomHeight. destruct (height_loop (kMaxHeight - 1) (rnd_ s) 1) as [r h].
    assert (Hz : (Z.of_nat h <? 0)%Z = false) by (apply Z.ltb_ge; lia). rewrite Hz. reflexivity. }
  assert (Hpos : forall a, In a (g_l (final (ghost0 k0) tr)) -> 1 <= g_lv (final (ghost0 k0) tr) a)
    by (intros a Ha; apply F; auto).
  destruct (FGE_ok cmp Hc _ k G Hpos) as (v & prev & E1 & _ & _ & Hv).
  unfold Insert. unfold at_ghost in A. rewrite !A, E1. cbn [bind]. rewrite Hr.
  destruct v as [a|]; [|reflexivity].
  destruct Hv as (Ha & (ka & Hka & Hge) & _). rewrite Hka. cbn [bind].
  assert (Hin : In ka ks).
  { eapply Permutation_in; [apply Permutation_sym; exact P|]. eapply key_in; eauto. }
  unfold assert_. destruct (true && _); reflexivity.
Qed.
Print Assumptions C27_assertions_on_refuted.

(** C27, without that one assertion: an Insert of a fresh key completes, in a
    release build ([dbg] = false) and with every other assertion on ([dbg] =
    true), from every reachable list. *)
Theorem C27_insert_completes :
  forall (K : Type) (cmp : K -> K -> Z) (dbg : bool) (k0 : K) (ks : list K) (k : K) s0 s,
    comparator_ok cmp -> distinct cmp (ks ++ [k]) ->
    SkipList_ctor k0 = Ret s0 -> insert_real cmp dbg false s0 ks = Ret s ->
    exists s', Insert cmp dbg false s k = Ret s'.
Proof.
  intros K cmp dbg k0 ks k s0 s Hc Hd E0 Ei.
  destruct (real_history_ok cmp Hc dbg k0 (ks ++ [k]) Hd) as (s' & tr & sk & E & _).
  rewrite ctor_eq in E0. inversion E0; subst s0. clear E0.
  assert (Happ : forall a b x, insert_real cmp dbg false x (a ++ b) =
     bind (insert_real cmp dbg false x a) (fun y => insert_real cmp dbg false y b)).
  { clear. induction a as [|z a IH]; intros b x; [reflexivity|]. cbn [app insert_real].
    destruct (Insert cmp dbg false x z) as [y| | |]; cbn [bind]; auto. }
  rewrite Happ, Ei in E. cbn [bind insert_real] in E.
  destruct (Insert cmp dbg false s k) as [y| | |]; cbn [bind] in E; try discriminate. eauto.
Qed.
Print Assumptions C27_insert_completes.

(** Hypotheses are satisfiable: integer keys, a history with mixed heights. *)
Definition zcmp (a b : Z) : Z := (a - b)%Z.
Lemma zcmp_ok : comparator_ok zcmp.
Proof. split; unfold zcmp; intros; lia. Qed.

Example SkipList_hyps_satisfiable :
  heights_1_12 [(5%Z, 1); (3%Z, 12); (9%Z, 2); (7%Z, 5)] /\ distinct zcmp (map fst [(5%Z, 1); (3%Z, 12); (9%Z, 2); (7%Z, 5)])
  /\ (exists s, insert_all zcmp true (skiplist0 0%Z) [(5%Z, 1); (3%Z, 12); (9%Z, 2); (7%Z, 5)] = Ret s
       /\ Contains zcmp (sl_mem s) 7%Z = Ret true /\ Contains zcmp (sl_mem s) 8%Z = Ret false
       /\ iter_Seek zcmp (sl_mem s) 6%Z = Ret (Some 4) /\ length (sl_log s) = 45)
  /\ member zcmp 7%Z [5; 7]%Z.
Proof.
  split; [repeat (constructor; [cbn; lia|]); constructor|]. split.
  - cbn. repeat split; try (intros k' Hk'; repeat (destruct Hk' as [<-|Hk']; [discriminate|]); destruct Hk').
  - split; [|exists 7%Z; cbn; auto]. eexists. split; [vm_compute; reflexivity|].
    split; [vm_compute; reflexivity|]. split; [vm_compute; reflexivity|].
    split; vm_compute; reflexivity.
Qed.
