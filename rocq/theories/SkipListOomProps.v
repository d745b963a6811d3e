(** SkipListOomProps.v -- property theorems C108: a skip list survives std::bad_alloc. *)
From Coq Require Import List Arith ZArith NArith Lia Bool Sorted Permutation.
From Verif Require Import Outcome Random SkipList SkipListSpec SkipListProofs SkipListInsert SkipListSeq SkipListProps SkipListOom.
Import ListNotations.
Local Open Scope outcome_scope.

Lemma insertable_perm {K A} (cmp : K -> K -> Z) (key : A -> K) (threw : A -> bool) : forall r l1 l2,
  Permutation l1 l2 -> insertable cmp key threw l1 r -> insertable cmp key threw l2 r.
Proof.
  induction r as [|a r IHr]; intros l1 l2 P H; cbn [insertable] in *; [exact H|]. destruct H as (H1 & H2). split.
  - intros x Hx. apply H1. eapply Permutation_in; [apply Permutation_sym; exact P|exact Hx].
  - destruct (threw a); [eapply IHr; eauto|]. eapply IHr; [|exact H2]. constructor. exact P.
Qed.

Section Proofs.
  Context {K : Type} (cmp : K -> K -> Z) (Hc : comparator_ok cmp).

  Lemma fill_prev_ret : forall n prev from, from + n <= length prev -> exists p, fill_prev prev from n = Ret p.
  Proof.
    induction n as [|n IH]; intros prev from H; cbn [fill_prev]; [eauto|].
    destruct (Nat.ltb_spec from (length prev)); [|lia]. apply IH. rewrite set_nth_length. lia.
  Qed.

  (** An insertion that throws. *)
  Lemma thrown_ok dbg s g key h : Good cmp g -> full g -> at_ghost s g -> 1 <= h <= kMaxHeight ->
    (forall a ka, In a (g_l g) -> key_of (g_mem g) a = Ret ka -> cmp key ka <> 0%Z) ->
    exists s' g', oInsertH cmp dbg s key h true = Ret s' /\ at_ghost s' g' /\ rnd_ s' = rnd_ s /\
      Good cmp g' /\ full g' /\ (forall ks, keysof g ks -> keysof g' ks).
  Proof.
    intros G F A Hh Hnew. assert (Hpos : forall a, In a (g_l g) -> 1 <= g_lv g a) by (intros a Ha; apply F; exact Ha).
    destruct (FGE_ok cmp Hc g key G Hpos) as (v & prev & F1 & F2 & F3 & F4).
    unfold oInsertH. unfold at_ghost in A. rewrite A, F1. cbn [bind].
    assert (HA : (match v with None => Ret tt | Some a => let! ka := key_of (g_mem g) a in assert_ dbg (negb (cmp key ka =? 0)%Z) end) = Ret tt).
    { pose proof (InsertH_ok cmp Hc dbg s g key h G F A Hh Hnew) as (s' & tr & P & S & E & _).
      unfold InsertH in E. rewrite A, F1 in E. cbn [bind] in E.
      destruct v as [a|]; [|reflexivity]. destruct (key_of (g_mem g) a) as [ka| | |]; cbn [bind] in *; try discriminate.
      destruct (assert_ dbg (negb (cmp key ka =? 0)%Z)) as [[]| | |]; cbn [bind] in *; try discriminate. reflexivity. }
    rewrite HA. cbn [bind]. unfold insert_thrown. rewrite A. pose proof (G_max _ _ G) as GM.
    destruct (Nat.ltb_spec (max_height_ (g_mem g)) h) as [Hlt|Hge].
    - destruct (fill_prev_ret (h - max_height_ (g_mem g)) prev (max_height_ (g_mem g))) as (p & ->); [lia|]. cbn [bind].
      set (g' := {| g_mem := {| nodes := nodes (g_mem g); max_height_ := h |}; g_l := g_l g; g_lv := g_lv g |}).
      assert (Hs : gstep cmp g (SMax h) g') by (apply gs_max; lia).
      destruct (do_store_ok cmp Hc s g _ g' G A Hs) as (s1 & Hd & A1 & R1 & _). destruct (gstep_good cmp Hc g _ g' G Hs) as (G1 & _ & M).
      exists s1, g'. split; [exact Hd|]. split; [exact A1|]. split; [exact R1|]. split; [exact G1|]. split; [exact F|]. intros ks Hk. exact Hk.
    - exists s, g. auto 8.
  Qed.

  Lemma oinsert_all_keys dbg : forall hist s g ks, Good cmp g -> full g -> at_ghost s g -> keysof g ks ->
    Forall (fun a => 1 <= snd (fst a) <= kMaxHeight) hist -> insertable cmp (fun a => fst (fst a)) snd ks hist ->
    exists s' g' ks', oinsert_all cmp dbg s hist = Ret s' /\ at_ghost s' g' /\ Good cmp g' /\ full g' /\ keysof g' ks' /\
      Permutation (stored (fun a => fst (fst a)) snd hist ++ ks) ks'.
  Proof.
    induction hist as [|[[k h] oom] r IH]; intros s g ks G F A HK Hh Hi; cbn [oinsert_all].
    - exists s, g, ks. auto 8.
    - cbn [insertable fst snd] in Hi. destruct Hi as (Hn & Hi). pose proof (Forall_inv Hh) as Hh1. cbn [fst snd] in Hh1. apply Forall_inv_tail in Hh. destruct oom.
      + destruct (thrown_ok dbg s g k h G F A Hh1) as (s1 & g1 & -> & A1 & _ & G1 & F1 & K1).
        { intros a ka Ha Hka. apply Hn. unfold keysof in HK. eapply forall2_in_l; eauto. }
        cbn [bind]. apply (IH s1 g1 ks G1 F1 A1 (K1 _ HK) Hh Hi).
      + destruct (InsertH_keys cmp Hc dbg s g k h ks G F A Hh1 HK Hn) as (s1 & tr & ks1 & E1 & _ & A1 & _ & _ & G1 & F1 & K1 & P1).
        unfold oInsertH. rewrite E1. cbn [bind].
        pose proof (insertable_perm cmp _ _ r _ _ P1 Hi) as Hi1.
        destruct (IH s1 _ ks1 G1 F1 A1 K1 Hh Hi1) as (s' & g' & ks' & E2 & A2 & G2 & F2 & K2 & P2).
        exists s', g', ks'. split; [exact E2|]. split; [exact A2|]. split; [exact G2|]. split; [exact F2|]. split; [exact K2|].
        unfold stored in *. cbn [filter snd negb map fst app]. rewrite <- P2, <- P1. apply Permutation_middle.
  Qed.

  Lemma oInsert_oInsertH dbg s key oom rnd h : RandomHeight dbg false (rnd_ s) = Ret (rnd, h) ->
    oInsert cmp dbg false s key oom = oInsertH cmp dbg {| sl_mem := sl_mem s; rnd_ := rnd; sl_log := sl_log s |} key h oom.
  Proof.
    intros E. destruct oom; cbn [oInsert oInsertH]; [|unfold oInsert, oInsertH; apply Insert_InsertH; exact E].
    unfold oInsert, oInsertH. cbn [sl_mem]. destruct (FindGreaterOrEqual cmp (sl_mem s) key) as [[x prev]| | |]; cbn [bind]; try reflexivity.
    match goal with |- bind ?c _ = _ => destruct c as [[]| | |]; cbn [bind]; try reflexivity end. rewrite E. reflexivity.
  Qed.
  Lemma oinsert_real_keys dbg : forall hist s g ks, Good cmp g -> full g -> at_ghost s g -> keysof g ks ->
    insertable cmp fst snd ks hist ->
    exists s' g' ks', oinsert_real cmp dbg false s hist = Ret s' /\ at_ghost s' g' /\ Good cmp g' /\ full g' /\ keysof g' ks' /\
      Permutation (stored fst snd hist ++ ks) ks'.
  Proof.
    induction hist as [|[k oom] r IH]; intros s g ks G F A HK Hi; cbn [oinsert_real].
    - exists s, g, ks. auto 8.
    - cbn [insertable fst snd] in Hi. destruct Hi as (Hn & Hi).
      destruct (RandomHeight_ok dbg (rnd_ s)) as (rnd & h & Er & Hh). rewrite (oInsert_oInsertH dbg s k oom rnd h Er).
      set (s0 := {| sl_mem := sl_mem s; rnd_ := rnd; sl_log := sl_log s |}). assert (A0 : at_ghost s0 g) by exact A. destruct oom.
      + destruct (thrown_ok dbg s0 g k h G F A0 Hh) as (s1 & g1 & -> & A1 & _ & G1 & F1 & K1).
        { intros a ka Ha Hka. apply Hn. unfold keysof in HK. eapply forall2_in_l; eauto. }
        cbn [bind]. apply (IH s1 g1 ks G1 F1 A1 (K1 _ HK) Hi).
      + destruct (InsertH_keys cmp Hc dbg s0 g k h ks G F A0 Hh HK Hn) as (s1 & tr & ks1 & E1 & _ & A1 & _ & _ & G1 & F1 & K1 & P1).
        unfold oInsertH. rewrite E1. cbn [bind]. pose proof (insertable_perm cmp _ _ r _ _ P1 Hi) as Hi1.
        destruct (IH s1 _ ks1 G1 F1 A1 K1 Hi1) as (s' & g' & ks' & E2 & A2 & G2 & F2 & K2 & P2).
        exists s', g', ks'. split; [exact E2|]. split; [exact A2|]. split; [exact G2|]. split; [exact F2|]. split; [exact K2|].
        unfold stored in *. cbn [filter snd negb map fst app]. rewrite <- P2, <- P1. apply Permutation_middle.
  Qed.
End Proofs.

(** Every single-threaded question about a list holding exactly the keys [ks] is
    answered as C24 - C26 say. *)
Definition behaves_as {K} (cmp : K -> K -> Z) (dbg : bool) (s : skiplist K) (ks : list K) : Prop :=
  contains_exactly cmp s ks /\ iterates_in_order cmp dbg (sl_mem s) ks /\ (forall t, seek_ok cmp dbg (sl_mem s) ks t).

Lemma behaves_ok {K} (cmp : K -> K -> Z) (Hc : comparator_ok cmp) dbg s g ks sk :
  at_ghost s g -> Good cmp g -> full g -> keysof g sk -> Permutation ks sk -> behaves_as cmp dbg s ks.
Proof.
  intros A G F HK P. assert (V : sorted_view cmp ks sk) by (split; [exact P|eapply keysof_sorted; eauto]). unfold behaves_as, contains_exactly. unfold at_ghost in A. rewrite !A. split; [|split].
  - intros k. destruct (Contains_ok cmp Hc _ sk G F HK k) as (b & H1 & H2). exists b. split; [exact H1|]. rewrite H2. symmetry. apply member_perm. exact P.
  - eapply iterates_ok; eauto.
  - intros t. eapply seek_ok_ghost; eauto.
Qed.

(** C108: after any history of insertions, each of which may have thrown
    std::bad_alloc, the list is that of the insertions that returned; a key whose
    insertion threw can be inserted again.  For all heights ... *)
Theorem C108_failed_insertions_leave_no_key :
  forall (K : Type) (cmp : K -> K -> Z) (dbg : bool) (k0 : K) (hist : list (K * nat * bool)),
    comparator_ok cmp -> Forall (fun a => 1 <= snd (fst a) <= 12) hist ->
    insertable cmp (fun a => fst (fst a)) snd [] hist ->
    exists s0 s, SkipList_ctor k0 = Ret s0 /\ oinsert_all cmp dbg s0 hist = Ret s /\
      behaves_as cmp dbg s (stored (fun a => fst (fst a)) snd hist).
Proof.
  intros K cmp dbg k0 hist Hc Hh Hi.
  destruct (oinsert_all_keys cmp Hc dbg hist (skiplist0 k0) (ghost0 k0) [] (ghost0_good cmp k0) (ghost0_full k0) eq_refl ltac:(constructor) Hh Hi)
    as (s & g & sk & E & A & G & F & HK & P). rewrite app_nil_r in P.
  exists (skiplist0 k0), s. split; [reflexivity|]. split; [exact E|]. eapply behaves_ok; eauto.
Qed.
Print Assumptions C108_failed_insertions_leave_no_key.

(** ... and for those the code draws (an insertion that throws has drawn one too). *)
Theorem C108_failed_insertions_leave_no_key_random :
  forall (K : Type) (cmp : K -> K -> Z) (dbg : bool) (k0 : K) (hist : list (K * bool)),
    comparator_ok cmp -> insertable cmp fst snd [] hist ->
    exists s0 s, SkipList_ctor k0 = Ret s0 /\ oinsert_real cmp dbg false s0 hist = Ret s /\
      behaves_as cmp dbg s (stored fst snd hist).
Proof.
  intros K cmp dbg k0 hist Hc Hi.
  destruct (oinsert_real_keys cmp Hc dbg hist (skiplist0 k0) (ghost0 k0) [] (ghost0_good cmp k0) (ghost0_full k0) eq_refl ltac:(constructor) Hi)
    as (s & g & sk & E & A & G & F & HK & P). rewrite app_nil_r in P.
  exists (skiplist0 k0), s. split; [reflexivity|]. split; [exact E|]. eapply behaves_ok; eauto.
Qed.
Print Assumptions C108_failed_insertions_leave_no_key_random.

(** A throwing insertion does leave a trace -- a raised max_height_, an advanced
    generator -- which the theorem above shows to be harmless: 5 fails with height 7,
    3 goes in, 5 goes in at the second attempt. *)
Example C108_example :
  let cmp := fun a b : Z => (a - b)%Z in
  let hist := [(5%Z, 7, true); (3%Z, 1, false); (5%Z, 2, false); (9%Z, 12, true)] in
  Forall (fun a : Z * nat * bool => 1 <= snd (fst a) <= 12) hist /\ insertable cmp (fun a => fst (fst a)) snd [] hist /\
  stored (fun a : Z * nat * bool => fst (fst a)) snd hist = [3; 5]%Z /\
  exists s, oinsert_all cmp true (skiplist0 0%Z) hist = Ret s /\ max_height_ (sl_mem s) = 12 /\ length (nodes (sl_mem s)) = 3 /\
    Contains cmp (sl_mem s) 5%Z = Ret true /\ Contains cmp (sl_mem s) 9%Z = Ret false.
Proof.
  cbv zeta. split; [repeat constructor; cbn; lia|]. split; [cbn; repeat split; intros k H; repeat (destruct H as [<-|H]; [cbn; discriminate|]); destruct H|]. split; [reflexivity|].
  eexists. split; [vm_compute; reflexivity|]. split; [reflexivity|]. split; [reflexivity|]. split; vm_compute; reflexivity.
Qed.
