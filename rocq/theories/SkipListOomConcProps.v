(** SkipListOomConcProps.v -- C119: readers beside a writer some of whose insertions
    throw std::bad_alloc.

    [hist]: the writer's insertions, each with its height and whether NewNode throws;
    [sl_log s] is the sequence of stores they perform.  [c] is any configuration
    reachable by interleaving these stores with the loads of [nr] readers
    (SkipListConc.v: release/acquire, stale reads allowed). *)
From Coq Require Import List Arith ZArith NArith Lia Bool.
From Verif Require Import Outcome Random SkipList SkipListSpec SkipListProofs SkipListInsert
  SkipListSeq SkipListProps SkipListConc SkipListConcSpec SkipListConcProps SkipListOom SkipListOomProps SkipListOomConcSpec SkipListConcGen SkipListOomConcProofs.
Import ListNotations.
Local Open Scope outcome_scope.

(** What the writer may do: heights of 1 to 12; each key it inserts is not equal to
    one whose insertion returned.  (One that threw may be tried again.) *)
Definition writer_ok {K} (cmp : K -> K -> Z) (hist : list (K * nat * bool)) : Prop :=
  Forall (fun a => 1 <= snd (fst a) <= 12) hist /\ insertable cmp (fun a => fst (fst a)) snd [] hist.
(** The keys whose insertion returned. *)
Definition keys_of {K} (hist : list (K * nat * bool)) : list K := stored (fun a => fst (fst a)) snd hist.

Lemma oconc_inv {K} (cmp : K -> K -> Z) dbg k0 hist s0 s nr c :
  comparator_ok cmp -> writer_ok cmp hist -> SkipList_ctor k0 = Ret s0 -> oinsert_all cmp true s0 hist = Ret s ->
  reachable cmp dbg (sl_mem s0) (sl_log s) nr c ->
  exists tr, s0 = skiplist0 k0 /\ sl_log s = map fst tr /\ trace cmp (ghost0 k0) tr /\
    (forall t k, inserted cmp s0 hist t k -> exists z, vis k0 tr t z /\ key_of (g_mem (gat k0 tr t)) z = Ret k) /\
    (forall t a k, t <= length tr -> In a (g_l (gat k0 tr t)) -> key_of (g_mem (gat k0 tr t)) a = Ret k -> inserting cmp s0 hist t k) /\
    length (g_l (gat k0 tr (length tr))) <= length (keys_of hist) /\
    c_now c <= length tr /\ Forall (RInv cmp k0 (length (keys_of hist)) (inserted cmp s0 hist) (inserting cmp s0 hist) tr (c_now c)) (c_readers c).
Proof.
  intros Hc (Hh & Hi) E0 E1 Hr. rewrite ctor_eq in E0. inversion E0; subst s0. clear E0.
  destruct (ohist_trace cmp Hc k0 hist Hh Hi) as (tr & s' & E & T & L & B).
  rewrite E in E1. inversion E1; subst s'. clear E1. assert (HL : exists s, oinsert_all cmp true (skiplist0 k0) hist = Ret s /\ sl_log s = map fst tr) by eauto.
  pose proof (inserted_vis cmp Hc k0 hist tr T B) as P1. pose proof (in_inserting cmp Hc k0 hist tr T B HL) as P2.
  pose proof (onodes_bound cmp Hc k0 hist tr T B HL) as P3. change (okeys hist) with (keys_of hist) in P3.
  exists tr. do 6 (split; [first [reflexivity|assumption]|]). rewrite L in Hr. cbn [sl_mem skiplist0] in Hr.
  exact (reachable_inv cmp Hc k0 _ _ _ tr T P1 P2 (inserting_mono cmp k0 hist) P3 dbg nr c Hr).
Qed.

(** ** C119 *)
(** The writer itself gets through, whichever insertions throw (C108 says what it
    leaves); if none throws it is the writer of C28 - C30. *)
Theorem C119_writer :
  forall (K : Type) (cmp : K -> K -> Z) (k0 : K) (hist : list (K * nat * bool)), comparator_ok cmp -> writer_ok cmp hist ->
    (exists s0 s, SkipList_ctor k0 = Ret s0 /\ oinsert_all cmp true s0 hist = Ret s) /\
    forall s0 h, map fst hist = h -> (forall a, In a hist -> snd a = false) -> oinsert_all cmp true s0 hist = insert_all cmp true s0 h.
Proof.
  intros K cmp k0 hist Hc (Hh & Hi). split.
  - destruct (C108_failed_insertions_leave_no_key K cmp true k0 hist Hc Hh Hi) as (s0 & s & A & B & _). eauto.
  - intros s0 h <- F. clear Hh Hi. revert s0. induction hist as [|[[k n] oom] hist IH]; intros s0; [reflexivity|].
    pose proof (F (k, n, oom) (or_introl eq_refl)) as Fo. cbn in Fo. subst oom. cbn [oinsert_all map fst insert_all oInsertH].
    destruct (InsertH cmp true s0 k n); cbn [bind]; auto. apply IH. intros b Hb. apply F. now right.
Qed.
Print Assumptions C119_writer.

(** In every reachable configuration, every reader inside an operation can perform
    its next load, from every store it may read, without undefined behaviour or
    failed assertion; an operation needs at most (number of keys stored) + 13 loads;
    starting an operation is safe. *)
Theorem C119_readers_safe_and_terminate :
  forall (K : Type) (cmp : K -> K -> Z) (dbg : bool) (k0 : K) (hist : list (K * nat * bool)) s0 s nr c,
    comparator_ok cmp -> writer_ok cmp hist -> SkipList_ctor k0 = Ret s0 -> oinsert_all cmp true s0 hist = Ret s ->
    reachable cmp dbg (sl_mem s0) (sl_log s) nr c ->
    forall i r, nth_error (c_readers c) i = Some r ->
      (in_op r = true -> forall n, may_read (c_now c) n r ->
         exists r', rstep cmp dbg (sl_mem s0) (sl_log s) (c_now c) n r = Ret r' /\
           r_steps r' = S (r_steps r) /\ r_steps r' <= length (keys_of hist) + 13) /\
      (forall o, may_start r o -> exists r', start dbg r o = Ret r' /\ r_steps r' = 0).
Proof.
  intros K cmp dbg k0 hist s0 s nr c Hc Hw E0 E1 Hr i r Hi.
  destruct (oconc_inv cmp dbg k0 hist s0 s nr c Hc Hw E0 E1 Hr) as (tr & -> & L & T & P1 & P2 & P3 & Hn & HF).
  assert (HI : RInv cmp k0 (length (keys_of hist)) (inserted cmp (skiplist0 k0) hist) (inserting cmp (skiplist0 k0) hist) tr (c_now c) r)
    by (rewrite Forall_forall in HF; apply HF; eapply nth_error_In; eauto).
  split.
  - intros Hop n Hm. rewrite L. cbn [sl_mem skiplist0].
    destruct (rstep_ok cmp Hc k0 _ _ _ tr T P1 P2 (inserting_mono cmp k0 hist) P3 dbg (c_now c) n r HI Hop Hm) as (r' & E & HI').
    exists r'. split; [exact E|]. split; [|apply (RI_steps _ _ _ _ _ _ _ _ HI')].
    clear - E. unfold rstep in E.
    repeat match type of E with
    | context [match ?x with _ => _ end] => destruct x; try discriminate E
    | bind ?x _ = _ => let H := fresh in destruct x eqn:H; cbn [bind] in E; try discriminate E
    | Ret _ = Ret _ => inversion E; subst; reflexivity
    | found _ _ _ _ _ _ = _ => unfold found in E
    end.
  - intros o Hm. destruct (RInv_start cmp k0 _ _ _ tr P3 (c_now c) r o HI Hm dbg) as (r' & E & _).
    exists r'. split; [exact E|]. clear - E. unfold start in E.
    destruct o; try (inversion E; reflexivity);
      destruct (iter_node dbg (r_it r)); cbn [bind] in E; inversion E; reflexivity.
Qed.
Print Assumptions C119_readers_safe_and_terminate.

(** A finished operation answers as C29 and C30 say, counting only the insertions that
    do not throw. *)
Theorem C119_answers :
  forall (K : Type) (cmp : K -> K -> Z) (dbg : bool) (k0 : K) (hist : list (K * nat * bool)) s0 s nr c,
    comparator_ok cmp -> writer_ok cmp hist -> SkipList_ctor k0 = Ret s0 -> oinsert_all cmp true s0 hist = Ret s ->
    reachable cmp dbg (sl_mem s0) (sl_log s) nr c ->
    forall i r, nth_error (c_readers c) i = Some r -> r_pc r = PDone ->
      exists m kf kr, mem_at (sl_mem s0) (sl_log s) (c_now c) = Ret m /\ at_key m (r_from r) kf /\ at_key m (r_it r) kr /\
        result_ok_of cmp (inserted cmp s0 hist) (inserting cmp s0 hist) (r_op r) (r_start r) (r_end r) kf kr (r_res r).
Proof.
  intros K cmp dbg k0 hist s0 s nr c Hc Hw E0 E1 Hr i r Hi Hpc.
  destruct (oconc_inv cmp dbg k0 hist s0 s nr c Hc Hw E0 E1 Hr) as (tr & -> & L & T & P1 & P2 & P3 & Hn & HF).
  assert (HI : RInv cmp k0 (length (keys_of hist)) (inserted cmp (skiplist0 k0) hist) (inserting cmp (skiplist0 k0) hist) tr (c_now c) r)
    by (rewrite Forall_forall in HF; apply HF; eapply nth_error_In; eauto).
  pose proof (RI_pc _ _ _ _ _ _ _ _ HI) as P. unfold pc_inv in P. rewrite Hpc in P. cbv zeta in P.
  destruct P as (_ & kf & kr & H1 & H2 & R). pose proof (RI_view _ _ _ _ _ _ _ _ HI) as V.
  rewrite L. cbn [sl_mem skiplist0].
  exists (g_mem (gat k0 tr (c_now c))), kf, kr. split; [apply (mem_at_ok cmp Hc k0 tr T)|].
  split; [|split; [|exact R]]; (eapply (at_key_mono cmp Hc k0 tr T (r_view r)); [lia|assumption]).
Qed.
Print Assumptions C119_answers.

(** So a key all of whose insertions throw is never found, and an iterator never stands
    on it, at any time. *)
Theorem C119_failed_keys_are_never_seen :
  forall (K : Type) (cmp : K -> K -> Z) (dbg : bool) (k0 : K) (hist : list (K * nat * bool)) s0 s nr c,
    comparator_ok cmp -> writer_ok cmp hist -> SkipList_ctor k0 = Ret s0 -> oinsert_all cmp true s0 hist = Ret s ->
    reachable cmp dbg (sl_mem s0) (sl_log s) nr c ->
    forall i r, nth_error (c_readers c) i = Some r -> r_pc r = PDone ->
      (forall k, r_op r = OContains k -> (forall k', In k' (keys_of hist) -> cmp k k' <> 0%Z) -> r_res r = false) /\
      (forall m k, (forall k', r_op r <> OContains k') -> mem_at (sl_mem s0) (sl_log s) (c_now c) = Ret m -> at_key m (r_it r) (Some k) -> In k (keys_of hist)).
Proof.
  intros K cmp dbg k0 hist s0 s nr c Hc Hw E0 E1 Hr i r Hi Hpc.
  assert (In_keys : forall t k, inserting cmp s0 hist t k -> In k (keys_of hist)).
  { intros t k (h1 & h & h2 & n & -> & _). apply okeys_in with (n := h). apply in_or_app. right. now left. }
  destruct (C119_answers K cmp dbg k0 hist s0 s nr c Hc Hw E0 E1 Hr i r Hi Hpc) as (m & kf & kr & Em & _ & Hk & R1 & R2). split.
  - intros k Eo Hno. rewrite Eo in R2. apply (proj2 R2). intros k' Hk'. apply Hno. eauto.
  - intros m' k Eo Em' Hk'. rewrite Em in Em'. injection Em' as <-. apply (In_keys (r_end r)).
    assert (kr = Some k).
    { destruct (r_it r) as [a|]; cbn in Hk, Hk'; [|discriminate Hk']. destruct Hk as (k1 & A & ->), Hk' as (k2 & B & Eq). congruence. }
    destruct (r_op r) as [k'|t| | | |]; [exfalso; exact (Eo k' eq_refl)|..]; apply R1; assumption.
Qed.
Print Assumptions C119_failed_keys_are_never_seen.

(** The insertion of 3 throws after having raised max_height_ to 3; a reader that sees
    the raised height seeks 2 and finds 5; 3 is then inserted with height 1. *)
Section Witness.
  Let hist := [(5%Z, 2, false); (3%Z, 3, true); (3%Z, 1, false)].
  Let s0 := skiplist0 0%Z.
  Let s : skiplist Z := match oinsert_all zcmp true s0 hist with Ret s => s | _ => s0 end.
  Let sched : list (@action Z) :=
    repeat AWrite 7 ++ [ASync 0 6; AStart 0 (OSeek 2%Z); ARead 0 7; ARead 0 7; ARead 0 7; ARead 0 7].

  Example C119_example :
    exists c r, writer_ok zcmp hist /\ reachable zcmp true (sl_mem s0) (sl_log s) 2 c /\ c_now c = 7 /\ length (sl_log s) = 10 /\
      nth_error (sl_log s) 6 = Some (SMax 3) /\
      nth_error (c_readers c) 0 = Some r /\ r_op r = OSeek 2%Z /\ r_pc r = PDone /\ r_it r = Some 1 /\ r_steps r = 4 /\
      inserted zcmp s0 hist (r_start r) 5%Z /\ ~ In 4%Z (keys_of hist).
  Proof.
    destruct (acts zcmp true (sl_mem s0) (sl_log s) {| c_now := 0; c_readers := repeat new_reader 2 |} sched)
      as [c|] eqn:E; [|vm_compute in E; discriminate E].
    exists c. eexists. split; [|split; [eapply acts_reachable; [apply reach_init|exact E]|]].
    - split; [repeat constructor; cbn; lia|]. cbn. split; [easy|]. split; [intros k [<-|[]]; cbn; discriminate|]. split; [intros k [<-|[]]; cbn; discriminate|exact I].
    - vm_compute in E. inversion E; subst c. clear E.
      split; [reflexivity|]. split; [vm_compute; reflexivity|]. split; [vm_compute; reflexivity|]. split; [reflexivity|]. cbn.
      do 4 (split; [reflexivity|]). split.
      + exists [(5%Z, 2, false)], [(3%Z, 3, true); (3%Z, 1, false)], 6. split; [reflexivity|]. split; [|split; [cbn; lia|exists 2; now left]].
        eexists. split; [vm_compute; reflexivity|reflexivity].
      + intros [H|[H|[]]]; discriminate H.
  Qed.
End Witness.
