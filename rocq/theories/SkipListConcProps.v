(** SkipListConcProps.v -- property theorems C28 - C30: readers of the skip
    list concurrent with its writer.

    [hist] is the writer's whole sequence of insertions (distinct keys, any
    heights 1..12); [sl_log s] is the sequence of stores it performs.  [c] is any
    configuration reachable by interleaving the writer's stores with the loads
    of [nr] readers (SkipListConc.v: release/acquire, stale reads allowed). *)
From Coq Require Import List Arith ZArith NArith Lia Bool.
From Verif Require Import Outcome Random SkipList SkipListSpec SkipListProofs SkipListInsert
  SkipListSeq SkipListProps SkipListConc SkipListConcSpec SkipListConcProofs.
Import ListNotations.
Local Open Scope outcome_scope.

Lemma conc_inv {K} (cmp : K -> K -> Z) dbg k0 hist s0 s nr c :
  comparator_ok cmp -> heights_1_12 hist -> distinct cmp (map fst hist) ->
  SkipList_ctor k0 = Ret s0 -> insert_all cmp true s0 hist = Ret s ->
  reachable cmp dbg (sl_mem s0) (sl_log s) nr c ->
  exists tr, s0 = skiplist0 k0 /\ sl_log s = map fst tr /\ trace cmp (ghost0 k0) tr /\
    (forall h1 h2, hist = h1 ++ h2 -> boundary cmp k0 tr h1) /\
    (exists s, insert_all cmp true (skiplist0 k0) hist = Ret s /\ sl_log s = map fst tr) /\
    c_now c <= length tr /\ Forall (RInv cmp k0 hist tr (c_now c)) (c_readers c).
Proof.
  intros Hc Hh Hd E0 E1 Hr. rewrite ctor_eq in E0. inversion E0; subst s0. clear E0.
  destruct (hist_trace cmp Hc k0 hist Hh Hd) as (tr & s' & E & T & L & B).
  rewrite E in E1. inversion E1; subst s'. clear E1.
  exists tr. split; [reflexivity|]. split; [exact L|]. split; [exact T|]. split; [exact B|].
  split; [exists s; auto|]. rewrite L in Hr. cbn [sl_mem skiplist0] in Hr.
  eapply reachable_inv; eauto.
Qed.

(** C28: in every reachable configuration, every reader inside an operation
    can perform its next load, from every store it may read, without undefined
    behaviour or failed assertion; an operation needs at most
    (number of insertions) + 13 loads; starting an operation is safe. *)
Theorem C28_readers_safe_and_terminate :
  forall (K : Type) (cmp : K -> K -> Z) (dbg : bool) (k0 : K) (hist : list (K * nat)) s0 s nr c,
    comparator_ok cmp -> heights_1_12 hist -> distinct cmp (map fst hist) ->
    SkipList_ctor k0 = Ret s0 -> insert_all cmp true s0 hist = Ret s ->
    reachable cmp dbg (sl_mem s0) (sl_log s) nr c ->
    forall i r, nth_error (c_readers c) i = Some r ->
      (in_op r = true -> forall n, may_read (c_now c) n r ->
         exists r', rstep cmp dbg (sl_mem s0) (sl_log s) (c_now c) n r = Ret r' /\
           r_steps r' = S (r_steps r) /\ r_steps r' <= length hist + 13) /\
      (forall o, may_start r o -> exists r', start dbg r o = Ret r' /\ r_steps r' = 0).
Proof.
  intros K cmp dbg k0 hist s0 s nr c Hc Hh Hd E0 E1 Hr i r Hi.
  destruct (conc_inv cmp dbg k0 hist s0 s nr c Hc Hh Hd E0 E1 Hr) as (tr & -> & L & T & B & HL & Hn & HF).
  assert (HI : RInv cmp k0 hist tr (c_now c) r)
    by (rewrite Forall_forall in HF; apply HF; eapply nth_error_In; eauto).
  split.
  - intros Hop n Hm. rewrite L. cbn [sl_mem skiplist0].
    destruct (rstep_ok cmp Hc k0 hist tr T B HL dbg (c_now c) n r HI Hop Hm) as (r' & E & HI').
    exists r'. split; [exact E|]. split; [|apply (RI_steps _ _ _ _ _ _ HI')].
    clear - E. unfold rstep in E.
    repeat match type of E with
    | context [match ?x with _ => _ end] => destruct x; try discriminate
    | bind ?x _ = _ => let H := fresh in destruct x eqn:H; cbn [bind] in E; try discriminate
    | Ret _ = Ret _ => inversion E; subst; reflexivity
    | found _ _ _ _ _ _ = _ => unfold found in E
    end.
  - intros o Hm. destruct (RInv_start cmp k0 hist tr (c_now c) r o HI Hm dbg) as (r' & E & _).
    exists r'. split; [exact E|]. clear - E. unfold start in E.
    destruct o; try (inversion E; reflexivity);
      destruct (iter_node dbg (r_it r)); cbn [bind] in E; inversion E; reflexivity.
Qed.
Print Assumptions C28_readers_safe_and_terminate.

(** C29: a finished Contains(k) answered true if an equal key's Insert had
    returned (in the happens-before order) when it started, and false if no
    equal key's Insert had been called when it returned. *)
Theorem C29_concurrent_contains :
  forall (K : Type) (cmp : K -> K -> Z) (dbg : bool) (k0 : K) (hist : list (K * nat)) s0 s nr c,
    comparator_ok cmp -> heights_1_12 hist -> distinct cmp (map fst hist) ->
    SkipList_ctor k0 = Ret s0 -> insert_all cmp true s0 hist = Ret s ->
    reachable cmp dbg (sl_mem s0) (sl_log s) nr c ->
    forall i r k, nth_error (c_readers c) i = Some r -> r_pc r = PDone -> r_op r = OContains k ->
      ((exists k', returned cmp s0 hist (r_start r) k' /\ cmp k k' = 0%Z) -> r_res r = true) /\
      ((forall k', called cmp s0 hist (r_end r) k' -> cmp k k' <> 0%Z) -> r_res r = false).
Proof.
  intros K cmp dbg k0 hist s0 s nr c Hc Hh Hd E0 E1 Hr i r k Hi Hpc Hop.
  destruct (conc_inv cmp dbg k0 hist s0 s nr c Hc Hh Hd E0 E1 Hr) as (tr & -> & L & T & B & HL & Hn & HF).
  assert (HI : RInv cmp k0 hist tr (c_now c) r)
    by (rewrite Forall_forall in HF; apply HF; eapply nth_error_In; eauto).
  pose proof (RI_pc _ _ _ _ _ _ HI) as P. unfold pc_inv in P. rewrite Hpc in P. cbv zeta in P.
  destruct P as (_ & kf & kr & _ & _ & R). unfold result_ok in R. rewrite Hop in R. apply R.
Qed.
Print Assumptions C29_concurrent_contains.

(** C30: a finished positioning operation left the iterator at a key whose
    Insert had been called, on the correct side of where it was (strictly
    increasing for Next, strictly decreasing for Prev, >= target for Seek), and
    passed over no key whose Insert had returned when the operation started
    ([result_ok] in SkipListConcSpec.v spells this out per operation). *)
Theorem C30_concurrent_iteration :
  forall (K : Type) (cmp : K -> K -> Z) (dbg : bool) (k0 : K) (hist : list (K * nat)) s0 s nr c,
    comparator_ok cmp -> heights_1_12 hist -> distinct cmp (map fst hist) ->
    SkipList_ctor k0 = Ret s0 -> insert_all cmp true s0 hist = Ret s ->
    reachable cmp dbg (sl_mem s0) (sl_log s) nr c ->
    forall i r, nth_error (c_readers c) i = Some r -> r_pc r = PDone ->
      exists m kf kr, mem_at (sl_mem s0) (sl_log s) (c_now c) = Ret m /\
        at_key m (r_from r) kf /\ at_key m (r_it r) kr /\
        result_ok cmp s0 hist (r_op r) (r_start r) (r_end r) kf kr (r_res r).
Proof.
  intros K cmp dbg k0 hist s0 s nr c Hc Hh Hd E0 E1 Hr i r Hi Hpc.
  destruct (conc_inv cmp dbg k0 hist s0 s nr c Hc Hh Hd E0 E1 Hr) as (tr & -> & L & T & B & HL & Hn & HF).
  assert (HI : RInv cmp k0 hist tr (c_now c) r)
    by (rewrite Forall_forall in HF; apply HF; eapply nth_error_In; eauto).
  pose proof (RI_pc _ _ _ _ _ _ HI) as P. unfold pc_inv in P. rewrite Hpc in P. cbv zeta in P.
  destruct P as (_ & kf & kr & H1 & H2 & R). pose proof (RI_view _ _ _ _ _ _ HI) as V.
  rewrite L. cbn [sl_mem skiplist0].
  exists (g_mem (gat k0 tr (c_now c))), kf, kr. split; [apply (mem_at_ok cmp Hc k0 tr T)|].
  split; [|split; [|exact R]]; (eapply (at_key_mono cmp Hc k0 tr T (r_view r)); [lia|assumption]).
Qed.
Print Assumptions C30_concurrent_iteration.

(** A non-trivial reachable configuration: after inserting 5 (height 2) and
    half of 3 (linked at level 0), a reader starts Seek(2), reads a stale
    max_height_ of 1 and finds 3; another reader's Contains(5) is still inside.
    The schedule is run by a checked executor. *)
Section Exec.
  Context {K : Type} (cmp : K -> K -> Z) (dbg : bool) (m0 : mem K) (W : list (store K)).
  Inductive action := AWrite | ASync (i v : nat) | AStart (i : nat) (o : op K) | ARead (i n : nat).

  Definition act (c : config K) (a : action) : option (config K) :=
    match a with
    | AWrite => if c_now c <? length W then Some {| c_now := S (c_now c); c_readers := c_readers c |} else None
    | ASync i v =>
        match nth_error (c_readers c) i with
        | Some r => if (r_view r <=? v) && (v <=? c_now c)
                    then Some {| c_now := c_now c; c_readers := set_nth (c_readers c) i (set_view r v) |}
                    else None
        | None => None
        end
    | AStart i o =>
        match nth_error (c_readers c) i with
        | Some r => if negb (in_op r) && (match o with ONext | OPrev => Valid (r_it r) | _ => true end)
                    then match start dbg r o with
                         | Ret r' => Some {| c_now := c_now c; c_readers := set_nth (c_readers c) i r' |}
                         | _ => None
                         end
                    else None
        | None => None
        end
    | ARead i n =>
        match nth_error (c_readers c) i with
        | Some r => if in_op r && (n <=? c_now c) &&
                       (match r_pc r with PHeight => true | _ => r_view r <=? n end)
                    then match rstep cmp dbg m0 W (c_now c) n r with
                         | Ret r' => Some {| c_now := c_now c; c_readers := set_nth (c_readers c) i r' |}
                         | _ => None
                         end
                    else None
        | None => None
        end
    end.

  Fixpoint acts (c : config K) (l : list action) : option (config K) :=
    match l with
    | [] => Some c
    | a :: r => match act c a with Some c' => acts c' r | None => None end
    end.

  Lemma acts_reachable nr l : forall c c', reachable cmp dbg m0 W nr c -> acts c l = Some c' ->
    reachable cmp dbg m0 W nr c'.
  Proof.
    induction l as [|a l IH]; intros c c' Hr E; cbn [acts] in E; [inversion E; subst; auto|].
    destruct (act c a) as [c1|] eqn:Ea; [|discriminate]. apply (IH c1 c'); auto.
    eapply reach_step; [exact Hr|]. destruct c as [now rs]. destruct a as [|i v|i o|i n];
      cbn [act c_now c_readers] in Ea.
    - destruct (Nat.ltb_spec now (length W)); inversion Ea; subst. apply cs_write; auto.
    - destruct (nth_error rs i) as [r|] eqn:Ei; [|discriminate].
      destruct ((r_view r <=? v) && (v <=? now)) eqn:Eb; inversion Ea; subst.
      apply andb_true_iff in Eb as [E1 E2]. apply Nat.leb_le in E1, E2. eapply cs_sync; eauto.
    - destruct (nth_error rs i) as [r|] eqn:Ei; [|discriminate].
      destruct (negb (in_op r) && _) eqn:Eb; [|discriminate].
      destruct (start dbg r o) as [r'| | |] eqn:Es; inversion Ea; subst.
      apply andb_true_iff in Eb as [E1 E2]. apply negb_true_iff in E1.
      eapply cs_start; eauto. split; auto. destruct o; auto.
    - destruct (nth_error rs i) as [r|] eqn:Ei; [|discriminate].
      destruct (in_op r && (n <=? now) && _) eqn:Eb; [|discriminate].
      destruct (rstep cmp dbg m0 W now n r) as [r'| | |] eqn:Es; inversion Ea; subst.
      apply andb_true_iff in Eb as [Eb E3]. apply andb_true_iff in Eb as [E1 E2]. apply Nat.leb_le in E2.
      eapply cs_read; eauto. split; auto. intros Hne. destruct (r_pc r); try congruence;
        apply Nat.leb_le; auto.
  Qed.
End Exec.

Section Witness.
  Let hist := [(5%Z, 2); (3%Z, 2)].
  Let s0 := skiplist0 0%Z.
  Let s : skiplist Z :=
    match insert_all zcmp true s0 hist with Ret s => s | _ => s0 end.
  Let sched : list (@action Z) :=
    repeat AWrite 9 ++ [ASync 0 6; AStart 0 (OSeek 2%Z); AStart 1 (OContains 5%Z); ARead 0 0; ARead 0 9].

  Example Conc_hyps_satisfiable :
    exists c r, reachable zcmp true (sl_mem s0) (sl_log s) 2 c /\ c_now c = 9 /\ length (sl_log s) = 11 /\
      nth_error (c_readers c) 0 = Some r /\ r_pc r = PDone /\ r_op r = OSeek 2%Z /\ r_it r = Some 2 /\
      returned zcmp s0 hist (r_start r) 5%Z /\ called zcmp s0 hist (r_end r) 3%Z.
  Proof.
    destruct (acts zcmp true (sl_mem s0) (sl_log s) {| c_now := 0; c_readers := repeat new_reader 2 |} sched)
      as [c|] eqn:E; [|vm_compute in E; discriminate].
    exists c. eexists. split; [eapply acts_reachable; [apply reach_init|exact E]|].
    vm_compute in E. inversion E; subst c. clear E.
    split; [reflexivity|]. split; [vm_compute; reflexivity|]. split; [reflexivity|]. cbn.
    split; [reflexivity|]. split; [reflexivity|]. split; [reflexivity|]. split.
    - exists [(5%Z, 2)], [(3%Z, 2)], 6. split; [reflexivity|]. split; [|cbn; auto].
      eexists. split; [vm_compute; reflexivity|reflexivity].
    - exists [(5%Z, 2)], 2, [], 6. split; [reflexivity|]. split; [|lia].
      eexists. split; [vm_compute; reflexivity|reflexivity].
  Qed.
End Witness.
