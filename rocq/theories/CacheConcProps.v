(** CacheConcProps.v -- property theorems C40 and C42 (the cache and threads). *)
From Coq Require Import List Arith NArith Lia Bool Permutation.
From Verif Require Import Outcome Heap HashSpec HashProofs Cache CacheSpec CacheRun CacheGlobal CacheProofs CacheThms CacheProps
  Mutex NewIdConc CacheConc CacheConcProofs.
Import ListNotations.

(** C40: whatever the interleaving of [n] threads calling NewId (thread [t]
    [todo t] times; fewer than 2^64 calls in all), the ids returned so far are
    exactly 1, 2, 3, ..., each once. *)
Theorem C40_new_ids_are_1_to_m_each_once :
  forall (n : nat) (todo : nat -> nat) (c : conf N nthr),
    (forall t, n <= t -> todo t = 0) ->
    (N.of_nat (list_sum (map todo (seq 0 n))) < 2 ^ 64)%N ->
    steps N nthr id_next (id_start todo) c ->
    Permutation (all_ids n c) (map N.of_nat (seq 1 (length (all_ids n c)))) /\ NoDup (all_ids n c).
Proof.
  intros n todo c Ht Hf St. pose proof (ids_exact n todo Ht Hf c St) as P. split; [exact P|].
  eapply Permutation_NoDup; [symmetry; exact P|]. apply FinFun.Injective_map_NoDup; [|apply seq_NoDup].
  intros a b E. now apply Nat2N.inj.
Qed.
Print Assumptions C40_new_ids_are_1_to_m_each_once.

(** No two threads are ever both at the counter. *)
Theorem C40_no_data_race :
  forall (todo : nat -> nat) (c : conf N nthr) t t' f f',
    steps N nthr id_next (id_start todo) c ->
    id_next (thr N nthr c t) = OStep N nthr 0 f -> id_next (thr N nthr c t') = OStep N nthr 0 f' -> t = t'.
Proof.
  intros todo c t t' f f' St E E'.
  exact (no_data_race N nthr id_next id_inside id_disciplined _ (fun t => mk_nthr (todo t) 0 0 []) c t t' 0 f f' (fun _ => eq_refl) St E E').
Qed.
Print Assumptions C40_no_data_race.

(** Two threads, the second gets its id first. *)
Definition id_do (t : nat) (c : conf N nthr) : conf N nthr :=
  match id_next (thr N nthr c t) with
  | OLock _ _ l k => match lock N nthr c l with
                     | None => mk_conf N nthr (data N nthr c) (upd (lock N nthr c) l (Some t)) (upd (thr N nthr c) t k)
                     | Some _ => c
                     end
  | OUnlock _ _ l k => match lock N nthr c l with
                       | Some t' => if t' =? t then mk_conf N nthr (data N nthr c) (upd (lock N nthr c) l None) (upd (thr N nthr c) t k) else c
                       | None => c
                       end
  | OStep _ _ l f => mk_conf N nthr (upd (data N nthr c) l (fst (f (data N nthr c l)))) (lock N nthr c) (upd (thr N nthr c) t (snd (f (data N nthr c l))))
  | _ => c
  end.
Lemma id_do_ok c0 ts : forall c, steps N nthr id_next c0 c -> steps N nthr id_next c0 (fold_left (fun c t => id_do t c) ts c).
Proof.
  induction ts as [|t ts IH]; intros c St; [exact St|]. cbn [fold_left]. apply IH. unfold id_do.
  destruct (id_next (thr N nthr c t)) as [l k|l k|l f|k|] eqn:E; auto.
  - destruct (lock N nthr c l) eqn:El; auto. eapply steps_more; [exact St|]. now apply s_lock.
  - destruct (lock N nthr c l) as [t'|] eqn:El; auto. destruct (t' =? t) eqn:Et; auto. apply Nat.eqb_eq in Et. subst t'.
    eapply steps_more; [exact St|]. now apply s_unlock.
  - eapply steps_more; [exact St|]. eapply s_step; [exact E|]. apply surjective_pairing.
Qed.
Example ex_ids : exists c, steps N nthr id_next (id_start (fun t => if t <? 2 then 1 else 0)) c /\ all_ids 2 c = [2; 1]%N.
Proof.
  exists (fold_left (fun c t => id_do t c) [1; 0; 1; 1; 1; 0; 0; 0; 0] (id_start (fun t => if t <? 2 then 1 else 0))).
  split; [apply id_do_ok; constructor|reflexivity].
Qed.

(** C42 *)
Definition conc_runs (hashf : bytes -> N) (alc : allocator) (dbg : bool) (cap : N) (n : nat) (tr : trace) (cf : cconf) : Prop :=
  (forall k, (hashf k < 2 ^ 32)%N) /\ allocator_ok alc /\ cruns hashf alc dbg cap n tr cf.

(** Every concurrent execution is explained by a sequential one: the steps, in
    the order in which they took effect, are a legal history of a single caller
    that leads to the very same cache, and each thread's own calls are finished
    calls, one after the other, each made of its steps, taken between its
    beginning and its return: one step whose result is the call's result for
    Insert, Lookup, Release, Value, Erase and NewId; one step per shard for Prune
    and TotalCharge.  All of C31-C39 and C41 therefore hold of that history. *)
Theorem C42_interleavings_are_sequential_histories :
  forall hashf alc dbg cap n tr cf, conc_runs hashf alc dbg cap n tr cf ->
    runs hashf alc dbg cap (sections tr) (cc cf) /\ forall t, t < n -> thread_ok (proj t tr).
Proof.
  intros hashf alc dbg cap n tr cf (Hh & Ha & R).
  destruct (conc_explained hashf Hh alc Ha dbg cap n tr cf R) as [R1 R2]. split; [|exact R2]. split; [auto|]. split; auto.
Qed.
Print Assumptions C42_interleavings_are_sequential_histories.

(** No thread is ever stuck, at a deadlock or at undefined behaviour: a thread
    that has called and not yet returned can always take its next step. *)
Theorem C42_no_deadlock_no_undefined_behaviour :
  forall hashf alc dbg cap n tr cf t p, conc_runs hashf alc dbg cap n tr cf ->
    nth_error (ct cf) t = Some p -> p <> Idle -> (forall x, p = Start x -> in_range (sections tr) x) ->
    exists o cf', cstep hashf alc dbg (sections tr) t cf o cf'.
Proof.
  intros hashf alc dbg cap n tr cf t p (Hh & Ha & R) E Hp Hr.
  exact (conc_progress hashf Hh alc Ha dbg cap n tr cf t p R E Hp Hr).
Qed.
Print Assumptions C42_no_deadlock_no_undefined_behaviour.

(** What one step of Prune and of TotalCharge does. *)
Theorem C42_prune_step :
  forall hashf alc dbg cap H c s c' ev i, runs hashf alc dbg cap H c -> s < 16 ->
    exec hashf alc dbg c (CPruneShard s) = Ret (c', ev) ->
    (cached cap (ev :: H) i = true <->
     cached cap H i = true /\ (in_use H i \/ shard_of hashf (key_of_insert H i) <> N.of_nat s)).
Proof.
  intros hashf alc dbg cap H c s c' ev i (Hh & Ha & R) Hs Hx.
  exact (prune_shard_cached hashf Hh alc Ha dbg cap H c s c' ev i R Hs Hx).
Qed.
Print Assumptions C42_prune_step.

Theorem C42_total_charge_step :
  forall hashf alc dbg cap H c s c' ev, runs hashf alc dbg cap H c -> s < 16 ->
    exec hashf alc dbg c (CShardCharge s) = Ret (c', ev) ->
    ev_res ev = RNum (shard_total hashf cap (N.of_nat s) H mod 2 ^ 64) /\ ev_del ev = [].
Proof.
  intros hashf alc dbg cap H c s c' ev (Hh & Ha & R) Hs Hx.
  exact (shard_charge_total hashf Hh alc Ha dbg cap H c s c' ev R Hs Hx).
Qed.
Print Assumptions C42_total_charge_step.

(** ** Schedules: [(t, Some x)] thread t calls x, [(t, None)] thread t takes its next step *)
Definition in_range_b (H : history) (x : call) : bool :=
  match x with CInsert _ _ _ _ | CLookup _ => legal_b H x | _ => true end.
Definition may_b (H : history) (tp : list pst) (x : call) : bool :=
  match x with
  | CRelease h | CValue h => pend tp h <? held H h
  | CPruneShard _ | CShardCharge _ => false
  | _ => true
  end.
Lemma in_range_b_ok H x : in_range_b H x = true -> in_range H x.
Proof. destruct x; cbn [in_range_b in_range]; auto; apply legal_b_ok. Qed.
Lemma may_b_ok H tp x : may_b H tp x = true -> may_call H tp x.
Proof. destruct x; cbn [may_b may_call]; auto; try (apply Nat.ltb_lt); try discriminate. Qed.

Section Sched.
  Variable hashf : bytes -> N.
  Variable alc : allocator.
  Variable dbg : bool.
  Definition at_thread (cf : cconf) (t : nat) (o : option lab) (c : cache) (p : pst) : option (option lab * cconf) :=
    Some (o, mk_cconf c (set_nth t p (ct cf))).
  Definition cdo (H : history) (t : nat) (a : option call) (cf : cconf) : option (option lab * cconf) :=
    match nth_error (ct cf) t, a with
    | Some Idle, Some x => if may_b H (ct cf) x then at_thread cf t (Some (Beg x)) (cc cf) (Start x) else None
    | Some (Start x), None =>
        if single x then
          if in_range_b H x then
            match exec hashf alc dbg (cc cf) x with
            | Ret (c', ev) => at_thread cf t (Some (Sec ev)) c' (Done x (ev_res ev))
            | _ => None
            end
          else None
        else match x with
             | CRelease h => match get (c_mem (cc cf)) h with
                             | Ret nd => at_thread cf t None (cc cf) (ReadHash h (Shard (n_hash nd)))
                             | _ => None
                             end
             | CPrune => at_thread cf t None (cc cf) (Pruning 0)
             | CTotalCharge => at_thread cf t None (cc cf) (Charging 0 0)
             | _ => None
             end
    | Some (ReadHash h s), None =>
        match release_at dbg (clear_log (cc cf)) s h with
        | Ret c' => at_thread cf t (Some (Sec (mk_event (CRelease h) RNone (m_log (c_mem c'))))) c' (Done (CRelease h) RNone)
        | _ => None
        end
    | Some (Pruning i), None =>
        if i <? kNumShards then
          match exec hashf alc dbg (cc cf) (CPruneShard i) with
          | Ret (c', ev) => at_thread cf t (Some (Sec ev)) c' (Pruning (S i))
          | _ => None
          end
        else at_thread cf t None (cc cf) (Done CPrune RNone)
    | Some (Charging i acc), None =>
        if i <? kNumShards then
          match exec hashf alc dbg (cc cf) (CShardCharge i) with
          | Ret (c', ev) => match ev_res ev with
                            | RNum m => at_thread cf t (Some (Sec ev)) c' (Charging (S i) (u64 (acc + m)))
                            | _ => None
                            end
          | _ => None
          end
        else at_thread cf t None (cc cf) (Done CTotalCharge (RNum acc))
    | Some (Done x r), None => at_thread cf t (Some (Rtn r)) (cc cf) Idle
    | _, _ => None
    end.
  Lemma cdo_ok H t a cf o cf' : cdo H t a cf = Some (o, cf') -> cstep hashf alc dbg H t cf o cf'.
  Proof.
    unfold cdo, at_thread. destruct (nth_error (ct cf) t) as [p|] eqn:E; [|discriminate].
    destruct p as [|x|h s|i|i acc|x r], a as [y|]; try discriminate.
    - destruct (may_b H (ct cf) y) eqn:M; [|discriminate]. intros K; inversion K; subst. apply c_call; auto. now apply may_b_ok.
    - destruct (single x) eqn:Sx.
      + destruct (in_range_b H x) eqn:Rx; [|discriminate]. destruct (exec hashf alc dbg (cc cf) x) as [[c' ev]| | |] eqn:Ex; try discriminate.
        intros K; inversion K; subst. eapply c_single; eauto. now apply in_range_b_ok.
      + destruct x; try discriminate.
        * destruct (get (c_mem (cc cf)) handle) as [nd| | |] eqn:Eg; try discriminate. intros K; inversion K; subst. now apply c_readhash.
        * intros K; inversion K; subst. now apply c_prune0.
        * intros K; inversion K; subst. now apply c_charge0.
    - destruct (release_at dbg (clear_log (cc cf)) s h) as [c'| | |] eqn:Er; try discriminate. intros K; inversion K; subst.
      eapply c_release; eauto.
    - destruct (i <? kNumShards) eqn:Ei.
      + apply Nat.ltb_lt in Ei. destruct (exec hashf alc dbg (cc cf) (CPruneShard i)) as [[c' ev]| | |] eqn:Ex; try discriminate.
        intros K; inversion K; subst. eapply c_prune; eauto.
      + apply Nat.ltb_ge in Ei. intros K; inversion K; subst. eapply c_prune_end; eauto.
    - destruct (i <? kNumShards) eqn:Ei.
      + apply Nat.ltb_lt in Ei. destruct (exec hashf alc dbg (cc cf) (CShardCharge i)) as [[c' ev]| | |] eqn:Ex; try discriminate.
        destruct (ev_res ev) as [|m|] eqn:Er; try discriminate. intros K; inversion K; subst. eapply c_charge; eauto.
      + apply Nat.ltb_ge in Ei. intros K; inversion K; subst. eapply c_charge_end; eauto.
    - intros K; inversion K; subst. now apply c_return with (x := x).
  Qed.
  Fixpoint run_sched (s : list (nat * option call)) (tr : trace) (cf : cconf) : option (trace * cconf) :=
    match s with
    | [] => Some (tr, cf)
    | (t, a) :: s' => match cdo (sections tr) t a cf with
                      | Some (o, cf') => run_sched s' (add_lab t o tr) cf'
                      | None => None
                      end
    end.
  Lemma run_sched_ok cap n s : forall tr cf tr' cf', cruns hashf alc dbg cap n tr cf ->
    run_sched s tr cf = Some (tr', cf') -> cruns hashf alc dbg cap n tr' cf'.
  Proof.
    induction s as [|[t a] s IH]; cbn [run_sched]; intros tr cf tr' cf' R E; [inversion E; subst; auto|].
    destruct (cdo (sections tr) t a cf) as [[o cf1]|] eqn:D; [|discriminate].
    eapply IH; [|exact E]. econstructor; [exact R|]. eapply cdo_ok; eauto.
  Qed.

  (** Sequential histories are determined by their calls. *)
  Fixpoint replay (xs : list call) (H : history) (c : cache) : option (history * cache) :=
    match xs with
    | [] => Some (H, c)
    | x :: xs' => match exec hashf alc dbg c x with
                  | Ret (c', ev) => replay xs' (ev :: H) c'
                  | _ => None
                  end
    end.
  Lemma replay_app xs ys : forall H c, replay (xs ++ ys) H c =
    match replay xs H c with Some (H', c') => replay ys H' c' | None => None end.
  Proof.
    induction xs as [|x xs IH]; cbn [app replay]; intros H c; auto.
    destruct (exec hashf alc dbg c x) as [[c' ev]| | |]; auto.
  Qed.
  Lemma reach_replay cap H c : reach hashf alc dbg cap H c ->
    exists c0, cache_new alc dbg cap = Ret c0 /\ replay (map ev_call (rev H)) [] c0 = Some (H, c).
  Proof.
    induction 1 as [c E|H c x c' ev R IH Hl Hx].
    - exists c. auto.
    - destruct IH as (c0 & E0 & E1). exists c0. split; [auto|]. cbn [rev]. rewrite map_app, replay_app, E1. cbn [map replay].
      rewrite (exec_call hashf alc dbg _ _ _ _ Hx), Hx. reflexivity.
  Qed.
End Sched.

(** The finished calls of a thread with their results, oldest first. *)
Fixpoint finished (l : list lab) (cur : option call) : list (call * result) :=
  match l with
  | [] => []
  | Beg x :: l' => finished l' (Some x)
  | Sec _ :: l' => finished l' cur
  | Rtn r :: l' => match cur with Some x => (x, r) :: finished l' None | None => finished l' None end
  end.
Definition calls_of (t : nat) (tr : trace) : list (call * result) := finished (proj t tr) None.

(** Prune and TotalCharge do not take effect at one instant.  Thread 1 inserts,
    releases and looks up two entries in different shards, thread 0 calls Prune
    once; there is no place among thread 1's calls at which a Prune would make a
    single caller see the same results. *)
Definition go (t k : nat) : list (nat * option call) := repeat (t, None) k.
Definition prune_sched : list (nat * option call) :=
  [(1, Some (CInsert [11]%N 100 1 7))] ++ go 1 2 ++ [(1, Some (CInsert [7]%N 200 1 8))] ++ go 1 2 ++
  [(0, Some CPrune)] ++ go 0 2 ++                                    (* shard 0 is done: [11] is held and stays *)
  [(1, Some (CRelease 33))] ++ go 1 3 ++ [(1, Some (CRelease 34))] ++ go 1 3 ++
  go 0 17 ++                                                          (* shard 15: [7] is no longer held and goes *)
  [(1, Some (CLookup [7]%N))] ++ go 1 2 ++ [(1, Some (CLookup [11]%N))] ++ go 1 2.
Definition prune_calls : list (call * result) :=
  [(CInsert [11]%N 100 1 7, RHandle 33); (CInsert [7]%N 200 1 8, RHandle 34); (CRelease 33, RNone); (CRelease 34, RNone);
   (CLookup [7]%N, RHandle 0); (CLookup [11]%N, RHandle 33)].

Theorem C42_prune_is_not_atomic_refuted :
  exists tr cf, conc_runs real_hash alc_bump true 32 2 tr cf /\
    calls_of 0 tr = [(CPrune, RNone)] /\ calls_of 1 tr = prune_calls /\
    forall H c k, runs real_hash alc_bump true 32 H c ->
      map ev_call (rev H) = firstn k (map fst prune_calls) ++ CPrune :: skipn k (map fst prune_calls) ->
      map ev_res (rev H) <> firstn k (map snd prune_calls) ++ RNone :: skipn k (map snd prune_calls).
Proof.
  destruct (cache_new alc_bump true 32) as [c0| | |] eqn:E0; try (vm_compute in E0; discriminate).
  destruct (run_sched real_hash alc_bump true prune_sched [] (mk_cconf c0 (repeat Idle 2))) as [[tr cf]|] eqn:E.
  - exists tr, cf. split.
    { split; [intros k; apply hash_spec_lt; reflexivity|]. split; [exact alc_bump_ok|].
      eapply run_sched_ok; [|exact E]. constructor. exact E0. }
    split; [|split].
    + vm_compute in E0. inversion E0; subst c0. vm_compute in E. inversion E; subst tr. reflexivity.
    + vm_compute in E0. inversion E0; subst c0. vm_compute in E. inversion E; subst tr. reflexivity.
    + clear E tr cf. intros H c k (_ & _ & R) Ec Er.
      destruct (reach_replay _ _ _ _ _ _ R) as (c0' & E0' & Rp). assert (c0' = c0) by congruence. subst c0'. clear E0' R.
      rewrite Ec in Rp.
      assert (Er' : map ev_res (rev H) = firstn k (map snd prune_calls) ++ RNone :: skipn k (map snd prune_calls)) by exact Er. clear Er.
      vm_compute in E0. inversion E0; subst c0. clear E0 Ec.
      do 6 (destruct k as [|k]; [vm_compute in Rp; inversion Rp; subst H; vm_compute in Er'; discriminate Er'|]).
      rewrite !firstn_all2, !skipn_all2 in * by (cbn; lia).
      vm_compute in Rp. inversion Rp; subst H. vm_compute in Er'. discriminate Er'.
  - vm_compute in E0. inversion E0; subst c0. vm_compute in E. discriminate.
Qed.
Print Assumptions C42_prune_is_not_atomic_refuted.

(** TotalCharge: thread 0 sees shard 0 before thread 1 puts an entry of charge 1
    there and shard 15 after it puts one of charge 2 there; it returns 2, which
    the total charge never was. *)
Definition charge_sched : list (nat * option call) :=
  [(0, Some CTotalCharge)] ++ go 0 2 ++
  [(1, Some (CInsert [11]%N 100 1 7))] ++ go 1 2 ++ [(1, Some (CInsert [7]%N 200 2 8))] ++ go 1 2 ++ go 0 17.
Theorem C42_total_charge_is_not_atomic_refuted :
  exists tr cf, conc_runs real_hash alc_bump true 64 2 tr cf /\
    calls_of 0 tr = [(CTotalCharge, RNum 2)] /\
    forall k, total 64 (skipn k (sections tr)) <> 2%N.
Proof.
  destruct (cache_new alc_bump true 64) as [c0| | |] eqn:E0; try (vm_compute in E0; discriminate).
  destruct (run_sched real_hash alc_bump true charge_sched [] (mk_cconf c0 (repeat Idle 2))) as [[tr cf]|] eqn:E.
  - exists tr, cf. split.
    { split; [intros k; apply hash_spec_lt; reflexivity|]. split; [exact alc_bump_ok|].
      eapply run_sched_ok; [|exact E]. constructor. exact E0. }
    vm_compute in E0. inversion E0; subst c0. vm_compute in E. inversion E; subst tr. clear.
    split; [reflexivity|]. intros k.
    do 18 (destruct k as [|k]; [vm_compute; discriminate|]).
    rewrite skipn_all2 by (cbn; lia). vm_compute. discriminate.
  - vm_compute in E0. inversion E0; subst c0. vm_compute in E. discriminate.
Qed.
Print Assumptions C42_total_charge_is_not_atomic_refuted.
