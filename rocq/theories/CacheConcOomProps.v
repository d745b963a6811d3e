(** CacheConcOomProps.v -- property theorem C120 (threads on one cache, Inserts that throw). *)
From Coq Require Import List Arith NArith Lia Bool Permutation.
From Verif Require Import Outcome Heap HashSpec HashProofs Cache CacheSpec CacheRun CacheGlobal CacheHist CacheThms CacheProofs CacheProps
  CacheOom CacheOomSpec CacheOomProofs CacheOomProps CacheConc CacheConcProofs CacheConcProps CacheConcOom CacheConcOomProofs.
Import ListNotations.

Definition conc_runs_f (hashf : bytes -> N) (alc : allocator) (dbg : bool) (cap : N) (n : nat) (tr : ftrace) (cf : cconf) : Prop :=
  (forall k, (hashf k < 2 ^ 32)%N) /\ allocator_ok alc /\ fruns hashf alc dbg cap n tr cf.

(** Every execution of several threads, any of whose Inserts may throw, is explained by
    a history of one caller: its sections in the order in which they took effect, the
    Inserts that threw and left their entry among them, lead to the very same cache;
    and each thread's own calls come one after the other: they return, as in C42, or
    are Inserts that throw, having done nothing or having left their entry.  All of
    C109 therefore holds of that history. *)
Theorem C120_interleavings_with_throws_are_sequential_histories :
  forall hashf alc dbg cap n tr cf, conc_runs_f hashf alc dbg cap n tr cf ->
    runs_f hashf alc dbg cap (fsections tr) (fthrown tr) (cc cf) /\ forall t, t < n -> fthread_ok (fproj t tr).
Proof.
  intros hashf alc dbg cap n tr cf (Hh & Ha & R).
  destruct (fconc_explained hashf Hh alc Ha dbg cap n tr cf R) as [R1 R2]. split; [|exact R2]. split; [auto|]. split; auto.
Qed.
Print Assumptions C120_interleavings_with_throws_are_sequential_histories.

(** After any number of throws: no thread is ever stuck, at a deadlock (the shard's
    mutex is free again) or at undefined behaviour. *)
Theorem C120_no_deadlock_no_undefined_behaviour :
  forall hashf alc dbg cap n tr cf t p, conc_runs_f hashf alc dbg cap n tr cf ->
    nth_error (ct cf) t = Some p -> p <> Idle -> (forall x, p = Start x -> in_range (fsections tr) x) ->
    exists o cf', cstep hashf alc dbg (fsections tr) t cf o cf' /\
      fstep hashf alc dbg (fsections tr) (fthrown tr) t cf (option_map FL o) cf'.
Proof.
  intros hashf alc dbg cap n tr cf t p (Hh & Ha & R) E Hp Hr.
  exact (fconc_progress hashf Hh alc Ha dbg cap n tr cf t p R E Hp Hr).
Qed.
Print Assumptions C120_no_deadlock_no_undefined_behaviour.

(** What other threads are doing does not matter to an Insert that finds no memory: no
    memory for the entry makes it throw without any effect; no memory for a bigger table
    is not noticed, or makes it throw with the entry cached, nothing deleted. *)
Theorem C120_insert_without_memory :
  forall hashf alc dbg cap n tr cf t k v ch d, conc_runs_f hashf alc dbg cap n tr cf ->
    nth_error (ct cf) t = Some (Start (CInsert k v ch d)) -> legal (fsections tr) (CInsert k v ch d) ->
    fstep hashf alc dbg (fsections tr) (fthrown tr) t cf (Some (Threw None))
      (mk_cconf (clear_log (cc cf)) (set_nth t Idle (ct cf))) /\
    ((exists c' p ev, cache_insert_f hashf alc dbg (clear_log (cc cf)) FTable k v ch d = Ret (c', Returns p) /\ ev_res ev = RHandle p /\
        fstep hashf alc dbg (fsections tr) (fthrown tr) t cf (Some (FL (Sec ev)))
          (mk_cconf c' (set_nth t (Done (CInsert k v ch d) (RHandle p)) (ct cf)))) \/
     (exists c' a, cache_insert_f hashf alc dbg (clear_log (cc cf)) FTable k v ch d = Ret (c', Throws (Some a)) /\
        let ev := mk_event (CInsert k v ch d) (RHandle a) [] in
        fstep hashf alc dbg (fsections tr) (fthrown tr) t cf (Some (Threw (Some ev))) (mk_cconf c' (set_nth t Idle (ct cf))) /\
        cached cap (ev :: fsections tr) (length (fsections tr)) = true /\
        (forall i, i <> length (fsections tr) -> cached cap (ev :: fsections tr) i = cached cap (fsections tr) i))).
Proof.
  intros hashf alc dbg cap n tr cf t k v ch d R E L.
  destruct (C120_interleavings_with_throws_are_sequential_histories _ _ _ _ _ _ _ R) as [R1 _].
  split; [eapply fs_clean with (f := FEntry); [exact E|exact L|reflexivity]|].
  destruct (C109_failing_table hashf alc dbg cap _ _ _ k v ch d R1 L)
    as [(c' & p & dl & E1 & X)|(c' & a & E1 & El & _ & _ & _ & Hc & Ho & _)].
  - left. exists c', p, (mk_event (CInsert k v ch d) (RHandle p) dl). split; [exact E1|]. split; [reflexivity|].
    refine (fs_step hashf alc dbg _ _ t cf (Some (Sec _)) _ (c_single hashf alc dbg _ t cf (CInsert k v ch d) c' _ E eq_refl L X) _).
    discriminate.
  - right. exists c', a. split; [exact E1|]. cbn zeta. split; [|split; [exact Hc|exact Ho]].
    rewrite <- El. eapply fs_lost; [exact E|exact L|exact E1].
Qed.
Print Assumptions C120_insert_without_memory.

(** The entries left behind are those of the Inserts that threw having left an entry
    (and no others), and whatever all the threads do: no deleter is run for them, and
    they are in the table unless an Insert or Erase of the key has taken them out. *)
Lemma fthrown_in tr i : In i (fthrown tr) <->
  exists tr1 t ev tr2, tr = tr2 ++ (t, Threw (Some ev)) :: tr1 /\ i = length (fsections tr1).
Proof.
  induction tr as [|[t l] tr IH].
  - split; [intros []|intros (tr1 & t & ev & tr2 & E & _)]. destruct tr2; discriminate.
  - assert (K : In i (fthrown ((t, l) :: tr)) <->
        (exists ev, l = Threw (Some ev) /\ i = length (fsections tr)) \/ In i (fthrown tr)).
    { cbn [fthrown]. destruct l as [l|[ev|]]; [| |].
      - split; [auto|]. intros [(ev & E & _)|Hi]; [discriminate|exact Hi].
      - cbn [In]. split; [intros [Hi|Hi]; [left; exists ev; auto|auto]|intros [(ev' & _ & Hi)|Hi]; auto].
      - split; [auto|]. intros [(ev & E & _)|Hi]; [discriminate|exact Hi]. }
    rewrite K, IH. split.
    + intros [(ev & -> & Hi)|(tr1 & t1 & ev & tr2 & -> & Hi)].
      * exists tr, t, ev, []. auto.
      * exists tr1, t1, ev, ((t, l) :: tr2). auto.
    + intros (tr1 & t1 & ev & [|x tr2] & E & Hi).
      * injection E as <- -> ->. left. eauto.
      * injection E as _ ->. right. eauto 8.
Qed.
Theorem C120_what_a_throw_leaves_is_never_freed :
  forall hashf alc dbg cap n tr cf tr1 t ev tr2, conc_runs_f hashf alc dbg cap n tr cf ->
    tr = tr2 ++ (t, Threw (Some ev)) :: tr1 ->
    let H := fsections tr in let i := length (fsections tr1) in
    in_use H i /\ deaths H i = 0 /\ cached cap H i = negb (superseded H i (key_of_insert H i)).
Proof.
  intros hashf alc dbg cap n tr cf tr1 t ev tr2 R E.
  destruct (C120_interleavings_with_throws_are_sequential_histories _ _ _ _ _ _ _ R) as [R1 _].
  cbn zeta. eapply (C109_lost_entry_is_never_freed hashf alc dbg cap (fsections tr) (fthrown tr) (cc cf)); [exact R1|].
  apply fthrown_in. exists tr1, t, ev, tr2. auto.
Qed.
Print Assumptions C120_what_a_throw_leaves_is_never_freed.

(** If nothing throws these are exactly the executions of C42. *)
Lemma user_held_nil H h : user_held H [] h = held H h.
Proof. unfold user_held, lost. destruct (owner H h); cbn [existsb]; lia. Qed.
Definition calm (tr : trace) : ftrace := map (fun p => (fst p, FL (snd p))) tr.
Lemma calm_sections tr : fsections (calm tr) = sections tr.
Proof.
  induction tr as [|[t l] tr IH]; [reflexivity|]. unfold calm, fsections, sections in *. cbn [map flat_map fst snd].
  rewrite IH. destruct l; reflexivity.
Qed.
Lemma calm_thrown tr : fthrown (calm tr) = [].
Proof. induction tr as [|[t l] tr IH]; [reflexivity|]. exact IH. Qed.
Lemma calm_add t o tr : calm (add_lab t o tr) = add_flab t (option_map FL o) (calm tr).
Proof. destruct o; reflexivity. Qed.
Lemma beg_may hashf alc dbg H t cf o cf' x : cstep hashf alc dbg H t cf o cf' -> o = Some (Beg x) -> may_call H (ct cf) x.
Proof. intros K E. destruct K; try discriminate E. injection E as <-. assumption. Qed.
Lemma calm_fruns hashf alc dbg cap n tr cf : cruns hashf alc dbg cap n tr cf -> fruns hashf alc dbg cap n (calm tr) cf.
Proof.
  induction 1 as [c E|tr cf t o cf' R IH Sx].
  - now constructor.
  - rewrite calm_add. econstructor; [exact IH|]. rewrite calm_sections, calm_thrown. apply fs_step; [exact Sx|].
    intros x E. pose proof (beg_may _ _ _ _ _ _ _ _ x Sx E) as M. destruct x; cbn [may_call may_call_f] in *; auto; now rewrite user_held_nil.
Qed.
Theorem C120_no_failure_no_difference :
  forall hashf alc dbg cap n cf,
    (forall tr, conc_runs hashf alc dbg cap n tr cf -> conc_runs_f hashf alc dbg cap n (calm tr) cf) /\
    (forall ftr, conc_runs_f hashf alc dbg cap n ftr cf -> (forall t l, ~ In (t, Threw l) ftr) ->
       exists tr, ftr = calm tr /\ conc_runs hashf alc dbg cap n tr cf).
Proof.
  intros hashf alc dbg cap n cf. split.
  - intros tr (Hh & Ha & R). split; [exact Hh|]. split; [exact Ha|]. now apply calm_fruns.
  - intros ftr (Hh & Ha & R) Hn.
    enough (K : exists tr, ftr = calm tr /\ cruns hashf alc dbg cap n tr cf).
    { destruct K as (tr & E & K). exists tr. split; [exact E|]. split; [exact Hh|]. split; [exact Ha|exact K]. }
    induction R as [c E|tr cf t o cf' R IH Sx].
    + exists []. split; [reflexivity|now constructor].
    + destruct IH as (tr0 & -> & IH).
      { intros u l Hi. apply (Hn u l). destruct o; cbn [add_flab In]; auto. }
      rewrite calm_sections in Sx. destruct Sx as [o cf' Sx _| |].
      * exists (add_lab t o tr0). split; [symmetry; apply calm_add|]. econstructor; eauto.
      * exfalso. apply (Hn t None). cbn. auto.
      * exfalso. eapply (Hn t). cbn. eauto.
Qed.
Print Assumptions C120_no_failure_no_difference.

(** A schedule runner: [(t, Some x)] thread t calls x, [(t, None)] it takes its next step. *)
Definition fmay_b (H : history) (T : list nat) (tp : list pst) (x : call) : bool :=
  match x with
  | CRelease h | CValue h => pend tp h <? user_held H T h
  | CPruneShard _ | CShardCharge _ => false
  | _ => true
  end.
Fixpoint run_fsched (hashf : bytes -> N) (alc : allocator) (dbg : bool) (s : list (nat * option call)) (tr : ftrace) (cf : cconf) : option (ftrace * cconf) :=
  match s with
  | [] => Some (tr, cf)
  | (t, a) :: s' =>
      if match a with Some x => fmay_b (fsections tr) (fthrown tr) (ct cf) x | None => true end then
        match cdo hashf alc dbg (fsections tr) t a cf with
        | Some (o, cf') => run_fsched hashf alc dbg s' (add_flab t (option_map FL o) tr) cf'
        | None => None
        end
      else None
  end.
Lemma cdo_beg hashf alc dbg H t a cf o cf' x : cdo hashf alc dbg H t a cf = Some (o, cf') -> o = Some (Beg x) -> a = Some x.
Proof.
  intros D ->. unfold cdo, at_thread in D. destruct (nth_error (ct cf) t) as [p|]; [|discriminate].
  destruct p as [|y|h s|i|i acc|y r], a as [z|]; try discriminate D.
  - destruct (may_b _ _ z); [|discriminate D]. injection D as -> _. reflexivity.
  - destruct (single y).
    + destruct (in_range_b H y); [|discriminate D]. destruct (exec _ _ _ _ y) as [[? ?]| | |]; discriminate D.
    + destruct y; try discriminate D. destruct (get _ _); discriminate D.
  - destruct (release_at _ _ _ _); discriminate D.
  - destruct (i <? kNumShards); [|discriminate D]. destruct (exec _ _ _ _ _) as [[? ?]| | |]; discriminate D.
  - destruct (i <? kNumShards); [|discriminate D]. destruct (exec _ _ _ _ _) as [[? ev]| | |]; try discriminate D.
    destruct (ev_res ev); discriminate D.
Qed.
Lemma run_fsched_ok hashf alc dbg cap n s : forall tr cf tr' cf', fruns hashf alc dbg cap n tr cf ->
  run_fsched hashf alc dbg s tr cf = Some (tr', cf') -> fruns hashf alc dbg cap n tr' cf'.
Proof.
  induction s as [|[t a] s IH]; cbn [run_fsched]; intros tr cf tr' cf' R E; [inversion E; subst; auto|].
  destruct (match a with Some x => fmay_b (fsections tr) (fthrown tr) (ct cf) x | None => true end) eqn:M; [|discriminate].
  destruct (cdo hashf alc dbg (fsections tr) t a cf) as [[o cf1]|] eqn:D; [|discriminate].
  eapply IH; [|exact E]. econstructor; [exact R|]. apply fs_step; [eapply cdo_ok; exact D|].
  intros x Ex. rewrite (cdo_beg _ _ _ _ _ _ _ _ _ x D Ex) in M.
  destruct x; cbn [fmay_b may_call_f] in *; auto; try (now apply Nat.ltb_lt); discriminate.
Qed.

(** Thread 1 fills a shard's table; thread 0's Insert throws for want of a bigger one;
    thread 1 then finds what thread 0 did not get, and can use and release it. *)
Definition fill_sched : list (nat * option call) :=
  flat_map (fun x => (1, Some x) :: go 1 (match x with CRelease _ => 3 | _ => 2 end)) oom_calls ++
  [(0, Some (CInsert [59]%N 500 1 6))].
Definition after_sched : list (nat * option call) :=
  [(1, Some (CLookup [59]%N))] ++ go 1 2 ++ [(1, Some (CValue 37))] ++ go 1 2 ++ [(1, Some (CRelease 37))] ++ go 1 3.
Theorem C120_a_throwing_insert_is_invisible_to_others_refuted :
  exists tr cf evl evv evr pre,
    conc_runs_f real_hash alc_bump false 64 2 tr cf /\
    fproj 0 tr = [FL (Beg (CInsert [59]%N 500 1 6)); Threw (Some (mk_event (CInsert [59]%N 500 1 6) (RHandle 37) []))] /\
    fproj 1 tr = pre ++ [FL (Beg (CLookup [59]%N)); FL (Sec evl); FL (Rtn (RHandle 37));
                         FL (Beg (CValue 37)); FL (Sec evv); FL (Rtn (RNum 500));
                         FL (Beg (CRelease 37)); FL (Sec evr); FL (Rtn RNone)] /\
    (forall x, In (FL (Beg x)) pre -> In x oom_calls) /\
    ~ may_call_f (fsections tr) (fthrown tr) (ct cf) (CRelease 37).
Proof.
  destruct (cache_new alc_bump false 64) as [c0| | |] eqn:E0; try (vm_compute in E0; discriminate E0).
  destruct (run_fsched real_hash alc_bump false fill_sched [] (mk_cconf c0 (repeat Idle 2))) as [[tr cf]|] eqn:E1;
    [|vm_compute in E0; inversion E0; subst c0; vm_compute in E1; discriminate E1].
  assert (R1 : fruns real_hash alc_bump false 64 2 tr cf).
  { eapply run_fsched_ok; [|exact E1]. constructor. exact E0. }
  destruct (cache_insert_f real_hash alc_bump false (clear_log (cc cf)) FTable [59]%N 500 1 6) as [[c' e]| | |] eqn:E2;
    try (vm_compute in E0; inversion E0; subst c0; vm_compute in E1; inversion E1; subst tr cf; vm_compute in E2; discriminate E2).
  assert (Es : nth_error (ct cf) 0 = Some (Start (CInsert [59]%N 500 1 6)) /\ legal_b (fsections tr) (CInsert [59]%N 500 1 6) = true /\
               e = Throws (Some 37)).
  { vm_compute in E0; inversion E0; subst c0; vm_compute in E1; inversion E1; subst tr cf; vm_compute in E2; inversion E2; subst e.
    split; [reflexivity|split; reflexivity]. }
  destruct Es as (Es & El & ->). apply legal_b_ok in El.
  assert (R2 : fruns real_hash alc_bump false 64 2
             (add_flab 0 (Some (Threw (Some (mk_event (CInsert [59]%N 500 1 6) (RHandle 37) (m_log (c_mem c')))))) tr)
             (mk_cconf c' (set_nth 0 Idle (ct cf)))).
  { econstructor; [exact R1|]. eapply fs_lost; [exact Es|exact El|exact E2]. }
  destruct (run_fsched real_hash alc_bump false after_sched
             (add_flab 0 (Some (Threw (Some (mk_event (CInsert [59]%N 500 1 6) (RHandle 37) (m_log (c_mem c')))))) tr)
             (mk_cconf c' (set_nth 0 Idle (ct cf)))) as [[tr3 cf3]|] eqn:E3.
  - exists tr3, cf3. do 3 eexists. exists (fproj 1 tr).
    split; [split; [intros k; apply hash_spec_lt; reflexivity|split; [exact alc_bump_ok|eapply run_fsched_ok; [exact R2|exact E3]]]|].
    clear R1 R2 Es El.
    vm_compute in E0; inversion E0; subst c0; vm_compute in E1; inversion E1; subst tr cf; vm_compute in E2; inversion E2; subst c'.
    vm_compute in E3; inversion E3; subst tr3 cf3. clear.
    split; [reflexivity|]. split; [reflexivity|]. split.
    + intros x Hx. vm_compute in Hx. repeat (destruct Hx as [Hx|Hx]; [first [discriminate Hx|injection Hx as <-; vm_compute; tauto]|]). destruct Hx.
    + cbn [may_call_f]. vm_compute. intros K. inversion K.
  - exfalso. clear R1 R2 Es El.
    vm_compute in E0; inversion E0; subst c0; vm_compute in E1; inversion E1; subst tr cf; vm_compute in E2; inversion E2; subst c'.
    vm_compute in E3. discriminate E3.
Qed.
Print Assumptions C120_a_throwing_insert_is_invisible_to_others_refuted.
