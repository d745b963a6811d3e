(** SchedOomProps.v -- C113: Schedule when an exception is thrown in it. *)
From Coq Require Import List Arith Lia Bool.
From Verif Require Import Sched SchedProofs SchedOom SchedOomProofs.
Import ListNotations.

(** ** C113 *)
(** Until an exception is thrown everything is as in C66 and C67: the runs are the
    same. *)
Theorem C113_no_exception_no_difference :
  (forall o, oreach o -> o_failed o = [] -> sreach (o_s o)) /\ (forall s, sreach s -> oreach (mk_o s [] false)).
Proof.
  split.
  - intros o R F. destruct (oinv o R) as [(_ & _ & Q)|(x & Q & _)]; [exact Q|congruence].
  - induction 1 as [|s a s' R (acts & IH) E]; [exists []; constructor|]. exists (acts ++ [OStep a]). eapply osteps_snoc; [exact IH|].
    unfold ostep. cbn [o_dead o_s o_failed]. now rewrite E.
Qed.
Print Assumptions C113_no_exception_no_difference.

(** With exceptions at any moment: the functions called are still the items whose
    Schedule calls have not failed, in order, without gaps or repetitions, one
    after the other; the queue is never popped when empty; and at most one Schedule
    call fails, since after it no other gets as far. *)
Theorem C113_safe :
  forall o, oreach o ->
    (exists later, s_locked (o_s o) = s_ran (o_s o) ++ later) /\
    (s_ran (o_s o) = s_done (o_s o) \/ exists x, s_ran (o_s o) = s_done (o_s o) ++ [x] /\ s_bgs (o_s o) = [BRun x]) /\
    length (s_bgs (o_s o)) <= 1 /\ s_crash (o_s o) = false /\ length (o_failed o) <= 1.
Proof.
  intros o R.
  assert (D : forall s, s_ran s = s_done s ++ running s -> s_ran s = s_done s \/ exists x, s_ran s = s_done s ++ [x] /\ s_bgs s = [BRun x]).
  { intros s D. unfold running in D. assert (L : forall d : list nat, s_ran s = d ++ [] -> s_ran s = d) by (intros d; now rewrite app_nil_r).
    destruct (s_bgs s) as [|b [|? ?]]; [left; auto| |destruct b; left; auto]. destruct b; auto. right. eauto. }
  destruct (oinv o R) as [(F & I & _)|(x & F & J)].
  - split; [rewrite (si_order _ I); eauto|]. split; [apply D, (si_done _ I)|]. rewrite F.
    split; [destruct (si_one _ I) as [(-> & _)|((b & ->) & _)]; cbn; lia|]. split; [apply (si_crash _ I)|cbn; lia].
  - split; [rewrite (jm_order _ J); eauto|]. split; [apply D, (jm_done _ J)|]. rewrite F.
    split; [destruct (jm_bgs _ J) as [->|(b & -> & _)]; cbn; lia|]. split; [apply (jm_crash _ J)|cbn; lia].
Qed.
Print Assumptions C113_safe.

(** The call that fails schedules nothing and changes nothing that was scheduled
    before: everything else is either done, running or in the queue. *)
Theorem C113_failed_call_schedules_nothing :
  forall o a o', oreach o -> ostep o (OThrow a) = Some o' ->
    exists x, o_failed o' = [x] /\ s_locked (o_s o) = s_locked (o_s o') ++ [x] /\
      s_ran (o_s o') = s_ran (o_s o) /\ s_queue (o_s o') = s_queue (o_s o) /\ s_locked (o_s o') = s_ran (o_s o') ++ s_queue (o_s o').
Proof.
  intros o a o' R E. unfold ostep in E. destruct (o_dead o); [discriminate|]. destruct (othrow (o_s o) a) as [[s' x]|] eqn:Es; [|discriminate]. injection E as <-.
  destruct (oinv o R) as [(F & I & _)|(y & F & J)]; [|rewrite jam_no_throw in Es by exact J; discriminate].
  destruct (jam_throw _ _ _ _ I Es) as (J & A & B & C). exists x. cbn [o_s o_failed]. rewrite F. repeat split; auto. apply (jm_order _ J).
Qed.
Print Assumptions C113_failed_call_schedules_nothing.

(** But after it the environment is of no more use: the mutex is never released;
    nothing that is in the queue is ever called; no Schedule call, from any thread,
    ever gets into the locked section, let alone returns; and altogether at most
    one more step is taken (the function that is running returns or throws, or the
    waiting background thread wakes up in vain). *)
Theorem C113_everything_stops :
  forall o acts o', oreach o -> o_failed o <> [] -> osteps o acts o' ->
    s_mu (o_s o') <> None /\ s_ran (o_s o') = s_ran (o_s o) /\ s_queue (o_s o') = s_queue (o_s o) /\
    (forall a x, ostep o' (OStep (CallSchedule a x)) = None) /\ (forall a w, ostep o' (OStep (SchedStep a w)) = None) /\ length acts <= 1.
Proof.
  intros o acts o' R F H. destruct (oinv o R) as [(F' & _)|(y & F' & J)]; [congruence|].
  destruct (jam_steps _ _ _ _ H F' J) as (J' & _ & L & Q & U & M). destruct (jm_mu _ J') as (m & Em).
  split; [congruence|]. split; [exact Q|]. split; [exact U|]. split; [|split].
  - intros a x. unfold ostep. destruct (o_dead o'); [reflexivity|]. cbn [sstep]. rewrite Em. now destruct (can_call (o_s o') a).
  - intros a w. unfold ostep. destruct (o_dead o'); [reflexivity|]. cbn [sstep]. unfold sched_step. now rewrite (jm_call _ J').
  - assert (N : forall o acts o', osteps o acts o' -> Jam (o_s o) -> o_dead o = true \/ s_bgs (o_s o) = [BLock] \/ s_bgs (o_s o) = [BWoken] -> acts = []).
    { clear. intros o acts o' H J D. destruct H as [o|o a o1 acts o' E H]; [reflexivity|]. exfalso. unfold ostep in E. destruct (o_dead o); [discriminate|].
      destruct D as [D|D]; [discriminate|]. destruct a as [b|c|i].
      - destruct (sstep (o_s o) b) as [s'|] eqn:Es; [|discriminate]. destruct (jam_step _ _ _ J Es) as (_ & _ & _ & _ & _ & [(x & _ & K)|(_ & K)] & _); destruct D as [D|D]; congruence.
      - rewrite jam_no_throw in E by exact J. discriminate.
      - unfold can_terminate in E. destruct D as [D|D]; rewrite D in E; destruct i as [|[|i]]; discriminate. }
    destruct H as [o|o a o1 acts o' E H]; [cbn; lia|]. assert (Z : acts = []); [|subst; cbn; lia].
    eapply N; [exact H| |]; unfold ostep in E; (destruct (o_dead o); [discriminate|]); destruct a as [b|c|i].
    + destruct (sstep (o_s o) b) as [s'|] eqn:Es; [|discriminate]. injection E as <-. apply (jam_step _ _ _ J Es).
    + rewrite jam_no_throw in E by exact J. discriminate.
    + destruct (can_terminate (o_s o) i); [|discriminate]. injection E as <-. exact J.
    + destruct (sstep (o_s o) b) as [s'|] eqn:Es; [|discriminate]. injection E as <-. right. apply (jam_step _ _ _ J Es).
    + rewrite jam_no_throw in E by exact J. discriminate.
    + destruct (can_terminate (o_s o) i); [|discriminate]. injection E as <-. left. reflexivity.
Qed.
Print Assumptions C113_everything_stops.

(** Concrete runs. *)
Fixpoint oexec (o : ostate) (acts : list oact) : option ostate :=
  match acts with [] => Some o | a :: acts' => match ostep o a with Some o' => oexec o' acts' | None => None end end.
Lemma oexec_steps acts : forall o o', oexec o acts = Some o' -> osteps o acts o'.
Proof.
  induction acts as [|a acts IH]; intros o o' E; cbn [oexec] in E; [injection E as <-; constructor|].
  destruct (ostep o a) as [o1|] eqn:Es; [|discriminate]. econstructor; eauto.
Qed.
Definition sched_ok (a : actor) (x : nat) : list oact := map OStep [CallSchedule a x; SchedStep a 0; SchedStep a 0; SchedStep a 0; SchedStep a 0].

(** "A Schedule call that fails leaves the environment usable" is false.  Thread 0
    has scheduled 10 and is told it will run; thread 1's Schedule of 11 throws in
    the emplace before the background thread gets the mutex.  10 never runs, and
    thread 2 can never schedule anything. *)
Theorem C113_usable_after_failure_refuted :
  exists o, oreach o /\ s_locked (o_s o) = [10] /\ o_failed o = [11] /\ (forall a, s_call (o_s o) a = SIdle) /\
    (forall acts o', osteps o acts o' -> s_ran (o_s o') = [] /\ forall x, ostep o' (OStep (CallSchedule (Ext 2) x)) = None).
Proof.
  destruct (oexec oinit (sched_ok (Ext 0) 10 ++ map OStep [CallSchedule (Ext 1) 11; SchedStep (Ext 1) 0; SchedStep (Ext 1) 0] ++ [OThrow (Ext 1)])) as [o|] eqn:E; [|vm_compute in E; discriminate].
  assert (R : oreach o) by (exists (sched_ok (Ext 0) 10 ++ map OStep [CallSchedule (Ext 1) 11; SchedStep (Ext 1) 0; SchedStep (Ext 1) 0] ++ [OThrow (Ext 1)]); apply oexec_steps; exact E).
  assert (V : s_locked (o_s o) = [10] /\ o_failed o = [11] /\ s_ran (o_s o) = []) by (vm_compute in E; injection E as <-; repeat split).
  destruct V as (V1 & V2 & V3). exists o. split; [exact R|]. split; [exact V1|]. split; [exact V2|]. split.
  - destruct (oinv o R) as [(F & _)|(y & _ & J)]; [congruence|]. apply (jm_call _ J).
  - intros acts o' H. assert (F : o_failed o <> []) by congruence. destruct (C113_everything_stops o acts o' R F H) as (_ & A & _ & B & _). split; [congruence|]. intros x. apply B.
Qed.
Print Assumptions C113_usable_after_failure_refuted.

(** Likewise when the thread cannot be created: it counts as started, there is
    none, and the mutex is locked. *)
Theorem C113_no_thread_refuted :
  exists o, oreach o /\ s_started (o_s o) = true /\ s_bgs (o_s o) = [] /\ s_mu (o_s o) = Some (Ext 0) /\ s_call (o_s o) (Ext 0) = SIdle /\
    (forall acts o', osteps o acts o' -> o' = o) /\ (forall a, ostep o a = None).
Proof.
  destruct (oexec oinit [OStep (CallSchedule (Ext 0) 10); OThrow (Ext 0)]) as [o|] eqn:E; [|vm_compute in E; discriminate].
  assert (R : oreach o) by (exists [OStep (CallSchedule (Ext 0) 10); OThrow (Ext 0)]; apply oexec_steps; exact E).
  assert (V : s_started (o_s o) = true /\ s_bgs (o_s o) = [] /\ s_mu (o_s o) = Some (Ext 0) /\ s_call (o_s o) (Ext 0) = SIdle /\ o_failed o = [10]) by (vm_compute in E; injection E as <-; repeat split).
  destruct V as (V1 & V2 & V3 & V4 & V5). exists o.
  assert (N : forall a, ostep o a = None).
  { destruct (oinv o R) as [(F & _)|(y & _ & J)]; [congruence|]. intros a. destruct (ostep o a) as [o1|] eqn:E1; [|reflexivity]. exfalso. unfold ostep in E1. destruct (o_dead o); [discriminate|].
    destruct a as [b|c|i].
    - destruct (sstep (o_s o) b) as [s'|] eqn:Es; [|discriminate]. destruct (jam_step _ _ _ J Es) as (_ & _ & _ & _ & _ & [(x & _ & K)|(_ & K)] & _); congruence.
    - rewrite jam_no_throw in E1 by exact J. discriminate.
    - unfold can_terminate in E1. rewrite V2 in E1. destruct i; discriminate. }
  split; [exact R|]. repeat (split; [assumption|]). split; [|exact N].
  intros acts o' H. destruct H as [o|o a o1 acts o' Ea H]; [reflexivity|]. rewrite N in Ea. discriminate.
Qed.
Print Assumptions C113_no_thread_refuted.

(** "Every item that Schedule accepted is run to its end, as long as nothing outside
    ends the process" is false even if no Schedule call fails: the background thread
    has no handler, so the process ends if copying the item (line 825) has no memory,
    or if the function throws (line 830). *)
Theorem C113_accepted_item_lost_refuted :
  (exists o, oreach o /\ o_dead o = true /\ o_failed o = [] /\ s_locked (o_s o) = [10] /\ s_ran (o_s o) = [] /\ (forall a, ostep o a = None)) /\
  (exists o, oreach o /\ o_dead o = true /\ o_failed o = [] /\ s_ran (o_s o) = [10] /\ s_done (o_s o) = [] /\ (forall a, ostep o a = None)).
Proof.
  split.
  - destruct (oexec oinit (sched_ok (Ext 0) 10 ++ map OStep [BgStep 0; BgStep 0] ++ [OTerminate 0])) as [o|] eqn:E; [|vm_compute in E; discriminate].
    exists o. split; [eexists; apply oexec_steps; exact E|]. vm_compute in E. injection E as <-. repeat split.
  - destruct (oexec oinit (sched_ok (Ext 0) 10 ++ map OStep [BgStep 0; BgStep 0; BgStep 0; BgStep 0] ++ [OTerminate 0])) as [o|] eqn:E; [|vm_compute in E; discriminate].
    exists o. split; [eexists; apply oexec_steps; exact E|]. vm_compute in E. injection E as <-. repeat split.
Qed.
Print Assumptions C113_accepted_item_lost_refuted.

(** A failure while a function runs: that function can return, and is the last. *)
Example C113_example : exists o o', oreach o /\ s_bgs (o_s o) = [BRun 10] /\ o_failed o = [12] /\ s_queue (o_s o) = [11] /\
  ostep o (OStep (BgStep 0)) = Some o' /\ s_done (o_s o') = [10] /\ (forall a, ostep o' (OStep a) = None).
Proof.
  destruct (oexec oinit (sched_ok (Ext 0) 10 ++ map OStep [BgStep 0; BgStep 0; BgStep 0; BgStep 0] ++ sched_ok (Ext 1) 11 ++ map OStep [CallSchedule (Bg 0) 12; SchedStep (Bg 0) 0; SchedStep (Bg 0) 0] ++ [OThrow (Bg 0)])) as [o|] eqn:E; [|vm_compute in E; discriminate].
  assert (R : oreach o) by (eexists; apply oexec_steps; exact E).
  destruct (ostep o (OStep (BgStep 0))) as [o'|] eqn:E'; [|vm_compute in E; injection E as <-; vm_compute in E'; discriminate].
  assert (V : s_bgs (o_s o) = [BRun 10] /\ o_failed o = [12] /\ s_queue (o_s o) = [11]) by (vm_compute in E; injection E as <-; repeat split).
  destruct V as (V1 & V2 & V3). exists o, o'. repeat (split; [first [assumption|reflexivity]|]). split.
  - vm_compute in E. injection E as <-. vm_compute in E'. injection E' as <-. reflexivity.
  - destruct (oinv o R) as [(F & _)|(y & F & J)]; [congruence|].
    assert (H1 : osteps o [OStep (BgStep 0)] o') by (econstructor; [exact E'|constructor]).
    intros a. destruct (ostep o' (OStep a)) as [o2|] eqn:E2; [|reflexivity]. exfalso.
    assert (H2 : osteps o ([OStep (BgStep 0)] ++ [OStep a]) o2) by (eapply osteps_snoc; eauto).
    assert (Fn : o_failed o <> []) by congruence. destruct (C113_everything_stops o _ o2 R Fn H2) as (_ & _ & _ & _ & _ & L). cbn in L. lia.
Qed.
