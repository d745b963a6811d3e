(** SchedProps.v -- C66, C67: background work. *)
From Coq Require Import List Arith Lia Bool.
From Verif Require Import Sched SchedProofs.
Import ListNotations.

(** ** C66 *)
(** Every interleaving: the functions called so far are the items scheduled so
    far, in the order of the Schedule calls, without gaps or repetitions. *)
Theorem C66_in_order_exactly_once :
  forall s, sreach s -> exists later, s_locked s = s_ran s ++ later.
Proof. intros s R. apply sinv in R as I. rewrite (si_order s I). eauto. Qed.
Print Assumptions C66_in_order_exactly_once.

(** Whenever nobody is inside a locked section, what is scheduled and not yet
    called is exactly what is in the queue. *)
Theorem C66_nothing_dropped :
  forall s, sreach s -> s_mu s = None -> s_locked s = s_ran s ++ s_queue s.
Proof.
  intros s R E. apply sinv in R as I. rewrite (si_order s I). unfold coming. rewrite E, app_nil_r.
  assert (P : popped s = []); [|now rewrite P].
  unfold popped. destruct (s_bgs s) as [|b [|? ?]] eqn:Eb; try reflexivity; destruct b; try reflexivity.
  assert (Q : s_mu s = Some (Bg 0)) by (apply (si_mu s I); right; rewrite Eb; auto). congruence.
Qed.
Print Assumptions C66_nothing_dropped.

(** A function is called only after the one before has returned; there is at most
    one background thread. *)
Theorem C66_one_at_a_time :
  forall s, sreach s -> length (s_bgs s) <= 1 /\
    (s_ran s = s_done s \/ exists x, s_ran s = s_done s ++ [x] /\ s_bgs s = [BRun x]).
Proof.
  intros s R. apply sinv in R as I. split.
  - destruct (si_one s I) as [(-> & _)|((b & ->) & _)]; cbn; lia.
  - pose proof (si_done s I) as D. unfold running in D.
    assert (L : forall d : list nat, s_ran s = d ++ [] -> s_ran s = d) by (intros d; now rewrite app_nil_r).
    destruct (s_bgs s) as [|b [|? ?]]; [left; auto| |destruct b; left; auto].
    destruct b; auto. right. eauto.
Qed.
Print Assumptions C66_one_at_a_time.

(** front() and pop() are never applied to an empty queue (nor does the assertion
    at line 824 fail). *)
Theorem C66_never_pops_empty_queue : forall s, sreach s -> s_crash s = false.
Proof. intros s R. apply sinv in R as I. apply (si_crash s I). Qed.
Print Assumptions C66_never_pops_empty_queue.

(** ** C67 *)
Theorem C67_no_lost_wakeup :
  forall s, sreach s -> s_queue s <> [] -> exists b, s_bgs s = [b] /\ b <> BWait.
Proof.
  intros s R Q. apply sinv in R as I. pose proof (si_start s I Q) as S. destruct (si_one s I) as [(_ & H)|((b & H) & _)]; [congruence|].
  exists b. split; [exact H|]. intros ->. destruct (si_wait s I H). contradiction.
Qed.
Print Assumptions C67_no_lost_wakeup.

(** With work queued, the background thread can go on as soon as the mutex is
    free, and whoever has the mutex can go on. *)
Theorem C67_never_stuck :
  forall s, sreach s -> s_queue s <> [] ->
    match s_mu s with
    | None => exists s', sstep s (BgStep 0) = Some s'
    | Some a => (exists w s', sstep s (SchedStep a w) = Some s') \/ (a = Bg 0 /\ exists s', sstep s (BgStep 0) = Some s')
    end.
Proof.
  intros s R Q. apply sinv in R as I. destruct (C67_no_lost_wakeup s R Q) as (b & Eb & Hb). destruct (s_mu s) as [a|] eqn:Em.
  - apply (si_mu2 s I) in Em as [Hc|(-> & Hc)].
    + left. cbn [sstep]. unfold sched_step. destruct (s_call s a) eqn:Ea; try (exists 0; eauto; fail); [congruence|].
      exists 0. destruct (s_queue s); [congruence|eauto].
    + right. split; [reflexivity|]. rewrite Eb in Hc. cbn [sstep]. unfold bg_step. rewrite Eb. cbn [nth_error]. destruct b; try discriminate.
      * destruct (s_queue s); eauto.
      * destruct (s_queue s); eauto.
      * eauto.
  - cbn [sstep]. unfold bg_step. rewrite Eb, Em. cbn [nth_error]. destruct b; eauto.
    + destruct (s_queue s); eauto.
    + contradiction.
    + destruct (s_queue s); eauto.
    + destruct (spc_dec (s_call s (Bg 0))) as [H|H]; [rewrite H; eauto|]. exfalso. assert (X : s_mu s = Some (Bg 0)) by (apply (si_mu s I); now left). congruence.
Qed.
Print Assumptions C67_never_stuck.

(** How far the background thread is from its next call. *)
Definition stage (s : sstate) : nat :=
  match s_bgs s with
  | [b] => match b with BLock | BWoken | BWait => 5 | BCheck => 4 | BPop => 3 | BUnlock _ => 2 | BRun _ => 6 end
  | _ => 6
  end.

Lemma stage_step s a s' n : sreach s -> sstep s a = Some s' -> length (s_ran s) < n -> n <= length (s_locked s) ->
  match a with
  | BgStep _ => 7 * (n - length (s_ran s')) + stage s' < 7 * (n - length (s_ran s)) + stage s
  | _ => s_ran s' = s_ran s /\ stage s' <= stage s
  end /\ length (s_locked s) <= length (s_locked s').
Proof.
  intros R E H1 H2. apply sinv in R as I. destruct a as [a x|a w|i|i]; cbn [sstep] in E.
  - destruct (can_call s a); [|discriminate]. destruct (s_mu s); [discriminate|]. injection E as <-. cbn [s_ran s_locked]. rewrite app_length. unfold stage. cbn [s_bgs]. repeat split; auto; lia.
  - unfold sched_step in E. destruct (s_call s a) as [|x|x|x|] eqn:Ea; [discriminate|..].
    + injection E as <-. unfold set_call, stage. cbn [s_ran s_locked s_bgs]. destruct (si_one s I) as [(O1 & O2)|((b & O1) & O2)]; rewrite O2; cbn [s_ran s_locked s_bgs]; rewrite O1; cbn [app]; repeat split; auto; lia.
    + destruct (s_queue s); [|injection E as <-; repeat split; auto].
      destruct (nth_error (s_bgs s) w) as [b|] eqn:En; [|destruct (existsb is_wait (s_bgs s)); [discriminate|]; injection E as <-; repeat split; auto].
      assert (Hb : s_bgs s = [b] /\ w = 0).
      { destruct (si_one s I) as [(O1 & _)|((b' & O1) & _)]; rewrite O1 in En |- *; [now destruct w|]. destruct w as [|w]; [injection En as ->; auto|now destruct w]. }
      destruct Hb as (Hb & ->).
      destruct b; try (destruct (existsb is_wait (s_bgs s)); [discriminate|]; injection E as <-; repeat split; auto; fail).
      injection E as <-. unfold set_call, set_bg, stage. cbn [s_ran s_locked s_bgs]. rewrite Hb. cbn [set_nth]. repeat split; auto.
    + injection E as <-. repeat split; auto.
    + injection E as <-. repeat split; auto.
  - unfold bg_step in E. destruct (nth_error (s_bgs s) i) as [b|] eqn:En; [|discriminate].
    assert (Hb : s_bgs s = [b] /\ i = 0).
    { destruct (si_one s I) as [(O1 & _)|((b' & O1) & _)]; rewrite O1 in En |- *; [now destruct i|]. destruct i as [|i]; [injection En as ->; auto|now destruct i]. }
    destruct Hb as (Hb & ->). unfold stage at 2. rewrite Hb. destruct b as [| | | | |x|x].
    + destruct (s_mu s); [discriminate|]. injection E as <-. unfold set_bg, stage. cbn [s_ran s_locked s_bgs]. rewrite Hb. cbn [set_nth]. lia.
    + destruct (s_queue s) eqn:Eq.
      * (* nothing is left to run *) exfalso. pose proof (si_order s I) as O.
        assert (Em : s_mu s = Some (Bg 0)) by (apply (si_mu s I); right; rewrite Hb; auto).
        assert (Ec : s_call s (Bg 0) = SIdle). { destruct (spc_dec (s_call s (Bg 0))) as [H|H]; [exact H|]. destruct (si_bg s I 0 H) as (_ & y & Hy). congruence. }
        unfold coming, popped in O. rewrite Em, Ec, Hb, Eq, !app_nil_r in O. rewrite O in H2. lia.
      * injection E as <-. unfold set_bg, stage. cbn [s_ran s_locked s_bgs]. rewrite Hb. cbn [set_nth]. lia.
    + discriminate.
    + destruct (s_mu s); [discriminate|]. injection E as <-. unfold set_bg, stage. cbn [s_ran s_locked s_bgs]. rewrite Hb. cbn [set_nth]. lia.
    + destruct (s_queue s) eqn:Eq; [now destruct (si_pop s I Hb)|]. injection E as <-. unfold set_bg, stage. cbn [s_ran s_locked s_bgs]. rewrite Hb. cbn [set_nth]. lia.
    + injection E as <-. unfold stage. cbn [s_ran s_locked s_bgs]. rewrite Hb, app_length. cbn [set_nth length]. lia.
    + destruct (s_call s (Bg 0)); try discriminate. injection E as <-. unfold stage. cbn [s_ran s_locked s_bgs]. rewrite Hb. cbn [set_nth]. lia.
  - destruct (nth_error (s_bgs s) i) as [b|] eqn:En; [|discriminate].
    assert (Hb : s_bgs s = [b] /\ i = 0).
    { destruct (si_one s I) as [(O1 & _)|((b' & O1) & _)]; rewrite O1 in En |- *; [now destruct i|]. destruct i as [|i]; [injection En as ->; auto|now destruct i]. }
    destruct Hb as (Hb & ->). destruct b; try discriminate. injection E as <-. unfold set_bg, stage. cbn [s_ran s_locked s_bgs]. rewrite Hb. cbn [set_nth]. repeat split; auto.
Qed.

(** Everything scheduled is run in the end.  [None] is a moment where none of these
    threads does anything.  Fairness: the mutex is not held for ever; and the
    background thread, including the functions it calls, takes further steps
    unless from some moment on it cannot take any. *)
Definition srun (st : nat -> sstate) (ac : nat -> option sact) : Prop :=
  st 0 = s0 /\
  forall n, match ac n with Some a => sstep (st n) a = Some (st (S n)) | None => st (S n) = st n end.
Definition sfair (st : nat -> sstate) (ac : nat -> option sact) : Prop :=
  (forall n, exists m, n <= m /\ s_mu (st m) = None) /\
  (forall n, (exists m, n <= m /\ ac m = Some (BgStep 0)) \/ (exists m, n <= m /\ forall k, m <= k -> sstep (st k) (BgStep 0) = None)).
Theorem C67_eventually_run :
  forall (st : nat -> sstate) (ac : nat -> option sact),
    srun st ac -> sfair st ac ->
    forall n k x, nth_error (s_locked (st n)) k = Some x -> exists m, n <= m /\ nth_error (s_ran (st m)) k = Some x.
Proof.
  intros st ac (H0 & Hs) (Hu & Hf).
  assert (R : forall n, sreach (st n)).
  { induction n as [|n IH]; [rewrite H0; constructor|]. specialize (Hs n). destruct (ac n); [eapply sr_step; eauto|rewrite Hs; exact IH]. }
  assert (Pre : forall n m, n <= m -> exists l, s_locked (st m) = s_locked (st n) ++ l).
  { intros n m Hm. induction Hm as [|m Hm (l & IH)]; [exists []; now rewrite app_nil_r|]. pose proof (Hs m) as E.
    assert (Q : exists l', s_locked (st (S m)) = s_locked (st m) ++ l').
    { clear IH. revert E. generalize (st (S m)) as s'. generalize (st m) as s. intros s s' E. destruct (ac m) as [[a x|a w|i|i]|]; [..|exists []; rewrite app_nil_r, E; reflexivity]; cbn [sstep] in E.
      - destruct (can_call s a); [|discriminate]. destruct (s_mu s); [discriminate|]. injection E as <-. cbn [s_locked]. eauto.
      - exists []. rewrite app_nil_r. unfold sched_step in E. destruct (s_call s a); [discriminate|..]; [|destruct (s_queue s)|..];
          repeat match type of E with context [nth_error ?x ?y] => destruct (nth_error x y) as [[]|] | context [if existsb ?x ?y then _ else _] => destruct (existsb x y) end;
          try discriminate; injection E as <-; try reflexivity. unfold set_call. cbn [s_locked]. destruct (s_started s); reflexivity.
      - exists []. rewrite app_nil_r. unfold bg_step in E. destruct (nth_error (s_bgs s) i) as [b|]; [|discriminate].
        destruct b; try (destruct (s_mu s)); try (destruct (s_queue s)); try (destruct (s_call s (Bg i))); try discriminate; injection E as <-; reflexivity.
      - exists []. rewrite app_nil_r. destruct (nth_error (s_bgs s) i) as [[]|]; try discriminate. injection E as <-. reflexivity. }
    destruct Q as (l' & Q). exists (l ++ l'). rewrite Q, IH, app_assoc. reflexivity. }
  (* enough calls are made *)
  assert (Main : forall M n N, N <= length (s_locked (st n)) -> 7 * (N - length (s_ran (st n))) + stage (st n) <= M -> exists m, n <= m /\ N <= length (s_ran (st m))).
  { induction M as [M IH] using lt_wf_ind. intros n N HN HM. destruct (Nat.le_gt_cases N (length (s_ran (st n)))) as [Hd|Hd]; [exists n; auto|].
    (* nothing gets worse *)
    assert (Keep : forall d, (exists m', n <= m' /\ N <= length (s_ran (st m'))) \/
              (N <= length (s_locked (st (n + d))) /\ length (s_ran (st (n + d))) < N /\ 7 * (N - length (s_ran (st (n + d)))) + stage (st (n + d)) <= M)).
    { induction d as [|d IHd]; [rewrite Nat.add_0_r; right; lia|]. destruct IHd as [IHd|(K1 & K2 & K3)]; [left; exact IHd|].
      pose proof (Hs (n + d)) as Q. replace (n + S d) with (S (n + d)) by lia. destruct (ac (n + d)) as [act|] eqn:Eac; [|rewrite Q; right; auto].
      pose proof (stage_step _ _ _ N (R (n + d)) Q K2 K1) as (Q1 & Q2).
      destruct (Nat.le_gt_cases N (length (s_ran (st (S (n + d)))))) as [Hd'|Hd']; [left; exists (S (n + d)); split; [lia|exact Hd']|].
      right. split; [lia|]. split; [exact Hd'|]. destruct act; [destruct Q1 as (Q1 & Q3); rewrite Q1; lia|destruct Q1 as (Q1 & Q3); rewrite Q1; lia|lia|destruct Q1 as (Q1 & Q3); rewrite Q1; lia]. }
    destruct (Hf n) as [(m & Hm & Hi)|(m & Hm & Hi)].
    - destruct (Keep (m - n)) as [K|(K1 & K2 & K3)]; [exact K|]. replace (n + (m - n)) with m in * by lia.
      pose proof (Hs m) as Q. rewrite Hi in Q. pose proof (stage_step _ _ _ N (R m) Q K2 K1) as (Q1 & Q2).
      destruct (IH (7 * (N - length (s_ran (st (S m)))) + stage (st (S m))) ltac:(lia) (S m) N ltac:(lia) ltac:(lia)) as (m' & A & B). exists m'. split; [lia|exact B].
    - (* it cannot be stuck with work to do *)
      destruct (Hu m) as (k & Hk & Em). destruct (Keep (k - n)) as [K|(K1 & K2 & K3)]; [exact K|]. replace (n + (k - n)) with k in * by lia.
      exfalso. pose proof (C66_nothing_dropped (st k) (R k) Em) as Q.
      assert (Qn : s_queue (st k) <> []) by (intros Z; rewrite Z, app_nil_r in Q; rewrite Q in K1; lia).
      pose proof (C67_never_stuck (st k) (R k) Qn) as S. rewrite Em in S. destruct S as (s' & S). rewrite (Hi k Hk) in S. discriminate. }
  intros n k x Hx. assert (Hk : k < length (s_locked (st n))) by (apply nth_error_Some; congruence).
  destruct (Main _ n (S k) ltac:(lia) (le_n _)) as (m & Hm & HN). exists m. split; [exact Hm|].
  destruct (Pre n m Hm) as (l & El). destruct (C66_in_order_exactly_once (st m) (R m)) as (l' & El'). rewrite El in El'.
  rewrite <- (nth_error_app1 (s_ran (st m)) l') by lia. rewrite <- El'. rewrite nth_error_app1 by exact Hk. exact Hx.
Qed.
Print Assumptions C67_eventually_run.

(** A state with one item running, another queued, and a third being scheduled by
    the running function. *)
Fixpoint sexec (s : sstate) (acts : list sact) : option sstate :=
  match acts with [] => Some s | a :: acts' => match sstep s a with Some s' => sexec s' acts' | None => None end end.
Lemma sexec_reach acts : forall s s', sreach s -> sexec s acts = Some s' -> sreach s'.
Proof.
  induction acts as [|a acts IH]; intros s s' R E; cbn [sexec] in E; [injection E as <-; exact R|].
  destruct (sstep s a) as [s1|] eqn:Es; [|discriminate]. apply (IH s1); [|exact E]. eapply sr_step; eauto.
Qed.
Definition sched_run (a : actor) (x : nat) : list sact := [CallSchedule a x; SchedStep a 0; SchedStep a 0; SchedStep a 0; SchedStep a 0].
Example C66_example : exists s, sreach s /\ s_ran s = [10] /\ s_done s = [] /\ s_queue s = [11] /\ s_locked s = [10; 11; 12] /\ s_call s (Bg 0) = SStart 12.
Proof.
  destruct (sexec s0 (sched_run (Ext 0) 10 ++ [BgStep 0; BgStep 0; BgStep 0; BgStep 0] ++ sched_run (Ext 1) 11 ++ [CallSchedule (Bg 0) 12])) as [s|] eqn:E; [|vm_compute in E; discriminate].
  exists s. split; [apply (sexec_reach _ _ _ sr_start E)|]. vm_compute in E. injection E as <-. repeat split; reflexivity.
Qed.
(** The background thread asleep, then woken by the next Schedule. *)
Example C67_example : exists s s', sreach s /\ s_bgs s = [BWait] /\ sexec s (sched_run (Ext 1) 11) = Some s' /\ s_bgs s' = [BWoken] /\ s_queue s' = [11].
Proof.
  destruct (sexec s0 (sched_run (Ext 0) 10 ++ [BgStep 0; BgStep 0; BgStep 0; BgStep 0; BgStep 0; BgStep 0; BgStep 0])) as [s|] eqn:E; [|vm_compute in E; discriminate].
  destruct (sexec s (sched_run (Ext 1) 11)) as [s'|] eqn:E'; [|vm_compute in E; injection E as <-; vm_compute in E'; discriminate].
  exists s, s'. split; [apply (sexec_reach _ _ _ sr_start E)|]. vm_compute in E. injection E as <-. split; [reflexivity|]. split; [exact E'|]. vm_compute in E'. injection E' as <-. split; reflexivity.
Qed.

(** Fair runs exist: any finite run ending with the mutex free and the background
    thread unable to move is the beginning of one. *)
Fixpoint sstates (s : sstate) (acts : list sact) (n : nat) : sstate :=
  match n, acts with
  | S n', a :: acts' => match sstep s a with Some s' => sstates s' acts' n' | None => s end
  | _, _ => s
  end.
Lemma sstates_run acts : forall s s', sexec s acts = Some s' ->
  (forall n, match nth_error acts n with Some a => sstep (sstates s acts n) a = Some (sstates s acts (S n)) | None => sstates s acts (S n) = sstates s acts n end) /\
  (forall n, length acts <= n -> sstates s acts n = s').
Proof.
  induction acts as [|a acts IH]; intros s s' E; cbn [sexec] in E.
  - injection E as <-. split; intros n; [destruct n; reflexivity|intros _; destruct n; reflexivity].
  - destruct (sstep s a) as [s1|] eqn:Es; [|discriminate]. destruct (IH s1 s' E) as (A & B). split.
    + intros [|n]; cbn [nth_error sstates]; rewrite Es; [destruct acts; reflexivity|]. specialize (A n). cbn [sstates] in A. exact A.
    + intros [|n] H; cbn [length] in H; [lia|]. cbn [sstates]. rewrite Es. apply B. lia.
Qed.
Example C67_example_fair_run : exists st ac, srun st ac /\ sfair st ac /\ s_locked (st 10) = [10; 11] /\ s_ran (st 10) = [].
Proof.
  destruct (sexec s0 (sched_run (Ext 0) 10 ++ sched_run (Ext 1) 11 ++ repeat (BgStep 0) 12)) as [s|] eqn:E; [|vm_compute in E; discriminate].
  remember (sched_run (Ext 0) 10 ++ sched_run (Ext 1) 11 ++ repeat (BgStep 0) 12) as acts eqn:Ea.
  destruct (sstates_run acts s0 s E) as (A & B). exists (sstates s0 acts), (nth_error acts).
  assert (F : s_mu s = None /\ sstep s (BgStep 0) = None) by (rewrite Ea in E; vm_compute in E; injection E as <-; split; reflexivity).
  split; [split; [destruct acts; reflexivity|exact A]|]. split; [split|].
  - intros n. exists (n + length acts). split; [lia|]. rewrite B by lia. apply F.
  - intros n. right. exists (n + length acts). split; [lia|]. intros k Hk. rewrite B by lia. apply F.
  - rewrite Ea. vm_compute. split; reflexivity.
Qed.
