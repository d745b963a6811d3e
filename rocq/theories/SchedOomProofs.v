(** SchedOomProofs.v -- before an exception a run is one of Sched.v's; after one
    nothing but the function already running goes on. *)
From Coq Require Import List Arith Lia Bool.
From Verif Require Import Sched SchedProofs SchedOom.
Import ListNotations.

Lemma osteps_snoc o acts o1 a o2 : osteps o acts o1 -> ostep o1 a = Some o2 -> osteps o (acts ++ [a]) o2.
Proof. intros H. revert a o2. induction H as [o|o b o1 acts o' E H IH]; intros a o2 Ea; [econstructor; [exact Ea|constructor]|]. cbn [app]. econstructor; [exact E|]. now apply IH. Qed.
Lemma osteps_app o acts o1 acts2 o2 : osteps o acts o1 -> osteps o1 acts2 o2 -> osteps o (acts ++ acts2) o2.
Proof. induction 1 as [o|o b o1 acts o' E H IH]; intros H2; [exact H2|]. cbn [app]. econstructor; [exact E|auto]. Qed.
Lemma oreach_ind' (P : ostate -> Prop) : P oinit -> (forall o a o', oreach o -> P o -> ostep o a = Some o' -> P o') -> forall o, oreach o -> P o.
Proof.
  intros H0 Hs o (acts & H).
  assert (G : forall acts o o', osteps o acts o' -> oreach o -> P o -> P o').
  { clear - Hs. intros acts o o' H. induction H as [o|o a o1 acts o' E H IH]; intros R Q; [exact Q|].
    apply IH; [|eapply Hs; eauto]. destruct R as (l & R). exists (l ++ [a]). eapply osteps_snoc; eauto. }
  eapply G; [exact H|exists []; constructor|exact H0].
Qed.

(** After an exception. *)
Record Jam (s : sstate) : Prop := {
  jm_mu : exists a, s_mu s = Some a;
  jm_call : forall a, s_call s a = SIdle;
  jm_bgs : s_bgs s = [] \/ exists b, s_bgs s = [b] /\ bg_in b = false;
  jm_started : s_started s = true;
  jm_crash : s_crash s = false;
  jm_order : s_locked s = s_ran s ++ s_queue s;
  jm_done : s_ran s = s_done s ++ running s }.

Lemma jam_throw s a s' x : SInv s -> othrow s a = Some (s', x) -> Jam s' /\ s_locked s = s_locked s' ++ [x] /\ s_ran s' = s_ran s /\ s_queue s' = s_queue s.
Proof.
  intros I E.
  assert (Q : (s_call s a = SStart x /\ s_started s = false \/ s_call s a = SPush x /\ s_started s = true) /\
    s' = mk_s (s_queue s) (s_mu s) true (s_bgs s) (aupd (s_call s) a SIdle) (s_crash s) (removelast (s_locked s)) (s_ran s) (s_done s)).
  { unfold othrow in E. destruct (s_call s a) as [|y|y|y|] eqn:Ea; try discriminate.
    - destruct (s_started s) eqn:Es; [discriminate|]. injection E as <- <-. auto.
    - injection E as <- <-. assert (St : s_started s = true) by (apply (si_start2 s I a y); auto). rewrite St. auto. }
  destruct Q as (Q & ->). clear E.
  assert (Ma : s_mu s = Some a) by (apply (si_mu s I); left; destruct Q as [(Q & _)|(Q & _)]; rewrite Q; discriminate).
  assert (Nbg : forall b, s_bgs s = [b] -> bg_in b = false).
  { intros b Hb. destruct (bg_in b) eqn:Eb; [|reflexivity]. exfalso. assert (M : s_mu s = Some (Bg 0)) by (apply (si_mu s I); right; rewrite Hb; auto).
    rewrite Ma in M. injection M as ->. destruct (si_bg s I 0) as (_ & y & Hy); [destruct Q as [(Q & _)|(Q & _)]; rewrite Q; discriminate|]. rewrite Hy in Hb. injection Hb as <-. discriminate. }
  assert (Bg1 : s_bgs s = [] \/ exists b, s_bgs s = [b] /\ bg_in b = false).
  { destruct (si_one s I) as [(O & _)|((b & O) & _)]; [now left|right; exists b; auto]. }
  assert (Pn : popped s = []). { unfold popped. destruct Bg1 as [O|(b & O & Hb)]; rewrite O; [reflexivity|]. destruct b; try reflexivity. discriminate. }
  assert (Or : s_locked s = (s_ran s ++ s_queue s) ++ [x]).
  { rewrite (si_order s I), Pn. unfold coming. rewrite Ma. cbn [app]. rewrite app_assoc. f_equal. destruct Q as [(Q & _)|(Q & _)]; rewrite Q; reflexivity. }
  split; [|split; [|split; reflexivity]].
  - constructor; cbn [s_queue s_mu s_started s_bgs s_call s_crash s_locked s_ran s_done]; auto.
    + eauto.
    + intros b. destruct (actor_eqb_spec b a) as [->|H]; [apply aupd_eq|]. rewrite aupd_ne by exact H.
      destruct (spc_dec (s_call s b)) as [K|K]; [exact K|]. exfalso. apply H. assert (M : s_mu s = Some b) by (apply (si_mu s I); now left). congruence.
    + apply (si_crash s I).
    + rewrite Or. apply removelast_last.
    + exact (si_done s I).
  - cbn [s_locked]. rewrite Or at 2. rewrite removelast_last. exact Or.
Qed.

(** What can still happen: the function that is running returns, or the waiting
    background thread wakes up for no reason. *)
Lemma jam_step s a s' : Jam s -> sstep s a = Some s' ->
  Jam s' /\ s_locked s' = s_locked s /\ s_ran s' = s_ran s /\ s_queue s' = s_queue s /\ s_mu s' = s_mu s /\
  ((exists x, a = BgStep 0 /\ s_bgs s = [BRun x]) \/ (a = Spurious 0 /\ s_bgs s = [BWait])) /\ (s_bgs s' = [BLock] \/ s_bgs s' = [BWoken]).
Proof.
  intros [(m & Mu) Ca Bg St Cr Or Dn] E. destruct a as [a x|a w|i|i]; cbn [sstep] in E.
  - destruct (can_call s a); [|discriminate]. rewrite Mu in E. discriminate.
  - unfold sched_step in E. rewrite Ca in E. discriminate.
  - unfold bg_step in E. destruct Bg as [O|(b & O & Hb)]; rewrite O in E; [now destruct i|].
    destruct i as [|i]; [|cbn [nth_error] in E; now destruct i]. cbn [nth_error] in E. destruct b as [| | | | |x|x]; try discriminate.
    + rewrite Mu in E. discriminate.
    + rewrite Mu in E. discriminate.
    + rewrite Ca in E. injection E as <-. cbn [set_nth]. cbn [s_queue s_mu s_started s_bgs s_call s_crash s_locked s_ran s_done].
      split; [|repeat split; eauto]. constructor; cbn [s_queue s_mu s_started s_bgs s_call s_crash s_locked s_ran s_done]; eauto.
      unfold running in *. rewrite O in Dn. cbn [s_bgs]. rewrite app_nil_r. exact Dn.
  - destruct Bg as [O|(b & O & Hb)]; rewrite O in E; [now destruct i|].
    destruct i as [|i]; [|cbn [nth_error] in E; now destruct i]. cbn [nth_error] in E. destruct b; try discriminate. injection E as <-.
    unfold set_bg. rewrite O. cbn [set_nth]. cbn [s_queue s_mu s_started s_bgs s_call s_crash s_locked s_ran s_done].
    split; [|repeat split; eauto]. constructor; cbn [s_queue s_mu s_started s_bgs s_call s_crash s_locked s_ran s_done]; eauto.
    unfold running in *. rewrite O in Dn. exact Dn.
Qed.
Lemma jam_no_throw s a : Jam s -> othrow s a = None.
Proof. intros J. unfold othrow. now rewrite (jm_call s J). Qed.

(** Every state: no exception so far and Sched.v's invariant, or exactly one
    exception and a jam. *)
Definition OInv (o : ostate) : Prop := (o_failed o = [] /\ SInv (o_s o) /\ sreach (o_s o)) \/ (exists x, o_failed o = [x] /\ Jam (o_s o)).
Lemma oinv_step o a o' : OInv o -> ostep o a = Some o' -> OInv o'.
Proof.
  intros I E. unfold ostep in E. destruct (o_dead o); [discriminate|]. destruct a as [b|c|i].
  - destruct (sstep (o_s o) b) as [s'|] eqn:Es; [|discriminate]. injection E as <-. destruct I as [(F & I & R)|(x & F & J)].
    + left. cbn [o_s o_failed]. split; [exact F|]. split; [eapply sinv_step; eauto|eapply sr_step; eauto].
    + right. exists x. cbn [o_s o_failed]. split; [exact F|]. apply (jam_step _ _ _ J Es).
  - destruct (othrow (o_s o) c) as [[s' x]|] eqn:Es; [|discriminate]. injection E as <-. destruct I as [(F & I & _)|(y & F & J)].
    + right. exists x. cbn [o_s o_failed]. rewrite F. split; [reflexivity|]. apply (jam_throw _ _ _ _ I Es).
    + rewrite jam_no_throw in Es by exact J. discriminate.
  - destruct (can_terminate (o_s o) i); [|discriminate]. injection E as <-. exact I.
Qed.
Lemma oinv o : oreach o -> OInv o.
Proof.
  apply oreach_ind'.
  - left. split; [reflexivity|]. split; [apply sinv; constructor|constructor].
  - intros p a p' _ I E. eapply oinv_step; eauto.
Qed.

Lemma jam_steps acts o o' x : osteps o acts o' -> o_failed o = [x] -> Jam (o_s o) ->
  Jam (o_s o') /\ o_failed o' = [x] /\ s_locked (o_s o') = s_locked (o_s o) /\ s_ran (o_s o') = s_ran (o_s o) /\ s_queue (o_s o') = s_queue (o_s o) /\ s_mu (o_s o') = s_mu (o_s o).
Proof.
  intros H. induction H as [o|o a o1 acts o' E H IH]; intros F J; [auto 6|].
  unfold ostep in E. destruct (o_dead o); [discriminate|]. destruct a as [b|c|i].
  - destruct (sstep (o_s o) b) as [s'|] eqn:Es; [|discriminate]. injection E as <-. cbn [o_s o_failed] in IH.
    destruct (jam_step _ _ _ J Es) as (J' & L & R & Q & M & _). specialize (IH F J'). intuition congruence.
  - rewrite (jam_no_throw _ c J) in E. discriminate.
  - destruct (can_terminate (o_s o) i); [|discriminate]. injection E as <-. exact (IH F J).
Qed.
