(** PosixEnvRun.v -- running the modelled environment on the small kernel of
    PosixKernel.v, for examples and counterexamples. *)
From Coq Require Import List Arith NArith ZArith Lia Bool.
From Verif Require Import Outcome Status MemEnv PosixOs PosixWritable PosixWritableSpec PosixWritableProofs PosixRead PosixEnv PosixFs PosixEnvSpec PosixFsProofs PosixEnvProofs PosixEnvSteps PosixKernel PosixEnvSafe.
Import ListNotations.
Local Open Scope outcome_scope.

Lemma kernel_progressing : progressing kernel 1.
Proof.
  intros s fd d Hd. cbn [stalls]. rewrite andb_true_r. unfold kernel.
  assert (Fe : forall e, (fault e =? EINTR)%Z = false).
  { intros e. unfold fault. destruct (e =? ENOENT)%Z; [reflexivity|]. destruct (e =? 0)%Z; [reflexivity|]. cbn [orb]. destruct (e =? EINTR)%Z eqn:E; [reflexivity|exact E]. }
  destruct (nth 0 (k_plan s) None) as [e|]; cbn [fallible fst snd err a_ret a_errno]; [now rewrite Fe|]. cbn [healthy_step].
  destruct (fd <? 0)%Z; [reflexivity|]. destruct (v_fd (k_view s) fd) as [x|]; [|reflexivity]. cbn [fst snd ret a_ret a_errno].
  destruct d as [|y d]; [congruence|]. cbn [length]. apply orb_false_iff. split; [apply Z.eqb_neq|apply andb_false_iff; left; apply Z.ltb_ge]; lia.
Qed.
Lemma kernel_patient : patient kernel 1.
Proof.
  intros s fd n. cbn [interrupts]. rewrite andb_true_r. unfold kernel.
  assert (Fe : forall e, (fault e =? EINTR)%Z = false).
  { intros e. unfold fault. destruct (e =? ENOENT)%Z; [reflexivity|]. destruct (e =? 0)%Z; [reflexivity|]. cbn [orb]. destruct (e =? EINTR)%Z eqn:E; [reflexivity|exact E]. }
  destruct (nth 0 (k_plan s) None) as [e|]; cbn [fallible fst snd err a_ret a_errno]; [now rewrite Fe|]. cbn [healthy_step].
  destruct (v_fd (k_view s) fd) as [x|]; cbn [fst snd err a_ret a_errno]; [apply andb_false_iff; left; apply Z.ltb_ge; lia|reflexivity].
Qed.

Section Run.
  Variable dbg : bool.
  Variable B : nat.
  Variable strerror : Z -> str.
  Variable fs : list (str * list N).
  Variable plan : list (option Z).
  Variable lim0 : limits.
  Hypothesis NAMES : ~ In [] (map fst fs).
  Notation v0 := (start_view fs).
  Notation opened := (opened (v_next v0) (v_name v0)).
  Notation legal := (legal (v_next v0) (v_name v0)).

  Definition livek (H : history) (h : nat) (k : kind) : bool :=
    match opened H h, k with
    | Some (KSeq, _, _), KSeq | Some (KRand, _, _), KRand | Some (KWrite, _, _), KWrite => negb (deleted H h)
    | _, _ => false
    end.
  Definition legalb (H : history) (x : pcall) : bool :=
    match x with
    | PSRead h n | PSSkip h n => (n <? 2 ^ 64)%N && livek H h KSeq
    | PRRead h off n => (off + n <? 2 ^ 63)%N && livek H h KRand
    | PWAppend h _ | PWClose h | PWFlush h | PWSync h => livek H h KWrite
    | PDelete h => livek H h KSeq || livek H h KRand || livek H h KWrite
    | _ => true
    end.
  Lemma livek_ok H h k : livek H h k = true -> exists i f, live (v_next v0) (v_name v0) H h k i f.
  Proof.
    unfold livek, live. destruct (opened H h) as [[[k' i] f]|]; [|discriminate].
    destruct k', k; try discriminate; intros E; apply negb_true_iff in E; exists i, f; auto.
  Qed.
  Lemma legalb_ok H x : legalb H x = true -> legal H x.
  Proof.
    destruct x; cbn [legalb PosixEnvSpec.legal]; auto; intros E; try (now apply livek_ok in E);
      try (apply andb_true_iff in E as (E1 & E2); apply N.ltb_lt in E1; apply livek_ok in E2; auto; fail).
    apply orb_true_iff in E as [E|E]; [apply orb_true_iff in E as [E|E]|]; apply livek_ok in E as (i & f & L); eauto.
  Qed.

  Fixpoint prun (fuel : nat) (H : history) (e : penv kst) (xs : list pcall) : outcome (history * penv kst) :=
    match xs with
    | [] => Ret (H, e)
    | x :: xs' =>
        if legalb H x then
          let! (e', q) := pcall_ dbg B strerror kst kernel fuel e (length H) x in
          prun fuel (mk_pev x (observe (k_view (w_st (p_w e'))) q) :: H) e' xs'
        else UB
    end.
  Definition begin : penv kst := mk_penv (mk_world (start fs plan) []) lim0 [].
  Definition final (r : outcome (history * penv kst)) : option history := match r with Ret (H, _) => Some H | _ => None end.

  Lemma prun_preach fuel xs : forall H e, preach dbg B strerror kst kernel v0 (start fs plan) lim0 H e (k_view (w_st (p_w e))) -> good (w_st (p_w e)) ->
    forall H' e', prun fuel H e xs = Ret (H', e') ->
    preach dbg B strerror kst kernel v0 (start fs plan) lim0 H' e' (k_view (w_st (p_w e'))) /\ good (w_st (p_w e')).
  Proof.
    induction xs as [|x xs IH]; intros H e P G H' e' E; cbn [prun] in E; [injection E as <- <-; auto|].
    destruct (legalb H x) eqn:El; [|discriminate]. apply legalb_ok in El.
    assert (Sn : sane v0) by (apply (g_sane (start fs plan)); apply start_good; exact NAMES).
    destruct (call_safe dbg B strerror kst kernel v0 kernel_os_ok Sn shows kernel_conforms _ _ _ _ _ fuel x P (conj eq_refl G) El) as [Eo|(e1 & q & v1 & Ec & (-> & G1) & P1)].
    - rewrite Eo in E. discriminate.
    - rewrite Ec in E. cbn [bind] in E. eapply IH; eauto.
  Qed.
  Lemma prun_ok fuel xs H e : prun fuel [] begin xs = Ret (H, e) ->
    preach dbg B strerror kst kernel v0 (start fs plan) lim0 H e (k_view (w_st (p_w e))) /\ good (w_st (p_w e)).
  Proof. apply prun_preach; [constructor|apply start_good; exact NAMES]. Qed.
  (** What a counterexample shows: this history can happen. *)
  Lemma prun_final fuel xs H : final (prun fuel [] begin xs) = Some H -> exists e v, preach dbg B strerror kst kernel v0 (start fs plan) lim0 H e v.
  Proof.
    destruct (prun fuel [] begin xs) as [[H' e]| | |] eqn:E; cbn [final]; try discriminate. intros Q. injection Q as <-.
    destruct (prun_ok _ _ _ _ E) as (P & _). eauto.
  Qed.
End Run.
