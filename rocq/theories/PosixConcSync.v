(** PosixConcSync.v -- the directory of a MANIFEST file is synced, along all
    executions of PosixConc.v. *)
From Coq Require Import List Arith NArith ZArith Lia Bool Permutation.
From Verif Require Import Outcome Status MemEnv PosixOs PosixWritable PosixWritableSpec PosixWritableProofs PosixRead PosixEnv PosixFs PosixEnvSpec PosixEnvProofs PosixConc PosixConcSpec PosixConcSafe PosixConcHeld PosixConcInv PosixConcProofs PosixConcTrace PosixConcFacts PosixConcReads PosixConcWriteSpec PosixConcWr PosixConcWrites PosixConcFiles PosixConcSaved PosixConcObj.
Import ListNotations.

Lemma sync_path dbg B strerror fuel h f l o : path (prog_of dbg B strerror fuel (PWSync h) (Some (ObW f))) l (PDone (o, QStat SOk)) -> f_manifest f = true ->
  exists a1 a2 rest, l = (COpen (f_dir f) RdOnly, a1) :: (CFsync (a_ret a1), a2) :: rest /\ (0 <= a_ret a1)%Z /\ a_ret a2 = 0%Z.
Proof.
  intros P M. cbn [prog_of] in P. unfold pw, psync, psync_dir in P. rewrite M in P. cbn [negb] in P. unfold psys, psync_fd, psys in P. cbn [pbind] in P.
  apply path_psys in P. destruct P as [(_ & P)|(a1 & l1 & -> & P)]; [discriminate|]. destruct (Z.ltb_spec (a_ret a1) 0) as [L|L].
  - cbn [pbind] in P. destruct (PosixOs.PosixError strerror (f_dir f) (a_errno a1)) eqn:E; [elim (posix_error strerror (f_dir f) (a_errno a1)); exact E|]. cbn [pbind] in P. apply path_done in P. destruct P as (_ & P). congruence.
  - cbn [pbind] in P. apply path_psys in P. destruct P as [(_ & P)|(a2 & l2 & -> & P)]; [discriminate|]. exists a1, a2, l2. split; [reflexivity|]. split; [exact L|].
    destruct (Z.eqb_spec (a_ret a2) 0) as [E|E]; [exact E|]. exfalso. cbn [pbind] in P. apply path_psys in P. destruct P as [(_ & P)|(a3 & l3 & -> & P)]; [discriminate|]. cbn [pbind] in P.
    destruct (PosixOs.PosixError strerror (f_dir f) (a_errno a2)) eqn:Ee; [elim (posix_error strerror (f_dir f) (a_errno a2)); exact Ee|]. cbn [pbind] in P. apply path_done in P. destruct P as (_ & P). congruence.
Qed.
(** An entry on disk stays on disk while it is there. *)
Lemma k_sure v c a v' p i : kstep v (c, a) v' -> v_name v p = Some i -> v_name v' p = Some i -> v_sure v p = true -> v_sure v' p = true.
Proof.
  intros K E E' S. inversion K; subst; cbn [v_sure v_name with_fd with_map with_dir with_data with_name create synced] in *; auto.
  - unfold upd. destruct (eqs p p0) as [->|]; [congruence|exact S].
  - rewrite S. reflexivity.
  - unfold upd in *. destruct (eqs p p0) as [->|]; [discriminate|exact S].
  - unfold upd. destruct (eqs p p0) as [->|]; [congruence|exact S].
  - unfold upd in *. destruct (eqs p p0) as [->|]; [discriminate|exact S].
  - unfold upd in *. destruct (eqs p p0) as [->|]; [discriminate|]. destruct (eqs p q) as [->|]; [congruence|exact S].
Qed.
(** Nothing has the empty name. *)
Lemma k_empty v c a v' : kstep v (c, a) v' -> v_name v [] = None -> v_name v' [] = None.
Proof.
  intros K E. inversion K; subst; cbn [v_name with_fd with_map with_dir with_data with_name create synced]; auto; unfold upd;
    repeat match goal with |- context [eqs ?x ?y] => destruct (eqs x y); try congruence end.
Qed.

Section Sync.
  Variable dbg : bool.
  Variable B : nat.
  Variable strerror : Z -> str.
  Variables (v0 : view) (lim0 : limits) (m0 : nat).
  Hypothesis S0 : forall fd, v_fd v0 fd <> None -> (0 <= fd)%Z.
  Notation cruns := (cruns dbg B strerror v0 lim0 m0).
  Notation inv := (inv B v0 lim0).
  Notation inv_runs := (inv_runs dbg B strerror v0 lim0 m0 S0).

  Lemma no_empty tr cf : cruns tr cf -> v_name v0 [] = None -> v_name (now v0 tr) [] = None.
  Proof.
    intros R E. revert cf R. induction tr as [|[l w] tr IH]; intros cf R; [exact E|]. destruct (back dbg B strerror v0 lim0 m0 S0 _ _ _ _ R) as (cf0 & R0 & K). specialize (IH _ R0). cbn [now].
    destruct l; [subst w; exact IH|exact (k_empty _ _ _ _ K IH)|subst w; exact IH].
  Qed.
  (** The open() and the fsync() of the directory in a Sync that returns OK. *)
  Lemma dir_synced later n v tr cf h x f dir : cruns (later ++ (End n (RStat SOk), v) :: tr) cf -> call_no tr n = Some (PWSync h) ->
    call_no tr h = Some x -> opens x = Some (KWrite, f) -> names_manifest f -> in_dir f dir ->
    exists i l4 a2 w2 l3 a1 w1 l1, tr = l4 ++ (Act n (CFsync (a_ret a1)) a2, w2) :: l3 ++ (Act n (COpen dir RdOnly) a1, w1) :: l1 /\
      in_progress l1 n /\ v_name w1 dir = Some i /\ w2 = synced (now v0 (l3 ++ (Act n (COpen dir RdOnly) a1, w1) :: l1)) i /\
      in_progress (l3 ++ (Act n (COpen dir RdOnly) a1, w1) :: l1) n.
  Proof.
    intros R Cn Ch Ox Mf Df. destruct (end_step _ _ _ _ _ _ _ _ _ _ _ _ R) as (cf0 & t & y & o & q & R0 & Et & _ & Er).
    destruct (inv_runs _ _ R0) as (Rs & H). destruct (running _ _ _ _ _ _ _ _ _ _ H Et) as (Ip & Cy). assert (y = PWSync h) by congruence. subst y.
    destruct (o_on _ _ _ _ _ (oinv_runs dbg B strerror v0 lim0 m0 S0 _ _ R0) _ _ _ _ h Et eq_refl) as (fuel & ob & P & F & (z & Cz & Oz) & Fi).
    assert (z = x) by congruence. subst z. rewrite Ox in Oz. destruct ob as [g|g|g]; try discriminate Oz. cbn [kind_of oname] in Oz. injection Oz as ->.
    cbn [fine] in F. destruct F as (F1 & F2).
    assert (Mg : f_manifest g = true). { destruct (is_manifest_spec dbg (f_name g)) as (b & Eb & Hb). rewrite Eb in F1. injection F1 as <-. apply Hb. exact Mf. }
    assert (Dg : f_dir g = dir). { destruct (dirname_in dbg (f_name g)) as (d & Ed & Hd). rewrite Ed in F2. injection F2 as <-. eapply in_dir_fun; eassumption. }
    assert (Eq : q = QStat SOk). { destruct q as [s0|b0|s0 l0|s0 k0|s0 d0]; cbn [observe] in Er; try congruence. destruct d0 as [|d0|bs off k0]; try discriminate Er. destruct (v_map v bs) as [[j len]|]; [|discriminate Er]. destruct (off + k0 <=? N.of_nat (length (v_data v j)))%N; discriminate Er. }
    subst q. destruct (sync_path _ _ _ _ _ _ _ _ P Mg) as (a1 & a2 & rest & Ea & L1 & L2). rewrite Dg in Ea.
    destruct (acts_nth tr n [(COpen dir RdOnly, a1)] _ _ _ Ea) as (l4 & w2 & l2 & Et2 & Ea2).
    destruct (acts_nth l2 n [] _ _ _ Ea2) as (l3 & w1 & l1 & El2 & Ea1).
    assert (R2 : cruns (l4 ++ (Act n (CFsync (a_ret a1)) a2, w2) :: l2) cf0) by (rewrite <- Et2; exact R0).
    destruct (act_step dbg B strerror v0 lim0 m0 S0 _ _ _ _ _ _ _ R2) as (cf2 & t2 & x2 & k2 & Rl2 & Et22 & K2).
    pose proof (act_in_progress dbg B strerror v0 lim0 m0 S0 _ _ _ _ _ _ _ R2) as Ip2.
    assert (Rl2' : cruns (l3 ++ (Act n (COpen dir RdOnly) a1, w1) :: l1) cf2) by (rewrite <- El2; exact Rl2).
    destruct (act_step dbg B strerror v0 lim0 m0 S0 _ _ _ _ _ _ _ Rl2') as (cf1 & t1 & x1 & k1 & Rl1 & Et11 & K1).
    pose proof (act_in_progress dbg B strerror v0 lim0 m0 S0 _ _ _ _ _ _ _ Rl2') as Ip1.
    (* the descriptor *)
    assert (O : owner l2 (a_ret a1) = Some n).
    { rewrite El2. eapply (still_own dbg B strerror v0 lim0 m0 S0); [exact Rl2'| | |].
      - rewrite <- El2, Ea2. cbn [acts]. rewrite Nat.eqb_refl, Ea1. reflexivity.
      - rewrite <- El2. exact Ip2.
      - cbn [owner]. rewrite Z.eqb_refl. replace (0 <=? a_ret a1)%Z with true by (symmetry; apply Z.leb_le; exact L1). reflexivity. }
    assert (Vx : exists fx, v_fd (now v0 l2) (a_ret a1) = Some fx /\ w2 = synced (now v0 l2) (d_ino fx)) by (inversion K2; subst; try discriminate; try lia; eauto).
    destruct Vx as (fx & Vx & Ew2).
    destruct (fd_track dbg B strerror v0 lim0 m0 S0 _ _ Rl2 _ _ _ O Vx) as (m1 & p & fl & a & w & m2 & Em & Era & _ & Nm).
    assert (E5 : (p, fl, a) = (dir, RdOnly, a1) /\ acts m2 n = []).
    { destruct (acts_app m1 n (COpen p fl) a w m2) as (r & Er2). rewrite <- Em, Ea2 in Er2. destruct (acts m2 n) as [|e1 l]; cbn [app] in Er2.
      - split; [congruence|reflexivity].
      - exfalso. destruct l; discriminate Er2. }
    destruct E5 as (E5 & E6). injection E5 as -> -> ->.
    exists (d_ino fx), l4, a2, w2, m1, a1, w, m2. rewrite <- Em. split; [exact Et2|]. split; [|split; [exact Nm|]; split; [exact Ew2|exact Ip2]].
    assert (Rl3 : cruns (m1 ++ (Act n (COpen dir RdOnly) a1, w) :: m2) cf2) by (rewrite <- Em; exact Rl2). exact (act_in_progress dbg B strerror v0 lim0 m0 S0 _ _ _ _ _ _ _ Rl3).
  Qed.
  Lemma stays_sure p i : forall later base cf, cruns (later ++ base) cf -> (forall l2 l1, later = l2 ++ l1 -> v_name (now v0 (l1 ++ base)) p = Some i) ->
    v_sure (now v0 base) p = true -> v_sure (now v0 (later ++ base)) p = true.
  Proof.
    induction later as [|[l w] later IH]; intros base cf R St S; [exact S|]. cbn [app now] in *. destruct (back dbg B strerror v0 lim0 m0 S0 _ _ _ _ R) as (cf0 & R0 & K).
    assert (IH' : v_sure (now v0 (later ++ base)) p = true). { apply (IH _ _ R0); [|exact S]. intros l2 l1 ->. apply (St ((l, w) :: l2)). reflexivity. }
    destruct l as [n x|n c a|n r]; [subst w; exact IH'| |subst w; exact IH'].
    eapply (k_sure _ _ _ _ p i K); [apply (St [(Act n c a, w)] later); reflexivity|apply (St [] ((Act n c a, w) :: later)); reflexivity|exact IH'].
  Qed.
End Sync.
