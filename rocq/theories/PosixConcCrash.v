(** PosixConcCrash.v -- proofs about replacing a file by RenameFile and crashes. *)
From Coq Require Import List Arith NArith ZArith Lia Bool Permutation.
From Verif Require Import Outcome Status MemEnv PosixOs PosixWritable PosixWritableSpec PosixWritableProofs PosixRead PosixEnv PosixFs PosixEnvSpec PosixConc PosixConcSpec PosixConcSafe PosixConcHeld PosixConcInv PosixConcProofs PosixConcTrace PosixConcFacts PosixConcReads PosixConcWriteSpec PosixConcWr PosixConcWrites PosixConcFiles PosixConcSaved PosixConcObj PosixConcStreamSpec PosixConcStream PosixConcDir PosixConcCrashSpec.
Import ListNotations.

Lemma begins_put (data safe d : list N) p : begins data safe -> begins (put data p d) (firstn p safe).
Proof.
  intros (r & ->). unfold put. rewrite <- app_assoc, firstn_app, <- app_assoc. eexists. reflexivity.
Qed.
Lemma k_safe v c a v' : kstep v (c, a) v' -> (forall i, begins (v_data v i) (v_safe v i)) -> forall i, begins (v_data v' i) (v_safe v' i).
Proof.
  intros K H i. inversion K; subst; cbn [v_data v_safe with_fd with_map with_dir with_name with_data create synced]; auto; unfold upd; try (destruct (Nat.eq_dec i _); auto).
  all: try (exists []; reflexivity); try (apply begins_put; auto). subst. apply begins_refl.
Qed.
Lemma subseq_len {A} (x y : list A) : subseq x y -> length x <= length y.
Proof. induction 1; cbn; lia. Qed.
Lemma begins_same {A} (x y : list A) : begins x y -> length x <= length y -> x = y.
Proof. intros (r & ->) L. rewrite app_length in L. destruct r; [apply app_nil_r|cbn in L; lia]. Qed.

Section Crash.
  Variable dbg : bool.
  Variable B : nat.
  Variable strerror : Z -> str.
  Variables (v0 : view) (lim0 : limits) (m0 : nat).
  Hypothesis S0 : forall fd, v_fd v0 fd <> None -> (0 <= fd)%Z.
  Hypothesis N0 : forall p i, v_name v0 p = Some i -> i < v_next v0.
  Hypothesis D0 : forall i, begins (v_data v0 i) (v_safe v0 i).
  Notation cruns := (cruns dbg B strerror v0 lim0 m0).
  Notation back := (back dbg B strerror v0 lim0 m0 S0).
  Notation act_step := (act_step dbg B strerror v0 lim0 m0 S0).
  Notation inv_runs := (inv_runs dbg B strerror v0 lim0 m0 S0).
  Notation did_runs := (did_runs dbg B strerror v0 lim0 m0 S0).

  Lemma safe_runs tr cf : cruns tr cf -> forall i, begins (v_data (now v0 tr) i) (v_safe (now v0 tr) i).
  Proof.
    revert cf. induction tr as [|[l v] tr IH]; intros cf R; [exact D0|]. destruct (back _ _ _ _ R) as (cf0 & R0 & K). specialize (IH _ R0). cbn [now].
    destruct l as [n x|n c a|n r]; try (rewrite K; exact IH). exact (k_safe _ _ _ _ K IH).
  Qed.
  (** What was safe stays safe while the file is not changed. *)
  Lemma stays_safe later base cf i : cruns (later ++ base) cf -> i < v_next (now v0 base) -> unchanged v0 later base i ->
    begins (v_safe (now v0 (later ++ base)) i) (v_safe (now v0 base) i) /\ v_data (now v0 (later ++ base)) i = v_data (now v0 base) i.
  Proof.
    revert cf. induction later as [|[l v] later IH]; intros cf R L U; [split; [apply begins_refl|reflexivity]|]. cbn [app] in R. destruct (back _ _ _ _ R) as (cf0 & R0 & K).
    assert (U' : unchanged v0 later base i) by (intros l2 n c a w l1 ->; exact (U ((l, v) :: l2) n c a w l1 eq_refl)). destruct (IH _ R0 L U') as (I1 & I2). cbn [app now]. destruct l as [n x|n c a|n r]; try (rewrite K; auto).
    assert (L' : i < v_next (now v0 (later ++ base))) by (pose proof (next_mono dbg B strerror v0 lim0 m0 S0 later base _ R0); lia).
    destruct (k_data _ _ _ _ i K (U [] n c a v later eq_refl) L') as (E1 & E2). split; [|congruence]. destruct E2 as [-> | ->]; [exact I1|].
    eapply begins_trans; [exact (safe_runs _ _ R0 i)|exact I1].
  Qed.

  (** RenameFile makes one system call. *)
  Lemma rename_next fuel s d ob l c k : path (prog_of dbg B strerror fuel (PRename s d) ob) l (PSys c k) -> l = [] /\ c = CRename s d.
  Proof.
    cbn [prog_of]. unfold pask, psys. cbn [pbind]. intros P. apply path_psys in P. destruct P as [(-> & P)|(a & l' & -> & P)]; [injection P as -> _; auto|]. apply path_done in P. destruct P as (_ & P). discriminate.
  Qed.
  Lemma k_rename_inv v s d a v' i : kstep v (CRename s d, a) v' -> v_name v s = Some i -> v' = v /\ a_ret a <> 0%Z \/ v_name v' d = Some i.
  Proof.
    intros K E. inversion K; subst; try discriminate.
    - left. split; [reflexivity|]. lia.
    - right. congruence.
    - right. cbn [with_name v_name]. assert (i0 = i) by congruence. subst i0. unfold upd. destruct (eqs d s) as [->|N]; [congruence|]. destruct (eqs d d); [reflexivity|congruence].
  Qed.
  (** During RenameFile(s, d). *)
  Lemma renaming later r s d w base cf i : cruns (later ++ (Beg r (PRename s d), w) :: base) cf -> v_name w s = Some i ->
    only_call v0 later ((Beg r (PRename s d), w) :: base) r s -> only_call v0 later ((Beg r (PRename s d), w) :: base) r d ->
    let v := now v0 (later ++ (Beg r (PRename s d), w) :: base) in
    acts later r = [] /\ v_name v d = v_name w d /\ v_name v s = Some i \/
    exists a, acts later r = [(CRename s d, a)] /\ (v_name v d = Some i \/ a_ret a <> 0%Z /\ v_name v d = v_name w d).
  Proof.
    intros R E. set (bs := (Beg r (PRename s d), w) :: base) in *. revert cf R. induction later as [|[l u] later IH]; intros cf R Os Od v.
    - left. subst v. cbn [app now bs acts]. auto.
    - cbn [app] in R. destruct (back _ _ _ _ R) as (cf0 & R0 & K).
      assert (Os' : only_call v0 later bs r s) by (intros l2 n c a w' l1 ->; exact (Os ((l, u) :: l2) n c a w' l1 eq_refl)).
      assert (Od' : only_call v0 later bs r d) by (intros l2 n c a w' l1 ->; exact (Od ((l, u) :: l2) n c a w' l1 eq_refl)).
      specialize (IH _ R0 Os' Od'). subst v. cbn [app now]. cbv zeta in IH. destruct l as [n x|n c a|n x]; try (cbn [acts]; rewrite K; exact IH).
      destruct (Nat.eq_dec n r) as [->|Ne].
      + cbn [acts]. rewrite Nat.eqb_refl.
        assert (X : acts later r = [] /\ c = CRename s d).
        { change (cruns ([] ++ (Act r c a, u) :: later ++ bs) cf) in R. destruct (act_step _ _ _ _ _ _ _ R) as (cf1 & t & y & k & R1 & Et & _). destruct (inv_runs _ _ R1) as (Rs & H). destruct (running _ _ _ _ _ _ _ _ _ _ H Et) as (_ & Cn).
          assert (Cb : call_no (later ++ bs) r = Some (PRename s d)) by (eapply (call_later dbg B strerror v0 lim0 m0 S0); [exact R1|unfold bs; cbn [call_no]; now rewrite Nat.eqb_refl]).
          rewrite Cb in Cn. injection Cn as <-. destruct (did_runs _ _ R1 _ _ _ _ Et) as (fuel & o & P & _ & _). apply rename_next in P. destruct P as (P & ->). split; [|reflexivity].
          rewrite acts_more in P. apply app_eq_nil in P. apply P. }
        destruct X as (Xa & ->). right. exists a. rewrite Xa. split; [reflexivity|]. destruct IH as [(_ & I2 & I3)|(a' & I1 & _)]; [|rewrite Xa in I1; discriminate].
        destruct (k_rename_inv _ _ _ _ _ _ K I3) as [(-> & Y)|Y]; [right; auto|left; exact Y].
      + assert (Ea : acts ((Act n c a, u) :: later) r = acts later r) by (cbn [acts]; destruct (Nat.eqb_spec n r); [contradiction|reflexivity]). rewrite Ea.
        rewrite (Os [] n c a u later eq_refl Ne), (Od [] n c a u later eq_refl Ne). exact IH.
  Qed.
  (** The entry on disk. *)
  Lemma disk_entry later r s d w base cf i x : cruns (later ++ (Beg r (PRename s d), w) :: base) cf -> v_name w s = Some i -> v_sure w d = true ->
    only_call v0 later ((Beg r (PRename s d), w) :: base) r s -> only_call v0 later ((Beg r (PRename s d), w) :: base) r d ->
    entry_on_disk v0 (later ++ (Beg r (PRename s d), w) :: base) d x -> x = v_name w d \/ x = Some i.
  Proof.
    intros R E Su Os Od [(l & e & Et & -> & U)|U]; [|specialize (U later _ eq_refl); cbn [now] in U; congruence]. set (bs := (Beg r (PRename s d), w) :: base) in *.
    assert (Cs : (exists q, later = l ++ q /\ e = q ++ bs) \/ exists q, q <> [] /\ l = later ++ q /\ bs = q ++ e).
    { clear -Et. revert l Et. induction later as [|y later IH]; intros l Et; cbn [app] in Et.
      - destruct l as [|z l]; [left; exists []; auto|]. right. exists (z :: l). split; [discriminate|]. auto.
      - destruct l as [|z l]; cbn [app] in Et; [left; exists (y :: later); auto|]. injection Et as <- Et. destruct (IH _ Et) as [(q & -> & ->)|(q & Q & -> & ->)]; [left; exists q; auto|right; exists q; auto]. }
    destruct Cs as [(q & -> & ->)|(q & Q & -> & Eq)].
    - rewrite <- app_assoc in R. destruct (runs_prefix dbg B strerror v0 lim0 m0 l _ _ R) as (cf1 & R1).
      assert (Os' : only_call v0 q bs r s) by (intros l2 n c a w' l1 ->; apply (Os (l ++ l2) n c a w' l1); now rewrite <- app_assoc).
      assert (Od' : only_call v0 q bs r d) by (intros l2 n c a w' l1 ->; apply (Od (l ++ l2) n c a w' l1); now rewrite <- app_assoc).
      destruct (renaming q r s d w base cf1 i R1 E Os' Od') as [(_ & X & _)|(a & _ & [X|(_ & X)])]; fold bs in X; auto.
    - exfalso. specialize (U later q eq_refl Q). rewrite <- Eq in U. unfold bs in U. cbn [now] in U. congruence.
  Qed.
End Crash.
