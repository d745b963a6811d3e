(** LockOomProps.v -- C114: LockFile and UnlockFile when memory runs out. *)
From Coq Require Import String List Arith NArith ZArith Lia Bool Permutation.
From Verif Require Import Outcome Status MemEnv PosixOs FileLock FileLockSpec FileLockProofs FileLockProps LockOom LockOomSpec LockOomProofs.
Import ListNotations.

Lemma reach_any ino strerror allowed g : greach ino strerror allowed g -> greach ino strerror anything g.
Proof. induction 1 as [|g a g' r R IH A E]; [constructor|]. eapply gr_step; [exact IH|exact Logic.I|exact E]. Qed.

(** ** C114 *)
(** As long as no exception is thrown the runs are those of C64 and C65. *)
Theorem C114_no_exception_no_difference :
  forall ino strerror allowed,
    (forall l, lreach ino strerror allowed l -> l_lost l = [] -> l_over l = [] ->
       greach ino strerror allowed (l_g l) /\ (forall p, l_stuck l p = false) /\ (forall p n, has_object l p n <-> holds (l_g l) p n)) /\
    (forall g, greach ino strerror allowed g -> exists l, lreach ino strerror allowed l /\ l_g l = g /\ l_lost l = [] /\ l_over l = []).
Proof.
  intros ino strerror allowed. split.
  - intros l R E1 E2. split; [eapply lreach_g; exact R|]. split.
    + intros p. destruct (l_stuck l p) eqn:Es; [|reflexivity]. destruct (linv _ _ _ _ R) as (_ & B & _). destruct (B p Es) as (id & n & fd & H & _). rewrite E2 in H. destruct H.
    + intros p n. unfold has_object, holds. rewrite E1. split; [intros (id & fd & H & _); eauto|intros (id & fd & H); exists id, fd; split; [exact H|intros []]].
  - assert (K : forall g, greach ino strerror allowed g -> lreach ino strerror allowed (mk_l g [] [] (fun _ => false))).
    { induction 1 as [|g a g' r R IH A E]; [exists []; constructor|]. eapply (lreach_step ino strerror allowed _ (LStep a)); [exact IH|exact A|].
      cbn [lstep l_g l_lost l_over l_stuck memb existsb orb]. rewrite E.
      destruct a as [p n w|id|id ans]; try reflexivity. destruct (aget (g_ops g) id) as [c|]; [destruct (table_user c)|]; reflexivity. }
    intros g R. exists (mk_l g [] [] (fun _ => false)). repeat split; auto.
Qed.
Print Assumptions C114_no_exception_no_difference.

(** Whatever is thrown when: a process is given at most one lock object for a name;
    and none for a name whose lock was lost. *)
Theorem C114_still_at_most_one_holder :
  forall ino strerror l p name id1 fd1 id2 fd2, lreach ino strerror anything l ->
    In (id1, mk_lock p fd1 name) (g_live (l_g l)) -> ~ In id1 (l_lost l) ->
    In (id2, mk_lock p fd2 name) (g_live (l_g l)) ->
    id1 = id2 /\ fd1 = fd2 /\ ~ In id2 (l_lost l).
Proof.
  intros ino strerror l p name id1 fd1 id2 fd2 R H1 N1 H2. apply lreach_g in R.
  destruct (C64_at_most_one_holder _ _ _ _ _ _ _ _ _ R H1 H2) as (-> & ->). auto.
Qed.
Print Assumptions C114_still_at_most_one_holder.

(** What an exception after the record lock is taken leaves: the lock, held by the
    process, the name in the table, the descriptor open, and no lock object -- now
    and in every later state.  So no LockFile of that name in that process ever
    succeeds again. *)
Theorem C114_lost_lock_is_held_for_ever :
  forall ino strerror l p name acts l', lreach ino strerror anything l -> lost_lock l p name -> lsteps ino strerror anything l acts l' ->
    lost_lock l' p name /\ ~ has_object l' p name /\ In name (g_table (l_g l') p) /\ exists fd, In (p, fd, ino name) (g_fds (l_g l')).
Proof.
  intros ino strerror l p name acts l' R (id & fd & H & L) S.
  assert (K : In (id, mk_lock p fd name) (g_live (l_g l')) /\ In id (l_lost l')).
  { eapply (lsteps_ind' ino strerror anything (fun l => In (id, mk_lock p fd name) (g_live (l_g l)) /\ In id (l_lost l))); [exact R|auto| |exact S].
    intros l1 a l2 r _ (A & B) _ E. eapply lost_keep; eauto. }
  assert (R' : lreach ino strerror anything l').
  { destruct R as (acts0 & R). exists (acts0 ++ acts). clear - R S. induction R as [l|l a l1 r acts0 l2 A E R IH]; [exact S|]. cbn [app]. econstructor; [exact A|exact E|]. now apply IH. }
  destruct K as (K1 & K2). split; [exists id, fd; auto|]. split; [|split].
  - intros (id2 & fd2 & H2 & N2). pose proof (C114_still_at_most_one_holder _ _ _ _ _ _ _ _ _ R' H2 N2 K1) as (_ & _ & Q). auto.
  - apply lreach_g in R'. apply ginv in R'. apply (gi_table _ _ R'). unfold claims. apply in_or_app. right. apply in_map_iff. exists (id, mk_lock p fd name). auto.
  - exists fd. apply lreach_g in R'. apply ginv in R'. apply (Permutation_in _ (Permutation_sym (gi_fds _ _ R'))). unfold owned. apply in_or_app. right. apply in_map_iff. exists (id, mk_lock p fd name). auto.
Qed.
Print Assumptions C114_lost_lock_is_held_for_ever.

(** Nor, with processes that never touch a lock file they have open, of that file
    in any other process. *)
Theorem C114_lost_lock_excludes_other_processes :
  forall ino strerror l p n1 acts l' q n2, lreach ino strerror (one_descriptor ino) l -> lost_lock l p n1 -> lsteps ino strerror (one_descriptor ino) l acts l' ->
    ino n1 = ino n2 -> ~ has_object l' q n2.
Proof.
  intros ino strerror l p n1 acts l' q n2 R (id & fd & H & L) S Ei (id2 & fd2 & H2 & N2).
  assert (K : In (id, mk_lock p fd n1) (g_live (l_g l')) /\ In id (l_lost l')).
  { eapply (lsteps_ind' ino strerror (one_descriptor ino) (fun l => In (id, mk_lock p fd n1) (g_live (l_g l)) /\ In id (l_lost l))); [exact R|auto| |exact S].
    intros l1 a l2 r _ (A & B) _ E. eapply lost_keep; eauto. }
  destruct K as (K1 & K2).
  assert (R' : lreach ino strerror (one_descriptor ino) l').
  { destruct R as (acts0 & R). exists (acts0 ++ acts). clear - R S. induction R as [l|l a l1 r acts0 l2 A E R IH]; [exact S|]. cbn [app]. econstructor; [exact A|exact E|]. now apply IH. }
  apply lreach_g in R'. assert (Q : p = q /\ n1 = n2) by (eapply (C65_excludes_other_processes _ _ _ _ _ _ _ R'); [exists id, fd; exact K1|exists id2, fd2; exact H2|exact Ei]).
  destruct Q as (-> & ->). destruct (C64_at_most_one_holder _ _ _ _ _ _ _ _ _ (reach_any _ _ _ _ R') H2 K1) as (-> & _). contradiction.
Qed.
Print Assumptions C114_lost_lock_excludes_other_processes.

(** An exception in the table: from then on every call in that process that gets
    to the table stays there for ever -- LockFile of any name after opening the
    file, LockFile after fcntl has failed, UnlockFile of any lock after giving up
    the record lock -- and the table never changes. *)
Theorem C114_stuck_table_blocks_every_call :
  forall ino strerror l p acts l', lreach ino strerror anything l -> l_stuck l p = true -> lsteps ino strerror anything l acts l' ->
    l_stuck l' p = true /\ g_table (l_g l') p = g_table (l_g l) p /\
    (forall id c, aget (g_ops (l_g l)) id = Some c -> table_user c = Some p -> aget (g_ops (l_g l')) id = Some c) /\
    (forall id c ans, aget (g_ops (l_g l')) id = Some c -> table_user c = Some p -> lstep ino strerror l' (LStep (AStep id ans)) = None).
Proof.
  intros ino strerror l p acts l' R Hs S.
  assert (K : l_stuck l' p = true /\ g_table (l_g l') p = g_table (l_g l) p /\ (forall id c, aget (g_ops (l_g l)) id = Some c -> table_user c = Some p -> aget (g_ops (l_g l')) id = Some c)).
  { eapply (lsteps_ind' ino strerror anything (fun x => l_stuck x p = true /\ g_table (l_g x) p = g_table (l_g l) p /\ (forall id c, aget (g_ops (l_g l)) id = Some c -> table_user c = Some p -> aget (g_ops (l_g x)) id = Some c))); [exact R|auto| |exact S].
    intros l1 a l2 r R1 (A & B & C) _ E. split; [eapply stuck_keep; eauto|]. split; [rewrite <- B; eapply stuck_table; eauto|].
    intros id c Hc Hu. specialize (C id c Hc Hu). pose proof (ginv _ _ _ _ (lreach_g _ _ _ _ R1)) as I. pose proof (op_next _ _ _ _ I C) as Hn.
    destruct a as [b|jd|jd]; cbn [lstep] in E.
    - destruct (match b with ALock _ _ _ => _ | _ => _ end) eqn:Eb; [discriminate|]. destruct (gstep ino strerror (l_g l1) b) as [[g' q]|] eqn:Eg; [|discriminate]. injection E as <- _. cbn [l_g].
      eapply op_keep; [exact Eg|exact C|exact Hn|]. intros ans ->. apply orb_false_iff in Eb as (_ & Eb). rewrite C, Hu in Eb. congruence.
    - destruct (memb jd (l_over l1)); [discriminate|]. destruct (aget (g_ops (l_g l1)) jd) as [[]|]; try discriminate. destruct (_ || _); [discriminate|]. injection E as <- _. exact C.
    - destruct (aget (g_ops (l_g l1)) jd) as [[q m f|q m f|q m f|q m f e|q m e|i o|o|o]|] eqn:Ej; try discriminate.
      destruct (gstep ino strerror (l_g l1) (AStep jd 0)) as [[g' [[]|]]|] eqn:Eg; try discriminate. injection E as <- _. cbn [l_g].
      eapply op_keep; [exact Eg|exact C|exact Hn|]. intros ans X. injection X as -> _. rewrite Ej in C. injection C as <-. discriminate. }
  destruct K as (K1 & K2 & K3). repeat (split; [assumption|]). intros id c ans Hc Hu. cbn [lstep]. rewrite Hc, Hu, K1, orb_true_r. reflexivity.
Qed.
Print Assumptions C114_stuck_table_blocks_every_call.

(** The two exceptions themselves.  In the table: the name is new, nothing changes
    but the mutex, and the descriptor is never closed. *)
Theorem C114_exception_in_table :
  forall ino strerror l id l' r acts l2, lreach ino strerror anything l -> lstep ino strerror l (LThrowInsert id) = Some (l', r) -> lsteps ino strerror anything l' acts l2 ->
    exists p name fd, lock_waiting l id p name /\ ~ In name (g_table (l_g l) p) /\ r = LExc /\ l_g l' = l_g l /\ l_lost l' = l_lost l /\
      l_stuck l' p = true /\ ~ lock_waiting l' id p name /\ In (p, fd, ino name) (g_fds (l_g l2)).
Proof.
  intros ino strerror l id l' r acts l2 R E S. pose proof E as E0. cbn [lstep] in E.
  destruct (memb id (l_over l)) eqn:Em; [discriminate|]. destruct (aget (g_ops (l_g l)) id) as [[p name fd|q m f|q m f|q m f e|q m e|i o|o|o]|] eqn:Eg; try discriminate.
  destruct (l_stuck l p || t_has (g_table (l_g l) p) name) eqn:Eo; [discriminate|]. apply orb_false_iff in Eo as (Es & Et). injection E as <- <-.
  exists p, name, fd. apply memb_out in Em. split; [exists fd; auto|]. split; [intros X; apply t_has_in in X; congruence|].
  repeat (split; [reflexivity|]). cbn [l_stuck l_g l_over]. split; [unfold fupd; now rewrite Nat.eqb_refl|]. split; [intros (fd' & _ & X); cbn [l_over] in X; apply X; now left|].
  assert (R1 : lreach ino strerror anything (mk_l (l_g l) (l_lost l) (id :: l_over l) (fupd (l_stuck l) p true))) by (eapply (lreach_step _ _ _ _ (LThrowInsert id)); [exact R|exact Logic.I|exact E0]).
  assert (K : aget (g_ops (l_g l2)) id = Some (PInsert p name fd) /\ In id (l_over l2) /\ lreach ino strerror anything l2).
  { eapply (lsteps_ind' ino strerror anything (fun x => aget (g_ops (l_g x)) id = Some (PInsert p name fd) /\ In id (l_over x) /\ lreach ino strerror anything x)); [exact R1|cbn [l_g l_over]; split; [exact Eg|split; [now left|exact R1]]| |exact S].
    intros l3 a l4 r R3 (A & B & _) Aa E. destruct (over_keep _ _ _ _ _ _ _ _ _ R3 E B A ltac:(eauto)) as (A' & B'). split; [exact A'|]. split; [exact B'|]. eapply lreach_step; eauto. }
  destruct K as (K & _ & R2). apply lreach_g in R2. apply ginv in R2. apply (Permutation_in _ (Permutation_sym (gi_fds _ _ R2))). unfold owned. apply in_or_app. left.
  apply in_flat_map. exists (id, PInsert p name fd). split; [now apply aget_in|]. now left.
Qed.
Print Assumptions C114_exception_in_table.

(** After the record lock is taken: the lock is lost, as above, and the caller has
    nothing. *)
Theorem C114_exception_after_locking :
  forall ino strerror l id l' r, lreach ino strerror anything l -> lstep ino strerror l (LThrowNew id) = Some (l', r) ->
    exists p name, r = LExc /\ lost_lock l' p name /\ ~ has_object l p name /\ ~ has_object l' p name /\ g_lock (l_g l') (ino name) = Some p /\
      (forall q m, has_object l q m -> has_object l' q m) /\ (forall q, l_stuck l' q = l_stuck l q).
Proof.
  intros ino strerror l id l' r R E. pose proof E as E0. cbn [lstep] in E.
  destruct (aget (g_ops (l_g l)) id) as [[q m f|q m f|p name fd|q m f e|q m e|i o|o|o]|] eqn:Eg; try discriminate.
  destruct (gstep ino strerror (l_g l) (AStep id 0)) as [[g' [[]|]]|] eqn:Es; try discriminate. injection E as <- <-.
  pose proof (ginv _ _ _ _ (lreach_g _ _ _ _ R)) as I.
  destruct (C64_granted_only_if_free _ _ _ _ _ _ _ _ _ (lreach_g _ _ _ _ R) (aget_in _ _ _ Eg) Es) as (Nb & _).
  assert (Hl : g' = mk_g (g_fds (l_g l)) (fupd (g_lock (l_g l)) (ino name) (Some p)) (g_table (l_g l)) ((id, mk_lock p fd name) :: g_live (l_g l)) (adel (g_ops (l_g l)) id) (g_next (l_g l))).
  { cbn [gstep] in Es. rewrite Eg in Es. cbn [op_step] in Es. assert (F : file_of (g_fds (l_g l)) p fd = Some (ino name)).
    { apply file_of_in; [apply (gi_fdup _ _ I)|]. apply (Permutation_in _ (Permutation_sym (gi_fds _ _ I))). unfold owned. apply in_or_app. left. apply in_flat_map. exists (id, PSetlk p name fd). split; [now apply aget_in|]. now left. }
    rewrite F in Es. destruct (match g_lock (l_g l) (ino name) with Some x => negb (x =? p) | None => false end); cbn [Z.eqb] in Es; [discriminate|]. now injection Es as <-. }
  assert (Fresh : forall j o, In (j, o) (g_live (l_g l)) -> j <> id).
  { intros j o Hj ->. pose proof (gi_ids _ _ I) as N. unfold ids in N. rewrite app_assoc in N. apply nd_app_r in N.
    apply (nodup_app_in _ _ id N); [apply in_map_iff; exists (id, PSetlk p name fd); split; [reflexivity|now apply aget_in]|apply in_map_iff; exists (id, o); auto]. }
  exists p, name. split; [reflexivity|]. subst g'.
  assert (NL : forall j, In j (l_lost l) -> j <> id). { intros j Hj. destruct (linv _ _ _ _ R) as (_ & _ & C). destruct (C j Hj) as (o & Ho). eapply Fresh; eauto. }
  split; [exists id, fd; cbn [l_g g_live l_lost In]; auto|]. split; [|split; [|split; [|split]]].
  - intros (j & f & Hj & _). apply Nb. exists j, f. now left.
  - intros (j & f & Hj & Nj). cbn [l_g g_live l_lost In] in Hj, Nj. destruct Hj as [Hj|Hj]; [injection Hj as -> _; apply Nj; now left|]. apply Nb. exists j, f. now left.
  - cbn [l_g g_lock]. unfold fupd. now rewrite Nat.eqb_refl.
  - intros q n (j & f & Hj & Nj). exists j, f. cbn [l_g g_live l_lost In]. split; [now right|]. intros [X|X]; [apply (Fresh _ _ Hj); congruence|contradiction].
  - reflexivity.
Qed.
Print Assumptions C114_exception_after_locking.

(** Concrete runs. *)
Fixpoint lexec (ino : str -> nat) (l : lstate) (acts : list lact) : option (lstate * list lres) :=
  match acts with
  | [] => Some (l, [])
  | a :: acts' => match lstep ino (fun _ => []) l a with
                  | Some (l', r) => match lexec ino l' acts' with Some (l2, rs) => Some (l2, r :: rs) | None => None end
                  | None => None
                  end
  end.
Lemma lexec_steps ino acts : forall l l' rs, lexec ino l acts = Some (l', rs) -> lsteps ino (fun _ => []) anything l acts l'.
Proof.
  induction acts as [|a acts IH]; intros l l' rs E; cbn [lexec] in E; [injection E as <- _; constructor|].
  destruct (lstep ino (fun _ => []) l a) as [[l1 r]|] eqn:Es; [|discriminate]. destruct (lexec ino l1 acts) as [[l2 rs2]|] eqn:E2; [|discriminate]. injection E as <- _.
  econstructor; [destruct a; exact Logic.I|exact Es|]. eapply IH; eauto.
Qed.

(** "A LockFile that fails for lack of memory can be repeated" is false: the same
    call, with memory available again, is told that the process already has the
    lock. *)
Theorem C114_can_be_repeated_refuted :
  exists n l rs, lexec (fun _ => 7) l0
      [LStep (ALock 0 n (inl 3%Z)); LStep (AStep 0 0); LThrowNew 0;
       LStep (ALock 0 n (inl 4%Z)); LStep (AStep 1 0); LStep (AStep 1 0)] = Some (l, rs) /\
    rs = [LMore; LMore; LExc; LMore; LMore; LRet (SErr IOError (msg_lock n) held_by_process)] /\
    lreach (fun _ => 7) (fun _ => []) anything l /\ lost_lock l 0 n.
Proof.
  destruct (lexec (fun _ => 7) l0 [LStep (ALock 0 [97%N] (inl 3%Z)); LStep (AStep 0 0); LThrowNew 0; LStep (ALock 0 [97%N] (inl 4%Z)); LStep (AStep 1 0); LStep (AStep 1 0)]) as [[l rs]|] eqn:E; [|vm_compute in E; discriminate].
  exists [97%N], l, rs. split; [exact E|]. split; [vm_compute in E; injection E as _ <-; reflexivity|].
  split; [eexists; eapply lexec_steps; exact E|]. vm_compute in E. injection E as <- _. exists 0, 3%Z. split; now left.
Qed.
Print Assumptions C114_can_be_repeated_refuted.

(** "It does not disturb other names" is false: process 0 holds the lock on n1; a
    LockFile of n2 runs out of memory in the table; then UnlockFile of n1 gives up
    the record lock and never returns, and neither does LockFile of n3. *)
Theorem C114_other_names_undisturbed_refuted :
  exists ino n1 n2 n3 l rs, lexec ino l0
      [LStep (ALock 0 n1 (inl 3%Z)); LStep (AStep 0 0); LStep (AStep 0 0);     (* OK *)
       LStep (ALock 0 n2 (inl 4%Z)); LThrowInsert 1;
       LStep (AUnlock 0); LStep (AStep 2 0);                                    (* in UnlockFile, line 665 *)
       LStep (ALock 0 n3 (inl 5%Z))] = Some (l, rs) /\
    rs = [LMore; LMore; LRet SOk; LMore; LExc; LMore; LMore; LMore] /\ lreach ino (fun _ => []) anything l /\ ino n1 <> ino n2 /\ ino n1 <> ino n3 /\ ino n2 <> ino n3 /\
    g_lock (l_g l) (ino n1) = None /\
    (forall acts l', lsteps ino (fun _ => []) anything l acts l' ->
       aget (g_ops (l_g l')) 2 = Some (PRemove (mk_lock 0 3 n1)) /\ lock_waiting l' 3 0 n3).
Proof.
  set (ino := fun n : str => List.length n).
  destruct (lexec ino l0 [LStep (ALock 0 [97%N] (inl 3%Z)); LStep (AStep 0 0); LStep (AStep 0 0); LStep (ALock 0 [97%N; 97%N] (inl 4%Z)); LThrowInsert 1; LStep (AUnlock 0); LStep (AStep 2 0); LStep (ALock 0 [97%N; 97%N; 97%N] (inl 5%Z))]) as [[l rs]|] eqn:E; [|vm_compute in E; discriminate].
  exists ino, [97%N], [97%N; 97%N], [97%N; 97%N; 97%N], l, rs. split; [exact E|]. split; [vm_compute in E; injection E as _ <-; reflexivity|].
  assert (R : lreach ino (fun _ => []) anything l) by (eexists; eapply lexec_steps; exact E). split; [exact R|]. do 3 (split; [discriminate|]).
  assert (V : g_lock (l_g l) (ino [97%N]) = None /\ l_stuck l 0 = true /\ aget (g_ops (l_g l)) 2 = Some (PRemove (mk_lock 0 3 [97%N])) /\ aget (g_ops (l_g l)) 3 = Some (PInsert 0 [97%N; 97%N; 97%N] 5%Z) /\ l_over l = [1] /\ g_next (l_g l) = 4).
  { vm_compute in E. injection E as <- _. repeat split. }
  clear E. destruct V as (V1 & V2 & V3 & V4 & V5 & V6). split; [exact V1|]. intros acts l' S.
  destruct (C114_stuck_table_blocks_every_call _ _ _ _ _ _ R V2 S) as (_ & _ & K & _).
  split; [apply K; [exact V3|reflexivity]|]. exists 5%Z. split; [apply K; [exact V4|reflexivity]|].
  assert (Q : ~ In 3 (l_over l') /\ l_stuck l' 0 = true /\ aget (g_ops (l_g l')) 3 = Some (PInsert 0 [97%N; 97%N; 97%N] 5%Z)); [|apply Q].
  eapply (lsteps_ind' ino (fun _ => []) anything (fun x => ~ In 3 (l_over x) /\ l_stuck x 0 = true /\ aget (g_ops (l_g x)) 3 = Some (PInsert 0 [97%N; 97%N; 97%N] 5%Z))); [exact R|rewrite V5; split; [intros [X|[]]; discriminate X|auto]| |exact S].
  intros l1 a l2 r R1 (A & B & C) _ E1. split; [|split; [eapply stuck_keep; eauto|]].
  - destruct a as [b|jd|jd]; cbn [lstep] in E1.
    + destruct (match b with ALock _ _ _ => _ | _ => _ end); [discriminate|]. destruct (gstep ino (fun _ => []) (l_g l1) b) as [[g' q]|]; [|discriminate]. injection E1 as <- _. exact A.
    + destruct (memb jd (l_over l1)); [discriminate|]. destruct (aget (g_ops (l_g l1)) jd) as [[p n f|p n f|p n f|p n f e|p n e|i o|o|o]|] eqn:Ej; try discriminate. destruct (l_stuck l1 p || t_has (g_table (l_g l1) p) n) eqn:Eo; [discriminate|]. injection E1 as <- _. cbn [l_over In].
      intros [X|X]; [|contradiction]. subst jd. rewrite C in Ej. injection Ej as <- <- <-. rewrite B in Eo. discriminate.
    + destruct (aget (g_ops (l_g l1)) jd) as [[]|]; try discriminate. destruct (gstep ino (fun _ => []) (l_g l1) (AStep jd 0)) as [[g' [[]|]]|]; try discriminate. injection E1 as <- _. exact A.
  - assert (S1 : lsteps ino (fun _ => []) anything l1 [a] l2) by (econstructor; [destruct a; exact Logic.I|exact E1|constructor]).
    destruct (C114_stuck_table_blocks_every_call _ _ _ _ _ _ R1 B S1) as (_ & _ & K' & _). apply K'; [exact C|reflexivity].
Qed.
Print Assumptions C114_other_names_undisturbed_refuted.
