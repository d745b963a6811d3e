(** FileLockProps.v -- C64, C65: LockFile and UnlockFile. *)
From Coq Require Import String List Arith NArith ZArith Lia Bool Permutation.
From Verif Require Import Outcome Status MemEnv PosixOs FileLock FileLockSpec FileLockProofs.
Import ListNotations.

Lemma nodup_app_in {A} (l m : list A) x : NoDup (l ++ m) -> In x l -> In x m -> False.
Proof.
  induction l as [|y l IH]; cbn [app In]; [easy|]. intros N [->|H] Hm; apply NoDup_cons_iff in N as (N1 & N2); [|eauto]. apply N1. apply in_or_app. auto.
Qed.
Lemma nodup_map_inj {A B} (f : A -> B) l x y : NoDup (map f l) -> In x l -> In y l -> f x = f y -> x = y.
Proof.
  induction l as [|z l IH]; cbn [map In]; [easy|]. intros N Hx Hy E. apply NoDup_cons_iff in N as (N1 & N2).
  destruct Hx as [->|Hx], Hy as [->|Hy]; auto.
  - exfalso. apply N1. rewrite E. now apply in_map.
  - exfalso. apply N1. rewrite <- E. now apply in_map.
Qed.

(** ** C64 *)
(** Every interleaving: a process has at most one lock on a name. *)
Theorem C64_at_most_one_holder :
  forall ino strerror g p name id1 fd1 id2 fd2, greach ino strerror anything g ->
    In (id1, mk_lock p fd1 name) (g_live g) -> In (id2, mk_lock p fd2 name) (g_live g) -> id1 = id2 /\ fd1 = fd2.
Proof.
  intros ino strerror g p name id1 fd1 id2 fd2 R H1 H2. apply ginv in R as I. pose proof (gi_dup _ g I) as N. unfold claims in N. apply nd_app_l in N.
  pose proof (nodup_map_inj _ _ _ _ N H1 H2 eq_refl) as E. injection E as -> ->. auto.
Qed.
Print Assumptions C64_at_most_one_holder.

(** No LockFile returns OK while a lock on that name is out, or is being given
    back but still in the table. *)
Theorem C64_granted_only_if_free :
  forall ino strerror g id p name fd ans g', greach ino strerror anything g -> In (id, PSetlk p name fd) (g_ops g) ->
    gstep ino strerror g (AStep id ans) = Some (g', Some SOk) -> ~ busy g p name /\ holds g' p name.
Proof.
  intros ino strerror g id p name fd ans g' R Hop E. apply ginv in R as I.
  pose proof (aget_spec _ _ _ (ops_dup ino g I) Hop) as Eg. cbn [gstep] in E. rewrite Eg in E.
  destruct (op_perm ino g id _ I Eg) as (_ & Pc & _). pose proof (Permutation_NoDup Pc (gi_dup _ g I)) as N. cbn [op_claim app] in N.
  apply NoDup_cons_iff in N as (N & _). pose proof (adel_perm _ _ _ (ops_dup ino g I) Eg) as Po. split.
  - intros (i & f & H). apply N. apply in_or_app. destruct H as [H|[(l & H)|H]].
    + right. apply in_map_iff. eexists. split; [|exact H]. reflexivity.
    + left. apply (Permutation_in _ Po) in H as [H|H]; [discriminate|]. apply in_flat_map. eexists. split; [exact H|]. left. reflexivity.
    + left. apply (Permutation_in _ Po) in H as [H|H]; [discriminate|]. apply in_flat_map. eexists. split; [exact H|]. left. reflexivity.
  - cbn [op_step] in E. destruct (file_of (g_fds g) p fd); [|discriminate]. destruct (match g_lock g n with Some q => negb (q =? p) | None => false end); [destruct (Z.eqb ans 0); discriminate|].
    destruct (Z.eqb ans 0); [|discriminate]. injection E as <-. exists id, fd. left. reflexivity.
Qed.
Print Assumptions C64_granted_only_if_free.

(** A LockFile on a name that is taken fails with IOError, whatever happens in
    between, and changes neither the table nor any lock object. *)
Theorem C64_second_lock_fails :
  forall ino strerror g id p name fd ans g1 r1 g2 ans2 g3 r3, greach ino strerror anything g -> In (id, PInsert p name fd) (g_ops g) -> busy g p name ->
    gstep ino strerror g (AStep id ans) = Some (g1, r1) -> others ino strerror id g1 g2 -> gstep ino strerror g2 (AStep id ans2) = Some (g3, r3) ->
    r1 = None /\ g_table g1 = g_table g /\ g_live g1 = g_live g /\
    r3 = Some (SErr IOError (msg_lock name) held_by_process) /\ g_table g3 = g_table g2 /\ g_live g3 = g_live g2 /\ ~ In id (map fst (g_ops g3)).
Proof.
  intros ino strerror g id p name fd ans g1 r1 g2 ans2 g3 r3 R Hop B E1 O E3. apply ginv in R as I.
  pose proof (aget_spec _ _ _ (ops_dup ino g I) Hop) as Eg. cbn [gstep] in E1. rewrite Eg in E1. cbn [op_step] in E1.
  assert (Hin : In name (g_table g p)).
  { apply (gi_table _ g I). unfold claims. apply in_or_app. destruct B as (i & f & [H|[(l & H)|H]]).
    - right. apply in_map_iff. eexists. split; [|exact H]. reflexivity.
    - left. apply in_flat_map. eexists. split; [exact H|]. left. reflexivity.
    - left. apply in_flat_map. eexists. split; [exact H|]. left. reflexivity. }
  apply t_has_in in Hin. rewrite Hin in E1. injection E1 as E1 <-. subst g1.
  assert (R1 : greach ino strerror anything (set_ops g ((id, PReject p name fd) :: adel (g_ops g) id))).
  { eapply (gr_step ino strerror anything g (AStep id ans)); [exact R|exact Logic.I|]. cbn [gstep]. rewrite Eg. cbn [op_step]. rewrite Hin. reflexivity. }
  split; [reflexivity|]. split; [reflexivity|]. split; [reflexivity|].
  assert (K : greach ino strerror anything g2 /\ In (id, PReject p name fd) (g_ops g2)).
  { clear E3. remember (set_ops g ((id, PReject p name fd) :: adel (g_ops g) id)) as gs eqn:Egs.
    assert (Hs : In (id, PReject p name fd) (g_ops gs)) by (subst gs; left; reflexivity). clear - R1 O Hs.
    induction O as [gs|gs ga a gb r O IH Ha E]; [auto|]. destruct (IH R1 Hs) as (Ra & Ia). split; [eapply gr_step; [exact Ra|exact Logic.I|exact E]|].
    apply ginv in Ra as I. pose proof (aget_spec _ _ _ (ops_dup ino ga I) Ia) as Eg.
    destruct a as [q n w|lid|id' ans']; cbn [gstep] in E.
    - destruct w as [f|err]; cbn [start_lock] in E; [destruct (_ || _); [discriminate|]|]; injection E as <- _; cbn [g_ops]; [right; exact Ia|exact Ia].
    - unfold start_unlock in E. destruct (aget (g_live ga) lid); [|discriminate]. injection E as <- _. right. exact Ia.
    - assert (Hne : id' <> id). { intros ->. now apply (Ha ans'). }
      assert (Hk : In (id, PReject p name fd) (adel (g_ops ga) id')).
      { unfold adel. apply filter_In. split; [exact Ia|]. cbn [fst]. apply negb_true_iff, Nat.eqb_neq. auto. }
      destruct (aget (g_ops ga) id') as [c|]; [|discriminate]. destruct c; cbn [op_step] in E; unfold k_close, set_ops in E;
        repeat match type of E with
        | context [if ?b then _ else _] => destruct b
        | context [match file_of ?x ?y ?z with _ => _ end] => destruct (file_of x y z)
        end; try discriminate; injection E as <- _; cbn [g_ops In]; auto. }
  destruct K as (R2 & I2). apply ginv in R2 as J. pose proof (aget_spec _ _ _ (ops_dup ino g2 J) I2) as Eg2. cbn [gstep] in E3. rewrite Eg2 in E3. cbn [op_step] in E3.
  destruct (k_close g2 p fd) as [fds lk] eqn:Ek. injection E3 as <- <-. cbn [g_table g_live g_ops]. split; [reflexivity|]. split; [reflexivity|]. split; [reflexivity|].
  intros H. apply in_map_iff in H as ([i c] & Ei & H). cbn [fst] in Ei. subst i. unfold adel in H. apply filter_In in H as (_ & H). cbn [fst] in H. now rewrite Nat.eqb_refl in H.
Qed.
Print Assumptions C64_second_lock_fails.

(** UnlockFile that succeeds takes the name out of the table ... *)
Theorem C64_unlock_frees_the_name :
  forall ino strerror g id o ans g' r, greach ino strerror anything g -> In (id, PRemove o) (g_ops g) ->
    gstep ino strerror g (AStep id ans) = Some (g', r) ->
    ~ busy g' (lk_proc o) (lk_name o) /\ ~ In (lk_name o) (g_table g' (lk_proc o)).
Proof.
  intros ino strerror g id o ans g' r R Hop E. assert (R' : greach ino strerror anything g') by (eapply gr_step; [exact R|exact Logic.I|exact E]).
  apply ginv in R as I. apply ginv in R' as I'. pose proof (aget_spec _ _ _ (ops_dup ino g I) Hop) as Eg. cbn [gstep] in E. rewrite Eg in E. cbn [op_step] in E. injection E as E _.
  assert (N : ~ In (lk_name o) (g_table g' (lk_proc o))). { rewrite <- E. cbn [g_table]. rewrite fupd_eq, t_erase_in. tauto. }
  split; [|exact N]. intros B. apply N. apply (gi_table _ g' I'). unfold claims. apply in_or_app. destruct B as (i & f & [H|[(l & H)|H]]).
  - right. apply in_map_iff. eexists. split; [|exact H]. reflexivity.
  - left. apply in_flat_map. eexists. split; [exact H|]. left. reflexivity.
  - left. apply in_flat_map. eexists. split; [exact H|]. left. reflexivity.
Qed.
Print Assumptions C64_unlock_frees_the_name.

(** ... and a name not in the table can be locked: the call, undisturbed, returns OK
    when open() and fcntl() succeed. *)
Theorem C64_free_name_can_be_locked :
  forall ino strerror g p name fd, greach ino strerror anything g -> ~ In name (g_table g p) -> (0 <= fd)%Z -> fd_used (g_fds g) p fd = false ->
    (g_lock g (ino name) = None \/ g_lock g (ino name) = Some p) ->
    exists g', gexec ino strerror g [ALock p name (inl fd); AStep (g_next g) 0; AStep (g_next g) 0] = Some (g', [None; None; Some SOk]) /\
      holds g' p name /\ g_lock g' (ino name) = Some p.
Proof.
  intros ino strerror g p name fd R Hn Hfd Hu Hl. cbn [gexec gstep start_lock]. apply Z.ltb_ge in Hfd as Hfd'. rewrite Hfd', Hu. cbn [orb g_ops aget]. rewrite Nat.eqb_refl. cbn [op_step g_table].
  assert (Et : t_has (g_table g p) name = false). { destruct (t_has (g_table g p) name) eqn:E; [|reflexivity]. apply t_has_in in E. contradiction. }
  rewrite Et. cbn [g_ops aget]. rewrite Nat.eqb_refl. cbn [op_step g_fds g_lock]. unfold file_of. cbn [find fst snd]. rewrite Nat.eqb_refl, Z.eqb_refl. cbn [andb snd].
  assert (Ec : match g_lock g (ino name) with Some q => negb (q =? p) | None => false end = false).
  { destruct Hl as [->| ->]; [reflexivity|]. now rewrite Nat.eqb_refl. }
  rewrite Ec. cbn [Z.eqb]. eexists. split; [reflexivity|]. split; [exists (g_next g), fd; left; reflexivity|]. cbn [g_lock]. apply fupd_eq.
Qed.
Print Assumptions C64_free_name_can_be_locked.

(** An UnlockFile that fails leaves the lock held. *)
Theorem C64_failed_unlock_keeps_the_lock :
  forall ino strerror g id lid o ans g' r, greach ino strerror anything g -> In (id, PUnlk lid o) (g_ops g) ->
    gstep ino strerror g (AStep id ans) = Some (g', Some r) -> r <> SOk /\ holds g' (lk_proc o) (lk_name o) /\ g_table g' = g_table g /\ g_lock g' = g_lock g.
Proof.
  intros ino strerror g id lid o ans g' r R Hop E. apply ginv in R as I. pose proof (aget_spec _ _ _ (ops_dup ino g I) Hop) as Eg. cbn [gstep] in E. rewrite Eg in E. cbn [op_step] in E.
  destruct (Z.eqb ans 0); [destruct (file_of _ _ _); discriminate|]. injection E as <- <-.
  split; [unfold PosixError; destruct (_ =? _)%Z; discriminate|]. split; [|split; reflexivity]. destruct o as [p fd n]. exists lid, fd. left. reflexivity.
Qed.
Print Assumptions C64_failed_unlock_keeps_the_lock.

(** With no call under way the descriptors open are exactly those of the lock
    objects, each one's own. *)
Theorem C64_descriptors :
  forall ino strerror g, greach ino strerror anything g -> g_ops g = [] ->
    Permutation (g_fds g) (map (fun x => (lk_proc (snd x), lk_fd (snd x), ino (lk_name (snd x)))) (g_live g)) /\ NoDup (map fst (g_fds g)).
Proof.
  intros ino strerror g R E. apply ginv in R as I. pose proof (gi_fds _ g I) as F. unfold owned in F. rewrite E in F. split; [exact F|]. apply (gi_fdup _ g I).
Qed.
Print Assumptions C64_descriptors.

(** Names are compared as strings: another name of the same file is a different
    lock. *)
Theorem C64_other_name_refuted :
  exists ino strerror g p n1 n2, greach ino strerror anything g /\ n1 <> n2 /\ ino n1 = ino n2 /\ holds g p n1 /\ holds g p n2.
Proof.
  destruct (gexec (fun _ => 7) (fun _ => []) g0 [ALock 0 [97%N] (inl 3%Z); AStep 0 0; AStep 0 0; ALock 0 [46; 47; 97]%N (inl 4%Z); AStep 1 0; AStep 1 0]) as [[g rs]|] eqn:E; [|vm_compute in E; discriminate].
  exists (fun _ => 7), (fun _ => []), g, 0, [97%N], [46; 47; 97]%N. split; [apply (gexec_reach _ _ _ _ _ _ (gr_start _ _ _) E)|].
  split; [discriminate|]. split; [reflexivity|]. vm_compute in E. injection E as <- _. split.
  - exists 0, 3%Z. right. left. reflexivity.
  - exists 1, 4%Z. left. reflexivity.
Qed.
Print Assumptions C64_other_name_refuted.

(** ** C65 *)
(** Processes that never touch a lock file they have open: at most one process in
    the system holds the lock of a file, under whatever name. *)
Theorem C65_excludes_other_processes :
  forall ino strerror g p n1 q n2, greach ino strerror (one_descriptor ino) g ->
    holds g p n1 -> holds g q n2 -> ino n1 = ino n2 -> p = q /\ n1 = n2.
Proof.
  intros ino strerror g p n1 q n2 R (i1 & f1 & H1) (i2 & f2 & H2) E. pose proof (dinv _ _ _ R) as [One Lk]. apply ginv in R as I.
  assert (Ep : p = q).
  { assert (A := Lk (mk_lock p f1 n1)). assert (B := Lk (mk_lock q f2 n2)). specialize (A ltac:(left; eauto)). specialize (B ltac:(left; eauto)). cbn [lk_name lk_proc] in A, B. rewrite E in A. congruence. }
  split; [exact Ep|]. subst q. apply (Permutation_NoDup (Permutation_map pi (gi_fds _ g I))) in One. unfold owned in One. rewrite map_app, map_map in One. apply nd_app_l in One.
  assert (Q : pi (lk_proc (snd (i1, mk_lock p f1 n1)), lk_fd (snd (i1, mk_lock p f1 n1)), ino (lk_name (snd (i1, mk_lock p f1 n1)))) =
              pi (lk_proc (snd (i2, mk_lock p f2 n2)), lk_fd (snd (i2, mk_lock p f2 n2)), ino (lk_name (snd (i2, mk_lock p f2 n2))))).
  { unfold pi. cbn [fst snd lk_proc lk_fd lk_name]. now rewrite E. }
  pose proof (nodup_map_inj _ _ _ _ One H1 H2 Q) as X. now injection X.
Qed.
Print Assumptions C65_excludes_other_processes.

(** In particular no other process's LockFile on the file succeeds meanwhile. *)
Theorem C65_no_other_success :
  forall ino strerror g p n1 a g' r q n2, greach ino strerror (one_descriptor ino) g -> holds g p n1 -> one_descriptor ino g a ->
    gstep ino strerror g a = Some (g', r) -> holds g' p n1 -> ino n1 = ino n2 -> q <> p -> ~ holds g' q n2.
Proof.
  intros ino strerror g p n1 a g' r q n2 R _ A E H' Ei Hq H2.
  assert (R' : greach ino strerror (one_descriptor ino) g') by (eapply gr_step; eauto).
  destruct (C65_excludes_other_processes _ _ _ _ _ _ _ R' H' H2 Ei). congruence.
Qed.
Print Assumptions C65_no_other_success.

(** In general it is false.  Process 0 has the lock; a second LockFile in process 0
    is refused, which closes a descriptor of the file and so drops the record
    lock; process 1 then gets the lock too. *)
Theorem C65_second_attempt_refuted :
  exists ino strerror g n rs, gexec ino strerror g0
      [ALock 0 n (inl 3%Z); AStep 0 0; AStep 0 0;          (* process 0: OK *)
       ALock 0 n (inl 4%Z); AStep 1 0; AStep 1 0;          (* process 0 again: IOError *)
       ALock 1 n (inl 3%Z); AStep 2 0; AStep 2 0]          (* process 1: OK *)
    = Some (g, rs) /\ greach ino strerror anything g /\ holds g 0 n /\ holds g 1 n /\
    rs = [None; None; Some SOk; None; None; Some (SErr IOError (msg_lock n) held_by_process); None; None; Some SOk].
Proof.
  exists (fun _ => 7), (fun _ => []).
  destruct (gexec (fun _ => 7) (fun _ => []) g0 [ALock 0 [97%N] (inl 3%Z); AStep 0 0; AStep 0 0; ALock 0 [97%N] (inl 4%Z); AStep 1 0; AStep 1 0; ALock 1 [97%N] (inl 3%Z); AStep 2 0; AStep 2 0]) as [[g rs]|] eqn:E; [|vm_compute in E; discriminate].
  exists g, [97%N], rs. split; [exact E|]. split; [apply (gexec_reach _ _ _ _ _ _ (gr_start _ _ _) E)|].
  vm_compute in E. injection E as <- <-. split; [exists 0, 3%Z; right; left; reflexivity|]. split; [exists 2, 3%Z; left; reflexivity|]. reflexivity.
Qed.
Print Assumptions C65_second_attempt_refuted.

(** Nor need anyone fail: one thread of process 0 is in UnlockFile, after taking
    the name out of the table; another thread locks the file again; then the
    first closes its descriptor, which drops the new lock. *)
Theorem C65_unlock_race_refuted :
  exists ino strerror g n rs, gexec ino strerror g0
      [ALock 0 n (inl 3%Z); AStep 0 0; AStep 0 0;          (* OK *)
       AUnlock 0; AStep 1 0; AStep 1 0;                    (* UnlockFile, before close() *)
       ALock 0 n (inl 4%Z); AStep 2 0; AStep 2 0;          (* OK *)
       AStep 1 0;                                          (* close(): UnlockFile returns OK *)
       ALock 1 n (inl 3%Z); AStep 3 0; AStep 3 0]          (* process 1: OK *)
    = Some (g, rs) /\ greach ino strerror anything g /\ holds g 0 n /\ holds g 1 n /\ (forall s, In (Some s) rs -> s = SOk).
Proof.
  exists (fun _ => 7), (fun _ => []).
  destruct (gexec (fun _ => 7) (fun _ => []) g0 [ALock 0 [97%N] (inl 3%Z); AStep 0 0; AStep 0 0; AUnlock 0; AStep 1 0; AStep 1 0; ALock 0 [97%N] (inl 4%Z); AStep 2 0; AStep 2 0; AStep 1 0; ALock 1 [97%N] (inl 3%Z); AStep 3 0; AStep 3 0]) as [[g rs]|] eqn:E; [|vm_compute in E; discriminate].
  exists g, [97%N], rs. split; [exact E|]. split; [apply (gexec_reach _ _ _ _ _ _ (gr_start _ _ _) E)|].
  vm_compute in E. injection E as <- <-. split; [exists 2, 4%Z; right; left; reflexivity|]. split; [exists 3, 3%Z; left; reflexivity|].
  cbn [In]. intros s H. repeat (destruct H as [H|H]; [congruence|]). destruct H.
Qed.
Print Assumptions C65_unlock_race_refuted.

(** The hypotheses of C65_excludes_other_processes are met by two processes that
    contend for a file: 0 gets it, 1 is refused by the kernel. *)
Fixpoint dexec ino (g : gstate) (acts : list act) : option gstate :=
  match acts with
  | [] => Some g
  | a :: acts' =>
      if match a with ALock p n _ => existsb (fun x => (fst (fst x) =? p) && (snd x =? ino n)) (g_fds g) | _ => false end then None
      else match gstep ino (fun _ => []) g a with Some (g', _) => dexec ino g' acts' | None => None end
  end.
Lemma dexec_reach ino acts : forall g g', greach ino (fun _ => []) (one_descriptor ino) g -> dexec ino g acts = Some g' -> greach ino (fun _ => []) (one_descriptor ino) g'.
Proof.
  induction acts as [|a acts IH]; intros g g' R E; cbn [dexec] in E; [injection E as <-; exact R|].
  destruct (match a with ALock p n _ => existsb (fun x => (fst (fst x) =? p) && (snd x =? ino n)) (g_fds g) | _ => false end) eqn:Ea; [discriminate|].
  destruct (gstep ino (fun _ => []) g a) as [[g1 r]|] eqn:Es; [|discriminate]. apply (IH g1 g'); [|exact E].
  apply (gr_step ino _ _ g a g1 r R); [|exact Es]. destruct a as [p n w| |]; cbn [one_descriptor]; auto. intros fd H.
  assert (X : existsb (fun x => (fst (fst x) =? p) && (snd x =? ino n)) (g_fds g) = true).
  { apply existsb_exists. exists (p, fd, ino n). split; [exact H|]. cbn [fst snd]. now rewrite !Nat.eqb_refl. }
  congruence.
Qed.
Example C65_example : exists g, greach (fun _ => 7) (fun _ => []) (one_descriptor (fun _ => 7)) g /\ holds g 0 [97%N] /\ length (g_fds g) = 1 /\ g_next g = 2.
Proof.
  destruct (dexec (fun _ => 7) g0 [ALock 0 [97%N] (inl 3%Z); AStep 0 0; AStep 0 0; ALock 1 [97%N] (inl 3%Z); AStep 1 0; AStep 1 11; AStep 1 0; AStep 1 0]) as [g|] eqn:E; [|vm_compute in E; discriminate].
  exists g. split; [apply (dexec_reach _ _ _ _ (gr_start _ _ _) E)|]. vm_compute in E. injection E as <-. split; [exists 0, 3%Z; left; reflexivity|]. split; reflexivity.
Qed.
