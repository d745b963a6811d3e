(** PosixConcDirProps.v -- C100: what GetChildren returns while other threads create,
    rename and remove files.

    The executions are those of PosixConc.v: any number of threads, any order of
    their system calls, any answers of a POSIX file system. *)
From Coq Require Import List Arith NArith ZArith Lia Bool Permutation.
From Verif Require Import Outcome Status MemEnv PosixOs PosixWritable PosixRead PosixEnv PosixFs PosixEnvSpec PosixConc PosixConcSpec PosixConcSafe PosixConcHeld PosixConcInv PosixConcProofs PosixConcTrace PosixConcFacts PosixConcReads PosixConcWriteSpec PosixConcWr PosixConcWrites PosixConcFiles PosixConcSaved PosixConcObj PosixConcStreamSpec PosixConcStream PosixConcDirSpec PosixConcDir PosixConcProps PosixConcWriteProps.
Import ListNotations.

Section Props.
  Variable dbg : bool.
  Variable B : nat.
  Variable strerror : Z -> str.
  (** the files, the slots and the number of threads at the start; open descriptors
      are not negative *)
  Variables (v0 : view) (lim0 : limits) (m : nat).
  Hypothesis fds_sane : forall fd, v_fd v0 fd <> None -> (0 <= fd)%Z.
  Notation runs := (cruns dbg B strerror v0 lim0 m).

  Lemma not_found_errno ctx e : not_found (PosixOs.PosixError strerror ctx e) -> e = ENOENT.
  Proof. unfold PosixOs.PosixError. destruct (Z.eqb_spec e ENOENT); [auto|intros []]. Qed.

  (** What a GetChildren that has returned did. *)
  Lemma returned tr cf n d st L : runs tr cf -> call_no tr n = Some (PChildren d) -> ended tr n = Some (RNames st L) ->
    (exists a, acts tr n = [(COpendir d, a)] /\ a_val a = 0%N /\ st = PosixOs.PosixError strerror d (a_errno a) /\ L = []) \/
    (st = SOk /\ exists l1 ac w1 later a0 w0 earlier reads last, tr = l1 ++ (Act n (CClosedir (a_val a0)) ac, w1) :: later ++ (Act n (COpendir d) a0, w0) :: earlier /\
      a_val a0 <> 0%N /\ call_no earlier n = Some (PChildren d) /\ acts later n = dir_reads (a_val a0) reads ++ [(CReaddir (a_val a0), last)] /\ a_ret last = 0%Z /\
      (forall a, In a reads -> a_ret a <> 0%Z) /\ L = map a_data reads).
  Proof.
    intros R C E. destruct (finished dbg B strerror v0 lim0 m fds_sane _ _ _ _ R E) as (later & v & earlier & cf0 & x & fuel & o & ob & q & Et & R0 & Cn & Ip & P & Ea & Er & _).
    assert (x = PChildren d). { pose proof (call_later dbg B strerror v0 lim0 m fds_sane (later ++ [(End n (RNames st L), v)]) earlier cf n x) as X. rewrite <- app_assoc in X. cbn [app] in X. rewrite <- Et in X. specialize (X R Cn). congruence. } subst x.
    destruct (children_path _ _ _ _ _ _ _ _ _ P) as [(a & El & Z & ->)|(a0 & reads & last & ac & El & Z & La & Rd & ->)]; cbn [observe] in Er; injection Er as -> ->.
    - left. exists a. auto.
    - right. split; [reflexivity|]. clear Et earlier later v cf0 R0 Cn Ip Ea P.
      assert (El' : acts tr n = ((COpendir d, a0) :: dir_reads (a_val a0) reads ++ [(CReaddir (a_val a0), last)]) ++ (CClosedir (a_val a0), ac) :: []) by (rewrite El; cbn [app]; rewrite <- app_assoc; reflexivity).
      destruct (acts_nth _ _ _ _ _ _ El') as (l1 & w1 & l2 & -> & E2). change ((COpendir d, a0) :: dir_reads (a_val a0) reads ++ [(CReaddir (a_val a0), last)]) with ([] ++ (COpendir d, a0) :: dir_reads (a_val a0) reads ++ [(CReaddir (a_val a0), last)]) in E2.
      destruct (acts_nth _ _ _ _ _ _ E2) as (l3 & w0 & l4 & -> & E4).
      exists l1, ac, w1, l3, a0, w0, l4, reads, last. split; [reflexivity|]. split; [exact Z|]. split.
      + assert (R1 : runs ((l1 ++ (Act n (CClosedir (a_val a0)) ac, w1) :: l3) ++ (Act n (COpendir d) a0, w0) :: l4) cf) by (rewrite <- app_assoc; exact R).
        destruct (act_in_progress dbg B strerror v0 lim0 m fds_sane _ _ _ _ _ _ _ R1) as (X & _). destruct (call_no l4 n) as [y|] eqn:Ey; [|congruence].
        assert (Y : call_no ((l1 ++ (Act n (CClosedir (a_val a0)) ac, w1) :: l3) ++ (Act n (COpendir d) a0, w0) :: l4) n = Some y) by (eapply (call_later dbg B strerror v0 lim0 m fds_sane); [exact R1|exact Ey]).
        rewrite <- app_assoc in Y. cbn [app] in Y. congruence.
      + rewrite acts_more in E2. cbn [acts] in E2. rewrite Nat.eqb_refl, E4 in E2. cbn [app] in E2. split; [congruence|auto].
  Qed.
  (** Moments since the directory was opened are moments of the call. *)
  Lemma moment l1 c a w l2 n x c' a' w' earlier cf : runs (l1 ++ (Act n c a, w) :: l2 ++ (Act n c' a', w') :: earlier) cf -> call_no earlier n = Some x ->
    in_progress (l2 ++ (Act n c' a', w') :: earlier) n /\ forall k1 k2, l2 = k1 ++ k2 -> in_progress (k2 ++ (Act n c' a', w') :: earlier) n.
  Proof.
    intros R C. pose proof (act_in_progress dbg B strerror v0 lim0 m fds_sane _ _ _ _ _ _ _ R) as Ip. split; [exact Ip|]. intros k1 k2 ->. destruct (runs_split _ _ _ _ _ _ _ _ _ _ R) as (cf0 & _ & _ & R0 & _). rewrite <- app_assoc in R0, Ip. split.
    - destruct (runs_prefix dbg B strerror v0 lim0 m _ _ _ R0) as (cf1 & R1). assert (X : call_no (k2 ++ (Act n c' a', w') :: earlier) n = Some x) by (eapply (call_later dbg B strerror v0 lim0 m fds_sane); [exact R1|exact C]). congruence.
    - destruct (ended (k2 ++ (Act n c' a', w') :: earlier) n) as [r|] eqn:Er; [|reflexivity]. pose proof (ended_later dbg B strerror v0 lim0 m fds_sane _ _ _ _ _ R0 Er). destruct Ip as (_ & Ip). congruence.
  Qed.

  (** GetChildren(d) that returns OK: the directory existed at one moment of the call;
      every name returned is "." or ".." or was in the directory at one moment of
      the call; and, unless a readdir() failed, "." and ".." and every name that was
      in the directory all the time are returned exactly once. *)
  Theorem C100_children tr cf n d L :
    runs tr cf -> call_no tr n = Some (PChildren d) -> ended tr n = Some (RNames SOk L) ->
    during v0 tr n (fun v => v_name v d <> None) /\
    (forall g, In g L -> dots g \/ during v0 tr n (fun v => child v d g)) /\
    (readdir_never_failed tr n -> forall g, dots g \/ throughout v0 tr n (fun v => child v d g) -> count_occ eqs L g = 1).
  Proof.
    intros R C E. destruct (returned _ _ _ _ _ _ R C E) as [(a & _ & _ & X & _)|(_ & l1 & ac & w1 & later & a0 & w0 & earlier & reads & last & -> & Z & Ce & Al & La & Rd & ->)]; [exfalso; symmetry in X; exact (posix_error _ _ _ X)|].
    destruct (moment _ _ _ _ _ _ _ _ _ _ _ _ R Ce) as (Ip & Mo). set (base := (Act n (COpendir d) a0, w0) :: earlier) in *. destruct (runs_split _ _ _ _ _ _ _ _ _ _ R) as (cf0 & _ & _ & R0 & _).
    assert (NC : forall a, ~ In (CClosedir (a_val a0), a) (acts later n)).
    { intros a X. rewrite Al in X. apply in_app_or in X. destruct X as [X|[X|[]]]; [|discriminate X]. unfold dir_reads in X. apply in_map_iff in X. destruct X as (b & X & _). discriminate X. }
    destruct (dinv_runs dbg B strerror v0 lim0 m fds_sane n d a0 w0 earlier Ce Z later cf0 R0 NC) as [_ _ _ D1 D2 D3].
    assert (Li : listed (a_val a0) (acts later n) = map a_data reads).
    { rewrite Al, listed_app, (listed_reads _ _ Rd). cbn [listed flat_map]. unfold one_name. cbn [fst snd]. rewrite La. cbn [Z.eqb negb]. rewrite andb_false_r. apply app_nil_r. }
    rewrite Li in *. split; [|split].
    - destruct (runs_prefix dbg B strerror v0 lim0 m later base _ R0) as (cf1 & R1). change base with ([] ++ base) in R1. destruct (act_step dbg B strerror v0 lim0 m fds_sane _ _ _ _ _ _ _ R1) as (_ & _ & _ & _ & _ & _ & K).
      pose proof (act_in_progress dbg B strerror v0 lim0 m fds_sane _ _ _ _ _ _ _ R1) as Ie. exists (l1 ++ (Act n (CClosedir (a_val a0)) ac, w1) :: later ++ [(Act n (COpendir d) a0, w0)]), earlier.
      split; [rewrite <- app_assoc; cbn [app]; rewrite <- app_assoc; reflexivity|]. split; [exact Ie|]. inversion K; try discriminate; congruence.
    - intros g X. destruct (D1 g X) as [Y|(k1 & k2 & -> & Y)]; [auto|]. right. exists (l1 ++ (Act n (CClosedir (a_val a0)) ac, w1) :: k1), (k2 ++ base).
      split; [rewrite <- !app_assoc; reflexivity|]. split; [exact (Mo _ _ eq_refl)|exact Y].
    - intros NF g X.
      assert (X' : dots g \/ always v0 n d a0 w0 earlier later g).
      { destruct X as [X|X]; [auto|]. right. intros k1 k2 Ek. apply (X (l1 ++ (Act n (CClosedir (a_val a0)) ac, w1) :: k1)); [rewrite <- app_assoc; cbn [app]; rewrite Ek, <- app_assoc; reflexivity|exact (Mo _ _ Ek)]. }
      assert (Er : a_errno last = 0%Z). { apply (NF (a_val a0)); [|exact La]. rewrite acts_more. apply in_or_app. left. cbn [acts]. rewrite Nat.eqb_refl. apply in_or_app. left. rewrite acts_more. apply in_or_app. right. rewrite Al. apply in_or_app. right. left. reflexivity. }
      pose proof (D2 g X') as Le. pose proof (D3 _ _ Al La Er g X') as I0. apply (count_occ_In eqs) in I0. lia.
  Qed.
  (** GetChildren(d) that does not return OK returns no names, and NotFound means
      that d did not exist at one moment of the call. *)
  Theorem C100_error tr cf n d st L :
    runs tr cf -> call_no tr n = Some (PChildren d) -> ended tr n = Some (RNames st L) -> st <> SOk ->
    L = [] /\ (not_found st -> during v0 tr n (fun v => v_name v d = None)).
  Proof.
    intros R C E N. destruct (returned _ _ _ _ _ _ R C E) as [(a & El & Z & -> & ->)|(-> & _)]; [|contradiction]. split; [reflexivity|]. intros Nf. apply not_found_errno in Nf.
    change [(COpendir d, a)] with ([] ++ (COpendir d, a) :: []) in El. destruct (acts_nth _ _ _ _ _ _ El) as (l1 & w & l2 & -> & _).
    destruct (act_step dbg B strerror v0 lim0 m fds_sane _ _ _ _ _ _ _ R) as (_ & _ & _ & _ & _ & _ & K). pose proof (act_in_progress dbg B strerror v0 lim0 m fds_sane _ _ _ _ _ _ _ R) as Ip.
    exists (l1 ++ [(Act n (COpendir d) a, w)]), l2. split; [rewrite <- app_assoc; reflexivity|]. split; [exact Ip|]. inversion K; try discriminate; try contradiction; auto.
  Qed.
End Props.
Print Assumptions C100_children.
Print Assumptions C100_error.

(** ** A concrete execution: thread 0 lists the directory, and while it does so
    thread 1 removes a and makes the directory c. *)
Definition fc : str := [99%N].
Definition dst (l : list str) : option dstream := Some (mk_dstream dot 0 l).
Definition dv1 := with_dir ex_v0 5 (dst []).
Definition dv2 := with_dir dv1 5 (dst [fa]).
Definition dv3 := with_name dv2 fa None.
Definition dv4 := create dv3 fc.
Definition dv5 := with_dir dv4 5 (dst [fa; dot]).
Definition dv6 := with_dir dv5 5 (dst [fa; dot; fc]).
Definition dv7 := with_dir dv6 5 (dst [fa; dot; fc; dot ++ dot]).
Definition dv8 := with_dir dv7 5 (dst [fa; dot; fc; dot ++ dot; fb]).
Definition dv9 := with_dir dv8 5 None.
Definition d_tr : trace :=
  [(End 0 (RNames SOk [fa; dot; fc; dot ++ dot; fb]), dv9); (Act 0 (CClosedir 5) (ans 0 [] 0), dv9); (Act 0 (CReaddir 5) (ans 0 [] 0), dv8);
   (Act 0 (CReaddir 5) (ans 1 fb 0), dv8); (Act 0 (CReaddir 5) (ans 1 (dot ++ dot) 0), dv7); (Act 0 (CReaddir 5) (ans 1 fc 0), dv6);
   (Act 0 (CReaddir 5) (ans 1 dot 0), dv5);
   (End 2 (RStat SOk), dv4); (Act 2 (CMkdir fc) (ans 0 [] 0), dv4); (Beg 2 (PMkDir fc), dv3);
   (End 1 (RStat SOk), dv3); (Act 1 (CUnlink fa) (ans 0 [] 0), dv3); (Beg 1 (PRemove fa), dv2);
   (Act 0 (CReaddir 5) (ans 1 fa 0), dv2); (Act 0 (COpendir dot) (ans 0 [] 5), dv1); (Beg 0 (PChildren dot), ex_v0)].
Ltac notin := let X := fresh in intros X; cbn in X; repeat (destruct X as [X|X]; [discriminate X|]); contradiction X.
Lemma noslash g : In g [fa; fb; fc] -> ~ In slash g.
Proof. intros [<-|[<-|[<-|[]]]] [X|[]]; discriminate X. Qed.
Ltac rd v s := refine (k_readdir v 5 _ s _ _ _ _); [discriminate|reflexivity| |notin].
Ltac there v := right; exists (v_name v); split; [left; reflexivity|split; [apply noslash; cbn; tauto|discriminate]].
Lemma d_runs : exists cf, cruns true 4 str0 ex_v0 (mk_limits 0 1) 2 d_tr cf.
Proof.
  pose proof (cr_start true 4 str0 ex_v0 (mk_limits 0 1) 2) as R.
  apply (go_begin _ _ _ _ _ 0 (PChildren dot) 7) in R; [|reflexivity|exact Logic.I]. cf R.
  eapply (go_sys _ _ _ _ _ 0) with (a := ans 0 [] 5) (v' := dv1) in R; [|reflexivity|].
  2:{ refine (k_opendir ex_v0 dot (ans 0 [] 5) [fa; fb; dot] _ _ _ _); [discriminate|reflexivity|discriminate|].
      intros g (_ & X). cbn [dir_prefix] in X. unfold dir_prefix in X. destruct (eqs dot dot) as [_|N]; [|contradiction]. cbn [app v_name ex_v0] in X. destruct (eqs g fa) as [->|]; [left; reflexivity|]. destruct (eqs g fb) as [->|]; [right; left; reflexivity|]. destruct (eqs g dot) as [->|]; [right; right; left; reflexivity|]. contradiction. }
  cf R. cbn [a_val ans N.eqb pread_dir psys pbind] in R.
  eapply (go_sys _ _ _ _ _ 0) with (a := ans 1 fa 0) (v' := dv2) in R; [|reflexivity|rd dv1 (mk_dstream dot 0 []); there dv1]. cf R. cbn [a_ret ans Z.eqb pread_dir psys pbind a_data app] in R.
  apply (go_begin _ _ _ _ _ 1 (PRemove fa) 3) in R; [|reflexivity|exact Logic.I]. cf R.
  eapply (go_sys _ _ _ _ _ 1) with (a := ans 0 [] 0) (v' := dv3) in R; [|reflexivity|refine (k_unlink dv2 fa (ans 0 [] 0) _ _); [reflexivity|discriminate]]. cf R.
  eapply (go_end _ _ _ _ _ 1) in R; [|reflexivity]. cf R.
  apply (go_begin _ _ _ _ _ 1 (PMkDir fc) 3) in R; [|reflexivity|exact Logic.I]. cf R.
  eapply (go_sys _ _ _ _ _ 1) with (a := ans 0 [] 0) (v' := dv4) in R; [|reflexivity|refine (k_mkdir dv3 fc (ans 0 [] 0) _ _ _); [reflexivity|reflexivity|discriminate]]. cf R.
  eapply (go_end _ _ _ _ _ 1) in R; [|reflexivity]. cf R.
  eapply (go_sys _ _ _ _ _ 0) with (a := ans 1 dot 0) (v' := dv5) in R; [|reflexivity|rd dv4 (mk_dstream dot 0 [fa]); left; left; reflexivity]. cf R. cbn [a_ret ans Z.eqb pread_dir psys pbind a_data app] in R.
  eapply (go_sys _ _ _ _ _ 0) with (a := ans 1 fc 0) (v' := dv6) in R; [|reflexivity|rd dv5 (mk_dstream dot 0 [fa; dot]); there dv5]. cf R. cbn [a_ret ans Z.eqb pread_dir psys pbind a_data app] in R.
  eapply (go_sys _ _ _ _ _ 0) with (a := ans 1 (dot ++ dot) 0) (v' := dv7) in R; [|reflexivity|rd dv6 (mk_dstream dot 0 [fa; dot; fc]); left; right; reflexivity]. cf R. cbn [a_ret ans Z.eqb pread_dir psys pbind a_data app] in R.
  eapply (go_sys _ _ _ _ _ 0) with (a := ans 1 fb 0) (v' := dv8) in R; [|reflexivity|rd dv7 (mk_dstream dot 0 [fa; dot; fc; dot ++ dot]); there dv7]. cf R. cbn [a_ret ans Z.eqb pread_dir psys pbind a_data app] in R.
  eapply (go_sys _ _ _ _ _ 0) with (a := ans 0 [] 0) (v' := dv8) in R; [|reflexivity|].
  2:{ refine (k_readdir_end dv8 5 (ans 0 [] 0) (mk_dstream dot 0 [fa; dot; fc; dot ++ dot; fb]) _ _ _ _); [reflexivity|reflexivity|reflexivity|]. cbn [ds_given].
      intros g [[->| ->]|X]; [cbn; tauto|cbn; tauto|]. destruct (X (v_name dv8)) as (_ & Y); [left; reflexivity|]. cbn [ds_path] in Y. change (dir_prefix dot ++ g) with g in Y.
      change (v_name dv8 g) with (upd eqs (upd eqs (v_name ex_v0) fa None) fc (Some 3) g) in Y. unfold upd in Y. destruct (eqs g fc) as [->|]; [cbn; tauto|]. destruct (eqs g fa) as [->|Na]; [cbn; tauto|].
      cbn [v_name ex_v0] in Y. destruct (eqs g fa); [contradiction|]. destruct (eqs g fb) as [->|]; [cbn; tauto|]. destruct (eqs g dot) as [->|]; [cbn; tauto|]. contradiction. }
  cf R. cbn [a_ret ans Z.eqb pread_dir psys pbind a_data app] in R.
  eapply (go_sys _ _ _ _ _ 0) with (a := ans 0 [] 0) (v' := dv9) in R; [|reflexivity|apply k_closedir]. cf R.
  eapply (go_end _ _ _ _ _ 0) in R; [|reflexivity]. cf R.
  eexists; exact R.
Qed.
(** The result need not be the contents of the directory at any one moment of the
    call. *)
Theorem C100_snapshot_refuted :
  ~ (forall dbg B strerror v0 lim0 m tr cf n d L, (forall fd, v_fd v0 fd <> None -> (0 <= fd)%Z) ->
       cruns dbg B strerror v0 lim0 m tr cf -> call_no tr n = Some (PChildren d) -> ended tr n = Some (RNames SOk L) -> readdir_never_failed tr n ->
       during v0 tr n (fun v => forall g, In g L <-> dots g \/ child v d g)).
Proof.
  intros H. destruct d_runs as (cf & R). specialize (H _ _ _ _ _ _ _ _ 0 dot _ w_fds R eq_refl eq_refl).
  destruct H as (later & earlier & E & _ & X).
  { intros b a I0 _. cbn in I0. repeat (destruct I0 as [I0|I0]; [injection I0 as _ <-; reflexivity || discriminate I0|]); try contradiction I0. }
  assert (Bad : forall v, (forall g, In g [fa; dot; fc; dot ++ dot; fb] <-> dots g \/ child v dot g) -> v_name v fa <> None /\ v_name v fc <> None).
  { intros v Y. split.
    - destruct (proj1 (Y fa)) as [[Z|Z]|(_ & Z)]; [cbn; tauto|discriminate Z|discriminate Z|exact Z].
    - destruct (proj1 (Y fc)) as [[Z|Z]|(_ & Z)]; [cbn; tauto|discriminate Z|discriminate Z|exact Z]. }
  apply Bad in X. destruct X as (Xa & Xc).
  assert (F : Forall (fun e : lab * view => v_name (snd e) fa = None \/ v_name (snd e) fc = None) d_tr) by (repeat (constructor; [solve [left; reflexivity|right; reflexivity]|]); constructor).
  rewrite E in F. apply Forall_app in F. destruct F as (_ & F). destruct earlier as [|[l v] earlier]; [cbn in Xc; contradiction|]. inversion F as [|e r F1 F2]; subst. cbn [now snd] in *. destruct F1; contradiction.
Qed.
Print Assumptions C100_snapshot_refuted.

(** In that execution the name b is there throughout, and is returned once. *)
Example C100_example : throughout ex_v0 d_tr 0 (fun v => child v dot fb) /\ readdir_never_failed d_tr 0 /\ count_occ eqs [fa; dot; fc; dot ++ dot; fb] fb = 1.
Proof.
  assert (T : throughout ex_v0 d_tr 0 (fun v => child v dot fb)).
  { intros later earlier E _. assert (F : Forall (fun e : lab * view => child (snd e) dot fb) d_tr) by (repeat (constructor; [split; [apply noslash; cbn; tauto|discriminate]|]); constructor).
    rewrite E in F. apply Forall_app in F. destruct F as (_ & F). destruct earlier as [|[l v] earlier]; [split; [apply noslash; cbn; tauto|discriminate]|]. inversion F; assumption. }
  assert (NF : readdir_never_failed d_tr 0).
  { intros b a I0 _. cbn in I0. repeat (destruct I0 as [I0|I0]; [injection I0 as _ <-; reflexivity || discriminate I0|]); try contradiction I0. }
  split; [exact T|]. split; [exact NF|]. destruct d_runs as (cf & R). destruct (C100_children true 4 str0 ex_v0 (mk_limits 0 1) 2 w_fds _ _ 0 dot _ R eq_refl eq_refl) as (_ & _ & H). apply (H NF). right. exact T.
Qed.
