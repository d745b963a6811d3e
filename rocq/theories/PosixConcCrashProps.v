(** PosixConcCrashProps.v -- C101: replacing a file by writing a new one, Sync and
    RenameFile is atomic, also for crashes.

    The executions are those of PosixConc.v: any number of threads, any order of
    their system calls, any answers of a POSIX file system; a crash may come at any
    moment. *)
From Coq Require Import List Arith NArith ZArith Lia Bool Permutation.
From Verif Require Import Outcome Status MemEnv PosixOs PosixWritable PosixWritableSpec PosixWritableProofs PosixRead PosixEnv PosixFs PosixEnvSpec PosixConc PosixConcSpec PosixConcSafe PosixConcHeld PosixConcInv PosixConcProofs PosixConcTrace PosixConcFacts PosixConcReads PosixConcWriteSpec PosixConcWr PosixConcWrites PosixConcFiles PosixConcSaved PosixConcObj PosixConcStreamSpec PosixConcStream PosixConcDir PosixConcCrashSpec PosixConcCrash PosixConcProps PosixConcWriteProps.
Import ListNotations.

(** The crashes considered here are among those of C96 and C97. *)
Lemma crash_is_crash_disk v0 tr name disk : crash v0 tr name disk -> crash_disk (now v0 tr) name disk.
Proof.
  intros (C1 & C2). split.
  - intros p Su. destruct (C1 p) as [(l & e & -> & -> & U)|U]; [|specialize (U [] tr eq_refl); congruence]. destruct l as [|y l]; [reflexivity|]. specialize (U [] (y :: l) eq_refl ltac:(discriminate)). congruence.
  - intros p i N. destruct (C2 p i N) as (X & _). exact X.
Qed.

Section Props.
  Variable dbg : bool.
  Variable B : nat.
  Variable strerror : Z -> str.
  (** the files, the slots and the number of threads at the start; open descriptors
      are not negative, names stand for files that exist, what is on disk of a file
      is the beginning of it *)
  Variables (v0 : view) (lim0 : limits) (m : nat).
  Hypothesis fds_sane : forall fd, v_fd v0 fd <> None -> (0 <= fd)%Z.
  Hypothesis names_sane : forall p i, v_name v0 p = Some i -> i < v_next v0.
  Hypothesis safe_sane : forall i, begins (v_data v0 i) (v_safe v0 i).
  Notation runs := (cruns dbg B strerror v0 lim0 m).

  (** [h] was opened as tmp on file [i]; Sync of [h] has returned OK like all calls on
      [h] before; then RenameFile(tmp, f) is called, while the old f is on disk; others
      keep away from file [i] and, from then on, from the names tmp and f.  Whenever a
      crash comes after that call -- while RenameFile runs or later --, f leads on disk
      to its old file or to file [i], and file [i] starts with all that was written up
      to Sync (and is just that, if it was not empty and nothing was appended later). *)
  Theorem C101_atomic_replacement later r tmp f w middle n v before e earlier cf h x i name disk :
    let synced := before ++ e :: earlier in
    let base := middle ++ (End n (RStat SOk), v) :: synced in
    let start_rename := (Beg r (PRename tmp f), w) in
    let tr := later ++ start_rename :: base in
    runs tr cf -> opening h x tmp i e earlier ->
    only_writer v0 (later ++ start_rename :: middle ++ (End n (RStat SOk), v) :: before) (e :: earlier) h i ->
    call_no synced n = Some (PWSync h) -> all_ok ((End n (RStat SOk), v) :: synced) h ->
    v_name w tmp = Some i -> v_sure w f = true ->
    only_call v0 later (start_rename :: base) r tmp -> only_call v0 later (start_rename :: base) r f ->
    crash v0 tr name disk ->
    (name f = v_name w f \/ name f = Some i) /\
    (forall p, name p = Some i ->
       begins (disk i) (start e i ++ handed synced h) /\
       (handed tr h = handed synced h -> start e i ++ handed synced h <> [] -> disk i = start e i ++ handed synced h)).
  Proof.
    intros synced base sr tr R Op OW Cn A Nt Su Os Od C. pose proof C as (C1 & C2). split.
    - exact (disk_entry dbg B strerror v0 lim0 m fds_sane later r tmp f w base cf i (name f) R Nt Su Os Od (C1 f)).
    - intros p Np. assert (E : tr = (later ++ sr :: middle) ++ (End n (RStat SOk), v) :: synced) by (unfold tr, base; rewrite <- app_assoc; reflexivity).
      assert (OW' : only_writer v0 ((later ++ sr :: middle) ++ (End n (RStat SOk), v) :: before) (e :: earlier) h i) by (rewrite <- app_assoc; exact OW).
      split.
      + apply (C96_synced_survives dbg B strerror v0 lim0 m fds_sane names_sane (later ++ sr :: middle) before e earlier cf h x tmp i n v name disk p); try assumption.
        * rewrite E in R. exact R.
        * apply crash_is_crash_disk in C. rewrite E in C. exact C.
      + intros Hh Ne. destruct (C2 p i Np) as (_ & Ex).
        assert (Es : tr = ((later ++ sr :: middle) ++ (End n (RStat SOk), v) :: before) ++ e :: earlier) by (rewrite E; unfold synced; rewrite <- !app_assoc; reflexivity).
        assert (R' := R). rewrite Es in R'. pose proof (C96_contents dbg B strerror v0 lim0 m fds_sane names_sane _ _ _ _ _ _ _ _ R' Op OW') as D. rewrite <- Es in D.
        (* what was sent by then is all that was handed over *)
        assert (Rs : exists cfs, runs ((End n (RStat SOk), v) :: synced) cfs) by (rewrite E in R; exact (runs_prefix dbg B strerror v0 lim0 m _ _ _ R)). destruct Rs as (cfs & Rs).
        pose proof Op as (fl & a & u & Ee & Ch & Ox & La & Nm).
        assert (Cs : call_no synced h = Some x). { destruct (runs_prefix dbg B strerror v0 lim0 m [_] _ _ Rs) as (cf2 & R2). unfold synced in *. change (e :: earlier) with ([e] ++ earlier) in *. rewrite app_assoc in *. eapply (call_later dbg B strerror v0 lim0 m fds_sane); eassumption. }
        assert (Ct : call_no tr h = Some x). { rewrite E in R |- *. change ((End n (RStat SOk), v) :: synced) with ([(End n (RStat SOk), v)] ++ synced) in R |- *. rewrite app_assoc in R |- *. eapply (call_later dbg B strerror v0 lim0 m fds_sane); eassumption. }
        assert (Fl : sent synced h = handed synced h) by (eapply (C95_flushed dbg B strerror v0 lim0 m fds_sane synced cfs h x tmp n (PWSync h)); try eassumption; reflexivity).
        assert (Sd : sent tr h = handed synced h).
        { apply begins_same.
          - rewrite <- Fl. rewrite E. change ((End n (RStat SOk), v) :: synced) with ([(End n (RStat SOk), v)] ++ synced). rewrite app_assoc. apply sent_later.
          - rewrite <- Hh. apply subseq_len. exact (proj1 (in_order dbg B strerror v0 lim0 m fds_sane h x (writer_opens _ _ Ox) tr cf R Ct)). }
        rewrite Sd in D. rewrite <- D. apply Ex; [|rewrite D; exact Ne].
        assert (G : begins (v_safe (now v0 tr) i) (start e i ++ handed synced h)).
        { apply (C96_synced_survives dbg B strerror v0 lim0 m fds_sane names_sane (later ++ sr :: middle) before e earlier cf h x tmp i n v name (v_safe (now v0 tr)) p); try assumption.
          - rewrite E in R. exact R.
          - apply crash_is_crash_disk in C. destruct C as (Ca & _). split.
            + rewrite E in Ca. exact Ca.
            + intros q k _. exists []. rewrite app_nil_r, E. reflexivity. }
        symmetry. apply begins_same; [exact (safe_runs dbg B strerror v0 lim0 m fds_sane safe_sane tr cf R i)|]. rewrite D. apply begins_length. exact G.
  Qed.
  (** Meanwhile f leads, for everybody who looks, to its old file or to the new one,
      and to the new one as soon as RenameFile has returned OK. *)
  Theorem C101_always_one_or_the_other later r tmp f w base cf i :
    let start_rename := (Beg r (PRename tmp f), w) in
    let tr := later ++ start_rename :: base in
    runs tr cf -> v_name w tmp = Some i ->
    only_call v0 later (start_rename :: base) r tmp -> only_call v0 later (start_rename :: base) r f ->
    (v_name (now v0 tr) f = v_name w f \/ v_name (now v0 tr) f = Some i) /\
    (ended tr r = Some (RStat SOk) -> v_name (now v0 tr) f = Some i).
  Proof.
    intros sr tr R Nt Os Od. pose proof (renaming dbg B strerror v0 lim0 m fds_sane later r tmp f w base cf i R Nt Os Od) as X. cbv zeta in X. fold sr in X. fold tr in X. split.
    - destruct X as [(_ & X & _)|(a & _ & [X|(_ & X)])]; auto.
    - intros E. destruct (finished dbg B strerror v0 lim0 m fds_sane _ _ _ _ R E) as (l1 & u & l2 & cf0 & x & fuel & o & ob & q & Et & R0 & Cn & Ip & P & Ea & Er & _).
      assert (Cr : call_no tr r = Some (PRename tmp f)) by (eapply (call_later dbg B strerror v0 lim0 m fds_sane); [exact R|unfold sr; cbn [call_no]; now rewrite Nat.eqb_refl]).
      assert (x = PRename tmp f). { pose proof (call_later dbg B strerror v0 lim0 m fds_sane (l1 ++ [(End r (RStat SOk), u)]) l2 cf r x) as Y. rewrite <- app_assoc in Y. cbn [app] in Y. rewrite <- Et in Y. specialize (Y R Cn). congruence. } subst x.
      destruct (asks_path dbg B strerror fuel (PRename tmp f) ob (CRename tmp f) tmp _ o q (now v0 l2) eq_refl P) as (a & El & Eo). rewrite Eo in Er.
      assert (Z : a_ret a = 0%Z). { cbn in Er. destruct (Z.eqb_spec (a_ret a) 0) as [Z|Z]; [exact Z|]. cbn [negb] in Er. discriminate Er. }
      assert (Al : acts tr r = acts base r ++ acts later r) by (unfold tr; rewrite acts_more; reflexivity).
      destruct X as [(X1 & _)|(b & X1 & X2)]; rewrite X1, El in Al.
      + exfalso. rewrite app_nil_r in Al. (* r began after base *)
        destruct (runs_split dbg B strerror v0 lim0 m _ _ _ _ R) as (cfe & tb & cf1 & Re & Stb & _). cbn [fst sr] in Stb. inversion Stb; subst. rewrite (acts_new dbg B strerror v0 lim0 m fds_sane _ _ Re) in Al. discriminate Al.
      + change ([(CRename tmp f, a)]) with ([] ++ [(CRename tmp f, a)]) in Al. apply app_inj_tail in Al. destruct Al as (_ & Al). injection Al as <-. destruct X2 as [X2|(X2 & _)]; [exact X2|contradiction].
  Qed.
  (** And the old file, as long as nobody changes it, keeps on disk what it had. *)
  Theorem C101_old_file_kept later r tmp f w base cf j name disk :
    let start_rename := (Beg r (PRename tmp f), w) in
    let tr := later ++ start_rename :: base in
    runs tr cf -> v_name w f = Some j -> unchanged v0 later (start_rename :: base) j ->
    crash v0 tr name disk -> name f = Some j -> begins (disk j) (v_safe w j).
  Proof.
    intros sr tr R Nf U (_ & C2) Nd. destruct (C2 _ _ Nd) as (X & _). eapply begins_trans; [exact X|].
    destruct (runs_prefix dbg B strerror v0 lim0 m later (sr :: base) cf R) as (cf1 & R1). pose proof (names_ok dbg B strerror v0 lim0 m fds_sane names_sane _ _ R1 f j Nf) as L.
    exact (proj1 (stays_safe dbg B strerror v0 lim0 m fds_sane safe_sane later (sr :: base) cf j R L U)).
  Qed.
End Props.
(** ** An execution.  Thread 0 makes a anew (file 0), appends a byte, syncs it and
    renames it to b (which was file 1), while thread 1 asks for b. *)
Definition cv3 := synced dv2 0.
Definition cv4 := with_name (with_name cv3 fb (Some 0)) fa None.
Definition c_before : trace :=
  [(Act 2 (CFsync 3) (ans 0 [] 0), cv3); (Act 2 (CWrite 3 [7%N]) (ans 1 [] 0), dv2); (Beg 2 (PWSync 0), wv1);
   (End 1 (RStat SOk), wv1); (Beg 1 (PWAppend 0 [7%N]), wv1); (End 0 (RStat SOk), wv1)].
Definition c_late : trace :=
  [(End 4 (RBool true), cv4); (End 3 (RStat SOk), cv4); (Act 4 (CAccess fb) (ans 0 [] 0), cv4);
   (Act 3 (CRename fa fb) (ans 0 [] 0), cv4); (Beg 4 (PExists fb), cv3)].
Definition c_base : trace := (End 2 (RStat SOk), cv3) :: c_before ++ w_open0 :: w_early0.
Definition c_tr : trace := c_late ++ (Beg 3 (PRename fa fb), cv3) :: c_base.
Lemma c_runs : exists cf, cruns true 4 str0 ex_v0 (mk_limits 0 1) 2 c_tr cf.
Proof.
  pose proof (cr_start true 4 str0 ex_v0 (mk_limits 0 1) 2) as R.
  apply (go_begin _ _ _ _ _ 0 (PNewWrite fa) 2) in R; [|reflexivity|exact Logic.I]. cf R.
  eapply (go_sys _ _ _ _ _ 0) with (a := ans 3 [] 0) (v' := wv1) in R; [|reflexivity|eapply k_open_trunc; [discriminate|reflexivity|reflexivity]]. cf R.
  eapply (go_end _ _ _ _ _ 0) in R; [|reflexivity]. nw R.
  apply (go_begin _ _ _ _ _ 0 (PWAppend 0 [7%N]) 2) in R; [|reflexivity|alone]. cf R.
  eapply (go_end _ _ _ _ _ 0) in R; [|reflexivity]. nw R.
  apply (go_begin _ _ _ _ _ 0 (PWSync 0) 2) in R; [|reflexivity|alone]. cf R.
  eapply (go_sys _ _ _ _ _ 0) with (a := ans 1 [] 0) (v' := dv2) in R; [|reflexivity|refine (k_write wv1 3 [7%N] (ans 1 [] 0) (mk_fdesc 0 0 false) _ _); [split; discriminate|reflexivity]]. cf R.
  eapply (go_sys _ _ _ _ _ 0) with (a := ans 0 [] 0) (v' := cv3) in R; [|reflexivity|refine (k_fsync dv2 3 (ans 0 [] 0) (mk_fdesc 0 1 false) _ _); reflexivity]. cf R.
  eapply (go_end _ _ _ _ _ 0) in R; [|reflexivity]. cf R.
  apply (go_begin _ _ _ _ _ 0 (PRename fa fb) 2) in R; [|reflexivity|exact Logic.I]. cf R.
  apply (go_begin _ _ _ _ _ 1 (PExists fb) 2) in R; [|reflexivity|exact Logic.I]. cf R.
  eapply (go_sys _ _ _ _ _ 0) with (a := ans 0 [] 0) (v' := cv4) in R; [|reflexivity|refine (k_rename cv3 fa fb (ans 0 [] 0) 0 _ _ _ _); [reflexivity|reflexivity|discriminate|discriminate]]. cf R.
  eapply (go_sys _ _ _ _ _ 1) with (a := ans 0 [] 0) (v' := cv4) in R; [|reflexivity|refine (k_access cv4 fb (ans 0 [] 0) _ _); [reflexivity|discriminate]]. cf R.
  eapply (go_end _ _ _ _ _ 0) in R; [|reflexivity]. cf R.
  eapply (go_end _ _ _ _ _ 1) in R; [|reflexivity]. cf R.
  eexists; exact R.
Qed.
Lemma c_safe i : begins (v_data ex_v0 i) (v_safe ex_v0 i).
Proof. eexists. reflexivity. Qed.
Lemma c_only : only_writer ex_v0 (c_late ++ (Beg 3 (PRename fa fb), cv3) :: [] ++ (End 2 (RStat SOk), cv3) :: c_before) (w_open0 :: w_early0) 0 0.
Proof.
  unfold c_late, c_before. cbn [app].
  repeat (apply ow_cons; [|first [exact Logic.I | intros Ch; first [reflexivity | exfalso; cbn [changes] in Ch; exact Ch]]]). apply ow_nil.
Qed.
Lemma c_ok : all_ok ((End 2 (RStat SOk), cv3) :: c_before ++ w_open0 :: w_early0) 0.
Proof. intros n x r _ _ E; cbn in E; repeat (match type of E with context [match ?k with 0 => _ | S _ => _ end] => destruct k; cbn in E end); congruence. Qed.
Lemma c_keep p : only_call ex_v0 c_late ((Beg 3 (PRename fa fb), cv3) :: c_base) 3 p.
Proof.
  intros l2 n c a v l1 E Ne. unfold c_late in E. destruct l2 as [|? [|? [|? [|? [|? l2]]]]]; cbn [app] in E; try discriminate E; [| |destruct l2; discriminate E].
  - injection E as _ _ <- _ _ <- <-. reflexivity.
  - exfalso. injection E. intros. subst. contradiction.
Qed.
(** So whenever it crashes, b is on disk file 1 or file 0 with the byte. *)
Example C101_example name disk : crash ex_v0 c_tr name disk ->
  (name fb = Some 1 \/ name fb = Some 0) /\ (name fb = Some 0 -> disk 0 = [7%N]).
Proof.
  intros C. destruct c_runs as (cf & R).
  destruct (C101_atomic_replacement true 4 str0 ex_v0 (mk_limits 0 1) 2 w_fds w_names c_safe c_late 3 fa fb cv3 [] 2 cv3 c_before w_open0 w_early0 cf 0 (PNewWrite fa) 0 name disk
    R w_opening0 c_only eq_refl c_ok eq_refl eq_refl (c_keep fa) (c_keep fb) C) as (X1 & X2).
  split; [exact X1|]. intros N. apply (X2 fb N); [reflexivity|discriminate].
Qed.
Example C101_seen_example : v_name cv4 fb = Some 0.
Proof.
  destruct c_runs as (cf & R).
  exact (proj2 (C101_always_one_or_the_other true 4 str0 ex_v0 (mk_limits 0 1) 2 w_fds c_late 3 fa fb cv3 c_base cf 0 R eq_refl (c_keep fa) (c_keep fb)) eq_refl).
Qed.
Example C101_kept_example name disk : crash ex_v0 c_tr name disk -> name fb = Some 1 -> begins (disk 1) (v_safe cv3 1).
Proof.
  intros C N. destruct c_runs as (cf & R).
  apply (C101_old_file_kept true 4 str0 ex_v0 (mk_limits 0 1) 2 w_fds w_names c_safe c_late 3 fa fb cv3 c_base cf 1 name disk R eq_refl); [|exact C|exact N].
  intros l2 n c a v l1 E. unfold c_late in E. destruct l2 as [|? [|? [|? [|? [|? l2]]]]]; cbn [app] in E; try discriminate E; [| |destruct l2; discriminate E]; (assert (Ec : c = CAccess fb \/ c = CRename fa fb) by (injection E; intros; subst; auto); destruct Ec as [-> | ->]; intros []).
Qed.
(** RenameFile is not durable when it returns: the directory is not forced to disk
    (env_posix.cc:626-631), so after it returned OK a crash may bring the old b back
    and, with it, the name a. *)
Theorem C101_durable_refuted : exists (v0 : view) (tr : trace) cf tmp f r name disk,
  cruns true 4 str0 v0 (mk_limits 0 1) 2 tr cf /\ call_no tr r = Some (PRename tmp f) /\ ended tr r = Some (RStat SOk) /\ tmp <> f /\
  crash v0 tr name disk /\ name f <> v_name (now v0 tr) f /\ name tmp <> None /\ v_name (now v0 tr) tmp = None.
Proof.
  destruct c_runs as (cf & R). exists ex_v0, c_tr, cf, fa, fb, 3, (v_name cv3), (v_data cv4).
  split; [exact R|]. split; [reflexivity|]. split; [reflexivity|]. split; [discriminate|]. split; [|split; [discriminate|split; [discriminate|reflexivity]]]. split.
  - intros p. destruct (v_sure cv4 p) eqn:Su.
    + left. exists [], c_tr. split; [reflexivity|]. split; [|intros l2 [|? ?] E Ne; [contradiction|destruct l2; discriminate E]].
      change (v_name cv3 p = v_name cv4 p). cbn [cv4 with_name v_sure v_name] in *. unfold upd in *. destruct (eqs p fa); [discriminate|]. destruct (eqs p fb); [discriminate|reflexivity].
    + left. exists (firstn 4 c_late), ([(Beg 4 (PExists fb), cv3); (Beg 3 (PRename fa fb), cv3)] ++ c_base). split; [reflexivity|]. split; [reflexivity|].
      intros l2 l1 E Ne. unfold c_late in E. cbn [firstn] in E. destruct l2 as [|? [|? [|? [|? l2]]]]; cbn [app] in E; [subst l1; exact Su|injection E; intros; subst l1; exact Su..|].
      injection E. intros E' _ _ _ _. symmetry in E'. apply app_eq_nil in E'. destruct E' as (_ & E'). contradiction.
  - intros p i _. split; [|reflexivity]. change (now ex_v0 c_tr) with cv4. destruct i as [|i]; [exists []|eexists]; reflexivity.
Qed.
Print Assumptions C101_atomic_replacement.
Print Assumptions C101_always_one_or_the_other.
Print Assumptions C101_old_file_kept.
Print Assumptions C101_durable_refuted.
