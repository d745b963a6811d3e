(** PosixConcProps.v -- C90 to C93: several threads on the POSIX environment.

    The executions are those of PosixConc.v: any number of threads, any order of
    their system calls and of their operations on the limiters, any answers of a
    POSIX file system. *)
From Coq Require Import List Arith NArith ZArith Lia Bool Permutation.
From Verif Require Import Outcome Status MemEnv PosixOs PosixWritable PosixRead PosixEnv PosixFs PosixEnvSpec PosixConc PosixConcSpec PosixConcSeq PosixConcSafe PosixConcHeld PosixConcInv PosixConcProofs PosixConcTrace PosixConcFacts PosixConcReads.
Import ListNotations.

Section Props.
  Variable dbg : bool.
  Variable B : nat.
  Variable strerror : Z -> str.
  (** the files, the slots and the number of threads at the start; open
      descriptors are not negative *)
  Variables (v0 : view) (lim0 : limits) (m : nat).
  Hypothesis fds_sane : forall fd, v_fd v0 fd <> None -> (0 <= fd)%Z.
  Notation runs := (cruns dbg B strerror v0 lim0 m).

  (** ** C90: descriptors, mappings and directory streams *)

  (** A call uses only what it opened itself or what its object holds, while it is
      open (or -1, which is no descriptor). *)
  Theorem C90_uses_only_its_own later n c a v earlier cf :
    runs (later ++ (Act n c a, v) :: earlier) cf ->
    (forall fd, uses_fd c = Some fd -> fd = (-1)%Z \/
       exists o, owner earlier fd = Some o /\ entitled earlier n o /\ v_fd (now v0 earlier) fd <> None) /\
    (forall b len, c = CMunmap b len ->
       exists o i, map_owner earlier b = Some o /\ entitled earlier n o /\ v_map (now v0 earlier) b = Some (i, len)) /\
    (forall d, uses_dir c = Some d ->
       exists o, dir_owner earlier d = Some o /\ entitled earlier n o /\ v_dir (now v0 earlier) d <> None).
  Proof.
    intros R. split; [|split].
    - intros fd U. eapply (use_fd dbg B strerror v0 lim0 m fds_sane); eassumption.
    - intros b len ->. eapply (use_map dbg B strerror v0 lim0 m fds_sane); eassumption.
    - intros d U. eapply (use_dir dbg B strerror v0 lim0 m fds_sane); eassumption.
  Qed.
  (** No call does anything undefined and no assertion fails. *)
  Theorem C90_no_undefined_behaviour tr cf t n x o :
    runs tr cf -> nth_error (c_thr cf) t = Some (TIn n x (PBad o)) -> o <> BadUB /\ o <> BadAssert.
  Proof. intros R E. rewrite (no_bad dbg B strerror v0 lim0 m fds_sane _ _ _ _ _ _ R E). split; discriminate. Qed.
  (** What is open that was not open at the start belongs to a call in progress or
      to a live object; what was open at the start is as it was. *)
  Theorem C90_every_descriptor_has_an_owner tr cf fd :
    runs tr cf -> v_fd (now v0 tr) fd <> v_fd v0 fd ->
    v_fd v0 fd = None /\ exists o, owner tr fd = Some o /\ (in_progress tr o \/ exists k f, alive tr o k f).
  Proof.
    intros R E. destruct (fd_held dbg B strerror v0 lim0 m fds_sane _ _ fd R) as [(X & _)|(o & X1 & X2 & X3 & X4 & X5)]; [congruence|]. split; [exact X2|]. eauto.
  Qed.
  Theorem C90_every_mapping_has_an_owner tr cf b :
    runs tr cf -> v_map (now v0 tr) b <> v_map v0 b ->
    v_map v0 b = None /\ exists o, map_owner tr b = Some o /\ (in_progress tr o \/ exists k f, alive tr o k f).
  Proof.
    intros R E. destruct (map_held dbg B strerror v0 lim0 m fds_sane _ _ b R) as [(X & _)|(o & X1 & X2 & X3 & X5)]; [congruence|]. split; [exact X2|]. eauto.
  Qed.
  Theorem C90_every_directory_stream_has_an_owner tr cf d :
    runs tr cf -> v_dir (now v0 tr) d <> v_dir v0 d ->
    v_dir v0 d = None /\ exists o, dir_owner tr d = Some o /\ (in_progress tr o \/ exists k f, alive tr o k f).
  Proof.
    intros R E. destruct (dir_held dbg B strerror v0 lim0 m fds_sane _ _ d R) as [(X & _)|(o & X1 & X2 & X3 & X5)]; [congruence|]. split; [exact X2|]. eauto.
  Qed.
  Theorem C90_one_descriptor_per_object tr cf h k f fd fd' :
    runs tr cf -> alive tr h k f -> owner tr fd = Some h -> owner tr fd' = Some h -> fd = fd'.
  Proof. apply (one_fd dbg B strerror v0 lim0 m fds_sane). Qed.
  (** Once all calls have returned and all objects are deleted, nothing is left
      open and all slots are free again. *)
  Theorem C90_nothing_leaks tr cf :
    runs tr cf -> quiet tr -> (forall h k f, ~ alive tr h k f) ->
    (forall fd, v_fd (now v0 tr) fd = v_fd v0 fd) /\ (forall b, v_map (now v0 tr) b = v_map v0 b) /\
    (forall d, v_dir (now v0 tr) d = v_dir v0 d) /\ c_lim cf = lim0.
  Proof. apply (nothing_left dbg B strerror v0 lim0 m fds_sane). Qed.

  (** ** C91: a RandomAccessFile used by several threads *)

  (** A Read that returned OK delivered bytes that were in the file at its offset at
      one moment while it ran.  The file is the one the name stood for while the
      object was made, if the object holds a descriptor or a mapping; else the one
      the name stood for while Read ran. *)
  Theorem C91_concurrent_reads tr cf n h off k f d v :
    runs ((End n (RData SOk d), v) :: tr) cf ->
    call_no tr n = Some (PRRead h off k) -> call_no tr h = Some (PNewRand f) ->
    exists i,
      (kept tr h -> during v0 tr h (fun v => v_name v f = Some i)) /\
      (~ kept tr h -> during v0 tr n (fun v => v_name v f = Some i)) /\
      during v0 tr n (fun v => piece d (v_data v i) (N.to_nat off) k).
  Proof. apply (read_right dbg B strerror v0 lim0 m fds_sane). Qed.
  (** A Read leaves the file only if the file, or another one the name stood for
      while the object was made, had more bytes at that time. *)
  Theorem C91_faults_only_if_shorter tr cf n h off k f v :
    runs ((End n RFault, v) :: tr) cf ->
    call_no tr n = Some (PRRead h off k) -> call_no tr h = Some (PNewRand f) ->
    exists i j, during v0 tr h (fun v => v_name v f = Some i) /\
      during v0 tr h (fun v' => v_name v' f = Some j /\ length (v_data (now v0 tr) i) < length (v_data v' j)).
  Proof. apply (read_fault dbg B strerror v0 lim0 m fds_sane). Qed.
  Theorem C91_no_fault tr cf n h off k f i r v :
    runs ((End n r, v) :: tr) cf ->
    call_no tr n = Some (PRRead h off k) -> call_no tr h = Some (PNewRand f) ->
    (forall j, during v0 tr h (fun v => v_name v f = Some j) -> j = i) ->
    (forall len, during v0 tr h (fun v => length (v_data v i) = len) -> len <= length (v_data (now v0 tr) i)) ->
    r <> RFault.
  Proof.
    intros R C1 C2 U S ->. destruct (C91_faults_only_if_shorter _ _ _ _ _ _ _ _ R C1 C2) as (i' & j & D1 & (l1 & l2 & X & Y & Z & L)).
    assert (i' = i) by (apply U; exact D1). assert (j = i) by (apply U; exists l1, l2; auto). subst i' j.
    assert (D : during v0 tr h (fun v => length (v_data v i) = length (v_data (now v0 l2) i))) by (exists l1, l2; auto). specialize (S _ D). lia.
  Qed.

  (** ** C92: the limits *)
  Theorem C92_mappings_bounded tr cf bs :
    runs tr cf -> NoDup bs -> (forall b, In b bs -> v_map (now v0 tr) b <> None /\ v_map v0 b = None) ->
    (Z.of_nat (length bs) <= Z.max 0 (l_mmap lim0))%Z.
  Proof. apply (map_count dbg B strerror v0 lim0 m fds_sane). Qed.
  Theorem C92_permanent_descriptors_bounded tr cf hs :
    runs tr cf -> NoDup hs -> (forall h, In h hs -> exists f fd, alive tr h KRand f /\ owner tr fd = Some h) ->
    (Z.of_nat (length hs) <= Z.max 0 (l_fd lim0))%Z.
  Proof. apply (fd_count dbg B strerror v0 lim0 m fds_sane). Qed.

  (** ** C93: calls about names take effect at one moment *)
  Theorem C93_names_atomic tr cf n x c ctx r :
    runs tr cf -> call_no tr n = Some x -> asks x = Some (c, ctx) -> ended tr n = Some r ->
    exists later a v earlier,
      tr = later ++ (Act n c a, v) :: earlier /\ acts tr n = [(c, a)] /\ in_progress earlier n /\
      kstep (now v0 earlier) (c, a) v /\ r = answers strerror x ctx a.
  Proof. apply (names_atomic dbg B strerror v0 lim0 m fds_sane). Qed.
End Props.

Print Assumptions C90_uses_only_its_own.
Print Assumptions C90_no_undefined_behaviour.
Print Assumptions C90_every_descriptor_has_an_owner.
Print Assumptions C90_every_mapping_has_an_owner.
Print Assumptions C90_every_directory_stream_has_an_owner.
Print Assumptions C90_one_descriptor_per_object.
Print Assumptions C90_nothing_leaks.
Print Assumptions C91_concurrent_reads.
Print Assumptions C91_faults_only_if_shorter.
Print Assumptions C91_no_fault.
Print Assumptions C92_mappings_bounded.
Print Assumptions C92_permanent_descriptors_bounded.
Print Assumptions C93_names_atomic.

(** ** Executions.  Two threads; the file 0 is called a and has one byte, the file
    1 is called b and has two. *)
Section Steps.
  Variable strerror : Z -> str.
  Variables (v0 : view) (lim0 : limits).
  Notation runs := (cruns true 4 strerror v0 lim0 2).
  Lemma go_begin tr cf t x fuel : runs tr cf -> nth_error (c_thr cf) t = Some TIdle -> may_begin cf x ->
    runs ((Beg (c_next cf) x, c_view cf) :: tr)
      (mk_conf (c_view cf) (c_lim cf) (taken cf x) (S (c_next cf)) (set_thr t (TIn (c_next cf) x (prog_of true 4 strerror fuel x (object cf x))) (c_thr cf))).
  Proof. intros R E M. exact (cr_step _ _ _ _ _ _ _ _ _ _ _ R (s_begin _ _ _ _ _ _ _ E M)). Qed.
  Lemma go_sys tr cf t n x c k a v' : runs tr cf -> nth_error (c_thr cf) t = Some (TIn n x (PSys c k)) -> kstep (c_view cf) (c, a) v' ->
    runs ((Act n c a, v') :: tr) (mk_conf v' (c_lim cf) (c_objs cf) (c_next cf) (set_thr t (TIn n x (k a)) (c_thr cf))).
  Proof. intros R E M. exact (cr_step _ _ _ _ _ _ _ _ _ _ _ R (s_sys _ _ _ _ _ _ _ _ _ _ _ E M)). Qed.
  Lemma go_sub tr cf t n x l k : runs tr cf -> nth_error (c_thr cf) t = Some (TIn n x (PSub l k)) ->
    runs tr (mk_conf (c_view cf) (lim_add (c_lim cf) l (-1)) (c_objs cf) (c_next cf) (set_thr t (TIn n x (k (lim_get (c_lim cf) l))) (c_thr cf))).
  Proof. intros R E. exact (cr_step _ _ _ _ _ _ _ _ _ _ _ R (s_sub _ _ _ _ _ _ _ _ _ E)). Qed.
  Lemma go_add tr cf t n x l k : runs tr cf -> nth_error (c_thr cf) t = Some (TIn n x (PAdd l k)) ->
    runs tr (mk_conf (c_view cf) (lim_add (c_lim cf) l 1) (c_objs cf) (c_next cf) (set_thr t (TIn n x k) (c_thr cf))).
  Proof. intros R E. exact (cr_step _ _ _ _ _ _ _ _ _ _ _ R (s_add _ _ _ _ _ _ _ _ _ E)). Qed.
  Lemma go_end tr cf t n x o q : runs tr cf -> nth_error (c_thr cf) t = Some (TIn n x (PDone (o, q))) ->
    runs ((End n (observe (c_view cf) q), c_view cf) :: tr) (mk_conf (c_view cf) (c_lim cf) (given cf n x o) (c_next cf) (set_thr t TIdle (c_thr cf))).
  Proof. intros R E. exact (cr_step _ _ _ _ _ _ _ _ _ _ _ R (s_end _ _ _ _ _ _ _ _ _ E)). Qed.
End Steps.

Definition fa : str := [97%N].
Definition fb : str := [98%N].
Definition ex_v0 : view :=
  mk_view (fun p => if eqs p fa then Some 0 else if eqs p fb then Some 1 else if eqs p dot then Some 2 else None)
    (fun i => match i with 0 => [1%N] | 1 => [2%N; 3%N] | _ => [] end) (fun _ => None) (fun _ => None) (fun _ => None) 3 (fun _ => []) (fun _ => true) [].
Definition ans (ret : Z) (d : list N) (val : N) : answer := mk_answer ret 0 d val.
Definition str0 (e : Z) : str := [].

(** A RandomAccessFile can read outside its file although nothing was written,
    truncated or removed: NewRandomAccessFile opens the file and asks for the size
    of what has the name a moment later (env_posix.cc:514-546). *)
Definition ex_fd := mk_fdesc 0 0 false.
Definition ex_v1 := with_fd ex_v0 3 (Some ex_fd).
Definition ex_v2 := with_name (with_name ex_v1 fa (Some 1)) fb None.
Definition ex_v3 := with_map ex_v2 4096 (Some (0, 2%N)).
Definition ex_v4 := with_fd ex_v3 3 None.
Definition ex_tr : trace :=
  [(End 2 RFault, ex_v4); (Beg 2 (PRRead 0 0 2), ex_v4); (End 0 (RStat SOk), ex_v4); (Act 0 (CClose 3) (ans 0 [] 0), ex_v4);
   (Act 0 (CMmap 3 2) (ans 0 [] 4096), ex_v3); (Act 0 (CStat fa) (ans 0 [] 2), ex_v2);
   (End 1 (RStat SOk), ex_v2); (Act 1 (CRename fb fa) (ans 0 [] 0), ex_v2); (Beg 1 (PRename fb fa), ex_v1);
   (Act 0 (COpen fa RdOnly) (ans 3 [] 0), ex_v1); (Beg 0 (PNewRand fa), ex_v0)].
Ltac nf R := cbn [c_view c_lim c_objs c_next c_thr set_thr taken object given on shared repeat prog_of pnew_random pget_file_size pask psys pbind pacquire lim_add lim_get l_mmap l_fd pran_read plift assert_ negb observe answers a_ret a_val a_errno a_data ans odel oget Nat.eqb Z.ltb Z.eqb Z.compare Z.add Z.opp Z.pos_sub Pos.compare Pos.compare_cont Pos.eqb CompOpp] in R.
Lemma ex_runs : exists cf, cruns true 4 str0 ex_v0 (mk_limits 1 1) 2 ex_tr cf.
Proof.
  eexists. unfold ex_tr.
  pose proof (cr_start true 4 str0 ex_v0 (mk_limits 1 1) 2) as R.
  apply (go_begin _ _ _ _ _ 0 (PNewRand fa) 5) in R; [|reflexivity|exact Logic.I]. nf R.
  eapply (go_sys _ _ _ _ _ 0) with (a := ans 3 [] 0) (v' := ex_v1) in R; [|reflexivity|eapply k_open_read; [discriminate|reflexivity|reflexivity]]. nf R.
  apply (go_begin _ _ _ _ _ 1 (PRename fb fa) 5) in R; [|reflexivity|exact Logic.I]. nf R.
  eapply (go_sys _ _ _ _ _ 1) with (a := ans 0 [] 0) (v' := ex_v2) in R; [|reflexivity|eapply k_rename; [reflexivity|reflexivity|discriminate|discriminate]]. nf R.
  eapply (go_end _ _ _ _ _ 1) in R; [|reflexivity]. nf R.
  eapply (go_sub _ _ _ _ _ 0) in R; [|reflexivity]. nf R.
  eapply (go_sys _ _ _ _ _ 0) with (a := ans 0 [] 2) (v' := ex_v2) in R; [|reflexivity|eapply k_stat; reflexivity]. nf R.
  eapply (go_sys _ _ _ _ _ 0) with (a := ans 0 [] 4096) (v' := ex_v3) in R; [|reflexivity|refine (k_mmap _ 3 2 _ ex_fd _ _ _ _); [discriminate|reflexivity|reflexivity|reflexivity]]. nf R.
  eapply (go_sys _ _ _ _ _ 0) with (a := ans 0 [] 0) (v' := ex_v4) in R; [|reflexivity|apply k_close]. nf R.
  eapply (go_end _ _ _ _ _ 0) in R; [|reflexivity]. nf R.
  apply (go_begin _ _ _ _ _ 0 (PRRead 0 0 2) 5) in R; [|reflexivity|split; [eexists; split; [reflexivity|reflexivity]|discriminate]]. nf R.
  eapply (go_end _ _ _ _ _ 0) in R; [|reflexivity]. nf R.
  exact R.
Qed.
Theorem C91_fault_without_truncation_refuted :
  ~ (forall dbg B strerror v0 lim0 m tr cf n h off k f,
       (forall fd, v_fd v0 fd <> None -> (0 <= fd)%Z) ->
       cruns dbg B strerror v0 lim0 m tr cf -> call_no tr n = Some (PRRead h off k) -> call_no tr h = Some (PNewRand f) ->
       (forall later earlier, tr = later ++ earlier -> forall i, v_data (now v0 earlier) i = v_data v0 i) ->
       ended tr n <> Some RFault).
Proof.
  intros H. destruct ex_runs as (cf & R). refine (H _ _ _ _ _ _ _ _ 2 0 0%N 2%N fa _ R eq_refl eq_refl _ eq_refl).
  - intros fd X. elim X. reflexivity.
  - intros later earlier E i. unfold ex_tr in E. do 11 (destruct later as [|? later]; [cbn [app] in E; subst earlier; reflexivity|injection E as _ E]). destruct later; [cbn [app] in E; subst earlier; reflexivity|discriminate].
Qed.
Print Assumptions C91_fault_without_truncation_refuted.

(** Two threads read from one object at the same time; then it is deleted.  The
    hypotheses of C90 to C93 hold here. *)
Definition rd_v1 := with_fd ex_v0 3 (Some ex_fd).
Definition rd_v2 := with_fd rd_v1 3 None.
Definition rd_reads : trace :=
  [(Act 2 (CPread 3 1 0) (ans 1 [1%N] 0), rd_v1); (Beg 2 (PRRead 0 0 1), rd_v1); (Act 1 (CPread 3 5 0) (ans 1 [1%N] 0), rd_v1); (Beg 1 (PRRead 0 0 5), rd_v1);
   (End 0 (RStat SOk), rd_v1); (Act 0 (COpen fa RdOnly) (ans 3 [] 0), rd_v1); (Beg 0 (PNewRand fa), ex_v0)].
Definition rd_tr : trace :=
  [(End 4 (RBool true), rd_v2); (Act 4 (CAccess fb) (ans 0 [] 0), rd_v2); (Beg 4 (PExists fb), rd_v2);
   (End 3 (RStat SOk), rd_v2); (Act 3 (CClose 3) (ans 0 [] 0), rd_v2); (Beg 3 (PDelete 0), rd_v1);
   (End 1 (RData SOk [1%N]), rd_v1); (End 2 (RData SOk [1%N]), rd_v1)] ++ rd_reads.
Lemma rd_runs : (exists cf, cruns true 4 str0 ex_v0 (mk_limits 0 1) 2 rd_reads cf) /\
  (exists cf, cruns true 4 str0 ex_v0 (mk_limits 0 1) 2 ((End 2 (RData SOk [1%N]), rd_v1) :: rd_reads) cf) /\
  exists cf, cruns true 4 str0 ex_v0 (mk_limits 0 1) 2 rd_tr cf /\ c_lim cf = mk_limits 0 1.
Proof.
  pose proof (cr_start true 4 str0 ex_v0 (mk_limits 0 1) 2) as R.
  apply (go_begin _ _ _ _ _ 0 (PNewRand fa) 5) in R; [|reflexivity|exact Logic.I]. nf R.
  eapply (go_sys _ _ _ _ _ 0) with (a := ans 3 [] 0) (v' := rd_v1) in R; [|reflexivity|eapply k_open_read; [discriminate|reflexivity|reflexivity]]. nf R.
  eapply (go_sub _ _ _ _ _ 0) in R; [|reflexivity]. nf R.
  eapply (go_add _ _ _ _ _ 0) in R; [|reflexivity]. nf R. cbn [pnew_pread pacquire pbind] in R.
  eapply (go_sub _ _ _ _ _ 0) in R; [|reflexivity]. nf R.
  eapply (go_end _ _ _ _ _ 0) in R; [|reflexivity]. nf R.
  apply (go_begin _ _ _ _ _ 0 (PRRead 0 0 5) 5) in R; [|reflexivity|split; [eexists; split; [reflexivity|reflexivity]|discriminate]]. nf R.
  eapply (go_sys _ _ _ _ _ 0) with (a := ans 1 [1%N] 0) (v' := rd_v1) in R; [|reflexivity|eapply k_pread; [reflexivity|discriminate|reflexivity|discriminate|reflexivity|discriminate]]. nf R.
  apply (go_begin _ _ _ _ _ 1 (PRRead 0 0 1) 5) in R; [|reflexivity|split; [eexists; split; [reflexivity|reflexivity]|discriminate]]. nf R.
  eapply (go_sys _ _ _ _ _ 1) with (a := ans 1 [1%N] 0) (v' := rd_v1) in R; [|reflexivity|eapply k_pread; [reflexivity|discriminate|reflexivity|discriminate|reflexivity|discriminate]]. nf R.
  split; [eexists; exact R|].
  eapply (go_end _ _ _ _ _ 1) in R; [|reflexivity]. nf R. split; [eexists; exact R|].
  eapply (go_end _ _ _ _ _ 0) in R; [|reflexivity]. nf R.
  apply (go_begin _ _ _ _ _ 1 (PDelete 0) 5) in R; [|reflexivity|split; [eexists; split; [reflexivity|exact Logic.I]|]]. 2:{ intros _ [|[|t]] n y p E; cbn in E; try discriminate E. destruct t; discriminate E. } nf R.
  eapply (go_sys _ _ _ _ _ 1) with (a := ans 0 [] 0) (v' := rd_v2) in R; [|reflexivity|apply k_close]. nf R.
  eapply (go_add _ _ _ _ _ 1) in R; [|reflexivity]. nf R.
  eapply (go_end _ _ _ _ _ 1) in R; [|reflexivity]. nf R.
  apply (go_begin _ _ _ _ _ 1 (PExists fb) 5) in R; [|reflexivity|exact Logic.I]. nf R.
  eapply (go_sys _ _ _ _ _ 1) with (a := ans 0 [] 0) (v' := rd_v2) in R; [|reflexivity|apply k_access; [reflexivity|discriminate]]. nf R.
  eapply (go_end _ _ _ _ _ 1) in R; [|reflexivity]. nf R.
  eexists. split; [exact R|]. reflexivity.
Qed.
Example C90_reads_at_once : in_progress rd_reads 1 /\ in_progress rd_reads 2 /\ alive rd_reads 0 KRand fa /\ owner rd_reads 3 = Some 0 /\ kept rd_reads 0.
Proof.
  split; [split; [discriminate|reflexivity]|]. split; [split; [discriminate|reflexivity]|]. split; [|split; [reflexivity|left; exists 3%Z; reflexivity]].
  split; [exists (PNewRand fa); auto|]. intros (n & H & _). destruct n as [|[|[|n]]]; cbn in H; discriminate.
Qed.
Example C91_read_example : exists i, during ex_v0 rd_reads 0 (fun v => v_name v fa = Some i) /\ during ex_v0 rd_reads 2 (fun v => piece [1%N] (v_data v i) 0 1).
Proof.
  destruct rd_runs as (_ & (cf & R) & _). destruct (C91_concurrent_reads true 4 str0 ex_v0 (mk_limits 0 1) 2 (fun fd X => match X eq_refl with end) _ _ _ _ _ _ _ _ _ R eq_refl eq_refl) as (i & H1 & _ & H3).
  exists i. split; [apply H1; left; exists 3%Z; reflexivity|exact H3].
Qed.
Example C92_nothing_left_example : quiet rd_tr /\ (forall h k f, ~ alive rd_tr h k f).
Proof.
  split.
  - intros n (H1 & H2). do 5 (destruct n as [|n]; [discriminate H2|]). elim H1. reflexivity.
  - intros h k f ((x & H1 & H2 & H3) & G). destruct h as [|[|[|[|[|h]]]]]; cbn in H1; try discriminate H1; injection H1 as <-; try discriminate H2.
    apply G. exists 3. split; [reflexivity|discriminate].
Qed.
Example C93_example : asks (PExists fb) = Some (CAccess fb, fb) /\ call_no rd_tr 4 = Some (PExists fb) /\ ended rd_tr 4 = Some (RBool true).
Proof. repeat split. Qed.
