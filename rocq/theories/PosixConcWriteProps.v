(** PosixConcWriteProps.v -- C95 and C96: what several threads write on the POSIX
    environment.

    The executions are those of PosixConc.v: any number of threads, any order of
    their system calls, any answers of a POSIX file system.  One object is used by
    one thread at a time (but by any thread), as the interface demands. *)
From Coq Require Import List Arith NArith ZArith Lia Bool Permutation.
From Verif Require Import Outcome Status MemEnv PosixOs PosixWritable PosixWritableSpec PosixWritableProofs PosixRead PosixEnv PosixFs PosixEnvSpec PosixConc PosixConcSpec PosixConcSafe PosixConcHeld PosixConcInv PosixConcProofs PosixConcTrace PosixConcFacts PosixConcReads PosixConcWriteSpec PosixConcWr PosixConcWrites PosixConcFiles PosixConcSaved PosixConcProps.
Import ListNotations.

Lemma writer_opens x f : opens x = Some (KWrite, f) -> writer x = true.
Proof. destruct x; try discriminate; reflexivity. Qed.

Section Props.
  Variable dbg : bool.
  Variable B : nat.
  Variable strerror : Z -> str.
  (** the files, the slots and the number of threads at the start; open descriptors
      are not negative, names stand for files that exist *)
  Variables (v0 : view) (lim0 : limits) (m : nat).
  Hypothesis fds_sane : forall fd, v_fd v0 fd <> None -> (0 <= fd)%Z.
  Hypothesis names_sane : forall p i, v_name v0 p = Some i -> i < v_next v0.
  Notation runs := (cruns dbg B strerror v0 lim0 m).

  (** ** C95: what reaches the kernel *)

  (** What calls on a WritableFile have written is what was given to Append, in
      order, perhaps with parts left out; nothing is left out as long as every call
      returned OK. *)
  Theorem C95_bytes_in_order tr cf h x f :
    runs tr cf -> call_no tr h = Some x -> opens x = Some (KWrite, f) ->
    subseq (sent tr h) (handed tr h) /\ (all_ok tr h -> begins (handed tr h) (sent tr h)).
  Proof. intros R C O. eapply in_order; try eassumption. exact (writer_opens _ _ O). Qed.
  (** When a call on it returns OK, as all before did, at most a buffer's worth is
      still to be written, and nothing if the call was Flush, Sync or Close. *)
  Theorem C95_buffer_bound tr cf h x f n y v :
    let tr' := (End n (RStat SOk), v) :: tr in
    runs tr' cf -> call_no tr h = Some x -> opens x = Some (KWrite, f) ->
    call_no tr n = Some y -> on y = Some h -> y <> PDelete h -> all_ok tr' h ->
    exists rest, handed tr' h = sent tr' h ++ rest /\ length rest <= B.
  Proof.
    intros tr' R C O Cn On Nd A. destruct (returns dbg B strerror v0 lim0 m fds_sane h x (writer_opens _ _ O) _ _ _ _ _ _ R C Cn On Nd) as (st & b & E & L & _ & X). injection E as <-.
    assert (A' : all_ok tr h). { eapply all_ok_end; [|exact A]. change tr' with ([] ++ tr') in R. unfold tr' in R. destruct (end_step _ _ _ _ _ _ _ _ _ _ _ _ R) as (cf0 & t & y' & o & q & R0 & Et & _). destruct (inv_runs dbg B strerror v0 lim0 m fds_sane _ _ R0) as (Rs & H). apply (running _ _ _ _ _ _ _ _ _ _ H Et). }
    destruct (X A' eq_refl) as (E & _). exists b. split; [symmetry; exact E|exact L].
  Qed.
  Theorem C95_flushed tr cf h x f n y v :
    let tr' := (End n (RStat SOk), v) :: tr in
    runs tr' cf -> call_no tr h = Some x -> opens x = Some (KWrite, f) ->
    call_no tr n = Some y -> on y = Some h -> flushing y = true -> all_ok tr' h ->
    sent tr' h = handed tr' h.
  Proof.
    intros tr' R C O Cn On Fl A. assert (Nd : y <> PDelete h) by (intros ->; discriminate Fl).
    destruct (returns dbg B strerror v0 lim0 m fds_sane h x (writer_opens _ _ O) _ _ _ _ _ _ R C Cn On Nd) as (st & b & E & L & _ & X). injection E as <-.
    assert (A' : all_ok tr h). { eapply all_ok_end; [|exact A]. change tr' with ([] ++ tr') in R. unfold tr' in R. destruct (end_step _ _ _ _ _ _ _ _ _ _ _ _ R) as (cf0 & t & y' & o & q & R0 & Et & _). destruct (inv_runs dbg B strerror v0 lim0 m fds_sane _ _ R0) as (Rs & H). apply (running _ _ _ _ _ _ _ _ _ _ H Et). }
    destruct (X A' eq_refl) as (E & F & _). rewrite (F Fl), app_nil_r in E. exact E.
  Qed.
  (** Deleting an object that was not closed writes what is left, unless a write()
      fails then (of which the caller is told nothing). *)
  Theorem C95_deleted tr cf h x f n r :
    runs tr cf -> call_no tr h = Some x -> opens x = Some (KWrite, f) ->
    call_no tr n = Some (PDelete h) -> ended tr n = Some r -> never_closed tr h -> all_ok tr h ->
    (forall fd d a, In (CWrite fd d, a) (acts tr n) -> (0 <= a_ret a)%Z \/ a_errno a = EINTR) ->
    sent tr h = handed tr h.
  Proof.
    intros R C O Cn En Nc A F. apply (deleted dbg B strerror v0 lim0 m fds_sane h x (writer_opens _ _ O) tr cf n r R C Cn En Nc A).
    intros fd d a I0. unfold failed. destruct (F _ _ _ I0) as [L|E]; [destruct (Z.ltb_spec (a_ret a) 0); [lia|reflexivity]|]. rewrite E, Z.eqb_refl. apply andb_false_r.
  Qed.

  (** ** C96: what is in the file *)

  (** Every WritableFile that was made opened its file once. *)
  Theorem C96_every_writer_has_an_opening tr cf h x f :
    runs tr cf -> call_no tr h = Some x -> opens x = Some (KWrite, f) -> ended tr h = Some (RStat SOk) ->
    exists later e earlier i, tr = later ++ e :: earlier /\ opening h x f i e earlier.
  Proof.
    intros R C O E. destruct (finished dbg B strerror v0 lim0 m fds_sane _ _ _ _ R E) as (l1 & v & l2 & cf0 & y & fuel & o & ob & q & Et & R0 & Cy & _ & P & Ea & Er & _ & On & _).
    assert (y = x). { enough (Some y = Some x) by congruence. rewrite <- C. rewrite Et. change ((End h (RStat SOk), v) :: l2) with ([(End h (RStat SOk), v)] ++ l2). rewrite app_assoc. symmetry. eapply (call_later dbg B strerror v0 lim0 m fds_sane); [|exact Cy]. rewrite <- app_assoc. cbn [app]. rewrite <- Et. exact R. } subst y.
    assert (Onx : on x = None) by (destruct x; try discriminate O; reflexivity). rewrite (On Onx) in P.
    assert (G : exists fl a, acts tr h = [(COpen f fl, a)] /\ (0 <= a_ret a)%Z).
    { assert (G : forall fl, path (pnew_writable dbg B strerror f fl) (acts tr h) (PDone (o, q)) -> exists fl a, acts tr h = [(COpen f fl, a)] /\ (0 <= a_ret a)%Z).
      { intros fl X. unfold pnew_writable, psys in X. cbn [pbind] in X. apply path_psys in X. destruct X as [(_ & X)|(a & l' & El & X)]; [discriminate|]. exists fl, a. rewrite El.
        destruct (Z.ltb_spec (a_ret a) 0) as [L|L].
        - apply path_done in X. destruct X as (_ & X). injection X as -> ->. cbn [observe] in Er. exfalso. injection Er as Er. symmetry in Er. exact (posix_error strerror _ _ Er).
        - destruct (new_wfile_ok dbg B f (a_ret a)) as (z & d & Ez & _). rewrite Ez in X. cbn [plift pbind] in X. apply path_done in X. destruct X as (-> & _). auto. }
      destruct x; try discriminate O; injection O as ->; cbn [prog_of] in P; eapply G; exact P. }
    destruct G as (fl & a & Eact & La). destruct (acts_in tr h (COpen f fl) a) as (l3 & w & l4 & Es); [rewrite Eact; left; reflexivity|].
    assert (Cx : call_no l4 h = Some x). { rewrite Es in R, C. destruct (act_in_progress dbg B strerror v0 lim0 m fds_sane _ _ _ _ _ _ _ R) as (X & _). destruct (call_no l4 h) as [z|] eqn:Ez; [|congruence].
      assert (X1 : call_no (l3 ++ (Act h (COpen f fl) a, w) :: l4) h = Some z). { change ((Act h (COpen f fl) a, w) :: l4) with ([(Act h (COpen f fl) a, w)] ++ l4). rewrite app_assoc. eapply (call_later dbg B strerror v0 lim0 m fds_sane); [|exact Ez]. rewrite <- app_assoc. exact R. } congruence. }
    rewrite Es in R. destruct (act_step dbg B strerror v0 lim0 m fds_sane _ _ _ _ _ _ _ R) as (_ & _ & _ & _ & _ & _ & K).
    assert (N : exists i, v_name w f = Some i).
    { inversion K; subst; try discriminate; try lia; cbn [v_name with_fd with_data]; eauto. cbn [create v_name with_data with_name]. rewrite upd_same. eauto. }
    destruct N as (i & N). exists l3, (Act h (COpen f fl) a, w), l4, i. split; [exact Es|]. exists fl, a, w. auto.
  Qed.
  (** NewWritableFile starts from nothing, NewAppendableFile from what was there. *)
  Theorem C96_start later e earlier cf h x f i :
    runs (later ++ e :: earlier) cf -> opening h x f i e earlier ->
    (x = PNewWrite f -> start e i = []) /\
    (x = PNewAppend f -> v_name (now v0 earlier) f = Some i /\ start e i = v_data (now v0 earlier) i \/
                         v_name (now v0 earlier) f = None /\ start e i = []).
  Proof.
    intros R (fl & a & v & -> & C & O & La & N). unfold start. cbn [snd]. destruct (act_step dbg B strerror v0 lim0 m fds_sane _ _ _ _ _ _ _ R) as (cf0 & t & y & k & R0 & Et & K).
    destruct (inv_runs dbg B strerror v0 lim0 m fds_sane _ _ R0) as (Rs & H). destruct (running _ _ _ _ _ _ _ _ _ _ H Et) as (_ & Cn). assert (y = x) by congruence. subst y.
    destruct (makes dbg B strerror v0 lim0 m fds_sane h x (writer_opens _ _ O) _ _ _ _ _ _ R C) as (Ea & _).
    destruct (did_runs dbg B strerror v0 lim0 m fds_sane _ _ R0 _ _ _ _ Et) as (fuel & o & P & O1 & _). rewrite Ea in P. split; intros ->; rewrite (O1 eq_refl) in P; cbn [prog_of] in P;
      unfold pnew_writable, psys in P; cbn [pbind] in P; apply path_psys in P; (destruct P as [(_ & P)|(b & l & P & _)]; [|discriminate P]); injection P as -> _;
      inversion K; subst; try discriminate; try lia; cbn [v_data v_name with_fd with_data create with_name] in *; rewrite ?upd_same in *.
    - assert (i0 = i) by congruence. subst i0. apply upd_same.
    - injection N as <-. apply upd_same.
    - assert (i0 = i) by congruence. subst i0. auto.
    - injection N as <-. right. split; [assumption|apply upd_same].
  Qed.
  (** As long as nothing else changes the file, it holds what it held at the start
      and then what was written. *)
  Theorem C96_contents later e earlier cf h x f i :
    let tr := later ++ e :: earlier in
    runs tr cf -> opening h x f i e earlier -> only_writer v0 later (e :: earlier) h i ->
    v_data (now v0 tr) i = start e i ++ sent tr h.
  Proof.
    intros tr R (fl & a & v & -> & C & O & La & N) OW. exact (proj1 (contents dbg B strerror v0 lim0 m fds_sane names_sane h x (writer_opens _ _ O) _ _ _ _ _ _ _ _ R C La N OW)).
  Qed.
  (** When Flush, Sync or Close returns OK, as all calls before did, all that was
      given to Append is in the file. *)
  Theorem C96_flushed_contents later e earlier cf h x f i n y v :
    let tr := later ++ e :: earlier in
    let tr' := (End n (RStat SOk), v) :: tr in
    runs tr' cf -> opening h x f i e earlier -> only_writer v0 later (e :: earlier) h i ->
    call_no tr n = Some y -> on y = Some h -> flushing y = true -> all_ok tr' h ->
    v_data v i = start e i ++ handed tr h.
  Proof.
    intros tr tr' R Op OW Cn On Fl A. destruct (back dbg B strerror v0 lim0 m fds_sane _ _ _ _ R) as (cf0 & R0 & ->). transitivity (start e i ++ sent tr h); [exact (C96_contents _ _ _ _ _ _ _ _ R0 Op OW)|]. f_equal.
    destruct Op as (fl & a & w & -> & C & O & _). eapply (C95_flushed tr cf h x f n y); try eassumption. unfold tr. change ((Act h (COpen f fl) a, w) :: earlier) with ([(Act h (COpen f fl) a, w)] ++ earlier). rewrite app_assoc. eapply (call_later dbg B strerror v0 lim0 m fds_sane); [|exact C]. rewrite <- app_assoc. exact R0.
  Qed.
  (** Once Sync has returned OK, as all calls before did, all that had been given to
      Append survives every later crash, as long as nothing else changes the file
      ([after]: what happens after Sync). *)
  Theorem C96_synced_survives after later e earlier cf h x f i n v name disk p :
    let tr := later ++ e :: earlier in
    let tr' := (End n (RStat SOk), v) :: tr in
    runs (after ++ tr') cf -> opening h x f i e earlier ->
    only_writer v0 (after ++ (End n (RStat SOk), v) :: later) (e :: earlier) h i ->
    call_no tr n = Some (PWSync h) -> all_ok tr' h ->
    crash_disk (now v0 (after ++ tr')) name disk -> name p = Some i ->
    begins (disk i) (start e i ++ handed tr h).
  Proof.
    intros tr tr' R Op OW Cn A (_ & Cd) Np. destruct (runs_split _ _ _ _ _ _ _ _ _ _ R) as (_ & _ & cf1 & _ & _ & _ & R1). fold tr' in R1. destruct (back dbg B strerror v0 lim0 m fds_sane _ _ _ _ R1) as (cf0 & R0 & _).
    pose proof Op as (fl & a & w & -> & C & O & La & N). unfold start. cbn [snd].
    assert (Ct : call_no tr h = Some x). { unfold tr. change ((Act h (COpen f fl) a, w) :: earlier) with ([(Act h (COpen f fl) a, w)] ++ earlier). rewrite app_assoc. eapply (call_later dbg B strerror v0 lim0 m fds_sane); [|exact C]. rewrite <- app_assoc. exact R0. }
    destruct (returns dbg B strerror v0 lim0 m fds_sane h x (writer_opens _ _ O) _ _ _ _ _ _ R1 Ct Cn eq_refl) as (st & b & E & _ & _ & X); [discriminate|]. injection E as <-.
    assert (A' : all_ok tr h). { eapply all_ok_end; [|exact A]. change tr' with ([] ++ tr') in R1. unfold tr' in R1. destruct (end_step _ _ _ _ _ _ _ _ _ _ _ _ R1) as (cf2 & t & y' & o & q & R2 & Et & _). destruct (inv_runs dbg B strerror v0 lim0 m fds_sane _ _ R2) as (Rs & H). apply (running _ _ _ _ _ _ _ _ _ _ H Et). }
    destruct (X A' eq_refl) as (_ & _ & F). specialize (F eq_refl). apply (forced_cons (End n (RStat SOk), v)) in F.
    assert (F' : was_forced (after ++ tr') h (handed tr h)) by (clear -F; induction after as [|e after IH]; [exact F|apply forced_cons; exact IH]).
    destruct (Cd _ _ Np) as (rest & ->). apply begins_app. unfold tr', tr in *. set (base := (Act h (COpen f fl) a, w) :: earlier) in *.
    change (after ++ (End n (RStat SOk), v) :: later ++ base) with (after ++ ((End n (RStat SOk), v) :: later) ++ base) in *. rewrite app_assoc in R, F' |- *.
    exact (forced_safe dbg B strerror v0 lim0 m fds_sane names_sane h x (writer_opens _ _ O) _ _ _ _ _ _ _ _ _ R C La N OW F').
  Qed.
  (** Several writers of one file, all made by NewAppendableFile: the file holds
      what it held and then all that was written, piece by piece; the pieces of each
      of them are in order. *)
  Theorem C96_appenders later earlier cf i :
    let tr := later ++ earlier in
    runs tr cf -> i < v_next (now v0 earlier) -> only_appends v0 later earlier i ->
    v_data (now v0 tr) i = v_data (now v0 earlier) i ++ added v0 later earlier i /\
    forall l2 e l1 h x f, tr = l2 ++ e :: l1 -> opening h x f i e l1 ->
      exists s, sent tr h = sent earlier h ++ s /\ subseq s (added v0 later earlier i).
  Proof.
    intros tr R L OA. split; [eapply (appended dbg B strerror v0 lim0 m fds_sane); eassumption|].
    intros l2 e l1 h x f E (fl & a & v & -> & C & O & La & N). apply (own_bytes dbg B strerror v0 lim0 m fds_sane [] later earlier cf h x l2 l1 f fl a v i (writer_opens _ _ O) R E C N).
  Qed.
  (** Sync by one of them: all that was given to it survives every later crash. *)
  Theorem C96_appender_sync after later e earlier cf h f i n v name disk p :
    let tr := later ++ e :: earlier in
    let tr' := (End n (RStat SOk), v) :: tr in
    runs (after ++ tr') cf -> opening h (PNewAppend f) f i e earlier ->
    only_appends v0 (after ++ (End n (RStat SOk), v) :: later) (e :: earlier) i ->
    call_no tr n = Some (PWSync h) -> all_ok tr' h ->
    crash_disk (now v0 (after ++ tr')) name disk -> name p = Some i ->
    exists d, begins (disk i) (start e i ++ d) /\ subseq (handed tr h) d.
  Proof.
    intros tr tr' R Op OA Cn A (_ & Cd) Np. destruct (runs_split _ _ _ _ _ _ _ _ _ _ R) as (_ & _ & cf1 & _ & _ & _ & R1). fold tr' in R1. destruct (back dbg B strerror v0 lim0 m fds_sane _ _ _ _ R1) as (cf0 & R0 & _).
    pose proof Op as (fl & a & w & -> & C & O & La & N). unfold start. cbn [snd].
    assert (Ct : call_no tr h = Some (PNewAppend f)). { unfold tr. change ((Act h (COpen f fl) a, w) :: earlier) with ([(Act h (COpen f fl) a, w)] ++ earlier). rewrite app_assoc. eapply (call_later dbg B strerror v0 lim0 m fds_sane); [|exact C]. rewrite <- app_assoc. exact R0. }
    destruct (returns dbg B strerror v0 lim0 m fds_sane h (PNewAppend f) eq_refl _ _ _ _ _ _ R1 Ct Cn eq_refl) as (st & b & E & _ & _ & X); [discriminate|]. injection E as <-.
    assert (A' : all_ok tr h). { eapply all_ok_end; [|exact A]. change tr' with ([] ++ tr') in R1. unfold tr' in R1. destruct (end_step _ _ _ _ _ _ _ _ _ _ _ _ R1) as (cf2 & t & y' & o & q & R2 & Et & _). destruct (inv_runs dbg B strerror v0 lim0 m fds_sane _ _ R2) as (Rs & H). apply (running _ _ _ _ _ _ _ _ _ _ H Et). }
    destruct (X A' eq_refl) as (_ & _ & F). specialize (F eq_refl). destruct F as (l2 & k & fd & an & u & l1 & Es & Ow & Ra & Se).
    set (base := (Act h (COpen f fl) a, w) :: earlier) in *.
    (* the fsync() comes after the open() *)
    assert (Sp : exists l3, l1 = l3 ++ base /\ later = l2 ++ (Act k (CFsync fd) an, u) :: l3).
    { unfold tr, base in Es. destruct (split_unique _ _ _ _ _ _ Es) as [(_ & X1 & _)|[(l3 & E1 & E2)|(l3 & E1 & E2)]]; [discriminate X1|exists l3; auto|].
      exfalso. unfold tr in R0. subst l2. eapply (no_owner_before dbg B strerror v0 lim0 m fds_sane h (PNewAppend f)) with (l2 := l3 ++ [(Act k (CFsync fd) an, u)]); [|exact R0|exact C| |exact Ow]; [reflexivity|rewrite <- app_assoc; exact E2]. }
    destruct Sp as (l3 & El1 & El). subst l1. clear Es.
    assert (Rb : exists cf2, runs (l3 ++ base) cf2 /\ kstep (now v0 (l3 ++ base)) (CFsync fd, an) u /\ exists cf3, runs ((Act k (CFsync fd) an, u) :: l3 ++ base) cf3).
    { unfold tr in R0. rewrite El, <- app_assoc in R0. cbn [app] in R0. destruct (runs_split _ _ _ _ _ _ _ _ _ _ R0) as (_ & _ & cf3 & _ & _ & _ & R3). destruct (back dbg B strerror v0 lim0 m fds_sane _ _ _ _ R3) as (cf2 & R2 & K). eauto 6. }
    destruct Rb as (cf2 & R2 & K & cf3 & R3).
    destruct (own_fd dbg B strerror v0 lim0 m fds_sane h (PNewAppend f) eq_refl l3 f fl a w earlier _ fd R2 C Ow) as (-> & y & Ey & Ei). fold base in Ey. assert (Di : d_ino y = i) by congruence.
    assert (Su : v_safe u i = v_data (now v0 (l3 ++ base)) i /\ v_data u i = v_data (now v0 (l3 ++ base)) i).
    { inversion K; subst; try discriminate; try lia. assert (x = y) by congruence. subst x. cbn [v_safe v_data synced]. rewrite upd_same. auto. }
    destruct Su as (Su1 & Su2).
    assert (Lb : i < v_next (now v0 base)). { unfold base. cbn [now]. destruct (runs_split _ _ _ _ _ _ _ _ _ _ R0) as (_ & _ & cf5 & _ & _ & _ & R5). exact (names_ok dbg B strerror v0 lim0 m fds_sane names_sane _ _ R5 f i N). }
    assert (OA3 : forall p q, after ++ (End n (RStat SOk), v) :: later = p ++ q -> only_appends v0 q base i).
    { intros p' q E l5 n' c' a' v' l6 Eq Ch. apply (OA (p' ++ l5) n' c' a' v' l6); [|exact Ch]. rewrite E, Eq. apply app_assoc. }
    set (top := after ++ (End n (RStat SOk), v) :: l2).
    assert (Et : after ++ (End n (RStat SOk), v) :: later = top ++ (Act k (CFsync (a_ret a)) an, u) :: l3) by (unfold top; rewrite El, <- app_assoc; reflexivity).
    assert (Etr : after ++ tr' = top ++ (Act k (CFsync (a_ret a)) an, u) :: l3 ++ base).
    { unfold tr', tr, top. rewrite El, <- !app_assoc. cbn [app]. rewrite <- ?app_assoc. reflexivity. }
    assert (Ld : i < v_next u). { pose proof (k_next _ _ _ _ K). pose proof (next_mono dbg B strerror v0 lim0 m fds_sane l3 base _ R2). lia. }
    pose proof (appended dbg B strerror v0 lim0 m fds_sane l3 base _ i R2 Lb (OA3 (top ++ [(Act k (CFsync (a_ret a)) an, u)]) l3 ltac:(rewrite <- app_assoc; exact Et))) as D1. unfold base in D1 at 2. cbn [now] in D1.
    destruct (own_bytes dbg B strerror v0 lim0 m fds_sane [] l3 base cf2 h (PNewAppend f) l3 earlier f fl a w i eq_refl R2 eq_refl C N) as (s & S1 & S2).
    exists (added v0 l3 base i). rewrite <- D1. split.
    - destruct (Cd _ _ Np) as (rest & ->). apply begins_app. rewrite Etr in R |- *.
      apply (append_safe dbg B strerror v0 lim0 m fds_sane top ((Act k (CFsync (a_ret a)) an, u) :: l3 ++ base) cf i _ R Ld).
      + intros l5 n' c' a' v' l6 Eq Ch. change (l6 ++ (Act k (CFsync (a_ret a)) an, u) :: l3 ++ base) with (l6 ++ ((Act k (CFsync (a_ret a)) an, u) :: l3) ++ base) in *. rewrite app_assoc in Ch |- *.
        apply (OA l5 n' c' a' v' (l6 ++ (Act k (CFsync (a_ret a)) an, u) :: l3)); [|exact Ch]. rewrite Et, Eq, <- app_assoc. reflexivity.
      + cbn [now]. rewrite Su1. apply begins_refl.
      + cbn [now]. rewrite Su2. apply begins_refl.
    - rewrite <- Se, S1. assert (Eb : sent base h = []). { unfold base. cbn [sent took]. destruct (makes dbg B strerror v0 lim0 m fds_sane h (PNewAppend f) eq_refl _ _ _ _ _ _ R0 C) as (_ & -> & _). destruct (on_obj earlier h h); reflexivity. }
      rewrite Eb. exact S2.
  Qed.
End Props.

(** ** An execution.  Thread 0 makes a (file 0) anew, thread 1 appends to b (file
    1), and so does thread 0; each appends one byte; the threads sync and flush at
    the same time. *)
Definition wv1 := with_fd (with_data ex_v0 0 [] []) 3 (Some (mk_fdesc 0 0 false)).
Definition wv2 := with_fd wv1 4 (Some (mk_fdesc 1 0 true)).
Definition wv3 := with_fd wv2 5 (Some (mk_fdesc 1 0 true)).
Definition wv4 := with_fd (with_data wv3 0 [7%N] []) 3 (Some (mk_fdesc 0 1 false)).
Definition wv5 := with_fd (with_data wv4 1 [2%N; 3%N; 8%N] []) 4 (Some (mk_fdesc 1 3 true)).
Definition wv6 := synced wv5 0.
Definition wv7 := with_fd (with_data wv6 1 [2%N; 3%N; 8%N; 9%N] []) 5 (Some (mk_fdesc 1 4 true)).
Definition wv8 := synced wv7 1.
Definition w_open0 := (Act 0 (COpen fa WrTrunc) (ans 3 [] 0), wv1).
Definition w_early0 : trace := [(Beg 0 (PNewWrite fa), ex_v0)].
Definition w_open1 := (Act 1 (COpen fb WrAppend) (ans 4 [] 0), wv2).
Definition w_early1 : trace := [(Beg 1 (PNewAppend fb), wv1); (End 0 (RStat SOk), wv1)] ++ w_open0 :: w_early0.
Definition w_mid1 : trace :=
  [(Act 6 (CFsync 3) (ans 0 [] 0), wv6); (Act 7 (CWrite 4 [8%N]) (ans 1 [] 0), wv5); (Beg 7 (PWSync 1), wv4);
   (Act 6 (CWrite 3 [7%N]) (ans 1 [] 0), wv4); (Beg 6 (PWSync 0), wv3);
   (End 5 (RStat SOk), wv3); (Beg 5 (PWAppend 3 [9%N]), wv3); (End 4 (RStat SOk), wv3); (Beg 4 (PWAppend 1 [8%N]), wv3);
   (End 3 (RStat SOk), wv3); (Act 3 (COpen fb WrAppend) (ans 5 [] 0), wv3); (Beg 3 (PNewAppend fb), wv2);
   (End 2 (RStat SOk), wv2); (Beg 2 (PWAppend 0 [7%N]), wv2); (End 1 (RStat SOk), wv2)].
Definition w_mid2 : trace :=
  [(End 8 (RStat SOk), wv8); (Act 7 (CFsync 4) (ans 0 [] 0), wv8); (Act 8 (CWrite 5 [9%N]) (ans 1 [] 0), wv7); (Beg 8 (PWFlush 3), wv6)].
(** until Sync on object 0 returns *)
Definition w_tr1 : trace := (End 6 (RStat SOk), wv6) :: w_mid1 ++ w_open1 :: w_early1.
(** until Sync on object 1 returns *)
Definition w_tr2 : trace := (End 7 (RStat SOk), wv8) :: w_mid2 ++ w_tr1.
Ltac nw R := lazy -[ex_v0 wv1 wv2 wv3 wv4 wv5 wv6 wv7 wv8] in R.
Ltac cf R := cbn [c_view c_lim c_objs c_next c_thr set_thr taken object given on shared repeat odel oget filter fst negb Nat.eqb observe] in R.
Ltac alone := split; [eexists; split; [reflexivity|exact Logic.I]|let u := fresh in intros _ u n y p E; destruct u as [|[|u]]; cbn in E; try discriminate E; [..|destruct u; discriminate E]; injection E as _ <- _; discriminate].
Lemma w_runs : (exists cf, cruns true 4 str0 ex_v0 (mk_limits 0 1) 2 w_tr1 cf) /\ exists cf, cruns true 4 str0 ex_v0 (mk_limits 0 1) 2 w_tr2 cf.
Proof.
  pose proof (cr_start true 4 str0 ex_v0 (mk_limits 0 1) 2) as R.
  apply (go_begin _ _ _ _ _ 0 (PNewWrite fa) 2) in R; [|reflexivity|exact Logic.I]. cf R.
  eapply (go_sys _ _ _ _ _ 0) with (a := ans 3 [] 0) (v' := wv1) in R; [|reflexivity|eapply k_open_trunc; [discriminate|reflexivity|reflexivity]]. cf R.
  eapply (go_end _ _ _ _ _ 0) in R; [|reflexivity]. nw R. 
  apply (go_begin _ _ _ _ _ 1 (PNewAppend fb) 2) in R; [|reflexivity|exact Logic.I]. cf R.
  eapply (go_sys _ _ _ _ _ 1) with (a := ans 4 [] 0) (v' := wv2) in R; [|reflexivity|eapply k_open_append; [discriminate|reflexivity|reflexivity]]. cf R.
  eapply (go_end _ _ _ _ _ 1) in R; [|reflexivity]. nw R. 
  apply (go_begin _ _ _ _ _ 0 (PWAppend 0 [7%N]) 2) in R; [|reflexivity|alone]. cf R.
  eapply (go_end _ _ _ _ _ 0) in R; [|reflexivity]. nw R.
  apply (go_begin _ _ _ _ _ 0 (PNewAppend fb) 2) in R; [|reflexivity|exact Logic.I]. cf R.
  eapply (go_sys _ _ _ _ _ 0) with (a := ans 5 [] 0) (v' := wv3) in R; [|reflexivity|eapply k_open_append; [discriminate|reflexivity|reflexivity]]. cf R.
  eapply (go_end _ _ _ _ _ 0) in R; [|reflexivity]. nw R.
  apply (go_begin _ _ _ _ _ 1 (PWAppend 1 [8%N]) 2) in R; [|reflexivity|alone]. cf R.
  eapply (go_end _ _ _ _ _ 1) in R; [|reflexivity]. nw R.
  apply (go_begin _ _ _ _ _ 1 (PWAppend 3 [9%N]) 2) in R; [|reflexivity|alone]. cf R.
  eapply (go_end _ _ _ _ _ 1) in R; [|reflexivity]. nw R.
  apply (go_begin _ _ _ _ _ 0 (PWSync 0) 2) in R; [|reflexivity|alone]. cf R.
  eapply (go_sys _ _ _ _ _ 0) with (a := ans 1 [] 0) (v' := wv4) in R; [|reflexivity|refine (k_write wv3 3 [7%N] (ans 1 [] 0) (mk_fdesc 0 0 false) _ _); [split; discriminate|reflexivity]]. cf R.
  apply (go_begin _ _ _ _ _ 1 (PWSync 1) 2) in R; [|reflexivity|alone]. cf R.
  eapply (go_sys _ _ _ _ _ 1) with (a := ans 1 [] 0) (v' := wv5) in R; [|reflexivity|refine (k_write wv4 4 [8%N] (ans 1 [] 0) (mk_fdesc 1 0 true) _ _); [split; discriminate|reflexivity]]. cf R.
  eapply (go_sys _ _ _ _ _ 0) with (a := ans 0 [] 0) (v' := wv6) in R; [|reflexivity|refine (k_fsync wv5 3 (ans 0 [] 0) (mk_fdesc 0 1 false) _ _); reflexivity]. cf R.
  eapply (go_end _ _ _ _ _ 0) in R; [|reflexivity]. cf R.
  split; [eexists; exact R|].
  apply (go_begin _ _ _ _ _ 0 (PWFlush 3) 2) in R; [|reflexivity|alone]. cf R.
  eapply (go_sys _ _ _ _ _ 0) with (a := ans 1 [] 0) (v' := wv7) in R; [|reflexivity|refine (k_write wv6 5 [9%N] (ans 1 [] 0) (mk_fdesc 1 0 true) _ _); [split; discriminate|reflexivity]]. cf R.
  eapply (go_sys _ _ _ _ _ 1) with (a := ans 0 [] 0) (v' := wv8) in R; [|reflexivity|refine (k_fsync wv7 4 (ans 0 [] 0) (mk_fdesc 1 3 true) _ _); reflexivity]. cf R.
  eapply (go_end _ _ _ _ _ 0) in R; [|reflexivity]. cf R.
  eapply (go_end _ _ _ _ _ 1) in R; [|reflexivity]. cf R.
  eexists; exact R.
Qed.
Lemma w_fds : forall fd, v_fd ex_v0 fd <> None -> (0 <= fd)%Z.
Proof. intros fd X. elim X. reflexivity. Qed.
Lemma w_names : forall p i, v_name ex_v0 p = Some i -> i < v_next ex_v0.
Proof. intros p i. cbn [v_name v_next ex_v0]. destruct (eqs p fa); [intros E; injection E as <-; lia|]. destruct (eqs p fb); [intros E; injection E as <-; lia|]. destruct (eqs p dot); [intros E; injection E as <-; lia|discriminate]. Qed.
(** All calls that returned, returned OK. *)
Lemma w_ok h : all_ok w_tr2 h /\ all_ok w_tr1 h.
Proof. split; intros n x r _ _ E; cbn in E; repeat (match type of E with context [match ?k with 0 => _ | S _ => _ end] => destruct k; cbn in E end); congruence. Qed.
Example C95_sync_example : handed w_tr1 0 = [7%N] /\ sent w_tr1 0 = handed w_tr1 0.
Proof.
  split; [reflexivity|]. destruct w_runs as ((cf & R) & _).
  apply (C95_flushed true 4 str0 ex_v0 (mk_limits 0 1) 2 w_fds _ cf 0 (PNewWrite fa) fa 6 (PWSync 0) wv6 R eq_refl eq_refl eq_refl eq_refl eq_refl (proj2 (w_ok 0))).
Qed.
Lemma ow_nil v0 base h i : only_writer v0 [] base h i.
Proof. intros [|] n c a v l1 E; discriminate. Qed.
Lemma ow_cons v0 l w later base h i : only_writer v0 later base h i ->
  match l with Act n c a => changes (now v0 (later ++ base)) c a i -> on_obj (later ++ base) n h = true | _ => True end -> only_writer v0 ((l, w) :: later) base h i.
Proof. intros O X [|e l2] n c a v l1 E Ch; cbn [app] in E; injection E; [intros -> _ ->; auto|intros -> _; eapply O; [reflexivity|exact Ch]]. Qed.
Lemma oa_nil v0 base i : only_appends v0 [] base i.
Proof. intros [|] n c a v l1 E; discriminate. Qed.
Lemma oa_cons v0 l w later base i : only_appends v0 later base i ->
  match l with Act n c a => changes (now v0 (later ++ base)) c a i ->
    exists fd d h f, c = CWrite fd d /\ on_obj (later ++ base) n h = true /\ call_no (later ++ base) h = Some (PNewAppend f) | _ => True end -> only_appends v0 ((l, w) :: later) base i.
Proof. intros O X [|e l2] n c a v l1 E Ch; cbn [app] in E; injection E; [intros -> _ ->; auto|intros -> _; eapply O; [reflexivity|exact Ch]]. Qed.
Definition w_late0 : trace := (End 7 (RStat SOk), wv8) :: w_mid2 ++ (End 6 (RStat SOk), wv6) :: w_mid1 ++ w_open1 :: [(Beg 1 (PNewAppend fb), wv1); (End 0 (RStat SOk), wv1)].
Lemma w_only0 : only_writer ex_v0 w_late0 (w_open0 :: w_early0) 0 0.
Proof.
  unfold w_late0, w_mid1, w_mid2, w_open1. cbn [app].
  repeat (apply ow_cons; [|first [exact Logic.I | intros Ch; first [reflexivity | exfalso; cbn [changes] in Ch; solve [exact Ch | destruct Ch as (_ & y & E1 & E2); vm_compute in E1; injection E1 as <-; discriminate E2]]]]). apply ow_nil.
Qed.
Definition w_late1 : trace := (End 7 (RStat SOk), wv8) :: w_mid2 ++ (End 6 (RStat SOk), wv6) :: w_mid1.
Lemma w_only1 : only_appends ex_v0 w_late1 (w_open1 :: w_early1) 1.
Proof.
  unfold w_late1, w_mid1, w_mid2. cbn [app].
  repeat (apply oa_cons; [|first [exact Logic.I | intros Ch; first [solve [exfalso; cbn [changes] in Ch; solve [exact Ch | destruct Ch as (_ & y & E1 & E2); vm_compute in E1; injection E1 as <-; discriminate E2]]
    | do 2 eexists; exists 1, fb; split; [reflexivity|split; reflexivity] | do 2 eexists; exists 3, fb; split; [reflexivity|split; reflexivity]]]]). apply oa_nil.
Qed.
Lemma w_opening0 : opening 0 (PNewWrite fa) fa 0 w_open0 w_early0.
Proof. exists WrTrunc, (ans 3 [] 0), wv1. repeat (split; [reflexivity|]). split; [discriminate|reflexivity]. Qed.
Lemma w_opening1 : opening 1 (PNewAppend fb) fb 1 w_open1 w_early1.
Proof. exists WrAppend, (ans 4 [] 0), wv2. repeat (split; [reflexivity|]). split; [discriminate|reflexivity]. Qed.
(** After the execution the files are as C96 says, and no crash takes the bytes away. *)
Example C96_example name disk p : crash_disk (now ex_v0 w_tr2) name disk ->
  (name p = Some 0 -> begins (disk 0) [7%N]) /\ (name p = Some 1 -> exists d, begins (disk 1) ([2%N; 3%N] ++ d) /\ subseq [8%N] d).
Proof.
  intros C. destruct w_runs as (_ & (cf & R)). split; intros N.
  - exact (C96_synced_survives true 4 str0 ex_v0 (mk_limits 0 1) 2 w_fds w_names ((End 7 (RStat SOk), wv8) :: w_mid2) (w_mid1 ++ w_open1 :: [(Beg 1 (PNewAppend fb), wv1); (End 0 (RStat SOk), wv1)]) w_open0 w_early0
      cf 0 (PNewWrite fa) fa 0 6 wv6 name disk p R w_opening0 w_only0 eq_refl (proj2 (w_ok 0)) C N).
  - exact (C96_appender_sync true 4 str0 ex_v0 (mk_limits 0 1) 2 w_fds w_names [] (w_mid2 ++ (End 6 (RStat SOk), wv6) :: w_mid1) w_open1 w_early1
      cf 1 fb 1 7 wv8 name disk p R w_opening1 w_only1 eq_refl (proj1 (w_ok 1)) C N).
Qed.
Example C96_contents_example : v_data wv8 0 = [] ++ [7%N] /\ v_data wv8 1 = [2%N; 3%N] ++ [8%N; 9%N].
Proof.
  destruct w_runs as (_ & (cf & R)). split.
  - exact (C96_contents true 4 str0 ex_v0 (mk_limits 0 1) 2 w_fds w_names w_late0 w_open0 w_early0 cf 0 (PNewWrite fa) fa 0 R w_opening0 w_only0).
  - exact (proj1 (C96_appenders true 4 str0 ex_v0 (mk_limits 0 1) 2 w_fds w_late1 (w_open1 :: w_early1) cf 1 R ltac:(cbn; lia) w_only1)).
Qed.

(** Append, then delete without Close. *)
Definition dv2 := with_fd (with_data wv1 0 [7%N] []) 3 (Some (mk_fdesc 0 1 false)).
Definition dv3 := with_fd dv2 3 None.
Definition d_tr : trace :=
  [(End 2 (RStat SOk), dv3); (Act 2 (CClose 3) (ans 0 [] 0), dv3); (Act 2 (CWrite 3 [7%N]) (ans 1 [] 0), dv2); (Beg 2 (PDelete 0), wv1);
   (End 1 (RStat SOk), wv1); (Beg 1 (PWAppend 0 [7%N]), wv1); (End 0 (RStat SOk), wv1); w_open0] ++ w_early0.
Lemma d_runs : exists cf, cruns true 4 str0 ex_v0 (mk_limits 0 1) 2 d_tr cf.
Proof.
  pose proof (cr_start true 4 str0 ex_v0 (mk_limits 0 1) 2) as R.
  apply (go_begin _ _ _ _ _ 0 (PNewWrite fa) 2) in R; [|reflexivity|exact Logic.I]. cf R.
  eapply (go_sys _ _ _ _ _ 0) with (a := ans 3 [] 0) (v' := wv1) in R; [|reflexivity|eapply k_open_trunc; [discriminate|reflexivity|reflexivity]]. cf R.
  eapply (go_end _ _ _ _ _ 0) in R; [|reflexivity]. nw R.
  apply (go_begin _ _ _ _ _ 0 (PWAppend 0 [7%N]) 2) in R; [|reflexivity|alone]. cf R.
  eapply (go_end _ _ _ _ _ 0) in R; [|reflexivity]. nw R.
  apply (go_begin _ _ _ _ _ 1 (PDelete 0) 2) in R; [|reflexivity|alone]. cf R.
  eapply (go_sys _ _ _ _ _ 1) with (a := ans 1 [] 0) (v' := dv2) in R; [|reflexivity|refine (k_write wv1 3 [7%N] (ans 1 [] 0) (mk_fdesc 0 0 false) _ _); [split; discriminate|reflexivity]]. cf R.
  eapply (go_sys _ _ _ _ _ 1) with (a := ans 0 [] 0) (v' := dv3) in R; [|reflexivity|apply k_close]. cf R.
  eapply (go_end _ _ _ _ _ 1) in R; [|reflexivity]. cf R.
  eexists; exact R.
Qed.
Example C95_deleted_example : sent d_tr 0 = handed d_tr 0 /\ handed d_tr 0 = [7%N].
Proof.
  split; [|reflexivity]. destruct d_runs as (cf & R).
  apply (C95_deleted true 4 str0 ex_v0 (mk_limits 0 1) 2 w_fds _ cf 0 (PNewWrite fa) fa 2 (RStat SOk) R eq_refl eq_refl eq_refl eq_refl).
  - intros n E. destruct n as [|[|[|n]]]; cbn in E; discriminate E.
  - intros n x r _ _ E. cbn in E. destruct n as [|[|[|n]]]; cbn in E; congruence.
  - intros fd d a [E|[E|[]]]; [injection E as _ _ <-; left; discriminate|discriminate].
Qed.

Print Assumptions C95_bytes_in_order.
Print Assumptions C95_buffer_bound.
Print Assumptions C95_flushed.
Print Assumptions C95_deleted.
Print Assumptions C96_every_writer_has_an_opening.
Print Assumptions C96_start.
Print Assumptions C96_contents.
Print Assumptions C96_flushed_contents.
Print Assumptions C96_synced_survives.
Print Assumptions C96_appenders.
Print Assumptions C96_appender_sync.
