(** PosixConcPubProps.v -- C102: a client that writes a temporary file with
    WriteStringToFileSync and renames it over a file publishes the new contents:
    readers, whatever they do meanwhile, and crashes get the old contents or the
    new, never a mixture.

    The executions are those of PosixConc.v: any number of threads, any order of
    their system calls, any answers of a POSIX file system; a crash may come at any
    moment.  Nothing is assumed about the other threads but that they keep away from
    the two names. *)
From Coq Require Import List Arith NArith ZArith Lia Bool Permutation.
From Verif Require Import Outcome Status MemEnv PosixOs PosixWritable PosixWritableSpec PosixWritableProofs PosixRead PosixEnv PosixFs PosixEnvSpec EnvUtil PosixIoSpec PosixConc PosixConcSpec PosixConcSafe PosixConcHeld PosixConcInv PosixConcProofs PosixConcTrace PosixConcFacts PosixConcReads PosixConcWriteSpec PosixConcWr PosixConcWrites PosixConcFiles PosixConcSaved PosixConcObj PosixConcStreamSpec PosixConcStream PosixConcDir PosixConcCrashSpec PosixConcCrash PosixConcProps PosixConcWriteProps PosixConcStreamProps PosixConcCrashProps PosixConcPubSpec PosixConcNames PosixConcPub PosixConcRun.
Import ListNotations.

Section Props.
  Variable dbg : bool.
  Variable B : nat.
  Variable strerror : Z -> str.
  (** the files, the slots and the number of threads at the start; open descriptors
      are not negative, names stand for files that exist, a file has one name, what is
      on disk of a file is the beginning of it *)
  Variables (v0 : view) (lim0 : limits) (m : nat).
  Hypothesis fds_sane : forall fd, v_fd v0 fd <> None -> (0 <= fd)%Z.
  Hypothesis names_sane : forall p i, v_name v0 p = Some i -> i < v_next v0.
  Hypothesis one_name : distinct v0.
  Hypothesis safe_sane : forall i, begins (v_data v0 i) (v_safe v0 i).
  Notation runs := (cruns dbg B strerror v0 lim0 m).
  (** a file [f] with the contents [old], which is to be replaced *)
  Variables (tmp f : str) (old D : list N).
  Hypothesis two_names : tmp <> f.
  Hypothesis there : look v0 f = Some old.

  Lemma old_file : exists j, v_name v0 f = Some j /\ v_data v0 j = old.
  Proof. pose proof there as T. unfold look in T. destruct (v_name v0 f) as [j|]; [|discriminate]. exists j. split; [reflexivity|congruence]. Qed.

  (** WriteStringToFileSync(D, tmp) and then, when it has returned OK, RenameFile(tmp, f). *)
  Theorem C102_client_publishes tr cf ns r h :
    runs tr cf -> ran_write tr ns D tmp SOk -> hd_error ns = Some h ->
    (forall n x, call_no tr n = Some x -> touches x tmp \/ touches x f -> In n ns \/ n = r /\ x = PRename tmp f) ->
    (forall n, In n ns -> follows tr n r) ->
    publishing tr h r tmp f D.
  Proof. intros. eapply (ran_write_publishes dbg B strerror v0 lim0 m fds_sane); eassumption. Qed.

  Lemma after_rename tr cf h r later earlier : runs tr cf -> publishing tr h r tmp f D -> tr = later ++ earlier -> ended earlier r = Some (RStat SOk) -> call_no earlier r = Some (PRename tmp f) ->
    exists i, new h tmp earlier i /\ v_name (now v0 earlier) f = Some i.
  Proof.
    intros R Pub E Er C. destruct old_file as (j & Fj & _).
    destruct (beg_split _ _ _ C) as (l1 & w & base & Et). assert (Es : tr = (later ++ l1) ++ (Beg r (PRename tmp f), w) :: base) by (rewrite E, Et, <- app_assoc; reflexivity).
    destruct (at_rename dbg B strerror v0 lim0 m fds_sane names_sane one_name _ _ _ _ _ _ _ j R Pub two_names Fj _ _ _ Es) as (i & N & Nt & Nf).
    exists i. split; [rewrite Et; change (l1 ++ (Beg r (PRename tmp f), w) :: base) with (l1 ++ [(Beg r (PRename tmp f), w)] ++ base); rewrite app_assoc; apply new_more; exact N|].
    assert (Oc : forall p, p = tmp \/ p = f -> only_call v0 l1 ((Beg r (PRename tmp f), w) :: base) r p).
    { intros p Pp l2 n c a v k El Ne. apply (only_rename dbg B strerror v0 lim0 m fds_sane _ _ _ _ _ _ _ R Pub _ _ _ p Es (ex_intro _ i N) Pp (later ++ l2) n c a v k); [rewrite El, <- app_assoc; reflexivity|exact Ne]. }
    assert (Re : exists cfe, runs earlier cfe) by (rewrite E in R; exact (runs_prefix dbg B strerror v0 lim0 m _ _ _ R)). destruct Re as (cfe & Re). rewrite Et in Re, Er.
    pose proof (C101_always_one_or_the_other dbg B strerror v0 lim0 m fds_sane l1 r tmp f w base cfe i Re Nt (Oc tmp (or_introl eq_refl)) (Oc f (or_intror eq_refl))) as (_ & X).
    rewrite Et. exact (X Er).
  Qed.

  (** At every moment whoever looks at [f] sees all of the old contents or all of the
      new, and the new ones once RenameFile has returned OK. *)
  Theorem C102_look tr cf h r :
    runs tr cf -> publishing tr h r tmp f D ->
    forall later earlier, tr = later ++ earlier ->
      (look (now v0 earlier) f = Some old \/ look (now v0 earlier) f = Some D) /\
      (call_no earlier r = Some (PRename tmp f) -> ended earlier r = Some (RStat SOk) -> look (now v0 earlier) f = Some D).
  Proof.
    intros R Pub later earlier E. destruct old_file as (j & Fj & Ej). split.
    - unfold look. destruct (phase dbg B strerror v0 lim0 m fds_sane names_sane one_name _ _ _ _ _ _ _ j R Pub two_names Fj _ _ E) as [(_ & _ & X)|[(i & _ & _ & X)|(i & N & X & _ & C & _)]]; rewrite X.
      + left. f_equal. rewrite <- Ej. eapply (data_kept dbg B strerror v0 lim0 m); eassumption.
      + left. f_equal. rewrite <- Ej. eapply (data_kept dbg B strerror v0 lim0 m); eassumption.
      + right. f_equal. eapply (new_data dbg B strerror v0 lim0 m); eassumption.
    - intros C Er. destruct (after_rename _ _ _ _ _ _ R Pub E Er C) as (i & N & X). unfold look. rewrite X. f_equal. eapply (new_data dbg B strerror v0 lim0 m); eassumption.
  Qed.

  (** A ReadFileToString(f) that returns OK, by any thread at any time, returns all of
      the old contents or all of the new; the new ones, if it was called after
      RenameFile had returned OK. *)
  Theorem C102_read tr cf h r ns data :
    runs tr cf -> publishing tr h r tmp f D -> ran_read tr ns f SOk data ->
    (data = old \/ data = D) /\
    (forall n, hd_error ns = Some n -> follows tr r n -> call_no tr r = Some (PRename tmp f) -> ended tr r = Some (RStat SOk) -> data = D).
  Proof.
    intros R Pub Rd. destruct old_file as (j & Fj & Ej). destruct (ran_read_is dbg B strerror v0 lim0 m fds_sane _ _ _ _ _ R Rd) as (s & Hs & Cs & Es & NS & Gs & later & n & v & earlier & Et & Cn).
    destruct (C98_whole_file dbg B strerror v0 lim0 m fds_sane _ _ _ _ R Cs Es NS) as (k & (l1 & l2 & E2 & Ip & Nk) & Wh).
    (* what the Reads gave is what the file holds *)
    assert (All : forall D', (forall a b, tr = a ++ b -> ended b s <> None -> v_data (now v0 b) k = D') -> data = D').
    { intros D' Cst. destruct (Wh D' Cst) as (G1 & G2). specialize (G2 _ _ _ _ _ Et Cn eq_refl). rewrite Gs in G1.
      assert (Bg : begins (got tr s) (got earlier s)). { rewrite Et. clear. change (later ++ (End n (RData SOk []), v) :: earlier) with (later ++ [(End n (RData SOk []), v)] ++ earlier). rewrite app_assoc. generalize (later ++ [(End n (RData SOk []), v)]) as q. intros q.
        induction q as [|[lb u] q IH]; [apply begins_refl|]. cbn [app got]. destruct lb as [a x|a c b|a y]; try exact IH. destruct y as [st|b|st l|st z|st d|]; try exact IH. destruct st; try exact IH. destruct IH as (z & ->). eexists. rewrite <- app_assoc. reflexivity. }
      rewrite Gs, G2 in Bg. apply begins_same; [exact Bg|]. rewrite G1, firstn_length. lia. }
    assert (Old : k = j -> data = old) by (intros ->; apply All; intros a b Eab _; rewrite <- Ej; eapply (data_kept dbg B strerror v0 lim0 m); eassumption).
    assert (New : call_no l2 r = Some (PRename tmp f) -> new h tmp l2 k -> data = D).
    { intros Cr N. apply All. intros a b Eab Eb.
      (* b is later than l2: the call has ended *)
      assert (Lt : exists q, b = q ++ l2).
      { clear -E2 Eab Eb Ip. destruct Ip as (_ & Ne). revert a Eab. rewrite E2. clear E2. induction l1 as [|e l1 IH]; intros a Eab; cbn [app] in Eab.
        - exfalso. destruct (ended b s) as [z|] eqn:Z; [|congruence]. enough (ended l2 s <> None) by congruence. rewrite Eab. apply ended_more. congruence.
        - destruct a as [|e' a]; cbn [app] in Eab; [exists (e :: l1); subst b; reflexivity|]. apply (IH a). congruence. }
      destruct Lt as (q & ->). apply (new_data dbg B strerror v0 lim0 m fds_sane names_sane one_name tr cf h r tmp f D j R Pub two_names Fj a); [exact Eab| |apply new_more; exact N].
      assert (R' := R). rewrite Eab in R'. destruct (runs_prefix dbg B strerror v0 lim0 m _ _ _ R') as (cfb & Rb). eapply (call_later dbg B strerror v0 lim0 m fds_sane); eassumption. }
    split.
    - destruct (phase dbg B strerror v0 lim0 m fds_sane names_sane one_name _ _ _ _ _ _ _ j R Pub two_names Fj _ _ E2) as [(_ & _ & X)|[(i & _ & _ & X)|(i & N & X & _ & C & _)]]; [left; apply Old; congruence|left; apply Old; congruence|].
      right. assert (i = k) by congruence. subst i. exact (New C N).
    - intros n' Hn Fo Cr Er. assert (n' = s) by congruence. subst n'. destruct Ip as (Ip & _).
      assert (Er2 : ended l2 r <> None) by (intros Z; apply Ip; exact (follows_after dbg B strerror v0 lim0 m fds_sane _ _ _ _ _ _ R Fo E2 Z)).
      assert (R' := R). rewrite E2 in R'. destruct (ended l2 r) as [z|] eqn:Z; [|congruence]. pose proof (ended_later dbg B strerror v0 lim0 m fds_sane _ _ _ _ _ R' Z) as Y. rewrite <- E2 in Y. assert (z = RStat SOk) by congruence. subst z.
      assert (Cl : call_no l2 r = Some (PRename tmp f)) by (apply (call_back dbg B strerror v0 lim0 m fds_sane l1 l2 cf); [exact R'|congruence|rewrite <- E2; exact Cr]).
      destruct (after_rename _ _ _ _ _ _ R Pub E2 Z Cl) as (i & N & X). assert (i = k) by congruence. subst i. exact (New Cl N).
  Qed.

  (** If the old contents were on disk, then whenever a crash comes, [f] is a file with
      all of the old contents or with all of the new. *)
  Theorem C102_crash tr cf h r name disk :
    runs tr cf -> publishing tr h r tmp f D ->
    (exists j, v_name v0 f = Some j /\ v_safe v0 j = old) -> v_sure v0 f = true -> old <> [] -> D <> [] ->
    crash v0 tr name disk ->
    exists k, name f = Some k /\ (disk k = old \/ disk k = D).
  Proof.
    intros R Pub (j & Fj & Sj) Su No Nd Cr. destruct old_file as (j' & Fj' & Ej). assert (j' = j) by congruence. subst j'. pose proof Cr as (C1 & C2).
    destruct (C1 f) as [(later & earlier & E & Nf & _)|U]; [|exfalso; specialize (U tr [] (eq_sym (app_nil_r _))); cbn [now] in U; congruence].
    assert (Old : name f = Some j -> disk j = old).
    { intros X. destruct (C2 f j X) as (_ & Y). pose proof (stays_safe dbg B strerror v0 lim0 m fds_sane safe_sane tr [] cf j) as Z. rewrite app_nil_r in Z. cbn [now] in Z.
      destruct Z as (Z1 & Z2); [exact R|exact (names_sane _ _ Fj)| |].
      - intros l2 n c a v l1 El. rewrite app_nil_r. eapply (old_kept dbg B strerror v0 lim0 m); eassumption.
      - rewrite Y; [congruence| |congruence]. symmetry. apply begins_same; [exact (safe_runs dbg B strerror v0 lim0 m fds_sane safe_sane _ _ R j)|]. apply begins_length in Z1. rewrite Z2, Ej. rewrite Sj in Z1. exact Z1. }
    destruct (phase dbg B strerror v0 lim0 m fds_sane names_sane one_name _ _ _ _ _ _ _ j R Pub two_names Fj _ _ E) as [(_ & _ & X)|[(i & _ & _ & X)|(i & N & X & _ & C & _)]]; [exists j; split; [congruence|left; apply Old; congruence]..|].
    assert (Nm : name f = Some i) by congruence. exists i. split; [exact Nm|]. right.
    destruct (rename_begun dbg B strerror v0 lim0 m fds_sane _ _ _ _ _ _ _ R Pub _ _ E C) as (l1 & w & k1 & n & v & k2 & Et & Ch & Cn & Ok & H1 & H2 & Nb & i' & N').
    assert (i' = i). { apply (new_one dbg B strerror v0 lim0 m fds_sane _ _ _ _ _ _ _ R Pub later earlier); [exact E| |exact N]. rewrite Et. change (l1 ++ (Beg r (PRename tmp f), w) :: k1 ++ (End n (RStat SOk), v) :: k2) with (l1 ++ [(Beg r (PRename tmp f), w)] ++ k1 ++ [(End n (RStat SOk), v)] ++ k2). repeat apply new_more. exact N'. } subst i'.
    set (base := k1 ++ (End n (RStat SOk), v) :: k2) in *.
    assert (Eb : tr = (later ++ l1) ++ (Beg r (PRename tmp f), w) :: base) by (rewrite E, Et, <- app_assoc; reflexivity).
    destruct (at_rename dbg B strerror v0 lim0 m fds_sane names_sane one_name _ _ _ _ _ _ _ j R Pub two_names Fj _ _ _ Eb) as (i' & Nb' & Nt & Nf').
    assert (i' = i). { apply (new_one dbg B strerror v0 lim0 m fds_sane _ _ _ _ _ _ _ R Pub later earlier); [exact E| |exact N]. rewrite Et. change (l1 ++ (Beg r (PRename tmp f), w) :: base) with (l1 ++ [(Beg r (PRename tmp f), w)] ++ base). do 2 apply new_more. exact Nb'. } subst i'.
    assert (Ek : tr = ((later ++ l1) ++ (Beg r (PRename tmp f), w) :: k1 ++ [(End n (RStat SOk), v)]) ++ k2) by (rewrite Eb; unfold base; repeat (rewrite <- app_assoc; cbn [app]); reflexivity).
    destruct (new_opening dbg B strerror v0 lim0 m fds_sane names_sane one_name _ _ _ _ _ _ _ j R Pub two_names Fj _ _ _ Ek N') as (before & e & ea & E2 & Op & OW).
    specialize (OW _ Ek). repeat (rewrite <- app_assoc in OW; cbn [app] in OW). rewrite app_assoc in OW.
    assert (Oc : forall p, p = tmp \/ p = f -> only_call v0 (later ++ l1) ((Beg r (PRename tmp f), w) :: base) r p) by (intros p Pp; eapply (only_rename dbg B strerror v0 lim0 m fds_sane); try eassumption; eauto).
    assert (Rb : exists cfb, runs ((Beg r (PRename tmp f), w) :: base) cfb) by (rewrite Eb in R; exact (runs_prefix dbg B strerror v0 lim0 m _ _ _ R)). destruct Rb as (cfb & Rb). destruct (back dbg B strerror v0 lim0 m fds_sane _ _ _ _ Rb) as (cfc & Rc & Ew).
    assert (Sw : v_sure w f = true). { rewrite Ew. apply (sure_kept dbg B strerror v0 lim0 m fds_sane tr cf h r tmp f D R Pub two_names ((later ++ l1) ++ [(Beg r (PRename tmp f), w)]) base); [rewrite <- app_assoc; exact Eb|exact Su|exact Nb]. }
    assert (R0 := R). rewrite Eb in R0, Cr. unfold base in R0, Cr, Oc. rewrite E2 in R0, Cr, Oc, Cn, Ok.
    destruct (C101_atomic_replacement dbg B strerror v0 lim0 m fds_sane names_sane safe_sane (later ++ l1) r tmp f w k1 n v before e ea cf h (PNewWrite tmp) i name disk
      R0 Op OW Cn Ok Nt Sw (Oc tmp (or_introl eq_refl)) (Oc f (or_intror eq_refl)) Cr) as (_ & Z).
    rewrite <- E2 in Z. fold base in Z. rewrite <- Eb in Z. destruct (Z f Nm) as (_ & Z').
    assert (Rk : runs ((((later ++ l1) ++ (Beg r (PRename tmp f), w) :: k1 ++ [(End n (RStat SOk), v)]) ++ before) ++ e :: ea) cf) by (rewrite <- app_assoc, <- E2, <- Ek; exact R).
    rewrite (proj1 (C96_start dbg B strerror v0 lim0 m fds_sane _ _ _ _ _ _ _ _ Rk Op) eq_refl), H1, H2 in Z'. cbn [app] in Z'. exact (Z' eq_refl Nd).
  Qed.
End Props.
Print Assumptions C102_client_publishes.
Print Assumptions C102_look.
Print Assumptions C102_read.
Print Assumptions C102_crash.

(** ** An execution.  Thread 0 writes the byte 7 to a (file 0) with
    WriteStringToFileSync (calls 0, 1, 2, 4, 5) and renames a to b (call 6).  Thread 1
    reads b with ReadFileToString twice: calls 3, 7, 8, 9 open the file before the
    rename and read after it, calls 10 to 13 come later. *)
Definition px0 : view :=
  mk_view (v_name ex_v0) (v_data ex_v0) (v_fd ex_v0) (v_map ex_v0) (v_dir ex_v0) (v_next ex_v0) (v_data ex_v0) (v_sure ex_v0) (v_past ex_v0).
Definition shut (v : view) (fd : Z) : view := with_fd v fd None.
Definition px1 := with_fd (with_data px0 0 [] []) 3 (Some (mk_fdesc 0 0 false)).
Definition px2 := with_fd (with_data px1 0 [7%N] []) 3 (Some (mk_fdesc 0 1 false)).
Definition px3 := synced px2 0.
Definition px4 := with_fd px3 4 (Some (mk_fdesc 1 0 false)).
Definition px5 := shut px4 3.
Definition px6 := with_name (with_name px5 fb (Some 0)) fa None.
Definition px7 := with_fd px6 4 (Some (mk_fdesc 1 2 false)).
Definition px8 := with_fd px7 4 (Some (mk_fdesc 1 2 false)).
Definition px9 := shut px8 4.
Definition px10 := with_fd px9 3 (Some (mk_fdesc 0 0 false)).
Definition px11 := with_fd px10 3 (Some (mk_fdesc 0 1 false)).
Definition px12 := with_fd px11 3 (Some (mk_fdesc 0 1 false)).
Definition px13 := shut px12 3.
Definition p_tr : trace :=
  [(End 13 (RStat SOk), px13); (Act 13 (CClose 3) (ans 0 [] 0), px13); (Beg 13 (PDelete 10), px12);
   (End 12 (RData SOk []), px12); (Act 12 (CRead 3 8192) (ans 0 [] 0), px12); (Beg 12 (PSRead 10 8192), px11);
   (End 11 (RData SOk [7%N]), px11); (Act 11 (CRead 3 8192) (ans 1 [7%N] 0), px11); (Beg 11 (PSRead 10 8192), px10);
   (End 10 (RStat SOk), px10); (Act 10 (COpen fb RdOnly) (ans 3 [] 0), px10); (Beg 10 (PNewSeq fb), px9);
   (End 9 (RStat SOk), px9); (Act 9 (CClose 4) (ans 0 [] 0), px9); (Beg 9 (PDelete 3), px8);
   (End 8 (RData SOk []), px8); (Act 8 (CRead 4 8192) (ans 0 [] 0), px8); (Beg 8 (PSRead 3 8192), px7);
   (End 7 (RData SOk [2%N; 3%N]), px7); (End 6 (RStat SOk), px7);
   (Act 7 (CRead 4 8192) (ans 2 [2%N; 3%N] 0), px7); (Act 6 (CRename fa fb) (ans 0 [] 0), px6);
   (Beg 7 (PSRead 3 8192), px5); (Beg 6 (PRename fa fb), px5);
   (End 5 (RStat SOk), px5); (Beg 5 (PDelete 0), px5);
   (End 4 (RStat SOk), px5); (Act 4 (CClose 3) (ans 0 [] 0), px5); (Beg 4 (PWClose 0), px4);
   (End 3 (RStat SOk), px4); (Act 3 (COpen fb RdOnly) (ans 4 [] 0), px4); (Beg 3 (PNewSeq fb), px3);
   (End 2 (RStat SOk), px3); (Act 2 (CFsync 3) (ans 0 [] 0), px3); (Act 2 (CWrite 3 [7%N]) (ans 1 [] 0), px2); (Beg 2 (PWSync 0), px1);
   (End 1 (RStat SOk), px1); (Beg 1 (PWAppend 0 [7%N]), px1);
   (End 0 (RStat SOk), px1); (Act 0 (COpen fa WrTrunc) (ans 3 [] 0), px1); (Beg 0 (PNewWrite fa), px0)].
Ltac pw R := lazy -[px0 px1 px2 px3 px4 px5 px6 px7 px8 px9 px10 px11 px12 px13] in R.
Ltac palone := split; [eexists; split; [reflexivity|first [exact Logic.I|reflexivity]]|let u := fresh in intros _ u n y p E; destruct u as [|[|u]]; cbn in E; try discriminate E; [..|destruct u; discriminate E]; injection E as _ <- _; discriminate].
Lemma p_runs : exists cf, cruns true 4 str0 px0 (mk_limits 0 1) 2 p_tr cf.
Proof.
  pose proof (cr_start true 4 str0 px0 (mk_limits 0 1) 2) as R.
  apply (go_begin _ _ _ _ _ 0 (PNewWrite fa) 2) in R; [|reflexivity|exact Logic.I]. cf R.
  eapply (go_sys _ _ _ _ _ 0) with (a := ans 3 [] 0) (v' := px1) in R; [|reflexivity|eapply k_open_trunc; [discriminate|reflexivity|reflexivity]]. cf R.
  eapply (go_end _ _ _ _ _ 0) in R; [|reflexivity]. pw R.
  apply (go_begin _ _ _ _ _ 0 (PWAppend 0 [7%N]) 2) in R; [|reflexivity|palone]. cf R.
  eapply (go_end _ _ _ _ _ 0) in R; [|reflexivity]. pw R.
  apply (go_begin _ _ _ _ _ 0 (PWSync 0) 2) in R; [|reflexivity|palone]. cf R.
  eapply (go_sys _ _ _ _ _ 0) with (a := ans 1 [] 0) (v' := px2) in R; [|reflexivity|refine (k_write px1 3 [7%N] (ans 1 [] 0) (mk_fdesc 0 0 false) _ _); [split; discriminate|reflexivity]]. cf R.
  eapply (go_sys _ _ _ _ _ 0) with (a := ans 0 [] 0) (v' := px3) in R; [|reflexivity|refine (k_fsync px2 3 (ans 0 [] 0) (mk_fdesc 0 1 false) _ _); reflexivity]. cf R.
  eapply (go_end _ _ _ _ _ 0) in R; [|reflexivity]. pw R.
  apply (go_begin _ _ _ _ _ 1 (PNewSeq fb) 3) in R; [|reflexivity|exact Logic.I]. cf R.
  eapply (go_sys _ _ _ _ _ 1) with (a := ans 4 [] 0) (v' := px4) in R; [|reflexivity|refine (k_open_read px3 fb (ans 4 [] 0) 1 _ _ _); [discriminate|reflexivity|reflexivity]]. cf R.
  eapply (go_end _ _ _ _ _ 1) in R; [|reflexivity]. pw R.
  apply (go_begin _ _ _ _ _ 0 (PWClose 0) 2) in R; [|reflexivity|palone]. cf R.
  eapply (go_sys _ _ _ _ _ 0) with (a := ans 0 [] 0) (v' := px5) in R; [|reflexivity|apply k_close]. cf R.
  eapply (go_end _ _ _ _ _ 0) in R; [|reflexivity]. pw R.
  apply (go_begin _ _ _ _ _ 0 (PDelete 0) 2) in R; [|reflexivity|palone]. cf R.
  eapply (go_end _ _ _ _ _ 0) in R; [|reflexivity]. pw R.
  apply (go_begin _ _ _ _ _ 0 (PRename fa fb) 2) in R; [|reflexivity|exact Logic.I]. cf R.
  apply (go_begin _ _ _ _ _ 1 (PSRead 3 8192) 3) in R; [|reflexivity|palone]. cf R.
  eapply (go_sys _ _ _ _ _ 0) with (a := ans 0 [] 0) (v' := px6) in R; [|reflexivity|refine (k_rename px5 fa fb (ans 0 [] 0) 0 _ _ _ _); [reflexivity|reflexivity|discriminate|discriminate]]. cf R.
  eapply (go_sys _ _ _ _ _ 1) with (a := ans 2 [2%N; 3%N] 0) (v' := px7) in R; [|reflexivity|refine (k_read px6 4 8192 (ans 2 [2%N; 3%N] 0) (mk_fdesc 1 0 false) _ _ _ _ _); [reflexivity|reflexivity|discriminate|reflexivity|discriminate]]. cf R.
  eapply (go_end _ _ _ _ _ 0) in R; [|reflexivity]. cf R.
  eapply (go_end _ _ _ _ _ 1) in R; [|reflexivity]. pw R.
  apply (go_begin _ _ _ _ _ 1 (PSRead 3 8192) 3) in R; [|reflexivity|palone]. cf R.
  eapply (go_sys _ _ _ _ _ 1) with (a := ans 0 [] 0) (v' := px8) in R; [|reflexivity|refine (k_read px7 4 8192 (ans 0 [] 0) (mk_fdesc 1 2 false) _ _ _ _ _); [reflexivity|reflexivity|discriminate|reflexivity|right; cbn; auto]]. cf R.
  eapply (go_end _ _ _ _ _ 1) in R; [|reflexivity]. pw R.
  apply (go_begin _ _ _ _ _ 1 (PDelete 3) 3) in R; [|reflexivity|palone]. cf R.
  eapply (go_sys _ _ _ _ _ 1) with (a := ans 0 [] 0) (v' := px9) in R; [|reflexivity|apply k_close]. cf R.
  eapply (go_end _ _ _ _ _ 1) in R; [|reflexivity]. pw R.
  apply (go_begin _ _ _ _ _ 1 (PNewSeq fb) 3) in R; [|reflexivity|exact Logic.I]. cf R.
  eapply (go_sys _ _ _ _ _ 1) with (a := ans 3 [] 0) (v' := px10) in R; [|reflexivity|refine (k_open_read px9 fb (ans 3 [] 0) 0 _ _ _); [discriminate|reflexivity|reflexivity]]. cf R.
  eapply (go_end _ _ _ _ _ 1) in R; [|reflexivity]. pw R.
  apply (go_begin _ _ _ _ _ 1 (PSRead 10 8192) 3) in R; [|reflexivity|palone]. cf R.
  eapply (go_sys _ _ _ _ _ 1) with (a := ans 1 [7%N] 0) (v' := px11) in R; [|reflexivity|refine (k_read px10 3 8192 (ans 1 [7%N] 0) (mk_fdesc 0 0 false) _ _ _ _ _); [reflexivity|reflexivity|discriminate|reflexivity|discriminate]]. cf R.
  eapply (go_end _ _ _ _ _ 1) in R; [|reflexivity]. pw R.
  apply (go_begin _ _ _ _ _ 1 (PSRead 10 8192) 3) in R; [|reflexivity|palone]. cf R.
  eapply (go_sys _ _ _ _ _ 1) with (a := ans 0 [] 0) (v' := px12) in R; [|reflexivity|refine (k_read px11 3 8192 (ans 0 [] 0) (mk_fdesc 0 1 false) _ _ _ _ _); [reflexivity|reflexivity|discriminate|reflexivity|right; cbn; auto]]. cf R.
  eapply (go_end _ _ _ _ _ 1) in R; [|reflexivity]. pw R.
  apply (go_begin _ _ _ _ _ 1 (PDelete 10) 3) in R; [|reflexivity|palone]. cf R.
  eapply (go_sys _ _ _ _ _ 1) with (a := ans 0 [] 0) (v' := px13) in R; [|reflexivity|apply k_close]. cf R.
  eapply (go_end _ _ _ _ _ 1) in R; [|reflexivity]. pw R.
  eexists; exact R.
Qed.
(** The calls of thread 0 are a WriteStringToFileSync that returned OK, those of
    thread 1 two runs of ReadFileToString. *)
Ltac fo k := match goal with |- follows ?tr ?n ?n' =>
  let l := eval cbv [p_tr] in tr in
  exists (firstn k l); cbn [firstn]; do 3 eexists; split; [unfold p_tr; reflexivity|discriminate] end.
Ltac nobody := let n := fresh "n" in let x := fresh "x" in let h := fresh "h" in intros n x h;
  do 14 (destruct n as [|n]; [intros X; injection X as <-; cbn; intros Y; try discriminate Y; injection Y as <-; intros Z; repeat (destruct Z as [Z|Z]; [try discriminate Z|]); try contradiction Z; cbn; tauto|]); discriminate.
Lemma p_wrote : ran_write p_tr [0; 1; 2; 4; 5] [7%N] fa SOk.
Proof.
  split; [unfold private; nobody|].
  exists [mk_io SOk (PObj 0) []; mk_io SOk PUnset []; mk_io SOk PUnset []; mk_io SOk PUnset []; mk_io SOk PUnset []]. eexists. split; [reflexivity|].
  apply (it_cons _ 0 _ (INewWritable fa) (RStat SOk)); [reflexivity|reflexivity|fo 37|].
  apply (it_cons _ 1 _ (IAppend 0 [7%N]) (RStat SOk)); [reflexivity|reflexivity|fo 35|].
  apply (it_cons _ 2 _ (ISync 0) (RStat SOk)); [reflexivity|reflexivity|fo 28|].
  apply (it_cons _ 4 _ (IClose 0) (RStat SOk)); [reflexivity|reflexivity|fo 25|].
  apply (it_cons _ 5 _ (IDelete 0) (RStat SOk)); [reflexivity|reflexivity|exact Logic.I|].
  constructor.
Qed.
Lemma p_read_old : ran_read p_tr [3; 7; 8; 9] fb SOk [2%N; 3%N].
Proof.
  split; [unfold private; nobody|].
  exists 2, [mk_io SOk (PObj 3) []; mk_io SOk PUnset [2%N; 3%N]; mk_io SOk PUnset []; mk_io SOk PUnset []]. eexists. split; [reflexivity|].
  apply (it_cons _ 3 _ (INewSequential fb) (RStat SOk)); [reflexivity|reflexivity|fo 22|].
  apply (it_cons _ 7 _ (IRead 3 8192) (RData SOk [2%N; 3%N])); [reflexivity|reflexivity|fo 17|].
  apply (it_cons _ 8 _ (IRead 3 8192) (RData SOk [])); [reflexivity|reflexivity|fo 14|].
  apply (it_cons _ 9 _ (IDelete 3) (RStat SOk)); [reflexivity|reflexivity|exact Logic.I|].
  constructor.
Qed.
Lemma p_read_new : ran_read p_tr [10; 11; 12; 13] fb SOk [7%N].
Proof.
  split; [unfold private; nobody|].
  exists 2, [mk_io SOk (PObj 10) []; mk_io SOk PUnset [7%N]; mk_io SOk PUnset []; mk_io SOk PUnset []]. eexists. split; [reflexivity|].
  apply (it_cons _ 10 _ (INewSequential fb) (RStat SOk)); [reflexivity|reflexivity|fo 8|].
  apply (it_cons _ 11 _ (IRead 10 8192) (RData SOk [7%N])); [reflexivity|reflexivity|fo 5|].
  apply (it_cons _ 12 _ (IRead 10 8192) (RData SOk [])); [reflexivity|reflexivity|fo 2|].
  apply (it_cons _ 13 _ (IDelete 10) (RStat SOk)); [reflexivity|reflexivity|exact Logic.I|].
  constructor.
Qed.
(** The start is as the theorems want it. *)
Lemma p_fds fd : v_fd px0 fd <> None -> (0 <= fd)%Z.
Proof. exact (w_fds fd). Qed.
Lemma p_names p i : v_name px0 p = Some i -> i < v_next px0.
Proof. exact (w_names p i). Qed.
Lemma p_safe i : begins (v_data px0 i) (v_safe px0 i).
Proof. apply begins_refl. Qed.
Lemma p_distinct : distinct px0.
Proof.
  intros p q i. cbn [v_name px0 ex_v0]. repeat match goal with |- context [eqs ?a ?b] => destruct (eqs a b) end; congruence.
Qed.
Example C102_case_publishes : publishing p_tr 0 6 fa fb [7%N].
Proof.
  destruct p_runs as (cf & R). apply (C102_client_publishes true 4 str0 px0 (mk_limits 0 1) 2 p_fds fa fb [7%N] p_tr cf [0; 1; 2; 4; 5] 6 0 R p_wrote eq_refl).
  - intros n x. do 14 (destruct n as [|n]; [intros X; injection X as <-; cbn; intros Y; solve [tauto|intuition discriminate]|]); discriminate.
  - intros n I. repeat (destruct I as [<-|I]; [fo 23|]). contradiction I.
Qed.
(** The first reader, which had the file open when it was replaced, got the old
    contents, the second the new ones; and so does a crash at any time. *)
Example C102_case_reads : ([2%N; 3%N] = [2%N; 3%N] \/ [2%N; 3%N] = [7%N]) /\ [7%N] = [7%N].
Proof.
  destruct p_runs as (cf & R). split.
  - exact (proj1 (C102_read true 4 str0 px0 (mk_limits 0 1) 2 p_fds p_names p_distinct p_safe fa fb [2%N; 3%N] [7%N] ltac:(discriminate) eq_refl _ _ _ _ _ _ R C102_case_publishes p_read_old)).
  - exact (proj2 (C102_read true 4 str0 px0 (mk_limits 0 1) 2 p_fds p_names p_distinct p_safe fa fb [2%N; 3%N] [7%N] ltac:(discriminate) eq_refl _ _ _ _ _ _ R C102_case_publishes p_read_new) 10 eq_refl ltac:(fo 11) eq_refl eq_refl).
Qed.
Example C102_case_crash name disk : crash px0 p_tr name disk -> exists k, name fb = Some k /\ (disk k = [2%N; 3%N] \/ disk k = [7%N]).
Proof.
  intros C. destruct p_runs as (cf & R).
  refine (C102_crash true 4 str0 px0 (mk_limits 0 1) 2 p_fds p_names p_distinct p_safe fa fb [2%N; 3%N] [7%N] ltac:(discriminate) eq_refl _ _ _ _ _ _ R C102_case_publishes _ eq_refl ltac:(discriminate) ltac:(discriminate) C).
  exists 1. split; reflexivity.
Qed.
