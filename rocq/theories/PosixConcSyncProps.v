(** PosixConcSyncProps.v -- C97: when Sync of a MANIFEST file has returned OK, the
    file is found after a crash, whatever other threads do meanwhile.

    The executions are those of PosixConc.v: any number of threads, any order of
    their system calls, any answers of a POSIX file system. *)
From Coq Require Import List Arith NArith ZArith Lia Bool Permutation.
From Verif Require Import Outcome Status MemEnv PosixOs PosixWritable PosixWritableSpec PosixWritableProofs PosixRead PosixEnv PosixFs PosixEnvSpec PosixEnvProofs PosixConc PosixConcSpec PosixConcSafe PosixConcHeld PosixConcInv PosixConcProofs PosixConcTrace PosixConcFacts PosixConcReads PosixConcWriteSpec PosixConcWr PosixConcWrites PosixConcFiles PosixConcSaved PosixConcObj PosixConcSync PosixConcProps PosixConcWriteProps.
Import ListNotations.

(** [P] holds at every moment of the part [later] of the trace [later ++ earlier],
    from the end of [earlier] on. *)
Definition throughout (v0 : view) (later earlier : trace) (P : view -> Prop) : Prop :=
  forall l2 l1, later = l2 ++ l1 -> P (now v0 (l1 ++ earlier)).

Section Props.
  Variable dbg : bool.
  Variable B : nat.
  Variable strerror : Z -> str.
  (** the files, the slots and the number of threads at the start; open descriptors
      are not negative, names stand for files that exist, no name is empty *)
  Variables (v0 : view) (lim0 : limits) (m : nat).
  Hypothesis fds_sane : forall fd, v_fd v0 fd <> None -> (0 <= fd)%Z.
  Hypothesis names_sane : forall p i, v_name v0 p = Some i -> i < v_next v0.
  Hypothesis no_empty_name : v_name v0 [] = None.
  Notation runs := (cruns dbg B strerror v0 lim0 m).

  (** Sync of a file whose name starts with MANIFEST forces the directory of the
      file to disk: the directory was found at one moment of the call, and at one
      moment of the call every entry of it was on disk. *)
  Theorem C97_directory_synced tr cf h x f dir n v :
    runs ((End n (RStat SOk), v) :: tr) cf ->
    call_no tr n = Some (PWSync h) -> call_no tr h = Some x -> opens x = Some (KWrite, f) ->
    names_manifest f -> in_dir f dir ->
    exists i, during v0 tr n (fun v => v_name v dir = Some i) /\
      during v0 tr n (fun v => forall p, v_name v (parent p) = Some i -> v_sure v p = true).
  Proof.
    intros R Cn Ch Ox Mf Df. destruct (dir_synced dbg B strerror v0 lim0 m fds_sane [] n v tr cf h x f dir R Cn Ch Ox Mf Df) as (i & l4 & a2 & w2 & l3 & a1 & w1 & l1 & Et & Ip1 & Nm & Ew & Ip2).
    exists i. split.
    - exists (l4 ++ (Act n (CFsync (a_ret a1)) a2, w2) :: l3), ((Act n (COpen dir RdOnly) a1, w1) :: l1). split; [rewrite <- app_assoc; exact Et|]. split; [exact Ip1|exact Nm].
    - exists l4, ((Act n (CFsync (a_ret a1)) a2, w2) :: l3 ++ (Act n (COpen dir RdOnly) a1, w1) :: l1). split; [exact Et|]. split; [exact Ip2|]. cbn [now]. rewrite Ew. cbn [v_sure v_name synced].
      intros p E. rewrite E, Nat.eqb_refl. apply orb_true_r.
  Qed.

  (** So the entry of the file survives every later crash, if the name has stood for
      the same file since Sync began and the directory was not replaced during Sync
      ([after]: what happens after Sync). *)
  Theorem C97_entry_survives after later earlier cf h x f i j n v w name disk :
    let beg := (Beg n (PWSync h), w) in
    let fin := (End n (RStat SOk), v) in
    let tr := after ++ fin :: later ++ beg :: earlier in
    runs tr cf -> call_no earlier h = Some x -> opens x = Some (KWrite, f) -> names_manifest f ->
    throughout v0 (after ++ fin :: later) (beg :: earlier) (fun v => v_name v f = Some i) ->
    throughout v0 later (beg :: earlier) (fun v => v_name v (parent f) = Some j) ->
    crash_disk (now v0 tr) name disk -> name f = Some i.
  Proof.
    intros beg fin tr R Ch Ox Mf Sf Sd (Cd & _). destruct (dirname_in dbg f) as (dir & _ & Df).
    (* Sync began with the call number not yet used *)
    assert (Rb : exists cf1, runs (beg :: earlier) cf1). { unfold tr in R. change (after ++ fin :: later ++ beg :: earlier) with (after ++ (fin :: later) ++ beg :: earlier) in R. rewrite app_assoc in R. exact (runs_prefix dbg B strerror v0 lim0 m _ _ _ R). }
    destruct Rb as (cfb & Rb). destruct (runs_split dbg B strerror v0 lim0 m [] _ _ _ Rb) as (cfe & tb & cf1 & Re & Stb & _). cbn [fst beg] in Stb.
    assert (Fc : call_no earlier n = None) by (inversion Stb; subst; destruct (inv_runs dbg B strerror v0 lim0 m fds_sane _ _ Re) as (Rs & H); exact (proj1 (fresh B v0 lim0 _ _ _ H))).
    assert (Nh : n <> h) by congruence.
    assert (Rf : exists cff, runs (later ++ beg :: earlier) cff). { destruct (runs_split dbg B strerror v0 lim0 m _ _ _ _ R) as (cff & _ & _ & Rf & _). eauto. }
    destruct Rf as (cff & Rf).
    assert (Cn : call_no (later ++ beg :: earlier) n = Some (PWSync h)). { eapply (call_later dbg B strerror v0 lim0 m fds_sane); [exact Rf|]. unfold beg. cbn [call_no]. now rewrite Nat.eqb_refl. }
    assert (Cx : call_no (later ++ beg :: earlier) h = Some x). { eapply (call_later dbg B strerror v0 lim0 m fds_sane); [exact Rf|]. unfold beg. cbn [call_no]. destruct (Nat.eqb_spec n h); [contradiction|exact Ch]. }
    destruct (dir_synced dbg B strerror v0 lim0 m fds_sane after n v _ cf h x f dir R Cn Cx Ox Mf Df) as (k & l4 & a2 & w2 & l3 & a1 & w1 & l1 & Et & Ip1 & Nm & Ew & Ip2).
    set (l2 := l3 ++ (Act n (COpen dir RdOnly) a1, w1) :: l1) in *.
    assert (Old : forall l r, earlier = l ++ r -> call_no r n <> None -> False).
    { intros l r E X. destruct (call_no r n) as [z|] eqn:Ez; [|congruence]. assert (call_no earlier n = Some z) by (rewrite E in *; eapply (call_later dbg B strerror v0 lim0 m fds_sane); eassumption). congruence. }
    (* both steps are after the beginning *)
    assert (P2 : exists q, later = l4 ++ (Act n (CFsync (a_ret a1)) a2, w2) :: q /\ l2 = q ++ beg :: earlier).
    { destruct (split_unique _ _ _ _ _ _ Et) as [(_ & X & _)|[(q & E1 & E2)|(q & E1 & E2)]]; [discriminate X|exists q; auto|]. exfalso.
      apply (Old (q ++ [(Act n (CFsync (a_ret a1)) a2, w2)]) l2); [rewrite <- app_assoc; exact E2|apply Ip2]. }
    destruct P2 as (q2 & El & El2). unfold l2 in El2.
    assert (P1 : exists q, q2 = l3 ++ (Act n (COpen dir RdOnly) a1, w1) :: q /\ l1 = q ++ beg :: earlier).
    { symmetry in El2. destruct (split_unique _ _ _ _ _ _ El2) as [(_ & X & _)|[(q & E1 & E2)|(q & E1 & E2)]]; [discriminate X|exists q; auto|]. exfalso.
      apply (Old (q ++ [(Act n (COpen dir RdOnly) a1, w1)]) l1); [rewrite <- app_assoc; exact E2|apply Ip1]. }
    destruct P1 as (q1 & Eq2 & El1). fold l2 in El2.
    (* the directory *)
    assert (W1 : v_name w1 (parent f) = Some j).
    { apply (Sd (l4 ++ (Act n (CFsync (a_ret a1)) a2, w2) :: l3) ((Act n (COpen dir RdOnly) a1, w1) :: q1)). rewrite El, Eq2, <- app_assoc. reflexivity. }
    assert (Dn : dir <> []).
    { intros ->. assert (X : exists cfo, runs ((Act n (COpen [] RdOnly) a1, w1) :: l1) cfo).
      { apply (runs_prefix dbg B strerror v0 lim0 m (l4 ++ (Act n (CFsync (a_ret a1)) a2, w2) :: l3) _ cff). rewrite <- app_assoc. cbn [app]. fold l2. rewrite <- Et. exact Rf. }
      destruct X as (cfo & X). pose proof (no_empty dbg B strerror v0 lim0 m fds_sane _ _ X no_empty_name) as Y. cbn [now] in Y. congruence. }
    rewrite (in_dir_parent _ _ Df Dn) in *. assert (k = j) by congruence. subst k.
    (* the entry *)
    assert (S2 : v_sure w2 f = true).
    { rewrite Ew. cbn [v_sure synced]. rewrite (in_dir_parent _ _ Df Dn). replace (v_name (now v0 l2) dir) with (Some j); [rewrite Nat.eqb_refl; apply orb_true_r|].
      symmetry. rewrite El2. apply (Sd (l4 ++ [(Act n (CFsync (a_ret a1)) a2, w2)]) q2). rewrite El, <- app_assoc. reflexivity. }
    assert (Etr : tr = (after ++ fin :: l4) ++ (Act n (CFsync (a_ret a1)) a2, w2) :: l2) by (unfold tr; rewrite Et, <- app_assoc; reflexivity).
    assert (S3 : v_sure (now v0 tr) f = true).
    { rewrite Etr. apply (stays_sure dbg B strerror v0 lim0 m fds_sane f i _ _ cf); [rewrite <- Etr; exact R| |exact S2].
      intros a b E. rewrite El2. change (b ++ (Act n (CFsync (a_ret a1)) a2, w2) :: q2 ++ beg :: earlier) with (b ++ ((Act n (CFsync (a_ret a1)) a2, w2) :: q2) ++ beg :: earlier). rewrite app_assoc.
      apply (Sf a). rewrite El. change (after ++ fin :: l4 ++ (Act n (CFsync (a_ret a1)) a2, w2) :: q2) with (after ++ (fin :: l4) ++ (Act n (CFsync (a_ret a1)) a2, w2) :: q2). rewrite !app_assoc. f_equal. rewrite <- E. reflexivity. }
    rewrite (Cd _ S3). unfold tr. apply (Sf [] (after ++ fin :: later) eq_refl) || (change (after ++ fin :: later ++ beg :: earlier) with (after ++ (fin :: later) ++ beg :: earlier); rewrite app_assoc; exact (Sf [] _ eq_refl)).
  Qed.
  (** With what C96 says of the contents: the name is there and the file behind it
      starts with all that had been given to Append when Sync was called. *)
  Theorem C97_manifest_survives after later middle e earlier cf h x f i j n v w name disk :
    let beg := (Beg n (PWSync h), w) in
    let fin := (End n (RStat SOk), v) in
    let base := middle ++ e :: earlier in
    let tr := after ++ fin :: later ++ beg :: base in
    runs tr cf -> opening h x f i e earlier -> names_manifest f ->
    only_writer v0 (after ++ fin :: later ++ beg :: middle) (e :: earlier) h i ->
    throughout v0 (after ++ fin :: later) (beg :: base) (fun v => v_name v f = Some i) ->
    throughout v0 later (beg :: base) (fun v => v_name v (parent f) = Some j) ->
    all_ok (fin :: later ++ beg :: base) h ->
    crash_disk (now v0 tr) name disk ->
    name f = Some i /\ begins (disk i) (start e i ++ handed base h).
  Proof.
    intros beg fin base tr R Op Mf OW Sf Sd A Cd. pose proof Op as (fl & a & wv & Ee & C & O & La & Nm).
    assert (Rbb : exists cfb, runs base cfb).
    { apply (runs_prefix dbg B strerror v0 lim0 m ((after ++ fin :: later) ++ [beg]) _ cf). rewrite <- !app_assoc. exact R. }
    destruct Rbb as (cfb & Rbb).
    assert (Cb : call_no base h = Some x). { unfold base in *. change (e :: earlier) with ([e] ++ earlier) in *. rewrite app_assoc in *. eapply (call_later dbg B strerror v0 lim0 m fds_sane); eassumption. }
    assert (N : name f = Some i) by exact (C97_entry_survives after later base cf h x f i j n v w name disk R Cb O Mf Sf Sd Cd).
    split; [exact N|].
    assert (Rb : exists cf1, runs (beg :: base) cf1). { apply (runs_prefix dbg B strerror v0 lim0 m (after ++ fin :: later) _ cf). rewrite <- app_assoc. exact R. }
    destruct Rb as (cf1 & Rb). destruct (runs_split dbg B strerror v0 lim0 m [] _ _ _ Rb) as (cfe & tb & cf2 & Re & Stb & _). cbn [fst beg] in Stb.
    assert (Rl : exists cfl, runs (later ++ beg :: base) cfl). { apply (runs_prefix dbg B strerror v0 lim0 m (after ++ [fin]) _ cf). rewrite <- app_assoc. exact R. }
    destruct Rl as (cfl & Rl).
    assert (Cn : call_no (later ++ beg :: base) n = Some (PWSync h)). { eapply (call_later dbg B strerror v0 lim0 m fds_sane); [exact Rl|]. unfold beg. cbn [call_no]. now rewrite Nat.eqb_refl. }
    assert (Es : later ++ beg :: base = (later ++ beg :: middle) ++ e :: earlier) by (unfold base; rewrite <- app_assoc; reflexivity).
    assert (G : begins (disk i) (start e i ++ handed (later ++ beg :: base) h)).
    { rewrite Es. apply (C96_synced_survives dbg B strerror v0 lim0 m fds_sane names_sane after (later ++ beg :: middle) e earlier cf h x f i n v name disk f); rewrite <- ?Es; assumption. }
    assert (Hb : begins (handed (later ++ beg :: base) h) (handed base h)).
    { clear. change (later ++ beg :: base) with (later ++ [beg] ++ base). rewrite app_assoc. generalize (later ++ [beg]). intros l. induction l as [|[lb u] l IH]; [exists []; symmetry; apply app_nil_r|].
      cbn [app handed]. destruct lb as [k y| |]; try exact IH. destruct y; try exact IH. apply begins_app. exact IH. }
    destruct Hb as (rest & Er). rewrite Er, app_assoc in G. destruct G as (r & G). exists (rest ++ r). rewrite G, <- app_assoc. reflexivity.
  Qed.
End Props.

(** ** A concrete execution: while thread 0 syncs a new MANIFEST, thread 1 removes
    another file of the directory. *)
Definition mf : str := manifest_prefix.
Definition mv1 := with_fd (create ex_v0 mf) 3 (Some (mk_fdesc 3 0 false)).
Definition mv2 := with_fd mv1 4 (Some (mk_fdesc 2 0 false)).
Definition mv3 := with_name mv2 fb None.
Definition mv4 := synced mv3 2.
Definition mv5 := with_fd mv4 4 None.
Definition mv6 := with_fd (with_data mv5 3 [7%N] []) 3 (Some (mk_fdesc 3 1 false)).
Definition mv7 := synced mv6 3.
Definition m_early : trace := [(Beg 0 (PNewWrite mf), ex_v0)].
Definition m_open : lab * view := (Act 0 (COpen mf WrTrunc) (ans 3 [] 0), mv1).
Definition m_middle : trace := [(End 1 (RStat SOk), mv1); (Beg 1 (PWAppend 0 [7%N]), mv1); (End 0 (RStat SOk), mv1)].
Definition m_beg : lab * view := (Beg 2 (PWSync 0), mv1).
Definition m_later : trace :=
  [(Act 2 (CFsync 3) (ans 0 [] 0), mv7); (Act 2 (CWrite 3 [7%N]) (ans 1 [] 0), mv6); (Act 2 (CClose 4) (ans 0 [] 0), mv5); (Act 2 (CFsync 4) (ans 0 [] 0), mv4);
   (Act 3 (CUnlink fb) (ans 0 [] 0), mv3); (Beg 3 (PRemove fb), mv2); (Act 2 (COpen dot RdOnly) (ans 4 [] 0), mv2)].
Definition m_fin : lab * view := (End 2 (RStat SOk), mv7).
Definition m_after : trace := [(End 3 (RStat SOk), mv7)].
Definition m_tr : trace := m_after ++ m_fin :: m_later ++ m_beg :: m_middle ++ m_open :: m_early.
Ltac mw R := lazy -[ex_v0 mv1 mv2 mv3 mv4 mv5 mv6 mv7] in R.
Lemma m_runs : (exists cf, cruns true 4 str0 ex_v0 (mk_limits 0 1) 2 (m_fin :: m_later ++ m_beg :: m_middle ++ m_open :: m_early) cf) /\ exists cf, cruns true 4 str0 ex_v0 (mk_limits 0 1) 2 m_tr cf.
Proof.
  pose proof (cr_start true 4 str0 ex_v0 (mk_limits 0 1) 2) as R.
  apply (go_begin _ _ _ _ _ 0 (PNewWrite mf) 2) in R; [|reflexivity|exact Logic.I]. cf R.
  eapply (go_sys _ _ _ _ _ 0) with (a := ans 3 [] 0) (v' := mv1) in R; [|reflexivity|refine (k_open_new ex_v0 mf WrTrunc (ans 3 [] 0) _ _ _ _ _); [discriminate|reflexivity|reflexivity|discriminate|discriminate]]. cf R.
  eapply (go_end _ _ _ _ _ 0) in R; [|reflexivity]. mw R.
  apply (go_begin _ _ _ _ _ 0 (PWAppend 0 [7%N]) 2) in R; [|reflexivity|alone]. cf R.
  eapply (go_end _ _ _ _ _ 0) in R; [|reflexivity]. mw R.
  apply (go_begin _ _ _ _ _ 0 (PWSync 0) 2) in R; [|reflexivity|alone]. cf R.
  eapply (go_sys _ _ _ _ _ 0) with (a := ans 4 [] 0) (v' := mv2) in R; [|reflexivity|refine (k_open_read mv1 dot (ans 4 [] 0) 2 _ _ _); [discriminate|reflexivity|reflexivity]]. cf R.
  apply (go_begin _ _ _ _ _ 1 (PRemove fb) 2) in R; [|reflexivity|exact Logic.I]. cf R.
  eapply (go_sys _ _ _ _ _ 1) with (a := ans 0 [] 0) (v' := mv3) in R; [|reflexivity|refine (k_unlink mv2 fb (ans 0 [] 0) _ _); [reflexivity|discriminate]]. cf R.
  eapply (go_sys _ _ _ _ _ 0) with (a := ans 0 [] 0) (v' := mv4) in R; [|reflexivity|refine (k_fsync mv3 4 (ans 0 [] 0) (mk_fdesc 2 0 false) _ _); reflexivity]. cf R.
  eapply (go_sys _ _ _ _ _ 0) with (a := ans 0 [] 0) (v' := mv5) in R; [|reflexivity|apply k_close]. cf R.
  eapply (go_sys _ _ _ _ _ 0) with (a := ans 1 [] 0) (v' := mv6) in R; [|reflexivity|refine (k_write mv5 3 [7%N] (ans 1 [] 0) (mk_fdesc 3 0 false) _ _); [split; discriminate|reflexivity]]. cf R.
  eapply (go_sys _ _ _ _ _ 0) with (a := ans 0 [] 0) (v' := mv7) in R; [|reflexivity|refine (k_fsync mv6 3 (ans 0 [] 0) (mk_fdesc 3 1 false) _ _); reflexivity]. cf R.
  eapply (go_end _ _ _ _ _ 0) in R; [|reflexivity]. cf R.
  split; [eexists; exact R|].
  eapply (go_end _ _ _ _ _ 1) in R; [|reflexivity]. cf R.
  eexists; exact R.
Qed.
Lemma th_nil v0 base (P : view -> Prop) : P (now v0 base) -> throughout v0 [] base P.
Proof. intros H [|e l2] l1 E; [cbn [app] in E; subst l1; exact H|discriminate]. Qed.
Lemma th_cons v0 e later base (P : view -> Prop) : throughout v0 later base P -> P (snd e) -> throughout v0 (e :: later) base P.
Proof. intros T H [|e' l2] l1 E; cbn [app] in E; [subst l1; destruct e; exact H|injection E as _ E; exact (T _ _ E)]. Qed.
Lemma m_opening : opening 0 (PNewWrite mf) mf 3 m_open m_early.
Proof. exists WrTrunc, (ans 3 [] 0), mv1. repeat (split; [reflexivity|]). split; [discriminate|reflexivity]. Qed.
Lemma m_names : names_manifest mf /\ in_dir mf dot /\ v_name ex_v0 [] = None.
Proof.
  assert (N : ~ In slash mf) by (cbn; intuition discriminate). split; [|split; [left; auto|reflexivity]]. exists []. split; [auto|]. left. reflexivity.
Qed.
Lemma m_only : only_writer ex_v0 (m_after ++ m_fin :: m_later ++ m_beg :: m_middle) (m_open :: m_early) 0 3.
Proof.
  unfold m_after, m_fin, m_later, m_beg, m_middle. cbn [app].
  repeat (apply ow_cons; [|first [exact Logic.I | intros Ch; first [reflexivity | exfalso; exact Ch]]]). apply ow_nil.
Qed.
Example C97_example name disk : crash_disk (now ex_v0 m_tr) name disk -> name mf = Some 3 /\ begins (disk 3) [7%N].
Proof.
  intros C. destruct m_runs as (_ & (cf & R)).
  apply (C97_manifest_survives true 4 str0 ex_v0 (mk_limits 0 1) 2 w_fds w_names (proj2 (proj2 m_names)) m_after m_later m_middle m_open m_early cf 0 (PNewWrite mf) mf 3 2 2 mv7 mv1 name disk R m_opening (proj1 m_names) m_only); [| | |exact C].
  - repeat (apply th_cons; [|reflexivity]). apply th_nil. reflexivity.
  - repeat (apply th_cons; [|reflexivity]). apply th_nil. reflexivity.
  - intros n x r _ _ E; cbn in E; repeat (match type of E with context [match ?k with 0 => _ | S _ => _ end] => destruct k; cbn in E end); congruence.
Qed.
Example C97_synced_example : exists i, during ex_v0 (tl (m_fin :: m_later ++ m_beg :: m_middle ++ m_open :: m_early)) 2 (fun v => v_name v dot = Some i) /\
  during ex_v0 (tl (m_fin :: m_later ++ m_beg :: m_middle ++ m_open :: m_early)) 2 (fun v => forall p, v_name v (parent p) = Some i -> v_sure v p = true).
Proof.
  destruct m_runs as ((cf & R) & _).
  exact (C97_directory_synced true 4 str0 ex_v0 (mk_limits 0 1) 2 w_fds _ cf 0 (PNewWrite mf) mf dot 2 mv7 R eq_refl eq_refl eq_refl (proj1 m_names) (proj1 (proj2 m_names))).
Qed.
Print Assumptions C97_directory_synced.
Print Assumptions C97_entry_survives.
Print Assumptions C97_manifest_survives.
