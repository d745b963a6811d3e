(** PosixConcStreamProps.v -- C98: a SequentialFile delivers the bytes of one file,
    in order and without gaps, whatever other threads do meanwhile.

    The executions are those of PosixConc.v: any number of threads, any order of
    their system calls, any answers of a POSIX file system. *)
From Coq Require Import List Arith NArith ZArith Lia Bool Permutation.
From Verif Require Import Outcome Status MemEnv PosixOs PosixWritable PosixWritableSpec PosixWritableProofs PosixRead PosixEnv PosixFs PosixEnvSpec PosixEnvProofs PosixConc PosixConcSpec PosixConcSafe PosixConcHeld PosixConcInv PosixConcProofs PosixConcTrace PosixConcFacts PosixConcReads PosixConcWriteSpec PosixConcWr PosixConcWrites PosixConcFiles PosixConcSaved PosixConcObj PosixConcStreamSpec PosixConcStream PosixConcProps PosixConcWriteProps.
Import ListNotations.

Section Props.
  Variable dbg : bool.
  Variable B : nat.
  Variable strerror : Z -> str.
  (** the files, the slots and the number of threads at the start; open descriptors
      are not negative *)
  Variables (v0 : view) (lim0 : limits) (m : nat).
  Hypothesis fds_sane : forall fd, v_fd v0 fd <> None -> (0 <= fd)%Z.
  Notation runs := (cruns dbg B strerror v0 lim0 m).

  Lemma opens_once h f l1 p fl a v l2 cf : runs (l1 ++ (Act h (COpen p fl) a, v) :: l2) cf -> call_no (l1 ++ (Act h (COpen p fl) a, v) :: l2) h = Some (PNewSeq f) ->
    p = f /\ fl = RdOnly /\ acts l2 h = [].
  Proof.
    intros R C. destruct (act_step dbg B strerror v0 lim0 m fds_sane _ _ _ _ _ _ _ R) as (cf0 & t & x & k & R0 & Et & _). destruct (inv_runs dbg B strerror v0 lim0 m fds_sane _ _ R0) as (Rs & H). destruct (running _ _ _ _ _ _ _ _ _ _ H Et) as (Ip & Cn).
    assert (x = PNewSeq f). { change (l1 ++ (Act h (COpen p fl) a, v) :: l2) with (l1 ++ [(Act h (COpen p fl) a, v)] ++ l2) in *. rewrite app_assoc in *. pose proof (call_later dbg B strerror v0 lim0 m fds_sane _ _ _ _ _ R Cn). congruence. } subst x.
    destruct (did_runs dbg B strerror v0 lim0 m fds_sane _ _ R0 _ _ _ _ Et) as (fuel & o & P & _ & _). cbn [prog_of] in P. pose proof (path_sys _ _ _ _ a P) as P2. apply new_stream_path in P2.
    destruct P2 as [E|(b & E)]; [destruct (acts l2 h); discriminate|]. change [(COpen f RdOnly, b)] with ([] ++ [(COpen f RdOnly, b)]) in E. apply app_inj_tail in E. destruct E as (E1 & E2). injection E2 as -> -> _. auto.
  Qed.
  Lemma named_one tr cf h f i j : runs tr cf -> call_no tr h = Some (PNewSeq f) -> named h tr i -> named h tr j -> i = j.
  Proof.
    intros R C (l1 & p & fl & a & v & r1 & E1 & _ & N1) (l2 & q & fl2 & b & w & r2 & E2 & _ & N2). subst tr. destruct (opens_once _ _ _ _ _ _ _ _ _ R C) as (-> & -> & A1).
    assert (X : q = f /\ fl2 = RdOnly /\ acts r2 h = []) by (rewrite E2 in R, C; exact (opens_once _ _ _ _ _ _ _ _ _ R C)). destruct X as (-> & -> & A2).
    destruct (split_unique _ _ _ _ _ _ E2) as [(_ & X & _)|[(q & _ & X)|(q & _ & X)]]; [congruence| |]; exfalso.
    - pose proof (act_acts q h (COpen f RdOnly) a v r1) as Y. rewrite <- X in Y. rewrite A2 in Y. exact Y.
    - pose proof (act_acts q h (COpen f RdOnly) b w r2) as Y. rewrite <- X in Y. rewrite A1 in Y. exact Y.
  Qed.
  Lemma named_during tr cf h f i : runs tr cf -> call_no tr h = Some (PNewSeq f) -> named h tr i -> during v0 tr h (fun v => v_name v f = Some i).
  Proof. intros R C (l1 & p & fl & a & v & r1 & -> & _ & N1). destruct (opens_once _ _ _ _ _ _ _ _ _ R C) as (-> & _). eapply (during_act dbg B strerror v0 lim0 m fds_sane); [exact R|exact N1]. Qed.
  Lemma named_ex tr cf h f : runs tr cf -> call_no tr h = Some (PNewSeq f) -> ended tr h = Some (RStat SOk) -> exists i, named h tr i.
  Proof.
    intros R C E. destruct (finished dbg B strerror v0 lim0 m fds_sane _ _ _ _ R E) as (later & v & earlier & cf0 & x & fuel & o & ob & q & Et & R0 & Cn & Ip & P & Ea & Er & _).
    assert (x = PNewSeq f). { pose proof (call_later dbg B strerror v0 lim0 m fds_sane (later ++ [(End h (RStat SOk), v)]) earlier cf h x) as X. rewrite <- app_assoc in X. cbn [app] in X. rewrite <- Et in X. specialize (X R Cn). congruence. } subst x. cbn [prog_of] in P.
    unfold pnew_sequential, psys in P. cbn [pbind] in P. apply path_psys in P. destruct P as [(_ & P)|(a & l' & El & P)]; [discriminate|]. destruct (Z.ltb_spec (a_ret a) 0) as [L|L]; apply path_done in P; destruct P as (-> & P).
    - injection P as -> ->. cbn [observe] in Er. exfalso. injection Er as Er. symmetry in Er. exact (posix_error _ _ _ Er).
    - change ((COpen f RdOnly, a) :: []) with ([] ++ (COpen f RdOnly, a) :: []) in El. destruct (acts_nth _ _ _ _ _ _ El) as (l1 & w & l2 & -> & _).
      destruct (act_step dbg B strerror v0 lim0 m fds_sane _ _ _ _ _ _ _ R) as (cf1 & t & x & k & _ & _ & K). destruct (k_new _ _ _ _ _ K L) as (_ & y & _ & N). exists (d_ino y), l1, f, RdOnly, a, w, l2. auto.
  Qed.

  (** There is one file, the one that had the name at one moment of
      NewSequentialFile, such that every Read gives bytes that this file has, at one
      moment of the Read, from the place on which the earlier Reads and Skips have
      led to.  The piece is empty only if 0 bytes were asked for or the file ends
      there. *)
  Theorem C98_sequential_reads tr cf h f :
    runs tr cf -> call_no tr h = Some (PNewSeq f) -> ended tr h = Some (RStat SOk) ->
    exists i, during v0 tr h (fun v => v_name v f = Some i) /\
      forall later n d v earlier k,
        tr = later ++ (End n (RData SOk d), v) :: earlier -> call_no earlier n = Some (PSRead h k) ->
        (0 <= moved earlier h)%Z /\
        during v0 earlier n (fun v => piece d (v_data v i) (Z.to_nat (moved earlier h)) k).
  Proof.
    intros R C E. destruct (named_ex _ _ _ _ R C E) as (i & N). exists i. split; [exact (named_during _ _ _ _ _ R C N)|].
    intros later n d v earlier k Et Cn. destruct (s_done _ _ _ _ (sinv_runs dbg B strerror v0 lim0 m fds_sane h f _ _ R C) _ _ _ _ _ _ Et Cn) as (Z0 & j & Nj & D). split; [exact Z0|].
    replace i with j; [exact D|]. apply (named_one tr cf h f); try assumption. rewrite Et. change ((End n (RData SOk d), v) :: earlier) with ([(End n (RData SOk d), v)] ++ earlier). rewrite app_assoc. apply named_app. exact Nj.
  Qed.

  Lemma moved_got h : forall tr cf, runs tr cf -> never_skipped tr h -> moved tr h = Z.of_nat (length (got tr h)).
  Proof.
    intros tr. induction tr as [|[lb v] tr IH]; intros cf R NS; [reflexivity|]. destruct (runs_prefix dbg B strerror v0 lim0 m [(lb, v)] tr cf R) as (cf1 & R1).
    assert (NS' : never_skipped tr h). { intros n k X. apply (NS n k). change ((lb, v) :: tr) with ([(lb, v)] ++ tr). eapply (call_later dbg B strerror v0 lim0 m fds_sane); eassumption. }
    specialize (IH _ R1 NS'). destruct lb as [n x|n c a|n r]; try exact IH. cbn [moved got]. rewrite IH.
    destruct (call_no tr n) as [x|] eqn:Ex.
    - destruct r as [st|b|st l|st z|st d|]; try (destruct x; lia).
      + destruct x; try lia. destruct st; [|lia]. destruct (Nat.eqb_spec h0 h) as [->|]; [|lia]. exfalso. exact (NS' _ _ Ex).
      + destruct st; [|destruct x; lia]. rewrite app_length. destruct x; cbn [length]; try lia. destruct (h0 =? h); cbn [length]; lia.
    - destruct r as [st|b|st l|st z|[]|]; try lia. rewrite app_nil_r. lia.
  Qed.
  (** If nothing was skipped and the file has had the contents D since the object
      was made, the Reads together have given the beginning of D, and an empty
      Read (of more than 0 bytes) means that all of D was given before. *)
  Theorem C98_whole_file tr cf h f :
    runs tr cf -> call_no tr h = Some (PNewSeq f) -> ended tr h = Some (RStat SOk) -> never_skipped tr h ->
    exists i, during v0 tr h (fun v => v_name v f = Some i) /\
      forall D, (forall later earlier, tr = later ++ earlier -> ended earlier h <> None -> v_data (now v0 earlier) i = D) ->
        got tr h = firstn (length (got tr h)) D /\
        forall later n v earlier k,
          tr = later ++ (End n (RData SOk []), v) :: earlier -> call_no earlier n = Some (PSRead h k) -> (0 < k)%N ->
          got earlier h = D.
  Proof.
    intros R C E NS. destruct (C98_sequential_reads _ _ _ _ R C E) as (i & Di & Rd). exists i. split; [exact Di|]. intros D Cst.
    assert (Pc : forall later n d v earlier k, tr = later ++ (End n (RData SOk d), v) :: earlier -> call_no earlier n = Some (PSRead h k) -> piece d D (length (got earlier h)) k).
    { intros later n d v earlier k Et Cn. destruct (Rd _ _ _ _ _ _ Et Cn) as (_ & l1 & l2 & El & Ip & Pc).
      assert (Re : exists cfe, runs earlier cfe). { rewrite Et in R. change ((End n (RData SOk d), v) :: earlier) with ([(End n (RData SOk d), v)] ++ earlier) in R. rewrite app_assoc in R. exact (runs_prefix dbg B strerror v0 lim0 m _ _ _ R). }
      destruct Re as (cfe & Re).
      assert (NSe : never_skipped earlier h). { intros n' k' X. apply (NS n' k'). rewrite Et in R |- *. change ((End n (RData SOk d), v) :: earlier) with ([(End n (RData SOk d), v)] ++ earlier) in R |- *. rewrite app_assoc in R |- *. eapply (call_later dbg B strerror v0 lim0 m fds_sane); eassumption. }
      rewrite (moved_got h _ _ Re NSe), Nat2Z.id in Pc.
      assert (Rl : exists cfl, runs l2 cfl). { rewrite El in Re. exact (runs_prefix dbg B strerror v0 lim0 m _ _ _ Re). } destruct Rl as (cfl & Rl). destruct (inv_runs dbg B strerror v0 lim0 m fds_sane _ _ Rl) as (Rs & H).
      rewrite (Cst (later ++ (End n (RData SOk d), v) :: l1) l2) in Pc; [exact Pc|rewrite Et, El, <- app_assoc; reflexivity|].
      assert (Cn2 : call_no l2 n = Some (PSRead h k)). { destruct Ip as (Ic & _). destruct (call_no l2 n) as [y|] eqn:Ey; [|congruence]. rewrite El in Re, Cn. pose proof (call_later dbg B strerror v0 lim0 m fds_sane _ _ _ _ _ Re Ey). congruence. }
      exact (i_on _ _ _ _ _ _ H _ _ _ Cn2 eq_refl). }
    assert (G : forall l1 l2, tr = l1 ++ l2 -> got l2 h = firstn (length (got l2 h)) D).
    { intros l1 l2. revert l1. induction l2 as [|[lb v] l2 IH]; intros l1 Et; [reflexivity|]. assert (I : got l2 h = firstn (length (got l2 h)) D) by (apply (IH (l1 ++ [(lb, v)])); rewrite <- app_assoc; exact Et).
      destruct lb as [n x|n c a|n r]; try exact I. cbn [got]. destruct r as [st|b|st l|st z|st d|]; try exact I. destruct st; [|exact I].
      destruct (call_no l2 n) as [x|] eqn:Ex; [|rewrite app_nil_r; exact I]. destruct x as [| | | | | | | | | | |h' k| | | | | | |]; try (rewrite app_nil_r; exact I).
      destruct (Nat.eqb_spec h' h) as [->|]; [|rewrite app_nil_r; exact I].
      destruct (Pc _ _ _ _ _ _ Et Ex) as (Pd & _ & _). rewrite app_length. rewrite I at 1. rewrite Pd at 1. clear.
      generalize (length (got l2 h)) (length d). intros p q. revert D. induction p as [|p IH]; intros D; [reflexivity|]. destruct D as [|b D]; [cbn [firstn skipn plus]; rewrite firstn_nil; reflexivity|]. cbn [firstn skipn plus app]. f_equal. apply IH. }
    split; [exact (G [] tr eq_refl)|]. intros later n v earlier k Et Cn K. destruct (Pc _ _ _ _ _ _ Et Cn) as (_ & _ & Z). destruct (Z eq_refl) as [Z0|Z0]; [lia|].
    rewrite (G (later ++ [(End n (RData SOk []), v)]) earlier) by (rewrite <- app_assoc; exact Et). apply firstn_all2. exact Z0.
  Qed.
End Props.
Print Assumptions C98_sequential_reads.
Print Assumptions C98_whole_file.

(** ** A concrete execution: thread 0 reads the file b through a SequentialFile,
    the first read(2) is interrupted by a signal, and thread 1 removes b meanwhile. *)
Definition sv1 := with_fd ex_v0 3 (Some (mk_fdesc 1 0 false)).
Definition sv2 := with_name sv1 fb None.
Definition sv3 := with_fd sv2 3 (Some (mk_fdesc 1 1 false)).
Definition sv4 := with_fd sv3 3 (Some (mk_fdesc 1 2 false)).
Definition sv5 := with_fd sv4 3 (Some (mk_fdesc 1 2 false)).
Definition s_tr : trace :=
  [(End 4 (RData SOk []), sv5); (Act 4 (CRead 3 5) (ans 0 [] 0), sv5); (Beg 4 (PSRead 0 5), sv4);
   (End 3 (RData SOk [3%N]), sv4); (Act 3 (CRead 3 5) (ans 1 [3%N] 0), sv4); (Beg 3 (PSRead 0 5), sv3); (End 2 (RStat SOk), sv3);
   (End 1 (RData SOk [2%N]), sv3); (Act 1 (CRead 3 1) (ans 1 [2%N] 0), sv3); (Act 2 (CUnlink fb) (ans 0 [] 0), sv2); (Beg 2 (PRemove fb), sv1);
   (Act 1 (CRead 3 1) (mk_answer (-1) EINTR [] 0), sv1); (Beg 1 (PSRead 0 1), sv1);
   (End 0 (RStat SOk), sv1); (Act 0 (COpen fb RdOnly) (ans 3 [] 0), sv1); (Beg 0 (PNewSeq fb), ex_v0)].
Ltac salone := split; [eexists; split; [reflexivity|reflexivity]|let u := fresh in intros _ u n y p E; destruct u as [|[|u]]; cbn in E; try discriminate E; [..|destruct u; discriminate E]; injection E as _ <- _; discriminate].
Ltac sw R := lazy -[ex_v0 sv1 sv2 sv3 sv4 sv5] in R.
Lemma s_runs : exists cf, cruns true 4 str0 ex_v0 (mk_limits 0 1) 2 s_tr cf.
Proof.
  pose proof (cr_start true 4 str0 ex_v0 (mk_limits 0 1) 2) as R.
  apply (go_begin _ _ _ _ _ 0 (PNewSeq fb) 3) in R; [|reflexivity|exact Logic.I]. cf R.
  eapply (go_sys _ _ _ _ _ 0) with (a := ans 3 [] 0) (v' := sv1) in R; [|reflexivity|refine (k_open_read ex_v0 fb (ans 3 [] 0) 1 _ _ _); [discriminate|reflexivity|reflexivity]]. cf R.
  eapply (go_end _ _ _ _ _ 0) in R; [|reflexivity]. sw R.
  apply (go_begin _ _ _ _ _ 0 (PSRead 0 1) 3) in R; [|reflexivity|salone]. cf R.
  eapply (go_sys _ _ _ _ _ 0) with (a := mk_answer (-1) EINTR [] 0) (v' := sv1) in R; [|reflexivity|apply k_fail; [reflexivity|reflexivity|discriminate]]. cf R.
  apply (go_begin _ _ _ _ _ 1 (PRemove fb) 3) in R; [|reflexivity|exact Logic.I]. cf R.
  eapply (go_sys _ _ _ _ _ 1) with (a := ans 0 [] 0) (v' := sv2) in R; [|reflexivity|refine (k_unlink sv1 fb (ans 0 [] 0) _ _); [reflexivity|discriminate]]. cf R.
  eapply (go_sys _ _ _ _ _ 0) with (a := ans 1 [2%N] 0) (v' := sv3) in R; [|reflexivity|refine (k_read sv2 3 1 (ans 1 [2%N] 0) (mk_fdesc 1 0 false) _ _ _ _ _); [reflexivity|reflexivity|discriminate|reflexivity|discriminate]]. cf R.
  eapply (go_end _ _ _ _ _ 0) in R; [|reflexivity]. cf R.
  eapply (go_end _ _ _ _ _ 1) in R; [|reflexivity]. sw R.
  apply (go_begin _ _ _ _ _ 0 (PSRead 0 5) 3) in R; [|reflexivity|salone]. cf R.
  eapply (go_sys _ _ _ _ _ 0) with (a := ans 1 [3%N] 0) (v' := sv4) in R; [|reflexivity|refine (k_read sv3 3 5 (ans 1 [3%N] 0) (mk_fdesc 1 1 false) _ _ _ _ _); [reflexivity|reflexivity|discriminate|reflexivity|discriminate]]. cf R.
  eapply (go_end _ _ _ _ _ 0) in R; [|reflexivity]. sw R.
  apply (go_begin _ _ _ _ _ 0 (PSRead 0 5) 3) in R; [|reflexivity|salone]. cf R.
  eapply (go_sys _ _ _ _ _ 0) with (a := ans 0 [] 0) (v' := sv5) in R; [|reflexivity|refine (k_read sv4 3 5 (ans 0 [] 0) (mk_fdesc 1 2 false) _ _ _ _ _); [reflexivity|reflexivity|discriminate|reflexivity|right; cbn; auto]]. cf R.
  eapply (go_end _ _ _ _ _ 0) in R; [|reflexivity]. sw R.
  eexists; exact R.
Qed.
Example C98_example : exists i, during ex_v0 s_tr 0 (fun v => v_name v fb = Some i) /\
  forall D, (forall later earlier, s_tr = later ++ earlier -> ended earlier 0 <> None -> v_data (now ex_v0 earlier) i = D) -> got s_tr 0 = D /\ D = [2%N; 3%N].
Proof.
  destruct s_runs as (cf & R). destruct (C98_whole_file true 4 str0 ex_v0 (mk_limits 0 1) 2 w_fds _ _ 0 fb R eq_refl eq_refl) as (i & Di & H).
  - intros n k X. cbn in X. repeat (match type of X with context [match ?k with 0 => _ | S _ => _ end] => destruct k; cbn in X end); discriminate.
  - exists i. split; [exact Di|]. intros D Cst. destruct (H D Cst) as (_ & G). specialize (G [] 4 sv5 (tl s_tr) 5%N eq_refl eq_refl eq_refl). cbn in G. split; [exact G|symmetry; exact G].
Qed.
(** the file of that execution has the contents 2, 3 throughout *)
Example C98_example_contents later earlier : s_tr = later ++ earlier -> ended earlier 0 <> None -> v_data (now ex_v0 earlier) 1 = [2%N; 3%N].
Proof.
  intros E _. assert (F : Forall (fun e : lab * view => v_data (snd e) 1 = [2%N; 3%N]) s_tr) by (repeat (constructor; [reflexivity|]); constructor).
  rewrite E in F. destruct earlier as [|e earlier]; [reflexivity|]. apply Forall_app in F. destruct F as (_ & F). inversion F; subst. destruct e. assumption.
Qed.
