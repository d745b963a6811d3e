(** MemEnvOomProps.v -- property theorems C112 (the in-memory environment when
    operator new throws).  [runs], [returns]: MemEnvProps.v. *)
From Coq Require Import List Arith NArith ZArith Lia Bool Sorting.Sorted.
From Verif Require Import Outcome Heap Status MemEnv MemEnvSpec MemEnvMem MemEnvMap MemEnvProofs MemEnvProps MemEnvOom MemEnvOomProofs.
Import ListNotations.
Local Open Scope outcome_scope.

(** A call that throws never does anything undefined, and leaves the state that
    the calls [as_if] would have left had they been made instead: so everything
    proved of legal histories (C43 - C51) goes on holding after it, except for
    the memory counted here. *)
Theorem C112_a_throw_is_a_shorter_call :
  forall alc alb dbg H e x ft, runs alc alb dbg H e -> legal H x ->
    exists o, exec_f alc alb dbg H e x ft = Ret o /\
      forall t, o = Some t -> exists evs, map ev_call evs = rev (as_if H x ft) /\
        runs alc alb dbg (evs ++ H) (th_env t) /\ th_files t = lost_files x ft /\ th_blocks t = lost_blocks x ft.
Proof.
  intros alc alb dbg H e x ft (A1 & A2 & R) L. destruct (every_throw alc alb dbg A1 A2 H e x ft R L) as (o & E & _ & T).
  exists o. split; [exact E|]. intros t Et. destruct (T t Et) as (evs & M & R' & F & B). exists evs. unfold runs. auto 8.
Qed.
Print Assumptions C112_a_throw_is_a_shorter_call.

(** Exactly when a call asks for memory. *)
Theorem C112_when_a_call_can_throw :
  forall alc alb dbg H e x ft, runs alc alb dbg H e -> legal H x ->
    ((exists t, exec_f alc alb dbg H e x ft = Ret (Some t)) <-> needs H x ft).
Proof.
  intros alc alb dbg H e x ft (A1 & A2 & R) L. destruct (every_throw alc alb dbg A1 A2 H e x ft R L) as (o & E & N & _).
  rewrite <- N, E. split.
  - intros (t & Q). injection Q as ->. discriminate.
  - destruct o as [t|]; [eauto|congruence].
Qed.
Print Assumptions C112_when_a_call_can_throw.

(** Queries, reads, opening for reading, and every call that fails for want of an
    error Status: nothing has changed. *)
Theorem C112_no_effect :
  forall alc alb dbg H e x ft t, runs alc alb dbg H e -> legal H x ->
    (ft = FStatus \/ match x with NewWrite _ | Rename _ _ | WAppend _ _ => False | _ => True end) ->
    exec_f alc alb dbg H e x ft = Ret (Some t) ->
    runs alc alb dbg H (th_env t) /\ th_files t = 0 /\ th_blocks t = 0.
Proof.
  intros alc alb dbg H e x ft t Rn L Hx E. destruct (C112_a_throw_is_a_shorter_call _ _ _ _ _ x ft Rn L) as (o & E' & T).
  rewrite E in E'. injection E' as <-. destruct (T t eq_refl) as (evs & M & R' & F & B).
  assert (Q : as_if H x ft = [] /\ lost_files x ft = 0 /\ lost_blocks x ft = 0).
  { destruct Hx as [->|Hx]; destruct x; try contradiction; auto. }
  destruct Q as (Q1 & Q2 & Q3). rewrite Q1 in M. destruct evs; [|discriminate]. rewrite F, B, Q2, Q3. auto.
Qed.
Print Assumptions C112_no_effect.

(** Append: a prefix of the data was added, up to a multiple of 8192 bytes of the
    file; the other files and all objects are as before, and appending the rest
    completes it. *)
Theorem C112_append_adds_a_prefix :
  forall alc alb dbg H e h i d ft n t, runs alc alb dbg H e -> live H h KWrite i ->
    (fsize H i + N.of_nat (length d) < 2 ^ 64)%N -> ft = FBlock n \/ ft = FPush n ->
    exec_f alc alb dbg H e (WAppend h d) ft = Ret (Some t) ->
    exists H', runs alc alb dbg H' (th_env t) /\
      contents H' i = contents H i ++ firstn (kept (fsize H i) n) d /\
      (fsize H' i mod 8192 = 0)%N /\
      (forall j, j <> i -> contents H' j = contents H j) /\
      (forall f, bound H' f = bound H f) /\
      (forall h' k j, live H h' k j -> live H' h' k j /\ pos H' h' = pos H h') /\
      exists e2 ev, exec alc alb dbg H' (th_env t) (WAppend h (skipn (kept (fsize H i) n) d)) = Ret (e2, ev) /\
        ev_res ev = RStat SOk /\ contents (ev :: H') i = contents H i ++ d.
Proof.
  intros alc alb dbg H e h i d ft n t Rn L Hd Hft E. assert (Lg : legal H (WAppend h d)) by (exists i; auto).
  assert (Nd : needs H (WAppend h d) ft) by (apply (C112_when_a_call_can_throw alc alb dbg H e); eauto).
  destruct (C112_a_throw_is_a_shorter_call _ _ _ _ _ (WAppend h d) ft Rn Lg) as (o & E' & T).
  rewrite E in E'. injection E' as <-. destruct (T t eq_refl) as (evs & M & R' & _). clear T.
  assert (So : size_of H h = fsize H i) by now apply (size_of_live _ _ KWrite).
  assert (Nk : kept (fsize H i) n < length d) by (rewrite <- So; destruct Hft as [->| ->]; exact Nd).
  assert (As : as_if H (WAppend h d) ft = [WAppend h (firstn (kept (fsize H i) n) d)]) by (rewrite <- So; destruct Hft as [->| ->]; reflexivity).
  rewrite As in M. destruct evs as [|ev [|]]; try discriminate. cbn [map rev app] in M. injection M as Ec. cbn [app] in R'.
  destruct L as (L1 & L2).
  assert (Ci : contents (ev :: H) i = contents H i ++ firstn (kept (fsize H i) n) d).
  { cbn [contents]. rewrite Ec, L1, Nat.eqb_refl. reflexivity. }
  assert (Lv : forall h' k j, live H h' k j -> live (ev :: H) h' k j /\ pos (ev :: H) h' = pos H h').
  { intros h' k j (Q1 & Q2). destruct (opened_lt _ _ _ _ Q1) as (Q3 & _). split; [split|].
    - rewrite opened_old by lia. exact Q1.
    - cbn [deleted]. rewrite Ec. exact Q2.
    - cbn [pos]. now rewrite Ec. }
  exists (ev :: H). split; [exact R'|]. split; [exact Ci|]. split; [|split; [|split; [|split; [exact Lv|]]]].
  - unfold fsize at 1. rewrite Ci, app_length, firstn_length, Nat.min_l by lia. rewrite Nat2N.inj_add. fold (fsize H i).
    rewrite kept_kept_N, N2Nat.id. unfold kept_N. rewrite block_8192. rewrite N.add_assoc, N.mod_add by lia.
    unfold room. rewrite block_8192. destruct (N.eqb_spec (fsize H i mod 8192) 0) as [Q|Q]; [now rewrite N.add_0_r|].
    pose proof (fill_aligned (fsize H i)) as G. rewrite block_8192 in G. now apply G.
  - intros j Hj. cbn [contents]. rewrite Ec, L1. destruct (Nat.eqb_spec i j); [congruence|reflexivity].
  - intros f. cbn [bound]. now rewrite Ec.
  - pose proof R' as (A1 & A2 & Rr). destruct (Lv h KWrite i (conj L1 L2)) as ((L1' & L2') & _).
    destruct (reach_step alc alb dbg A1 A2 _ _ (WAppend h (skipn (kept (fsize H i) n) d)) Rr) as (e2 & r & E2 & X2 & _).
    { exists i. split; [split; assumption|]. unfold fsize at 1. rewrite Ci, app_length, firstn_length, skipn_length. unfold fsize in Hd, Nk |- *. lia. }
    exists e2, (mk_event (WAppend h (skipn (kept (fsize H i) n) d)) r). split; [exact E2|]. split; [exact X2|].
    cbn [contents ev_call] in Ci |- *. cbn [contents] in *. rewrite L1', Nat.eqb_refl, Ci, <- app_assoc, firstn_skipn. reflexivity.
Qed.
Print Assumptions C112_append_adds_a_prefix.

(** It is not so that a NewWritableFile that throws has no effect: if it has no
    memory for the file object, a new empty file is there, and an existing file
    has lost its contents. *)
Theorem C112_failed_create_truncates_refuted :
  forall alc alb dbg H e f, runs alc alb dbg H e -> legal H (NewWrite f) ->
    exists t H', exec_f alc alb dbg H e (NewWrite f) FImpl = Ret (Some t) /\ runs alc alb dbg H' (th_env t) /\
      returns alc alb dbg H' (th_env t) (FileSize f) (RSize SOk 0) /\
      (forall i, bound H f = Some i -> forall h off n, live H h KRand i -> (0 < off < 2 ^ 64)%N -> (n < 2 ^ 64)%N ->
         returns alc alb dbg H' (th_env t) (RRead h off n) (RData (SErr IOError msg_offset []) [])).
Proof.
  intros alc alb dbg H e f Rn L. destruct (proj2 (C112_when_a_call_can_throw alc alb dbg H e (NewWrite f) FImpl Rn L) Logic.I) as (t & E).
  destruct (C112_a_throw_is_a_shorter_call _ _ _ _ _ (NewWrite f) FImpl Rn L) as (o & E' & T).
  rewrite E in E'. injection E' as <-. destruct (T t eq_refl) as (evs & M & R' & _). cbn [as_if rev app] in M.
  destruct evs as [|ev2 [|ev1 [|]]]; try discriminate. cbn [map] in M. injection M as M2 M1. cbn [app] in R'.
  exists t, (ev2 :: ev1 :: H). split; [exact E|]. split; [exact R'|]. pose proof R' as (A1 & A2 & Rr).
  assert (Bf : exists i, bound (ev2 :: ev1 :: H) f = Some i /\ contents (ev2 :: ev1 :: H) i = [] /\ (forall j, bound H f = Some j -> i = j)).
  { cbn [bound contents]. rewrite M1, M2, str_eqb_refl. destruct (bound H f) as [j|] eqn:Bj.
    - exists j. rewrite Nat.eqb_refl. repeat split; congruence.
    - exists (length H). repeat split; try congruence. now apply contents_new. }
  destruct Bf as (i & Bf & Cf & Bu). split.
  - destruct (reach_step alc alb dbg A1 A2 _ _ (FileSize f) Rr Logic.I) as (e3 & r3 & E3 & X3 & _). exists e3. rewrite E3.
    cbn [Expect] in X3. rewrite Bf in X3. unfold fsize in X3. rewrite Cf in X3. now subst r3.
  - intros j Bj h off n (L1 & L2) Ho Hn. rewrite <- (Bu j Bj) in L1. destruct (opened_lt _ _ _ _ L1) as (Hl & _).
    assert (Lv : live (ev2 :: ev1 :: H) h KRand i).
    { split.
      - rewrite !opened_old by (cbn [length]; lia). exact L1.
      - cbn [deleted]. rewrite M1, M2. destruct (Nat.eqb_spec (length H) h); [lia|exact L2]. }
    pose proof (C43_random_read _ _ _ _ _ _ _ off n R' Lv ltac:(lia) Hn) as G. unfold fsize in G. rewrite Cf in G.
    cbn [length] in G. destruct (N.ltb_spec (N.of_nat 0) off); [exact G|lia].
Qed.
Print Assumptions C112_failed_create_truncates_refuted.

(** It is not so that a RenameFile that throws leaves the target: the target is
    gone, the source has its old name. *)
Theorem C112_failed_rename_loses_the_target_refuted :
  forall alc alb dbg H e a b i j, runs alc alb dbg H e -> bound H a = Some i -> bound H b = Some j ->
    exists t H', exec_f alc alb dbg H e (Rename a b) FNode = Ret (Some t) /\ runs alc alb dbg H' (th_env t) /\
      returns alc alb dbg H' (th_env t) (Exists b) (RBool false) /\
      (a <> b -> returns alc alb dbg H' (th_env t) (FileSize a) (RSize SOk (fsize H i))).
Proof.
  intros alc alb dbg H e a b i j Rn Ba Bb.
  assert (Nd : needs H (Rename a b) FNode) by (cbn [needs]; congruence).
  destruct (proj2 (C112_when_a_call_can_throw alc alb dbg H e (Rename a b) FNode Rn Logic.I) Nd) as (t & E).
  destruct (C112_a_throw_is_a_shorter_call _ _ _ _ _ (Rename a b) FNode Rn Logic.I) as (o & E' & T).
  rewrite E in E'. injection E' as <-. destruct (T t eq_refl) as (evs & M & R' & _). cbn [as_if] in M. rewrite Bb in M. cbn [rev app] in M.
  destruct evs as [|ev [|]]; try discriminate. cbn [map] in M. injection M as M. cbn [app] in R'.
  exists t, (ev :: H). split; [exact E|]. split; [exact R'|]. pose proof R' as (A1 & A2 & Rr). split.
  - destruct (reach_step alc alb dbg A1 A2 _ _ (Exists b) Rr Logic.I) as (e3 & r3 & E3 & X3 & _). exists e3. rewrite E3.
    cbn [Expect bound] in X3. rewrite M, str_eqb_refl in X3. now subst r3.
  - intros Hab. destruct (reach_step alc alb dbg A1 A2 _ _ (FileSize a) Rr Logic.I) as (e3 & r3 & E3 & X3 & _). exists e3. rewrite E3.
    cbn [Expect bound] in X3. rewrite M in X3. apply str_eqb_neq in Hab. rewrite Hab, Ba in X3. unfold fsize in X3. cbn [contents] in X3. rewrite M in X3.
    now subst r3.
Qed.
Print Assumptions C112_failed_rename_loses_the_target_refuted.

(** NewAppendableFile for a name that does not exist (not legal, see C46), with no
    memory for the file: the exception leaves a name that stands for nothing. *)
Theorem C112_failed_appendable_refuted :
  forall alc alb dbg H e f, runs alc alb dbg H e -> bound H f = None ->
    exists t, exec_f alc alb dbg H e (NewAppend f) FFile = Ret (Some t) /\
      file_exists (th_env t) f = true /\ get_file_size (th_env t) f = UB /\ remove_file dbg (th_env t) f = UB /\
      forall n, new_sequential (th_env t) n f = UB /\ new_writable alc (th_env t) n f = UB.
Proof.
  intros alc alb dbg H e f (A1 & A2 & R) Bf. destruct (reach_inv alc alb dbg A1 A2 H e R) as (I & V).
  pose proof (hi_core _ _ _ _ _ V) as K. pose proof (proj1 (bound_find alc alb dbg A1 A2 H e f R) Bf) as Ef.
  exists (mk_thrown (mk_env (e_mem e) (map_set f 0 (e_map e)) (e_open e)) 0 0).
  assert (F0 : map_find f (map_set f 0 (e_map e)) = Some 0) by now rewrite find_set, str_eqb_refl.
  assert (G0 : getf (e_mem e) 0 = UB) by (unfold getf; now rewrite (mi_null _ _ _ (co_mem _ _ _ _ _ _ K))).
  split; [unfold exec_f, dispatch_f, new_appendable_f, map_index; rewrite Ef; reflexivity|].
  unfold file_exists, get_file_size, remove_file, remove_internal, new_sequential, new_writable, open_obj, size, ref, unref, unref_dec, truncate.
  cbn [th_env e_map e_mem]. rewrite F0, (index_find _ _ _ F0). cbn [ofile_state]. rewrite G0. cbn [bind]. auto.
Qed.
Print Assumptions C112_failed_appendable_refuted.

(** ** The hypotheses are met *)
Definition demo2 : list call := [NewWrite fa; WAppend 0 big; NewWrite fb; WAppend 2 [1;2;3]%N; NewRand fb; NewSeq fa].
Example demo2_runs : exists H e, runs alc_reuse alc_bump true H e /\ bound H fa = Some 0 /\ bound H fb = Some 2 /\
  live H 0 KWrite 0 /\ live H 4 KRand 2 /\ legal H (NewWrite fa) /\
  needs H (Rename fa fb) FNode /\ needs H (NewSeq [1]%N) FStatus /\ needs H (RRead 4 9 9) FStatus /\ needs H (NewRand fa) FImpl /\
  needs H (NewWrite [1]%N) FFile /\ needs H (NewWrite [1]%N) FNode /\
  needs H (WAppend 0 (repeat 7%N (N.to_nat 9000))) (FBlock 0) /\ needs H (WAppend 0 (repeat 7%N (N.to_nat 9000))) (FPush 0).
Proof.
  assert (E : match run_calls alc_reuse alc_bump true [] env_new demo2 with
              | Some (H, e) => ((length H =? 6) && live_b H 0 && live_b H 4)
              | None => false end = true) by (vm_compute; reflexivity).
  destruct (run_calls alc_reuse alc_bump true [] env_new demo2) as [[H e]|] eqn:Er; [|discriminate].
  exists H, e. split; [eapply run_calls_ok; [apply alc_reuse_ok|apply alc_bump_ok|apply reach_new|exact Er]|]. clear E.
  assert (Eh : H = match run_calls alc_reuse alc_bump true [] env_new demo2 with Some (H, _) => H | None => [] end) by now rewrite Er.
  clear Er. unfold live. vm_compute in Eh. subst H.
  assert (Kp : kept 5 0 < length (repeat 7%N (N.to_nat 9000))).
  { rewrite repeat_length. unfold kept. change ((8192 - 5 mod 8192) mod 8192)%N with 8187%N. rewrite Nat.mul_0_l, Nat.add_0_r. lia. }
  repeat split; try exact Kp; try (vm_compute; congruence); vm_compute; reflexivity.
Qed.
