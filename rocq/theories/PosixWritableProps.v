(** PosixWritableProps.v -- property theorems C54-C59, C69 and C72: writing files
    through the POSIX environment.  [B] is the buffer size (65536 in the source). *)
From Coq Require Import List Arith NArith ZArith Lia Bool.
From Verif Require Import Outcome Heap Status StatusProofs MemEnv MemEnvMem PosixOs PosixFd PosixWritable PosixWritableSpec PosixWritableProofs.
Import ListNotations.
Local Open Scope outcome_scope.

(** A session with one more call at the end is a session followed by that call. *)
Lemma session_snoc {S} dbg B strerror (os : S -> syscall -> S * answer) fuel w0 name fl ops o w2 fd l sts :
  os_ok os -> session dbg B strerror os fuel w0 name fl (ops ++ [o]) w2 fd l sts ->
  exists w1 f1 f2 l1 seg sts1 st b1 b2,
    session dbg B strerror os fuel w0 name fl ops w1 fd l1 sts1 /\ l = l1 ++ seg /\ sts = sts1 ++ [st] /\
    f_name f1 = name /\ (f_manifest f1 = true <-> names_manifest name) /\ in_dir name (f_dir f1) /\ (0 <= fd)%Z /\
    (exclusive fd l1 -> fd_inv fd f1 l1) /\
    op_ok B strerror S w1 f1 b1 o w2 f2 st seg b2.
Proof.
  intros OK Se. pose proof Se as (w' & f & f2 & a & E1 & L1 & Ef & E2 & L2).
  destruct (session_run dbg B strerror S os _ _ _ _ _ _ _ _ _ Se) as (w'' & m & d & f2' & Hm & Hd & R & Hfd & I & _).
  assert (Hf : f = mk_wfile (repeat None B) 0 fd m name d).
  { unfold new_writable in E1.
    pose proof (sys_log S os w0 (COpen name fl)) as L. remember (sys os w0 (COpen name fl)) as wa eqn:Ewa. clear Ewa. destruct wa as [w1' a']. cbn [fst snd] in L.
    destruct (Z.ltb_spec (a_ret a') 0) as [Hn|Hp]; [injection E1 as _ H; now apply error_not_ok in H || discriminate|].
    destruct (new_wfile_ok dbg B name (a_ret a')) as (m' & d' & En & Hm' & Hd'). rewrite En in E1. cbn [bind] in E1. injection E1 as <- <-.
    assert (Ha : a' = a) by (rewrite L1 in L; apply app_inv_head in L; congruence). subst a'.
    rewrite Ef, (in_dir_fun _ _ _ Hd Hd'). f_equal. destruct m, m'; try reflexivity; exfalso; [apply diff_false_true|apply diff_false_true]; tauto. }
  destruct (wrun_app B strerror S os _ _ _ _ _ _ E2) as (w1 & f1 & sts1 & st & E3 & E4 & E5). cbn [fst snd] in E4, E5.
  rewrite <- Hf in *.
  destruct (wrun_ok B strerror S os OK fuel ops w' f [] _ R eq_refl) as [E|(w3 & f3 & sts3 & l1 & E & L3 & K3 & _ & N1 & N2 & N3 & b1 & R1 & P)]; [congruence|].
  rewrite E3 in E. injection E as <- <- <-.
  destruct (wstep_ok B strerror S os OK fuel w1 f1 b1 o _ R1 eq_refl) as [E|(w4 & f4 & st4 & seg & b2 & E & Q)]; [congruence|].
  rewrite E4 in E. injection E as <- <- <-.
  assert (El : l = l1 ++ seg).
  { pose proof (so_log _ _ _ _ _ _ _ _ _ _ _ _ Q) as L4. rewrite L2, L3, <- app_assoc in L4. now apply app_inv_head in L4. }
  exists w1, f1, f2, l1, seg, sts1, st, b1, b2.
  split; [exists w', f, f1, a; auto|]. split; [exact El|]. split; [exact E5|].
  subst f. cbn [f_name f_manifest f_dir] in N1, N2, N3. rewrite N1, N2, N3.
  split; [reflexivity|]. split; [exact Hm|]. split; [exact Hd|]. split; [exact Hfd|]. split; [|exact Q].
  intros X. destruct (P fd [] Hfd I X) as (I1 & _). exact I1.
Qed.

(** Any moment of a session at which no call has returned an error, including
    moments inside a call: the bytes that reached the file are a prefix of the
    data appended, at most [B] bytes of it are missing between calls, none after
    a Flush, Sync or Close. *)
Theorem C54_in_order_and_complete :
  forall S dbg B strerror (os : S -> syscall -> S * answer) fuel w0 name fl ops w fd l sts,
    os_ok os -> session dbg B strerror os fuel w0 name fl ops w fd l sts -> exclusive fd l ->
    Forall (fun st => st = SOk) sts ->
    (exists missing, appended ops = written fd l ++ missing /\ length missing <= B) /\
    (forall l1 l2, l = l1 ++ l2 -> exists rest, appended ops = written fd l1 ++ rest) /\
    (forall ops' o, ops = ops' ++ [o] -> flushes o -> written fd l = appended ops).
Proof.
  intros S dbg B strerror os fuel w0 name fl ops w fd l sts OK Se X Hs.
  destruct (session_run dbg B strerror S os _ _ _ _ _ _ _ _ _ Se) as (w1 & m & d & f2 & Hm & Hd & R & Hfd & I & Er & El).
  destruct (wrun_ok B strerror S os OK fuel ops w1 _ [] _ R eq_refl) as [E|(w3 & f3 & sts3 & l' & E & L3 & K3 & _ & _ & _ & _ & b1 & R1 & P)]; [congruence|].
  rewrite Er in E. injection E as <- <- <-. rewrite El in L3. apply app_inv_head in L3. subst l'.
  destruct (P fd [] Hfd I X) as (I1 & D & W & _ & Al). cbn [app written] in *. rewrite W in *. specialize (Al Hs).
  assert (Main : exists missing, appended ops = written fd l ++ missing /\ length missing <= B).
  { exists b1. rewrite W. split; [auto|]. apply R1. }
  split; [rewrite <- W; exact Main|]. split.
  - intros l1 l2 ->. rewrite written_app in W. destruct Main as (q & Hq & _). rewrite written_app in Hq. rewrite Hq, <- app_assoc. eauto.
  - intros ops' o -> Hfl. destruct (session_snoc dbg B strerror os fuel w0 name fl ops' o w fd l sts OK Se) as (w4 & f4 & f5 & l4 & seg & sts4 & st & b4 & b5 & Se4 & -> & -> & _ & _ & _ & _ & I4 & Q).
    destruct (session_run dbg B strerror S os _ _ _ _ _ _ _ _ _ Se4) as (w6 & m6 & d6 & f6 & Hm6 & Hd6 & R6 & _ & I6 & Er6 & El6).
    (* run again, this time to the last call *)
    destruct (wrun_app B strerror S os _ _ _ _ _ _ Er) as (w7 & f7 & sts7 & st7 & E7 & E8 & E9). cbn [fst snd] in E8, E9.
    destruct (wrun_ok B strerror S os OK fuel ops' w1 _ [] _ R eq_refl) as [E|(w3 & f3 & sts3 & l' & E & L3 & K3' & _ & _ & _ & _ & b8 & R8 & P8)]; [congruence|].
    rewrite E7 in E. injection E as <- <- <-.
    destruct (wstep_ok B strerror S os OK fuel w7 f7 b8 o _ R8 eq_refl) as [E|(w9 & f9 & st9 & seg9 & b9 & E & Q9)]; [congruence|].
    rewrite E8 in E. injection E as <- <- <-.
    assert (Hst : st7 = SOk /\ Forall (fun st => st = SOk) sts7).
    { apply app_inj_tail in E9 as (E9 & E10). subst. apply Forall_app in Hs as (Hs1 & Hs2). inversion Hs2; auto. }
    destruct (so_all _ _ _ _ _ _ _ _ _ _ _ _ Q9 (proj1 Hst)) as (A1 & A2). rewrite (A2 Hfl), app_nil_r in A1.
    assert (L9 : l4 ++ seg = l' ++ seg9).
    { pose proof (so_log _ _ _ _ _ _ _ _ _ _ _ _ Q9) as L9. rewrite El, L3, <- app_assoc in L9. now apply app_inv_head in L9. }
    rewrite L9 in *.
    destruct (P8 fd [] Hfd I (exclusive_app _ _ _ X)) as (I8 & D8 & W8 & _ & Al8). cbn [app written] in *. specialize (Al8 (proj2 Hst)).
    destruct (step_written B strerror S fd w7 f7 b8 o w f2 st7 seg9 b9 l' Hfd I8 X Q9) as (_ & W9).
    rewrite <- W, W9, W8, A1. unfold appended. rewrite map_app, concat_app. fold (appended ops'). rewrite <- Al8. cbn [map concat].
    now rewrite app_nil_r, <- app_assoc.
Qed.
Print Assumptions C54_in_order_and_complete.

(** Every call returns if the kernel keeps making progress. *)
Theorem C54_calls_return :
  forall S dbg B strerror (os : S -> syscall -> S * answer) K fuel w0 name fl ops w1 f,
    os_ok os -> progressing os K -> new_writable dbg B strerror S os w0 name fl = Ret (w1, Some f, SOk) ->
    (forall o, In o ops -> K * (B + length (op_data o)) <= fuel) ->
    exists w2 fd l sts, session dbg B strerror os fuel w0 name fl ops w2 fd l sts /\ length sts = length ops.
Proof.
  intros S dbg B strerror os K fuel w0 name fl ops w1 f OK Pr En Hf.
  unfold new_writable in En. pose proof (sys_log S os w0 (COpen name fl)) as L.
  assert (En2 := En). unfold new_writable in En2.
  remember (sys os w0 (COpen name fl)) as wa eqn:Ewa. destruct wa as [w1' a]. cbn [fst snd] in L.
  destruct (Z.ltb_spec (a_ret a) 0) as [Hn|Hp]; [injection En as _ H; now apply error_not_ok in H || discriminate|].
  destruct (new_wfile_ok dbg B name (a_ret a)) as (m & d & Ew & Hm & Hd). rewrite Ew in En. cbn [bind] in En. injection En as -> <-.
  assert (R : brep B (mk_wfile (repeat None B) 0 (a_ret a) m name d) []).
  { split; [apply repeat_length|]. repeat split; cbn; lia. }
  pose proof (wrun_terminates B strerror S os OK K fuel Pr ops w1 _ [] R Hf) as T.
  destruct (wrun_ok B strerror S os OK fuel ops w1 _ [] _ R eq_refl) as [E|(w3 & f3 & sts3 & l' & E & L3 & K3 & Hn & _)]; [congruence|].
  exists w3, (a_ret a), l', sts3. split; [|exact Hn].
  eexists w1, _, f3, a. split; [|split; [exact L|split; [reflexivity|split; [exact E|exact L3]]]].
  unfold new_writable. rewrite <- Ewa. destruct (Z.ltb_spec (a_ret a) 0); [lia|]. rewrite Ew. reflexivity.
Qed.
Print Assumptions C54_calls_return.

(** C55: creating a file, any calls in any order -- after errors and after Close
    too -- and deleting it never leave the buffer or read unset bytes of it. *)
Definition safe {A} (x : outcome A) : Prop := x <> UB /\ x <> AssertFail.
Theorem C55_buffer_never_overflows :
  forall S dbg B strerror (os : S -> syscall -> S * answer) w0 name fl,
    os_ok os ->
    safe (new_writable dbg B strerror S os w0 name fl) /\
    forall w1 f st, new_writable dbg B strerror S os w0 name fl = Ret (w1, Some f, st) ->
      forall fuel ops, safe (wrun B strerror S os fuel w1 f ops) /\
        forall w2 f2 sts, wrun B strerror S os fuel w1 f ops = Ret (w2, f2, sts) -> safe (destroy strerror S os fuel w2 f2).
Proof.
  intros S dbg B strerror os w0 name fl OK. unfold new_writable.
  destruct (sys os w0 (COpen name fl)) as [w1' a]. destruct (Z.ltb_spec (a_ret a) 0) as [Hn|Hp].
  - split; [split; discriminate|]. intros; discriminate.
  - destruct (new_wfile_ok dbg B name (a_ret a)) as (m & d & Ew & Hm & Hd). rewrite Ew. cbn [bind]. split; [split; discriminate|].
    intros w1 f st E. injection E as <- <- <-. intros fuel ops.
    assert (R : brep B (mk_wfile (repeat None B) 0 (a_ret a) m name d) []).
    { split; [apply repeat_length|]. repeat split; cbn; lia. }
    destruct (wrun_ok B strerror S os OK fuel ops w1' _ [] _ R eq_refl) as [E|(w3 & f3 & sts3 & l' & E & L3 & K3 & _ & _ & _ & _ & b1 & R1 & _)];
      rewrite E; (split; [split; discriminate|]); intros w2 f2 sts Q; [discriminate|]. injection Q as <- <- <-.
    unfold destroy. destruct (0 <=? f_fd f3)%Z; [|split; discriminate].
    destruct (close_ok B strerror S os OK fuel w3 f3 b1 _ R1 eq_refl) as [Ec|(w4 & f4 & st & l & b4 & Ec & _)]; rewrite Ec; split; discriminate.
Qed.
Print Assumptions C55_buffer_never_overflows.

(** C56: the status of every call is the first failure among the kernel calls it
    made: NotFound exactly for ENOENT (2), IOError otherwise. *)
Theorem C56_errors_are_reported :
  forall S dbg B strerror (os : S -> syscall -> S * answer) fuel w0 name fl ops o w fd l sts,
    os_ok os -> session dbg B strerror os fuel w0 name fl (ops ++ [o]) w fd l sts ->
    exists w1 l1 sts1 seg st, session dbg B strerror os fuel w0 name fl ops w1 fd l1 sts1 /\ l = l1 ++ seg /\ sts = sts1 ++ [st] /\
      st = status_of strerror (first_failure name (match o with OpClose => true | _ => false end) name seg).
Proof.
  intros S dbg B strerror os fuel w0 name fl ops o w fd l sts OK Se.
  destruct (session_snoc dbg B strerror os fuel w0 name fl ops o w fd l sts OK Se) as (w4 & f4 & f5 & l4 & seg & sts4 & st & b4 & b5 & Se4 & -> & -> & Hn & _ & _ & _ & _ & Q).
  exists w4, l4, sts4, seg, st. split; [exact Se4|]. split; [reflexivity|]. split; [reflexivity|].
  pose proof (so_st _ _ _ _ _ _ _ _ _ _ _ _ Q) as Hst. rewrite Hn in Hst. exact Hst.
Qed.
Print Assumptions C56_errors_are_reported.

(** Whatever fails, what reached the file is the appended data with parts left
    out; and nothing is left out of what was appended after the last error,
    once a Flush, Sync or Close has succeeded. *)
Theorem C56_only_failed_data_is_lost :
  forall S dbg B strerror (os : S -> syscall -> S * answer) fuel w0 name fl ops1 ops2 o w fd l sts,
    os_ok os -> session dbg B strerror os fuel w0 name fl (ops1 ++ ops2 ++ [o]) w fd l sts -> exclusive fd l ->
    subseq (written fd l) (appended (ops1 ++ ops2 ++ [o])) /\
    (Forall (fun st => st = SOk) (skipn (length ops1) sts) -> flushes o ->
       exists before, written fd l = before ++ appended ops2 /\ subseq before (appended ops1)).
Proof.
  intros S dbg B strerror os fuel w0 name fl ops1 ops2 o w fd l sts OK Se X.
  destruct (session_run dbg B strerror S os _ _ _ _ _ _ _ _ _ Se) as (w1 & m & d & f2 & Hm & Hd & R & Hfd & I & Er & El).
  assert (Split : forall ops ops' w f b r, brep B f b -> wrun B strerror S os fuel w f (ops ++ ops') = Ret r ->
    exists w1 f1 sts1 sts2, wrun B strerror S os fuel w f ops = Ret (w1, f1, sts1) /\ length sts1 = length ops /\
      wrun B strerror S os fuel w1 f1 ops' = Ret (fst r, sts2) /\ snd r = sts1 ++ sts2).
  { clear - OK. induction ops as [|o ops IH]; intros ops' w f b [[w2 f2] sts] R E; cbn [app wrun] in E.
    - exists w, f, [], sts. cbn [wrun fst snd]. auto.
    - destruct (wstep_ok B strerror S os OK fuel w f b o _ R eq_refl) as [E1|(w1 & f1 & st & l & b1 & E1 & Q)]; rewrite E1 in E; cbn [bind] in E; [discriminate|].
      destruct (wrun B strerror S os fuel w1 f1 (ops ++ ops')) as [[[w3 f3] sts3]| | |] eqn:E3; cbn [bind] in E; try discriminate.
      injection E as <- <- <-. destruct (IH ops' w1 f1 b1 _ (so_brep _ _ _ _ _ _ _ _ _ _ _ _ Q) E3) as (w4 & f4 & s4 & s5 & E4 & Hl & E5 & E6).
      exists w4, f4, (st :: s4), s5. cbn [wrun fst snd] in *. rewrite E1. cbn [bind]. rewrite E4. cbn [bind length]. rewrite E6, Hl. auto. }
  destruct (Split ops1 (ops2 ++ [o]) _ _ _ _ R Er) as (wa & fa & sa & sb & Ea & Hl & Eb & Es). cbn [fst snd] in Eb, Es.
  destruct (wrun_ok B strerror S os OK fuel ops1 w1 _ [] _ R eq_refl) as [E|(w3 & f3 & s3 & la & E & La & _ & _ & _ & _ & _ & ba & Ra & Pa)]; [congruence|].
  rewrite Ea in E. injection E as <- <- <-.
  destruct (Split ops2 [o] _ _ _ _ Ra Eb) as (wb & fb & sb1 & sb2 & Eb1 & Hl2 & Eb2 & Es2). cbn [fst snd] in Eb2, Es2.
  destruct (wrun_ok B strerror S os OK fuel ops2 wa _ ba _ Ra eq_refl) as [E|(w4 & f4 & s4 & lb & E & Lb & _ & _ & _ & _ & _ & bb & Rb & Pb)]; [congruence|].
  rewrite Eb1 in E. injection E as <- <- <-. cbn [wrun] in Eb2.
  destruct (wstep_ok B strerror S os OK fuel wb fb bb o _ Rb eq_refl) as [E|(w5 & f5 & s5 & lc & b5 & E & Q)]; rewrite E in Eb2; cbn [bind] in Eb2; [discriminate|].
  injection Eb2 as <- <- <-.
  assert (Ll : l = la ++ lb ++ lc).
  { pose proof (so_log _ _ _ _ _ _ _ _ _ _ _ _ Q) as Lc. rewrite El, Lb, La, <- !app_assoc in Lc. now apply app_inv_head in Lc. }
  subst l. rewrite app_assoc in X.
  destruct (Pa fd [] Hfd I (exclusive_app _ _ _ (exclusive_app _ _ _ X))) as (Ia & Da & Wa & Sa & _). cbn [app written] in Ia, Wa, Sa.
  destruct (Pb fd la Hfd Ia (exclusive_app _ _ _ X)) as (Ib & Db & Wb & Sb & Ab).
  destruct (step_written B strerror S fd wb fb bb o w5 f5 s5 lc b5 (la ++ lb) Hfd Ib X Q) as (_ & Wc).
  pose proof (so_sub _ _ _ _ _ _ _ _ _ _ _ _ Q) as Sc. pose proof (so_all _ _ _ _ _ _ _ _ _ _ _ _ Q) as Ac.
  assert (Wt : written fd (la ++ lb ++ lc) = Da ++ Db ++ all_taken lc).
  { rewrite app_assoc, Wc, Wb, Wa, <- app_assoc. reflexivity. }
  rewrite Wt. unfold appended at 1. rewrite !map_app, !concat_app. fold (appended ops1). fold (appended ops2). cbn [map concat]. rewrite app_nil_r. split.
  - apply (subseq_trans _ (Da ++ Db ++ all_taken lc ++ b5)).
    { rewrite !app_assoc. rewrite <- (app_nil_r ((Da ++ Db) ++ all_taken lc)) at 1. apply subseq_app; [apply subseq_refl|apply subseq_nil]. }
    apply (subseq_trans _ (Da ++ Db ++ bb ++ op_data o)).
    { apply subseq_app; [apply subseq_refl|]. apply subseq_app; [apply subseq_refl|exact Sc]. }
    apply (subseq_trans _ (Da ++ ba ++ appended ops2 ++ op_data o)).
    { apply subseq_app; [apply subseq_refl|]. rewrite !app_assoc. apply subseq_app; [exact Sb|apply subseq_refl]. }
    rewrite !app_assoc. apply subseq_app; [|apply subseq_refl]. apply subseq_app; [exact Sa|apply subseq_refl].
  - intros Hs Hfl. rewrite Es, skipn_app, Hl, Nat.sub_diag, skipn_all2 in Hs by lia. cbn [app skipn] in Hs. rewrite Es2 in Hs.
    apply Forall_app in Hs as (Hs1 & Hs2). assert (Hs3 := Forall_inv Hs2).
    destruct (Ac Hs3) as (Ac1 & Ac2). rewrite (Ac2 Hfl), app_nil_r in Ac1.
    assert (Od : op_data o = []) by (destruct o; cbn in *; [contradiction|reflexivity..]). rewrite Od, app_nil_r in Ac1.
    exists (Da ++ ba). split; [|exact Sa]. rewrite Ac1, (Ab Hs1), app_assoc. reflexivity.
Qed.
Print Assumptions C56_only_failed_data_is_lost.

(** C57 *)
Theorem C57_synced_data_survives :
  forall S dbg B strerror (os : S -> syscall -> S * answer) fuel w0 name fl ops w fd l sts old,
    os_ok os -> session dbg B strerror os fuel w0 name fl (ops ++ [OpSync]) w fd l (sts ++ [SOk]) -> exclusive fd l ->
    forall later c, crash_contents old fd (l ++ later) c ->
      (* everything that reached the file before Sync returned is there ... *)
      firstn (length (old ++ written fd l)) c = old ++ written fd l /\
      (* ... which is everything appended, if no call had failed *)
      (Forall (fun st => st = SOk) sts -> firstn (length (old ++ appended ops)) c = old ++ appended ops).
Proof.
  intros S dbg B strerror os fuel w0 name fl ops w fd l sts old OK Se X later c Cr.
  destruct (session_snoc dbg B strerror os fuel w0 name fl ops OpSync w fd l _ OK Se) as (w4 & f4 & f5 & l4 & seg & sts4 & st & b4 & b5 & Se4 & El & Es & Hn & _ & _ & Hfd & Ii & Q).
  apply app_inj_tail in Es as (<- & <-). rewrite El in X. specialize (Ii (exclusive_app _ _ _ X)).
  pose proof (so_shape _ _ _ _ _ _ _ _ _ _ _ _ Q) as Sh. cbn [shape] in Sh.
  destruct Sh as (ld & lr & good & Eseg & D & [(_ & _ & Hc)|(_ & lw & lt & -> & Ho & [(_ & Hc)|(a & -> & Ha)])]); try congruence.
  assert (Hr : a_ret a = 0%Z) by now apply Ha.
  assert (Hopen : f_fd f4 = fd /\ closed fd l4 = false).
  { destruct Ii as [Ii|(If & _)]; [exact Ii|]. exfalso. pose proof (so_lok _ _ _ _ _ _ _ _ _ _ _ _ Q) as K. rewrite Eseg in K.
    apply Forall_app in K as (_ & K). apply Forall_app in K as (_ & K). inversion K as [|? ? K1 _]; subst. cbn [fst snd answer_ok] in K1.
    apply K1; [rewrite If; lia|exact Hr]. }
  destruct Hopen as (Hf & Hc4).
  assert (Hdc : closed fd ld = false /\ written fd ld = []).
  { apply (dirsync_clean fd f4 ld good l4 D); [|exact Hc4]. rewrite Eseg, app_assoc in X. now apply exclusive_app in X. }
  rewrite Hf in *.
  assert (Hcl : closed fd (l4 ++ ld ++ lw) = false).
  { rewrite !closed_app, Hc4, (proj1 Hdc), (only_writes_closed _ _ _ Ho). reflexivity. }
  assert (El2 : l ++ later = (l4 ++ ld ++ lw) ++ (CFsync fd, a) :: later).
  { rewrite El, Eseg, <- !app_assoc. reflexivity. }
  assert (Ew : written fd (l4 ++ ld ++ lw) = written fd l).
  { rewrite El, Eseg. replace (l4 ++ ld ++ lw ++ [(CFsync fd, a)]) with ((l4 ++ ld ++ lw) ++ [(CFsync fd, a)]) by (rewrite <- !app_assoc; reflexivity).
    rewrite (written_app fd (l4 ++ ld ++ lw)), Hcl. cbn. now rewrite app_nil_r. }
  assert (Main := Cr (l4 ++ ld ++ lw) a later El2 Hr Hcl). rewrite Ew in Main. split; [exact Main|].
  intros Hs. destruct (C54_in_order_and_complete S dbg B strerror os fuel w0 name fl (ops ++ [OpSync]) w fd l (sts ++ [SOk]) OK Se) as (_ & _ & A).
  - now rewrite El.
  - apply Forall_app. split; [exact Hs|]. constructor; [reflexivity|constructor].
  - rewrite (A ops OpSync eq_refl I) in Main. unfold appended in Main. rewrite map_app, concat_app in Main. cbn [map concat op_data] in Main.
    rewrite !app_nil_r in Main. exact Main.
Qed.
Print Assumptions C57_synced_data_survives.

(** C58: Sync on a file whose last path component starts with MANIFEST. *)
Definition writes_or_syncs (fd : Z) (e : event) : Prop := (exists d, fst e = CWrite fd d) \/ fst e = CFsync fd.
Theorem C58_manifest_directory_first :
  forall S dbg B strerror (os : S -> syscall -> S * answer) fuel w0 name fl ops w fd l sts,
    os_ok os -> session dbg B strerror os fuel w0 name fl (ops ++ [OpSync]) w fd l sts -> exclusive fd l -> names_manifest name ->
    exists w1 l1 seg sts1 st dir a rest, session dbg B strerror os fuel w0 name fl ops w1 fd l1 sts1 /\ l = l1 ++ seg /\ sts = sts1 ++ [st] /\
      in_dir name dir /\ seg = (COpen dir RdOnly, a) :: rest /\
      (* the directory cannot be opened: nothing else is done *)
      ((a_ret a < 0)%Z -> rest = [] /\ st = status_of strerror (Some (dir, a_errno a))) /\
      ((0 <= a_ret a)%Z -> exists s c rest', rest = (CFsync (a_ret a), s) :: (CClose (a_ret a), c) :: rest' /\
         (* syncing it fails: it is closed again, nothing is written *)
         (a_ret s <> 0%Z -> rest' = [] /\ st = status_of strerror (Some (dir, a_errno s))) /\
         (* only then are data written and synced, to this file alone *)
         (exists fd', (fd' = fd \/ (fd' = (-1)%Z /\ closed fd l1 = true)) /\ Forall (writes_or_syncs fd') rest')).
Proof.
  intros S dbg B strerror os fuel w0 name fl ops w fd l sts OK Se X Hman.
  destruct (session_snoc dbg B strerror os fuel w0 name fl ops OpSync w fd l sts OK Se) as (w4 & f4 & f5 & l4 & seg & sts4 & st & b4 & b5 & Se4 & El & Es & Hn & Hm & Hd & Hfd & Ii & Q).
  rewrite El in X. specialize (Ii (exclusive_app _ _ _ X)).
  pose proof (so_shape _ _ _ _ _ _ _ _ _ _ _ _ Q) as Sh. pose proof (so_st _ _ _ _ _ _ _ _ _ _ _ _ Q) as Hst. rewrite Hn in Hst. cbn [shape is_close] in Sh, Hst.
  destruct Sh as (ld & lr & good & Eseg & D & C). apply Hm in Hman.
  destruct D as [(D & _)|(_ & [(a & -> & Ha & ->)|(a & s & c & -> & Ha & Hg)])]; [congruence| |].
  - destruct C as [(_ & -> & Hc)|(C & _)]; [|discriminate]. cbn [app] in Eseg.
    exists w4, l4, seg, sts4, st, (f_dir f4), a, []. repeat (split; [assumption|]). split; [intros _; split; [reflexivity|]|intros H; lia].
    rewrite Hst, Eseg. cbn [first_failure]. apply Z.ltb_lt in Ha. now rewrite Ha.
  - cbn [app] in Eseg. exists w4, l4, seg, sts4, st, (f_dir f4), a. eexists. repeat (split; [eassumption|]). split; [intros H; lia|]. intros _.
    exists s, c, lr. split; [reflexivity|]. split.
    + intros Hs. apply Z.eqb_neq in Hs. rewrite Hs in Hg. subst good. destruct C as [(_ & -> & _)|(C & _)]; [|discriminate]. split; [reflexivity|].
      rewrite Hst, Eseg. cbn [first_failure]. rewrite Hs. destruct (Z.ltb_spec (a_ret a) 0); [lia|reflexivity].
    + exists (f_fd f4). split; [destruct Ii as [(If & _)|(If & Ic)]; auto|].
      destruct C as [(_ & -> & _)|(_ & lw & lt & -> & Ho & C)]; [constructor|]. apply Forall_app. split.
      * eapply Forall_impl; [|exact Ho]. intros e He. left. exact He.
      * destruct C as [(-> & _)|(x & -> & _)]; [constructor|]. constructor; [right; reflexivity|constructor].
Qed.
Print Assumptions C58_manifest_directory_first.

(** Other files: no call opens anything, ever. *)
Theorem C58_other_files_touch_no_directory :
  forall S dbg B strerror (os : S -> syscall -> S * answer) fuel w0 name fl ops w fd l sts,
    os_ok os -> session dbg B strerror os fuel w0 name fl ops w fd l sts -> ~ names_manifest name ->
    forall e, In e l -> (exists d, fst e = CWrite fd d \/ fst e = CWrite (-1) d) \/
                        fst e = CFsync fd \/ fst e = CFsync (-1) \/ fst e = CClose fd \/ fst e = CClose (-1).
Proof.
  intros S dbg B strerror os fuel w0 name fl ops. induction ops as [|o ops IH] using rev_ind; intros w fd l sts OK Se Hman e He.
  - destruct Se as (w1 & f & f2 & a & _ & _ & _ & E & L). cbn [wrun] in E. injection E as -> _ _.
    rewrite <- (app_nil_r (w_log w)) in L at 1. apply app_inv_head in L. subst l. contradiction.
  - pose proof Se as Se0.
    destruct (session_snoc dbg B strerror os fuel w0 name fl ops o w fd l sts OK Se) as (w4 & f4 & f5 & l4 & seg & sts4 & st & b4 & b5 & Se4 & El & Es & Hn & Hm & Hd & Hfd & Ii & Q).
    subst l. apply in_app_or in He as [He|He]; [now apply (IH w4 fd l4 sts4)|].
    assert (Hfm : f_manifest f4 = false) by (destruct (f_manifest f4); [exfalso; tauto|reflexivity]).
    (* the descriptor is fd or -1: no directory was ever opened before *)
    assert (X : exclusive fd l4).
    { intros l1 p fl' a l2 E. exfalso. assert (Hi : In (COpen p fl', a) l4) by (rewrite E, in_app_iff; cbn; auto).
      specialize (IH w4 fd l4 sts4 OK Se4 Hman _ Hi). cbn in IH. destruct IH as [(d & [H|H])|[H|[H|[H|H]]]]; discriminate. }
    assert (Hf : f_fd f4 = fd \/ f_fd f4 = (-1)%Z) by (destruct (Ii X) as [(H & _)|(H & _)]; auto).
    pose proof (so_shape _ _ _ _ _ _ _ _ _ _ _ _ Q) as Sh.
    assert (Wr : forall lw, only_writes (f_fd f4) lw -> In e lw -> exists d, fst e = CWrite fd d \/ fst e = CWrite (-1) d).
    { intros lw Ho Hi. unfold only_writes in Ho. rewrite Forall_forall in Ho. destruct (Ho e Hi) as (d & Hd'). exists d. destruct Hf as [Hf|Hf]; rewrite Hf in Hd'; auto. }
    destruct o as [d| | |]; cbn [shape] in Sh.
    + left. now apply (Wr seg).
    + left. now apply (Wr seg).
    + destruct Sh as (ld & lr & good & -> & D & C). destruct D as [(_ & -> & _)|(D & _)]; [|congruence]. cbn [app] in He.
      destruct C as [(_ & -> & _)|(_ & lw & lt & -> & Ho & C)]; [contradiction|]. apply in_app_or in He as [He|He]; [left; now apply (Wr lw)|].
      destruct C as [(-> & _)|(x & -> & _)]; [contradiction|]. destruct He as [<-|[]]. cbn [fst]. destruct Hf as [->| ->]; auto.
    + destruct Sh as (lw & a & -> & Ho). apply in_app_or in He as [He|He]; [left; now apply (Wr lw)|]. destruct He as [<-|[]]. cbn [fst]. destruct Hf as [->| ->]; auto.
Qed.
Print Assumptions C58_other_files_touch_no_directory.

(** C59 *)
Theorem C59_dirname_basename :
  forall dbg path,
    (forall dir base, splits path dir base -> Dirname dbg path = Ret dir /\ Basename dbg path = Ret base) /\
    (~ In slash path -> Dirname dbg path = Ret dot /\ Basename dbg path = Ret path) /\
    (~ In slash path \/ exists dir base, splits path dir base).
Proof.
  intros dbg path. split; [|split].
  - intros dir base (H & ->). split; [now apply dirname_split|now apply basename_split].
  - intros H. split; [now apply dirname_none|now apply basename_none].
  - apply path_cases.
Qed.
Print Assumptions C59_dirname_basename.

(** C69; 2 is ENOENT *)
Theorem C69_posix_error :
  forall strerror ctx e,
    PosixError strerror ctx e = SErr (if Z.eqb e 2 then NotFound else IOError) ctx (strerror e).
Proof. intros. unfold PosixError, ENOENT. now destruct (e =? 2)%Z. Qed.
Print Assumptions C69_posix_error.

(** A failed Flush loses the buffered data for good: the file object stays
    usable and a later Sync reports success although earlier data is missing. *)
Theorem C56_ok_after_error_means_complete_refuted :
  forall B dbg strerror, 1 <= B -> exists (os : nat -> syscall -> nat * answer) w fd l e,
    os_ok os /\
    session dbg B strerror os 5 (mk_world 0 []) [97]%N WrTrunc [OpAppend [1]%N; OpFlush; OpAppend [2]%N; OpSync]
      w fd l [SOk; SErr IOError [97]%N (strerror e); SOk; SOk] /\
    exclusive fd l /\ written fd l = [2]%N.
Proof.
  intros [|B] dbg strerror HB; [lia|].
  (* the kernel: descriptor 3; the first write fails with EIO *)
  pose (os := fun (s : nat) (c : syscall) =>
    match c with
    | COpen _ _ => (s, mk_answer 3 0 [] 0)
    | CWrite fd d => (S s, mk_answer (if (fd <? 0)%Z || (s =? 0) then -1 else Z.of_nat (length d)) 5 [] 0)
    | CFsync fd => (s, mk_answer (if (fd <? 0)%Z then -1 else 0) 9 [] 0)
    | _ => (s, mk_answer 0 0 [] 0)
    end).
  eexists os, _, 3%Z, _, 5%Z. split; [|split].
  - intros s c. destruct c; cbn [os answer_ok snd a_ret]; auto.
    + destruct (Z.ltb_spec fd 0); cbn [orb]; [lia|]. destruct (s =? 0); cbn; lia.
    + destruct (Z.ltb_spec fd 0); lia.
  - eexists _, _, _, _. split; [destruct dbg; reflexivity|]. split; [reflexivity|]. split; [reflexivity|]. split; reflexivity.
  - split; [|reflexivity]. intros l1 p fl a l2 E _.
    repeat (destruct l1 as [|? l1]; cbn [app] in E; [discriminate E|injection E as _ E]).
    destruct l1; discriminate E.
Qed.
Print Assumptions C56_ok_after_error_means_complete_refuted.

(** For a MANIFEST directly under the root directory, Dirname is the empty path,
    which open() refuses: such a file can never be synced. *)
Theorem C58_root_manifest_refuted :
  forall S dbg B strerror (os : S -> syscall -> S * answer) fuel w0 rest fl ops w fd l sts,
    os_ok os -> (forall s fl, (a_ret (snd (os s (COpen [] fl))) < 0)%Z) -> ~ In slash rest ->
    session dbg B strerror os fuel w0 (slash :: manifest_prefix ++ rest) fl (ops ++ [OpSync]) w fd l sts ->
    exists sts1 e, sts = sts1 ++ [status_of strerror (Some ([], e))].
Proof.
  intros S dbg B strerror os fuel w0 rest fl ops w fd l sts OK Em Hr Se.
  destruct (session_run dbg B strerror S os _ _ _ _ _ _ _ _ _ Se) as (w1 & m & d & f2 & Hm & Hd & R & Hfd & I & Er & El).
  assert (d = []).
  { apply (in_dir_fun _ _ _ Hd). right. exists (manifest_prefix ++ rest). split; [|reflexivity].
    rewrite in_app_iff. intros [H|H]; [now apply manifest_no_slash|auto]. }
  assert (m = true) by (apply Hm; exists rest; split; [exact Hr|right; exists []; reflexivity]). subst d m.
  destruct (wrun_app B strerror S os _ _ _ _ _ _ Er) as (w7 & f7 & sts7 & st7 & E7 & E8 & E9). cbn [fst snd] in E8, E9.
  destruct (wrun_ok B strerror S os OK fuel ops w1 _ [] _ R eq_refl) as [E|(w3 & f3 & sts3 & l' & E & L3 & K3' & _ & N1 & N2 & N3 & _)]; [congruence|].
  rewrite E7 in E. injection E as <- <- <-. cbn [f_dir f_manifest] in N2, N3. cbn [wstep] in E8. unfold sync, sync_dir_if_manifest in E8.
  rewrite N3, N2 in E8. cbn [negb] in E8. specialize (Em (w_st w7) RdOnly). unfold sys in E8.
  apply Z.ltb_lt in Em. rewrite Em in E8. remember (a_errno (snd (os (w_st w7) (COpen [] RdOnly)))) as e eqn:Ee.
  exists sts7, e. rewrite E9. f_equal. f_equal. rewrite <- error_status.
  unfold PosixError in E8 |- *. destruct (e =? ENOENT)%Z; congruence.
Qed.
Print Assumptions C58_root_manifest_refuted.

(** C72: from creation to deletion, whatever is called and whatever fails, every
    descriptor opened is closed exactly once and no other is closed. *)
Theorem C72_descriptors_are_closed_once :
  forall S dbg B strerror (os : S -> syscall -> S * answer) fuel w0 name fl ops,
    os_ok os ->
    (forall w fd l sts, session dbg B strerror os fuel w0 name fl ops w fd l sts ->
       fds_after [fd] l = Some (if existsb (fun o => match o with OpClose => true | _ => false end) ops then [] else [fd])) /\
    (forall w fd l, lifetime dbg B strerror os fuel w0 name fl ops w fd l -> fds_after [fd] l = Some []).
Proof.
  intros S dbg B strerror os fuel w0 name fl ops OK.
  assert (Wr : forall fd lw, only_writes fd lw -> forall fds, fds_after fds lw = Some fds).
  { intros fd lw H. induction H as [|[c a] lw (d & Hd) H IH]; intros fds; [reflexivity|]. cbn [fst] in Hd. subst c. cbn. apply IH. }
  assert (Step : forall w f b o w' f' st l b', op_ok B strerror S w f b o w' f' st l b' ->
            forall fds, (if (f_fd f <? 0)%Z then fds = [] else fds = [f_fd f]) -> 
            exists fds', fds_after fds l = Some fds' /\ (if (f_fd f' <? 0)%Z then fds' = [] else fds' = [f_fd f'])).
  { intros w f b o w' f' st l b' Q fds Hf. pose proof (so_shape _ _ _ _ _ _ _ _ _ _ _ _ Q) as Sh. pose proof (so_fd _ _ _ _ _ _ _ _ _ _ _ _ Q) as Ef.
    destruct o as [d| | |]; cbn [shape is_close] in Sh, Ef; rewrite Ef.
    - exists fds. split; [now apply (Wr (f_fd f))|exact Hf].
    - exists fds. split; [now apply (Wr (f_fd f))|exact Hf].
    - exists fds. split; [|exact Hf]. destruct Sh as (ld & lr & good & -> & D & C).
      rewrite fds_after_app.
      assert (Hd : fds_after fds ld = Some fds).
      { destruct D as [(_ & -> & _)|(_ & [(a & -> & Ha & _)|(a & a1 & a2 & -> & Ha & _)])]; [reflexivity| |]; cbn [fds_after].
        - destruct (Z.leb_spec 0 (a_ret a)); [lia|reflexivity].
        - destruct (Z.leb_spec 0 (a_ret a)); [|lia]. destruct (Z.ltb_spec (a_ret a) 0); [lia|]. cbn [remove1]. rewrite Z.eqb_refl. reflexivity. }
      rewrite Hd. destruct C as [(_ & -> & _)|(_ & lw & lt & -> & Ho & C)]; [reflexivity|]. rewrite fds_after_app, (Wr (f_fd f) lw Ho).
      destruct C as [(-> & _)|(a & -> & _)]; reflexivity.
    - exists []. split; [|reflexivity]. destruct Sh as (lw & a & -> & Ho). rewrite fds_after_app, (Wr (f_fd f) lw Ho). cbn [fds_after].
      destruct (f_fd f <? 0)%Z; subst fds; [reflexivity|]. cbn [remove1]. now rewrite Z.eqb_refl. }
  assert (Run : forall ops w f b w2 f2 sts, brep B f b -> wrun B strerror S os fuel w f ops = Ret (w2, f2, sts) ->
            forall fds, (if (f_fd f <? 0)%Z then fds = [] else fds = [f_fd f]) ->
            exists l b2 fds', w_log w2 = w_log w ++ l /\ brep B f2 b2 /\ fds_after fds l = Some fds' /\ (if (f_fd f2 <? 0)%Z then fds' = [] else fds' = [f_fd f2]) /\
              f_fd f2 = (if existsb (fun o => match o with OpClose => true | _ => false end) ops then (-1)%Z else f_fd f)).
  { clear ops. induction ops as [|o ops IH]; intros w f b w2 f2 sts R E fds Hf; cbn [wrun] in E.
    - injection E as <- <- <-. exists [], b, fds. rewrite app_nil_r. cbn. auto.
    - destruct (wstep_ok B strerror S os OK fuel w f b o _ R eq_refl) as [E1|(w1 & f1 & st & l & b1 & E1 & Q)]; rewrite E1 in E; cbn [bind] in E; [discriminate|].
      destruct (wrun B strerror S os fuel w1 f1 ops) as [[[w3 f3] sts3]| | |] eqn:E3; cbn [bind] in E; try discriminate. injection E as <- <- <-.
      destruct (Step _ _ _ _ _ _ _ _ _ Q fds Hf) as (fds1 & F1 & Hf1).
      destruct (IH w1 f1 b1 w3 f3 sts3 (so_brep _ _ _ _ _ _ _ _ _ _ _ _ Q) E3 fds1 Hf1) as (l2 & b2 & fds2 & L2 & R2 & F2 & Hf2 & Ef2).
      exists (l ++ l2), b2, fds2. split; [rewrite L2, (so_log _ _ _ _ _ _ _ _ _ _ _ _ Q), <- app_assoc; reflexivity|]. split; [exact R2|].
      split; [rewrite fds_after_app, F1; exact F2|]. split; [exact Hf2|]. rewrite Ef2, (so_fd _ _ _ _ _ _ _ _ _ _ _ _ Q). cbn [existsb].
      destruct o; cbn [is_close orb]; try reflexivity. now destruct (existsb _ ops). }
  assert (Hb : forall fd l sts w2 w1 f f2, (0 <= f_fd f)%Z -> f_fd f = fd -> brep B f [] -> wrun B strerror S os fuel w1 f ops = Ret (w2, f2, sts) -> w_log w2 = w_log w1 ++ l ->
     fds_after [fd] l = Some (if existsb (fun o => match o with OpClose => true | _ => false end) ops then [] else [fd]) /\
     (exists b2, brep B f2 b2) /\ f_fd f2 = (if existsb (fun o => match o with OpClose => true | _ => false end) ops then (-1)%Z else fd)).
  { intros fd l sts w2 w1 f f2 Hfd Ef R E L. destruct (Run ops w1 f [] w2 f2 sts R E [fd]) as (l' & b2 & fds & L' & R2 & F & Hf & Ef2).
    - destruct (Z.ltb_spec (f_fd f) 0); [lia|congruence].
    - rewrite L in L'. apply app_inv_head in L'. subst l'. rewrite F. split; [|split; [eauto|rewrite Ef2, Ef; reflexivity]].
      rewrite Ef2 in Hf. destruct (existsb _ ops); cbn in Hf; [now rewrite Hf|]. destruct (Z.ltb_spec (f_fd f) 0); [lia|congruence]. }
  split.
  - intros w fd l sts Se. destruct (session_run dbg B strerror S os _ _ _ _ _ _ _ _ _ Se) as (w1 & m & d & f2 & Hm & Hd & R & Hfd & I & Er & El).
    now destruct (Hb fd l sts w w1 (mk_wfile (repeat None B) 0 fd m name d) f2 Hfd eq_refl R Er El) as (H & _).
  - intros w fd l (w1 & f & f2 & a & w2 & sts & E1 & L1 & Ef & E2 & E3 & L3).
    assert (Hf : (0 <= fd)%Z /\ f_fd f = fd /\ brep B f []).
    { unfold new_writable in E1. pose proof (sys_log S os w0 (COpen name fl)) as L. remember (sys os w0 (COpen name fl)) as wa eqn:Ewa. clear Ewa. destruct wa as [wa aa]. cbn [fst snd] in L.
      destruct (Z.ltb_spec (a_ret aa) 0) as [Hn|Hp]; [discriminate|].
      destruct (new_wfile_ok dbg B name (a_ret aa)) as (m' & d' & En & _). rewrite En in E1. cbn [bind] in E1. injection E1 as <- <-.
      rewrite L1 in L. apply app_inv_head in L. assert (a = aa) by congruence. subst aa. rewrite Ef. cbn [f_fd].
      split; [exact Hp|]. split; [reflexivity|]. split; [apply repeat_length|]. repeat split; cbn; lia. }
    destruct Hf as (Hfd & Hf & Rf).
    destruct (wrun_ok B strerror S os OK fuel ops w1 f [] _ Rf eq_refl) as [E|(w4 & f4 & sts4 & l4 & E & L4 & _)]; [congruence|].
    rewrite E2 in E. injection E as <- <- <-.
    destruct (Hb fd l4 sts w2 w1 f f2 ltac:(lia) Hf Rf E2 L4) as (F & (b2 & R2) & Ef2).
    unfold destroy in E3. destruct (Z.leb_spec 0 (f_fd f2)) as [Hp|Hn].
    + destruct (close_ok B strerror S os OK fuel w2 f2 b2 _ R2 eq_refl) as [Ec|(w5 & f5 & st5 & l5 & b5 & Ec & Q)]; rewrite Ec in E3; cbn [bind] in E3; [discriminate|]. injection E3 as ->.
      destruct (existsb _ ops) eqn:Ex; [lia|].
      destruct (Step _ _ _ _ _ _ _ _ _ Q [fd]) as (fds & F2 & Hf2).
      { destruct (Z.ltb_spec (f_fd f2) 0); [lia|congruence]. }
      rewrite (so_fd _ _ _ _ _ _ _ _ _ _ _ _ Q) in Hf2. cbn in Hf2. subst fds.
      assert (El : l = l4 ++ l5).
      { rewrite (so_log _ _ _ _ _ _ _ _ _ _ _ _ Q), L4, <- app_assoc in L3. now apply app_inv_head in L3. }
      rewrite El, fds_after_app, F. exact F2.
    + injection E3 as ->. rewrite L4 in L3. apply app_inv_head in L3. subst l4.
      destruct (existsb _ ops) eqn:Ex; [exact F|lia].
Qed.
Print Assumptions C72_descriptors_are_closed_once.

(** ** Examples: a kernel that interrupts every third call and takes at most two
    bytes at a time; a buffer of 4 bytes. *)
Definition demo_os (s : nat) (c : syscall) : nat * answer :=
  match c with
  | COpen _ _ => (s, mk_answer (if s =? 0 then 3 else 4) 0 [] 0)
  | CWrite fd d =>
      (S s, if (fd <? 0)%Z then mk_answer (-1) 9 [] 0
            else if s mod 3 =? 2 then mk_answer (-1) EINTR [] 0
            else mk_answer (Z.of_nat (Nat.min 2 (length d))) 0 [] 0)
  | CFsync fd => (s, mk_answer (if (fd <? 0)%Z then -1 else 0) 9 [] 0)
  | _ => (s, mk_answer 0 0 [] 0)
  end.
Lemma demo_os_ok : os_ok demo_os.
Proof.
  intros s c. destruct c; cbn [demo_os answer_ok snd a_ret]; auto.
  - destruct (Z.ltb_spec fd 0); cbn [a_ret]; [lia|]. destruct (_ =? 2); cbn [a_ret]; lia.
  - destruct (Z.ltb_spec fd 0); lia.
Qed.
Lemma demo_progress : progressing demo_os 2.
Proof.
  intros s fd d Hd. cbn [stalls demo_os snd fst]. destruct d as [|x d]; [contradiction|].
  destruct (fd <? 0)%Z; [reflexivity|].
  destruct (s mod 3 =? 2) eqn:E; [|reflexivity].
  apply Nat.eqb_eq in E. assert (E2 : S s mod 3 = 0).
  { rewrite (Nat.div_mod s 3) by lia. rewrite E. replace (S (3 * (s / 3) + 2)) with (0 + (s / 3 + 1) * 3) by lia. rewrite Nat.mod_add by lia. reflexivity. }
  cbn [a_ret a_errno]. rewrite E2. reflexivity.
Qed.
Definition demo_name : str := (47 :: 100 :: 47 :: manifest_prefix)%N.  (* /d/MANIFEST *)
(** checkers for concrete logs *)
Fixpoint exclusive_b (fd : Z) (l : log) : bool :=
  match l with
  | [] => true
  | e :: l' => (match e with (COpen _ _, a) => negb (a_ret a =? fd)%Z | _ => true end) && (closes fd e || exclusive_b fd l')
  end.
Lemma exclusive_b_ok fd l : exclusive_b fd l = true -> exclusive fd l.
Proof.
  intros H l1. revert l H. induction l1 as [|e l1 IH]; intros l H p fl a l2 -> C; cbn [app exclusive_b] in H; apply andb_true_iff in H as (H1 & H2).
  - apply negb_true_iff, Z.eqb_neq in H1. exact H1.
  - cbn [closed existsb] in C. apply orb_false_iff in C as (C1 & C2). rewrite C1 in H2. cbn [orb] in H2. now apply (IH _ H2 p fl a l2).
Qed.
Fixpoint crash_b (base : list N) (fd : Z) (l : log) (c : list N) : bool :=
  match l with
  | [] => true
  | e :: l' =>
      closes fd e ||
      ((match e with (CFsync fd', a) => if (fd' =? fd)%Z && (a_ret a =? 0)%Z then str_eqb (firstn (length base) c) base else true | _ => true end)
       && crash_b (base ++ written fd [e]) fd l' c)
  end.
Lemma crash_b_ok fd c l : forall base, crash_b base fd l c = true -> crash_contents base fd l c.
Proof.
  intros base H l1. revert l base H. induction l1 as [|e l1 IH]; intros l base H a l2 -> Hr C; cbn [app crash_b] in H.
  - cbn [written]. rewrite !app_nil_r. unfold closes in H. cbn [fst orb] in H. rewrite Z.eqb_refl, Hr in H. cbn [andb] in H. apply andb_true_iff in H as (H & _).
    now apply str_eqb_eq.
  - cbn [closed existsb] in C. apply orb_false_iff in C as (C1 & C2). rewrite C1 in H. cbn [orb] in H. apply andb_true_iff in H as (_ & H).
    assert (Q := IH _ _ H a l2 eq_refl Hr C2). cbn [written] in Q |- *. rewrite C1 in Q |- *. rewrite app_nil_r in Q. now rewrite <- app_assoc in Q.
Qed.
Example c54_c57_c58_example : exists w l sts,
  session true 4 (fun _ => []) demo_os 20 (mk_world 0 []) demo_name WrTrunc [OpAppend [1;2;3]%N; OpAppend [4;5;6;7;8;9;10;11]%N; OpSync] w 3 l (sts ++ [SOk]) /\
  Forall (fun st => st = SOk) sts /\ exclusive 3 l /\ names_manifest demo_name /\ crash_contents [] 3 l [1;2;3;4;5;6;7;8;9;10;11;99]%N.
Proof.
  eexists _, _, [SOk; SOk]. split; [eexists _, _, _, _; repeat (split; [vm_compute; reflexivity|]); vm_compute; reflexivity|].
  split; [repeat constructor|]. split; [apply exclusive_b_ok; reflexivity|]. split; [exists []; split; [easy|right; exists [47;100]%N; reflexivity]|].
  apply crash_b_ok. reflexivity.
Qed.
(** the root directory *)
Example c58_root_example : exists w fd l sts,
  session true 4 (fun _ => []) (fun s c => match c with COpen [] _ => (s, mk_answer (-1) 2 [] 0) | _ => demo_os s c end) 20 (mk_world 0 [])
    (slash :: manifest_prefix) WrTrunc [OpAppend [1]%N; OpSync] w fd l sts /\ sts = [SOk; SErr NotFound [] []].
Proof. do 4 eexists. split; [eexists _, _, _, _; repeat (split; [reflexivity|]); reflexivity|]. reflexivity. Qed.
(** a manifest written, synced, and deleted without Close *)
Example c72_example : exists w l,
  lifetime true 4 (fun _ => []) demo_os 20 (mk_world 0 []) demo_name WrTrunc [OpAppend [1;2;3;4;5;6]%N; OpSync] w 3 l /\ fds_after [3%Z] l = Some [].
Proof. do 2 eexists. split; [eexists _, _, _, _, _, _; repeat (split; [vm_compute; reflexivity|]); vm_compute; reflexivity|]. vm_compute. reflexivity. Qed.
