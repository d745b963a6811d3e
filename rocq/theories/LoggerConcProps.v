(** LoggerConcProps.v -- C94: threads that log at the same time. *)
From Coq Require Import List Arith NArith ZArith Lia Bool Permutation.
From Verif Require Import Outcome Logging LoggingSpec Logger LoggerSpec LoggerProps LoggerConc LoggerConcSpec LoggerConcProofs.
Import ListNotations.

Lemma text_line_no cf k : text (l_calls cf) k = line_no cf k.
Proof. reflexivity. Qed.
(** All pieces are whole lines, but perhaps the last. *)
Lemma pieces_full cf ps : linv cf ps -> l_failed cf = false ->
  ps = map (fun k => (k, line_no cf k)) (map fst ps) \/
  exists ps' k p, ps = ps' ++ [(k, p)] /\ ps' = map (fun k => (k, line_no cf k)) (map fst ps') /\ prefix p (line_no cf k) /\ exists t rest evs, l_thr cf t = LWriting k rest evs.
Proof.
  intros V F.
  assert (G : forall qs : pieces, (forall k p, In (k, p) qs -> p = line_no cf k) -> qs = map (fun k => (k, line_no cf k)) (map fst qs)).
  { induction qs as [|(k, p) qs IH]; intros H; [reflexivity|]. cbn. rewrite <- (H k p) by now left. f_equal. apply IH. intros k' p' I0. apply H. now right. }
  destruct ps as [|(k, p) ps' _] using rev_ind; [left; reflexivity|].
  assert (Others : forall k' p', In (k', p') ps' -> p' = line_no cf k').
  { intros k' p' I0. destruct (v_full _ _ V F k' p' ltac:(apply in_or_app; auto)) as [E|(t & rest & evs & E)]; [exact E|].
    pose proof (v_thr _ _ V t) as T. rewrite E in T. destruct T as (_ & _ & _ & ps2 & p2 & Eq & _). apply app_inj_tail in Eq. destruct Eq as (-> & Eq). exfalso. assert (k = k') by congruence. subst k'. pose proof (v_nodup _ _ V) as ND. rewrite map_app in ND. cbn in ND. apply NoDup_remove in ND. rewrite app_nil_r in ND. apply ND. apply in_map_iff. exists (k, p'). auto. }
  destruct (v_full _ _ V F k p ltac:(apply in_or_app; right; now left)) as [E|(t & rest & evs & E)].
  - left. apply G. intros k' p' I0. apply in_app_or in I0. destruct I0 as [I0|[I0|[]]]; [auto|]. assert (k' = k /\ p' = p) as (-> & ->) by (split; congruence). exact E.
  - right. exists ps', k, p. split; [reflexivity|]. split; [apply G; exact Others|]. split; [apply (v_pref _ _ V); apply in_or_app; right; now left|]. eauto.
Qed.
Lemma concat_pieces cf ks : concat (map snd (map (fun k => (k, line_no cf k)) ks)) = concat (map (line_no cf) ks).
Proof. rewrite map_map. reflexivity. Qed.

(** As long as no fwrite and no fflush has failed: the file is made of the lines of
    the calls, whole, one after the other, each at most once (the last may still be
    on its way); the line of every call that has returned is there; and a call that
    had returned before another was made stands before it. *)
Theorem C94_lines_are_whole : forall dbg local clock cf, lreach dbg local clock cf -> l_failed cf = false ->
  exists order, NoDup order /\ (forall k, In k order -> k < length (l_calls cf)) /\
    prefix (l_file cf) (concat (map (line_no cf) order)) /\
    (forall k, returned cf k -> exists o1 o2, order = o1 ++ o2 /\ In k o1 /\ prefix (concat (map (line_no cf) o1)) (l_file cf)) /\
    (forall a b, earlier cf a b -> In b order -> stands_before order a b).
Proof.
  intros dbg local clock cf R F. destruct (lreach_inv _ _ _ _ R) as (ps & V). exists (map fst ps).
  split; [apply (v_nodup _ _ V)|]. split; [apply (v_keys _ _ V)|]. pose proof (v_total _ _ V) as T. split; [|split].
  - apply (prefix_trans _ (concat (map snd ps))); [eexists; symmetry; exact T|].
    destruct (pieces_full cf ps V F) as [E|(ps' & k & p & E & E' & P & _)].
    + rewrite E at 1. rewrite concat_pieces. apply prefix_refl.
    + rewrite E, !map_app, !concat_app. rewrite E' at 1. rewrite concat_pieces. cbn [map concat fst snd]. rewrite !app_nil_r. destruct P as (c & ->). exists c. now rewrite app_assoc.
  - intros k Rk. destruct (v_end _ _ V k Rk) as (Ik & If). destruct (If F) as (p1 & p2 & E & I1 & P).
    destruct (pieces_full cf ps V F) as [Ef|(ps' & k' & p & Ef & E' & _ & (t & rest & evs & W))].
    + exists (map fst p1), (map fst p2). rewrite E, map_app. split; [reflexivity|]. split; [exact I1|].
      assert (E1 : p1 = map (fun k => (k, line_no cf k)) (map fst p1)). { rewrite E, !map_app in Ef. apply (f_equal (firstn (length p1))) in Ef. rewrite !firstn_app, firstn_all, Nat.sub_diag, !map_length, Nat.sub_diag in Ef. cbn [firstn] in Ef. rewrite !app_nil_r in Ef. rewrite Ef at 1. rewrite firstn_all2; [reflexivity|]. now rewrite !map_length. }
      rewrite E1 in P at 1. rewrite concat_pieces in P. exact P.
    + destruct p2 as [|x p2 _] using rev_ind.
      * rewrite app_nil_r in E. subst p1. exists (map fst ps'), [k']. rewrite Ef, map_app. split; [reflexivity|]. rewrite Ef, map_app in I1. split.
        -- apply in_app_or in I1. destruct I1 as [I1|[I1|[]]]; [exact I1|]. cbn in I1. subst k'. pose proof (v_thr _ _ V t) as Tt. rewrite W in Tt. destruct Tt as (A & _). destruct (A k eq_refl) as (_ & NE). destruct (NE Rk).
        -- rewrite Ef, map_app, concat_app in P. rewrite E' in P at 1. rewrite concat_pieces in P. destruct P as (c & ->). eexists. rewrite <- app_assoc. reflexivity.
      * rewrite app_assoc in E. rewrite Ef in E. apply app_inj_tail in E. destruct E as (E & <-). exists (map fst p1), (map fst (p2 ++ [(k', p)])). rewrite Ef, E, !map_app. rewrite <- app_assoc. split; [reflexivity|]. split; [exact I1|].
        assert (E1 : p1 = map (fun k => (k, line_no cf k)) (map fst p1)). { rewrite E, !map_app in E'. apply (f_equal (firstn (length p1))) in E'. rewrite !firstn_app, firstn_all, Nat.sub_diag, !map_length, Nat.sub_diag in E'. cbn [firstn] in E'. rewrite !app_nil_r in E'. rewrite E' at 1. rewrite firstn_all2; [reflexivity|]. now rewrite !map_length. }
        rewrite E1 in P at 1. rewrite concat_pieces in P. exact P.
  - intros a b Ea Ib. apply in_split in Ib. destruct Ib as (k1 & k2 & E). pose proof (v_real _ _ V a b k1 k2 Ea E) as Ia. apply in_split in Ia. destruct Ia as (x & y & ->). exists x, y, k2. rewrite E, <- app_assoc. reflexivity.
Qed.

(** When no call is going on: the file is exactly the lines of all calls. *)
Theorem C94_nothing_is_lost : forall dbg local clock cf, lreach dbg local clock cf -> l_failed cf = false -> quiet cf ->
  exists order, Permutation order (seq 0 (length (l_calls cf))) /\ l_file cf = concat (map (line_no cf) order) /\
    (forall a b, earlier cf a b -> stands_before order a b).
Proof.
  intros dbg local clock cf R F Q. destruct (lreach_inv _ _ _ _ R) as (ps & V). exists (map fst ps).
  assert (All : forall k, k < length (l_calls cf) -> returned cf k). { intros k Hk. destruct (v_run _ _ V k Hk) as [E|(t & E)]; [exact E|]. rewrite Q in E. discriminate E. }
  assert (Ef : ps = map (fun k => (k, line_no cf k)) (map fst ps)). { destruct (pieces_full cf ps V F) as [E|(ps' & k & p & _ & _ & _ & t & rest & evs & W)]; [exact E|]. rewrite Q in W. discriminate W. }
  assert (Perm : Permutation (map fst ps) (seq 0 (length (l_calls cf)))).
  { apply NoDup_Permutation; [apply (v_nodup _ _ V)|apply seq_NoDup|]. intros k. rewrite in_seq. split; [intros I0; apply (v_keys _ _ V) in I0; lia|]. intros H. apply (v_end _ _ V). apply All. lia. }
  split; [exact Perm|]. split.
  - pose proof (v_total _ _ V) as T. rewrite Ef, concat_pieces in T.
    assert (B : l_buf cf = []).
    { destruct ps as [|(k, p) ps' _] using rev_ind; [cbn in T; apply app_eq_nil in T; apply T|].
      assert (Rk : returned cf k). { apply All. apply (v_keys _ _ V). rewrite map_app. apply in_or_app. right. now left. }
      destruct (v_end _ _ V k Rk) as (_ & If). destruct (If F) as (p1 & p2 & E & I1 & P). destruct p2 as [|x p2 _] using rev_ind.
      - rewrite app_nil_r in E. subst p1. rewrite Ef, concat_pieces in P. destruct P as (c & P). apply (f_equal (@length N)) in T. rewrite P, !app_length in T. destruct (l_buf cf); [reflexivity|cbn in T; lia].
      - rewrite app_assoc in E. apply app_inj_tail in E. destruct E as (E & _). pose proof (v_nodup _ _ V) as ND. rewrite map_app in ND. cbn in ND. apply NoDup_remove in ND. rewrite app_nil_r in ND. exfalso. apply ND. rewrite E, map_app. apply in_or_app. now left. }
    rewrite B, app_nil_r in T. exact T.
  - intros a b Ea. assert (Ib : In b (map fst ps)). { apply (v_end _ _ V), All, (v_begun _ _ V). destruct Ea as (l1 & l2 & l3 & ->). apply in_or_app. right. now left. }
    apply in_split in Ib. destruct Ib as (k1 & k2 & E). pose proof (v_real _ _ V a b k1 k2 Ea E) as Ia. apply in_split in Ia. destruct Ia as (x & y & ->). exists x, y, k2. rewrite E, <- app_assoc. reflexivity.
Qed.

(** Whatever fails: the file is made of pieces of lines, each from the beginning of
    its line, each line at most once: lines are cut, never mixed. *)
Theorem C94_never_mixed : forall dbg local clock cf, lreach dbg local clock cf ->
  exists ps, l_file cf = concat (map snd ps) /\ NoDup (map fst ps) /\ (forall k p, In (k, p) ps -> k < length (l_calls cf) /\ prefix p (line_no cf k)).
Proof.
  intros dbg local clock cf R. destruct (lreach_inv _ _ _ _ R) as (ps & V). destruct (truncate ps _ _ (eq_sym (v_total _ _ V))) as (ps' & A & B & C). exists ps'. split; [now symmetry|]. split; [rewrite B; apply (v_nodup _ _ V)|].
  intros k p I0. destruct (C k p I0) as (q & I1 & P). split; [apply (v_keys _ _ V); apply in_map_iff; exists (k, q); auto|]. eapply prefix_trans; [exact P|]. apply (v_pref _ _ V). exact I1.
Qed.

(** What the lines are: the time of the call, the thread, the message. *)
Lemma calls_from_Logv dbg local clock cf : lreach dbg local clock cf ->
  Forall (fun c => exists stack, length stack = 512 /\ Logv dbg stack (local (c_sec c)) (c_usec c) (c_tid c) (c_r1 c) (c_r2 c) = Ret (c_does c)) (l_calls cf).
Proof. induction 1 as [|cf cf' R IH H]; [constructor|]. destruct H; cbn [l_calls] in *; auto. apply Forall_app. split; [exact IH|]. constructor; [|constructor]. exists stack. auto. Qed.
Theorem C94_what_a_line_is : forall dbg local clock cf k c message, lreach dbg local clock cf -> nth_error (l_calls cf) k = Some c ->
  c_r1 c = VsText message -> c_r2 c = VsText message -> (Z.of_nat (length message) <= 2 ^ 31 - 63)%Z -> ~ In 0%N (c_tid c) ->
  let t := local (c_sec c) in time_ok t (c_usec c) ->
  exists hdr, log_header (tm_year t + 1900) (tm_mon t + 1) (tm_mday t) (tm_hour t) (tm_min t) (tm_sec t) (c_usec c) (c_tid c) hdr /\
    line_no cf k = with_newline (hdr ++ message).
Proof.
  intros dbg local clock cf k c message R E E1 E2 L NI t OK. pose proof (calls_from_Logv _ _ _ _ R) as H. rewrite Forall_forall in H. destruct (H c (nth_error_In _ _ E)) as (stack & Ls & D). rewrite E1, E2 in D.
  destruct (C68_writes_the_whole_message dbg stack t (c_usec c) (c_tid c) message Ls OK NI L) as (hdr & Hh & size & Q). exists hdr. split; [exact Hh|]. unfold line_no. rewrite E. unfold line. fold t in D. rewrite Q in D. assert (X : c_does c = if Nat.ltb (length hdr + length message) 511 then [LFwrite (with_newline (hdr ++ message)); LFflush] else [LNew size; LFwrite (with_newline (hdr ++ message)); LFflush; LDelete]) by congruence.
  rewrite X. destruct (Nat.ltb _ _); cbn [map concat]; rewrite !app_nil_r; reflexivity.
Qed.

(** ** No call waits for ever: it can return, with nothing but others' stdio calls
    coming to their ends. *)
Inductive lsteps dbg local : lconf -> lconf -> Prop :=
| ls_refl cf : lsteps dbg local cf cf
| ls_step cf cf1 cf2 : lstep dbg local cf cf1 -> lsteps dbg local cf1 cf2 -> lsteps dbg local cf cf2.
Lemma lsteps_trans dbg local a b c : lsteps dbg local a b -> lsteps dbg local b c -> lsteps dbg local a c.
Proof. induction 1; auto. intros. econstructor; eauto. Qed.
Lemma lone dbg local a b : lstep dbg local a b -> lsteps dbg local a b.
Proof. intros. econstructor; [eassumption|constructor]. Qed.
Lemma drain_all dbg local cs th t b f c fl op tr : lsteps dbg local (mk_lconf cs th (Some t) b f c fl op tr) (mk_lconf cs th (Some t) [] (f ++ b) c fl op tr).
Proof. pose proof (l_drain dbg local cs th t b [] f c fl op tr) as H. rewrite app_nil_r in H. apply lone. exact H. Qed.
Lemma run_alone dbg local : forall evs cs th b f c fl op tr t k, th t = LRun k evs ->
  exists th' b' f', lsteps dbg local (mk_lconf cs th None b f c fl op tr) (mk_lconf cs th' None b' f' c fl op (LEnd k :: tr)).
Proof.
  induction evs as [|e evs IH]; intros cs th b f c fl op tr t k Ht.
  - do 3 eexists. apply lone. eapply l_end. exact Ht.
  - destruct e as [n|d| |].
    + destruct (IH cs (lset th t (LRun k evs)) b f c fl op tr t k (lset_same _ _ _)) as (th' & b' & f' & S). exists th', b', f'. econstructor; [eapply l_new; exact Ht|exact S].
    + set (th1 := lset th t (LWriting k d evs)). set (th2 := lset th1 t (LWriting k [] evs)). set (th3 := lset th2 t (LRun k evs)).
      destruct (IH cs th3 (b ++ d) f c fl op tr t k (lset_same _ _ _)) as (th' & b' & f' & S). exists th', b', f'.
      econstructor; [eapply l_fwrite; exact Ht|]. econstructor; [apply (l_put dbg local cs th1 (Some t) b f c fl op tr t k d [] evs); rewrite app_nil_r; apply lset_same|].
      econstructor; [apply (l_written dbg local cs th2 (Some t) (b ++ d) f c fl op tr t k evs); apply lset_same|]. exact S.
    + set (th1 := lset th t (LFlushing k evs)). destruct (IH cs (lset th1 t (LRun k evs)) [] (f ++ b) c fl op tr t k (lset_same _ _ _)) as (th' & b' & f' & S). exists th', b', f'.
      econstructor; [eapply l_fflush; exact Ht|]. eapply lsteps_trans; [apply drain_all|]. econstructor; [apply (l_flushed dbg local cs th1 (Some t) (f ++ b) c fl op tr t k evs); apply lset_same|]. exact S.
    + destruct (IH cs (lset th t (LRun k evs)) b f c fl op tr t k (lset_same _ _ _)) as (th' & b' & f' & S). exists th', b', f'. econstructor; [eapply l_delete; exact Ht|exact S].
Qed.
Theorem C94_calls_can_return : forall dbg local clock cf k, lreach dbg local clock cf -> k < length (l_calls cf) ->
  exists cf', lsteps dbg local cf cf' /\ returned cf' k /\ l_calls cf' = l_calls cf /\ l_failed cf' = l_failed cf.
Proof.
  intros dbg local clock cf k R Hk. destruct (lreach_inv _ _ _ _ R) as (ps & V). destruct (v_run _ _ V k Hk) as [E|(t & E)]; [exists cf; split; [constructor|]; auto|].
  (* whoever is inside the stream leaves it *)
  assert (Free : exists th b f t' evs, lsteps dbg local cf (mk_lconf (l_calls cf) th None b f (l_clock cf) (l_failed cf) (l_open cf) (l_trace cf)) /\ th t' = LRun k evs).
  { destruct cf as [cs th lk b f c fl op tr]. cbn [l_calls l_clock l_failed l_open l_trace l_thr l_lock] in *. destruct lk as [t0|].
    - destruct (v_lock _ _ V t0 eq_refl) as (k0 & evs0 & W). cbn [l_thr] in W.
      assert (Keep : t <> t0 \/ t = t0) by lia. destruct W as [(rest & W)|W].
      + set (th1 := lset th t0 (LWriting k0 [] evs0)). set (th2 := lset th1 t0 (LRun k0 evs0)). exists th2, (b ++ rest), f.
        assert (X : exists t' evs, th2 t' = LRun k evs).
        { destruct Keep as [N| ->]; [|exists t0, evs0; unfold th2; rewrite lset_same; rewrite W in E; cbn in E; congruence]. pose proof (v_thr _ _ V t) as T. cbn in T. unfold th2, th1. exists t. rewrite !lset_other by exact N. destruct (th t) as [|k1 e1|k1 r1 e1|k1 e1]; cbn in E; try discriminate E; [exists e1; congruence| |]; destruct T as (_ & T & _); congruence. }
        destruct X as (t' & evs & X). exists t', evs. split; [|exact X]. econstructor; [apply (l_put dbg local cs th (Some t0) b f c fl op tr t0 k0 rest [] evs0); rewrite app_nil_r; exact W|]. apply lone. apply l_written. apply lset_same.
      + set (th2 := lset th t0 (LRun k0 evs0)). exists th2, [], (f ++ b).
        assert (X : exists t' evs, th2 t' = LRun k evs).
        { destruct Keep as [N| ->]; [|exists t0, evs0; unfold th2; rewrite lset_same; rewrite W in E; cbn in E; congruence]. pose proof (v_thr _ _ V t) as T. cbn in T. unfold th2. exists t. rewrite !lset_other by exact N. destruct (th t) as [|k1 e1|k1 r1 e1|k1 e1]; cbn in E; try discriminate E; [exists e1; congruence| |]; destruct T as (_ & T & _); congruence. }
        destruct X as (t' & evs & X). exists t', evs. split; [|exact X]. eapply lsteps_trans; [apply drain_all|]. apply lone. apply l_flushed. exact W.
    - pose proof (v_thr _ _ V t) as T. cbn in T. destruct (th t) as [|k1 e1|k1 r1 e1|k1 e1] eqn:Et; cbn in E; try discriminate E; [|destruct T as (_ & T & _); discriminate T|destruct T as (_ & T & _); discriminate T].
      exists th, b, f, t, e1. split; [constructor|]. congruence. }
  destruct Free as (th & b & f & t' & evs & S1 & Et). destruct (run_alone dbg local evs (l_calls cf) th b f (l_clock cf) (l_failed cf) (l_open cf) (l_trace cf) t' k Et) as (th' & b' & f' & S2).
  eexists. split; [eapply lsteps_trans; [exact S1|exact S2]|]. split; [left; reflexivity|]. split; reflexivity.
Qed.

(** ** The lines do not stand in the order of the times in them: a call reads the
    clock before it gets to the stream. *)
Definition sample_local (_ : Z) : tm := ex_time.
Definition sample_line (usec : N) (c : N) : list N := ([50;48;50;49;47;48;51;47;50;54;45;49;51;58;48;53;58;53;57;46;48;48;48;48;48] ++ [usec] ++ [32;55;32] ++ [c] ++ [10])%N.
Lemma sample_logv n usec c : n = 48%N \/ n = 49%N -> usec = (Z.of_N n - 48)%Z -> c = 97%N \/ c = 98%N ->
  Logv true (repeat None 512) ex_time usec [55%N] (VsText [c]) (VsText [c]) = Ret [LFwrite (sample_line n c); LFflush].
Proof. intros [-> | ->] -> [-> | ->]; vm_compute; reflexivity. Qed.
Lemma sample_run : exists cf, lreach true sample_local (0, 0)%Z cf /\ quiet cf /\ l_failed cf = false /\
  map (fun c => (c_sec c, c_usec c)) (l_calls cf) = [(0, 0); (0, 1)]%Z /\ length (l_calls cf) = 2 /\
  line_no cf 0 = sample_line 48 97 /\ line_no cf 1 = sample_line 49 98 /\ l_file cf = sample_line 49 98 ++ sample_line 48 97 /\ ~ earlier cf 0 1 /\ (l_lock cf = None /\ l_buf cf = [] /\ l_open cf = true /\ l_clock cf = (0, 1)%Z).
Proof.
  set (c0 := mk_lcall 0 0 0 [55%N] (VsText [97%N]) (VsText [97%N]) [LFwrite (sample_line 48 97); LFflush]).
  set (c1 := mk_lcall 1 0 1 [55%N] (VsText [98%N]) (VsText [98%N]) [LFwrite (sample_line 49 98); LFflush]).
  assert (R2 : exists th, th 0 = LRun 0 [LFwrite (sample_line 48 97); LFflush] /\ th 1 = LRun 1 [LFwrite (sample_line 49 98); LFflush] /\ (forall t, 2 <= t -> th t = LIdle) /\
            lreach true sample_local (0, 0)%Z (mk_lconf [c0; c1] th None [] [] (0, 1)%Z false true [LBegin 1; LBegin 0])).
  { exists (lset (lset (fun _ => LIdle) 0 (LRun 0 [LFwrite (sample_line 48 97); LFflush])) 1 (LRun 1 [LFwrite (sample_line 49 98); LFflush])).
    split; [reflexivity|]. split; [reflexivity|]. split; [intros t Ht; rewrite !lset_other by lia; reflexivity|].
    eapply lr_step; [eapply lr_step; [eapply lr_step; [apply lr_start|]|]|].
    - apply (l_begin true sample_local [] (fun _ => LIdle) None [] [] (0, 0)%Z false [] 0 [55%N] (repeat None 512) (VsText [97%N]) (VsText [97%N])); [reflexivity|apply repeat_length|]. apply (sample_logv 48 0 97); auto.
    - apply (l_tick _ _ _ _ _ _ _ (0, 0)%Z (0, 1)%Z). right. cbn. lia.
    - apply (l_begin true sample_local [c0] _ None [] [] (0, 1)%Z false [LBegin 0] 1 [55%N] (repeat None 512) (VsText [98%N]) (VsText [98%N])); [reflexivity|apply repeat_length|]. apply (sample_logv 49 1 98); auto. }
  destruct R2 as (th & T0 & T1 & T2 & R).
  assert (Run : forall l d f tr t k th', th' t = LRun k [LFwrite d; LFflush] -> lreach true sample_local (0, 0)%Z (mk_lconf l th' None [] f (0, 1)%Z false true tr) ->
            exists th2, th2 t = LIdle /\ (forall x, x <> t -> th2 x = th' x) /\ lreach true sample_local (0, 0)%Z (mk_lconf l th2 None [] (f ++ d) (0, 1)%Z false true (LEnd k :: tr))).
  { clear. intros l d f tr t k th Ht R. exists (lset (lset (lset (lset (lset (lset th t (LWriting k d [LFflush])) t (LWriting k [] [LFflush])) t (LRun k [LFflush])) t (LFlushing k [])) t (LRun k [])) t LIdle).
    split; [apply lset_same|]. split; [intros x Hx; rewrite !lset_other by exact Hx; reflexivity|].
    eapply lr_step; [|apply l_end; apply lset_same]. eapply lr_step; [|apply l_flushed; apply lset_same].
    eapply lr_step; [|apply (l_drain _ _ _ _ t d [])]. rewrite app_nil_r. eapply lr_step; [|apply l_fflush; apply lset_same]. eapply lr_step; [|apply (l_written _ _ _ _ (Some t)); apply lset_same].
    eapply lr_step; [|apply (l_put _ _ _ _ _ [] _ _ _ _ _ _ _ d [] [LFflush]); rewrite app_nil_r; apply lset_same]. eapply lr_step; [exact R|]. apply l_fwrite. exact Ht. }
  destruct (Run _ _ _ _ 1 1 th T1 R) as (th2 & A1 & A2 & R3). destruct (Run _ _ _ _ 0 0 th2 ltac:(rewrite A2 by lia; exact T0) R3) as (th3 & B1 & B2 & R4).
  eexists. split; [exact R4|]. cbn [l_calls l_failed l_file l_thr]. split.
  - intros t. cbn. destruct (Nat.eq_dec t 0) as [->|N0]; [exact B1|]. rewrite B2 by exact N0. destruct (Nat.eq_dec t 1) as [->|N1]; [exact A1|]. rewrite A2 by exact N1. apply T2. lia.
  - split; [reflexivity|]. split; [reflexivity|]. split; [reflexivity|]. split; [reflexivity|]. split; [reflexivity|]. split; [reflexivity|]. split; [|repeat split].
    intros (l1 & l2 & l3 & E). cbn in E. destruct l1 as [|x l1]; [discriminate E|]. destruct l1 as [|y l1]; [discriminate E|]. destruct l1 as [|z l1]; cbn in E.
    + assert (Z : l2 ++ LEnd 0 :: l3 = [LBegin 0]) by congruence. destruct l2 as [|u l2]; [discriminate Z|]. cbn in Z. assert (Y : l2 ++ LEnd 0 :: l3 = []) by congruence. destruct l2; discriminate Y.
    + assert (Z : l1 ++ LBegin 1 :: l2 ++ LEnd 0 :: l3 = [LBegin 0]) by congruence. destruct l1 as [|u l1]; [discriminate Z|]. cbn in Z. assert (Y : l1 ++ LBegin 1 :: l2 ++ LEnd 0 :: l3 = []) by congruence. destruct l1; discriminate Y.
Qed.
Theorem C94_time_order_refuted :
  ~ (forall dbg local clock cf, lreach dbg local clock cf -> quiet cf -> l_failed cf = false ->
       exists order, Permutation order (seq 0 (length (l_calls cf))) /\ l_file cf = concat (map (line_no cf) order) /\
         (forall a b ca cb, stands_before order a b -> nth_error (l_calls cf) a = Some ca -> nth_error (l_calls cf) b = Some cb ->
            time_le (c_sec ca, c_usec ca) (c_sec cb, c_usec cb))).
Proof.
  intros H. destruct sample_run as (cf & R & Q & F & T & Ln & L0 & L1 & Ff & _). destruct (H _ _ _ cf R Q F) as (order & P & E & S). rewrite Ln in P. cbn [seq] in P. apply Permutation_sym, Permutation_length_2_inv in P. destruct P as [-> | ->]; cbn [map concat] in E; rewrite L0, L1, Ff in E.
  - discriminate E.
  - destruct (l_calls cf) as [|c0 [|c1 l]] eqn:Ec; try discriminate Ln. cbn in T. assert (X : time_le (c_sec c1, c_usec c1) (c_sec c0, c_usec c0)) by (apply (S 1 0 c1 c0); [exists [], [], []; reflexivity|reflexivity|reflexivity]).
    assert ((c_sec c0, c_usec c0) = (0, 0)%Z /\ (c_sec c1, c_usec c1) = (0, 1)%Z) as (Y0 & Y1) by (split; congruence). rewrite Y0, Y1 in X. destruct X as [X|(_ & X)]; cbn in X; lia.
Qed.
Print Assumptions C94_lines_are_whole.
Print Assumptions C94_nothing_is_lost.
Print Assumptions C94_never_mixed.
Print Assumptions C94_what_a_line_is.
Print Assumptions C94_calls_can_return.
Print Assumptions C94_time_order_refuted.
(** Two overlapping calls: both lines are there, whole. *)
Example C94_case : exists cf, lreach true sample_local (0, 0)%Z cf /\ quiet cf /\ l_failed cf = false /\
  length (l_calls cf) = 2 /\ l_file cf = line_no cf 1 ++ line_no cf 0 /\ time_ok (sample_local 0) 0.
Proof.
  destruct sample_run as (cf & R & Q & F & _ & Ln & L0 & L1 & Ff & _). exists cf. rewrite L0, L1. repeat (split; [assumption|]). unfold time_ok. cbn. lia.
Qed.
(** ... and the logger is deleted afterwards. *)
Example C94_case_deleted : exists cf, lreach true sample_local (0, 0)%Z cf /\ l_open cf = false /\ quiet cf /\ l_failed cf = false /\
  l_file cf = line_no cf 1 ++ line_no cf 0.
Proof.
  destruct sample_run as (cf & R & Q & F & _ & Ln & L0 & L1 & Ff & _ & Lk & Bf & Op & _). destruct cf as [cs th lk b fi c fl op tr]. cbn in Lk, Bf, Op, F. subst lk b op fl.
  exists (mk_lconf cs th None [] (fi ++ []) c false false tr). split; [eapply lr_step; [exact R|]; apply l_close; exact Q|]. split; [reflexivity|]. split; [exact Q|]. split; [reflexivity|].
  change (fi ++ [] = line_no (mk_lconf cs th None [] fi c false true tr) 1 ++ line_no (mk_lconf cs th None [] fi c false true tr) 0). rewrite L0, L1, app_nil_r. exact Ff.
Qed.
