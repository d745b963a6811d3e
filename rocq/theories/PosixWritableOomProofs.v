(** PosixWritableOomProofs.v -- proofs about PosixWritableOom.v. *)
From Coq Require Import List Arith NArith ZArith Lia Bool.
From Verif Require Import Outcome Status MemEnv MemEnvMem PosixOs PosixWritable PosixWritableSpec PosixWritableProofs PosixWritableOom PosixWritableOomSpec.
Import ListNotations.
Local Open Scope outcome_scope.

Definition veil (fails : bool) (st : status) : option status := match st with SOk => Some SOk | _ => if fails then None else Some st end.
Lemma veil_ok fails : veil fails SOk = Some SOk. Proof. reflexivity. Qed.

Section Run.
  Variable B : nat.
  Variable strerror : Z -> str.
  Variable S : Type.
  Variable os : S -> syscall -> S * answer.
  Hypothesis OK : os_ok os.
  Notation sys := (sys os).
  Notation brep := (brep B).

  Lemma error_x_veil fails ctx e : error_x strerror fails ctx e = veil fails (PosixError strerror ctx e).
  Proof. unfold error_x, PosixError. destruct (e =? _)%Z; reflexivity. Qed.

  Lemma wux_eq fails fuel : forall w fd name data,
    write_unbuffered_x strerror S os fails fuel w fd name data = (let! (w', st) := write_unbuffered strerror S os fuel w fd name data in Ret (w', veil fails st)).
  Proof.
    induction fuel as [|fuel IH]; intros w fd name data; destruct data as [|x data]; try reflexivity.
    cbn [write_unbuffered_x write_unbuffered]. destruct (sys w (CWrite fd (x :: data))) as [w1 a].
    destruct (a_ret a <? 0)%Z; [destruct (a_errno a =? EINTR)%Z; [apply IH|cbn [bind]; now rewrite error_x_veil]|].
    destruct (_ <? a_ret a)%Z; [reflexivity|apply IH].
  Qed.
  Lemma fbx_eq fails fuel w f :
    flush_buffer_x strerror S os fails fuel w f = (let! (w', f', st) := flush_buffer strerror S os fuel w f in Ret (w', match veil fails st with None => f | Some _ => f' end, veil fails st)).
  Proof.
    unfold flush_buffer_x, flush_buffer. destruct (bread_n (f_buf f) 0 (f_pos f)) as [d| | |]; cbn [bind]; try reflexivity. rewrite wux_eq.
    destruct (write_unbuffered strerror S os fuel w (f_fd f) (f_name f) d) as [[w' st]| | |]; cbn [bind]; try reflexivity. destruct (veil fails st) as [s|] eqn:E; [|reflexivity].
    destruct st; cbn in E; [now injection E as <-|]. destruct fails; [discriminate|now injection E as <-].
  Qed.

  Lemma bytes_all l : bytes_taken l = all_taken l. Proof. reflexivity. Qed.

  (** What a call does: either what the call of PosixWritable.v does, or it
      throws where that returns an error. *)
  Record op_x (fails : bool) (fuel : nat) (w : world S) (f : wfile) (b : list N) (o : wop) (w' : world S) (f' : wfile) (st : option status) (l : log) (b' : list N) : Prop := {
    xo_log : w_log w' = w_log w ++ l;
    xo_lok : log_ok l;
    xo_brep : brep f' b';
    xo_same : f_name f' = f_name f /\ f_dir f' = f_dir f /\ f_manifest f' = f_manifest f;
    xo_fd : f_fd f' = f_fd f \/ f_fd f' = (-1)%Z;
    xo_writes : Forall (fun e => forall fd d, fst e = CWrite fd d -> fd = f_fd f) l;
    xo_effect : effect B b o st (all_taken l) b';
    xo_ret : forall s, st = Some s -> wstep B strerror S os fuel w f o = Ret (w', f', s);
    xo_threw : st = None -> fails = true /\ f_fd f' = f_fd f /\ exists w2 f2 k m1 m2, wstep B strerror S os fuel w f o = Ret (w2, f2, SErr k m1 m2)
  }.

  Lemma only_own fd l : only_writes fd l -> Forall (fun e : event => forall fd' d, fst e = CWrite fd' d -> fd' = fd) l.
  Proof. intros H. eapply Forall_impl; [|exact H]. intros e (d & E) fd' d' E'. congruence. Qed.
  Lemma op_shape w f b o w' f' st l b' : op_ok B strerror S w f b o w' f' st l b' -> Forall (fun e : event => forall fd d, fst e = CWrite fd d -> fd = f_fd f) l.
  Proof.
    intros Q. pose proof (so_shape _ _ _ _ _ _ _ _ _ _ _ _ Q) as Sh. destruct o as [d| | |]; cbn [shape] in Sh; try (now apply only_own).
    - destruct Sh as (ld & lr & good & -> & D & C). apply Forall_app. split.
      + destruct D as [(_ & -> & _)|(_ & [(a & -> & _)|(a & a1 & a2 & -> & _)])]; repeat constructor; intros; discriminate.
      + destruct C as [(_ & -> & _)|(_ & lw & lt & -> & Ho & C)]; [constructor|]. apply Forall_app. split; [now apply only_own|].
        destruct C as [(-> & _)|(a & -> & _)]; repeat constructor; intros; discriminate.
    - destruct Sh as (lw & a & -> & Ho). apply Forall_app. split; [now apply only_own|]. repeat constructor; intros; discriminate.
  Qed.
  Lemma op_effect w f b o w' f' st l b' : op_ok B strerror S w f b o w' f' st l b' -> effect B b o (Some st) (all_taken l) b'.
  Proof.
    intros Q. destruct st as [|k m1 m2].
    - apply ef_ok; apply (so_all _ _ _ _ _ _ _ _ _ _ _ _ Q eq_refl).
    - apply ef_error. apply (so_sub _ _ _ _ _ _ _ _ _ _ _ _ Q).
  Qed.
  (** A call that does not throw. *)
  Lemma returned fails fuel w f b o w' f' s : brep f b -> wstep B strerror S os fuel w f o = Ret (w', f', s) ->
    exists l b', op_x fails fuel w f b o w' f' (Some s) l b'.
  Proof.
    intros R E. destruct (wstep_ok B strerror S os OK fuel w f b o _ R eq_refl) as [E2|(w1 & f1 & st & l & b' & E2 & Q)]; [congruence|]. rewrite E in E2. injection E2 as <- <- <-.
    exists l, b'. split.
    - apply Q.
    - apply Q.
    - apply Q.
    - apply Q.
    - rewrite (so_fd _ _ _ _ _ _ _ _ _ _ _ _ Q). destruct (is_close o); auto.
    - eapply op_shape; exact Q.
    - eapply op_effect; exact Q.
    - intros s' Hs. now injection Hs as <-.
    - discriminate.
  Qed.

  (** FlushBuffer throws. *)
  Lemma flush_threw fails fuel w f b w' f' : brep f b -> flush_buffer_x strerror S os fails fuel w f = Ret (w', f', None) ->
    exists l n k m1 m2, f' = f /\ fails = true /\ w_log w' = w_log w ++ l /\ log_ok l /\ only_writes (f_fd f) l /\ all_taken l = firstn n b /\
      flush_buffer strerror S os fuel w f = Ret (w', set_buf f (f_buf f) 0, SErr k m1 m2).
  Proof.
    intros R E. rewrite fbx_eq in E. destruct (flush_buffer_ok B strerror S os OK fuel w f b _ R eq_refl) as [E2|(w1 & st & l & E2 & W)]; rewrite E2 in E; cbn [bind] in E; [discriminate|].
    destruct st as [|k m1 m2]; [discriminate|]. destruct fails; cbn [veil] in E; [|discriminate]. injection E as <- <-.
    destruct W. destruct wo_taken as (n & Hn). exists l, n, k, m1, m2. auto 10.
  Qed.
  Lemma flush_returned fails fuel w f w' f' s : flush_buffer_x strerror S os fails fuel w f = Ret (w', f', Some s) -> flush_buffer strerror S os fuel w f = Ret (w', f', s).
  Proof.
    rewrite fbx_eq. destruct (flush_buffer strerror S os fuel w f) as [[[w1 f1] st]| | |]; cbn [bind]; try discriminate. destruct st as [|k m1 m2]; cbn [veil]; [now intros E; injection E as <- <- <-|].
    destruct fails; [discriminate|]. now intros E; injection E as <- <- <-.
  Qed.
  Lemma flush_x_cases fails fuel w f b : brep f b -> flush_buffer_x strerror S os fails fuel w f = OutOfFuel /\ flush_buffer strerror S os fuel w f = OutOfFuel \/
    exists w' f' st, flush_buffer_x strerror S os fails fuel w f = Ret (w', f', st).
  Proof.
    intros R. rewrite fbx_eq. destruct (flush_buffer_ok B strerror S os OK fuel w f b _ R eq_refl) as [E2|(w1 & st & l & E2 & W)]; rewrite E2; cbn [bind]; eauto.
  Qed.

  Lemma flush_x_ok fails fuel w f b r : brep f b -> flush_x strerror S os fails fuel w f = r ->
    r = OutOfFuel \/ exists w' f' st l b', r = Ret (w', f', st) /\ op_x fails fuel w f b OpFlush w' f' st l b'.
  Proof.
    intros R Er. unfold flush_x in Er. destruct (flush_x_cases fails fuel w f b R) as [(E & _)|(w' & f' & st & E)]; [left; congruence|]. right. rewrite E in Er.
    destruct st as [s|].
    - apply flush_returned in E. destruct (returned fails fuel w f b OpFlush w' f' s R E) as (l & b' & Q). eauto 8.
    - destruct (flush_threw _ _ _ _ _ _ _ R E) as (l & n & k & m1 & m2 & -> & Hf & Hl & Hk & Ho & Ht & E2). exists w', f, None, l, b. split; [auto|]. split; auto.
      + now apply only_own.
      + rewrite Ht. now apply ef_flush.
      + discriminate.
      + intros _. split; [auto|]. split; [reflexivity|]. exists w', (set_buf f (f_buf f) 0), k, m1, m2. exact E2.
  Qed.

  Lemma append_x_ok fails fuel w f b d r : brep f b -> append_x B strerror S os fails fuel w f d = r ->
    r = OutOfFuel \/ exists w' f' st l b', r = Ret (w', f', st) /\ op_x fails fuel w f b (OpAppend d) w' f' st l b'.
  Proof.
    intros R Er. pose proof R as (H1 & H2 & H3 & H4). unfold append_x in Er.
    assert (Ap : append B strerror S os fuel w f d = append B strerror S os fuel w f d) by reflexivity. unfold append at 2 in Ap.
    rewrite H2 in Er, Ap. replace (B <? length b) with false in Er, Ap by (symmetry; apply Nat.ltb_ge; lia).
    set (k := Nat.min (length d) (B - length b)) in *.
    assert (Lk : length (firstn k d) = k) by (apply firstn_length_le; unfold k; lia).
    destruct (bput_bytes (f_buf f) (length b) (firstn k d)) as [buf| | |] eqn:Eb;
      [|rewrite bput_bytes_mid in Eb by (rewrite Lk, H1; unfold k; lia); discriminate..].
    cbn [bind] in Er, Ap. assert (R1 := put_brep B f b buf (firstn k d) R). rewrite Lk in R1.
    specialize (R1 ltac:(unfold k; lia) Eb). set (f1 := set_buf f buf (length b + k)) in *.
    destruct (skipn k d) as [|x rest] eqn:Es.
    - right. destruct (returned fails fuel w f b (OpAppend d) w f1 SOk R Ap) as (l & b' & Q). exists w, f1, (Some SOk), l, b'. auto.
    - rewrite <- Es in *.
      assert (Kk : length (b ++ firstn k d) = B).
      { rewrite app_length, Lk. assert (k < length d) by (destruct (Nat.ltb_spec k (length d)); [auto|]; rewrite (skipn_all2 d) in Es by lia; discriminate). unfold k in *. lia. }
      destruct (flush_x_cases fails fuel w f1 (b ++ firstn k d) R1) as [(E & _)|(w1 & f2 & st & E)]; rewrite E in Er; cbn [bind] in Er; [auto|].
      destruct st as [[|kd m1 m2]|].
      + pose proof E as E'. apply flush_returned in E. rewrite E in Ap. cbn [bind] in Ap.
        destruct (flush_buffer_ok B strerror S os OK fuel w f1 (b ++ firstn k d) _ R1 eq_refl) as [X|(w1' & st & l & X & W)]; [congruence|]. rewrite E in X. injection X as <- -> <-.
        assert (E0 := brep_empty B f1 buf (proj1 R1)).
        destruct (Nat.ltb_spec (length (skipn k d)) B) as [Hlt|Hge].
        * cbn [set_buf f_buf f1] in Er, Ap.
          destruct (bput_bytes buf 0 (skipn k d)) as [buf2| | |] eqn:Eb2; [|rewrite bput_bytes_mid in Eb2 by (pose proof (proj1 R1) as Lb; cbn in Lb; lia); discriminate..].
          cbn [bind] in Er, Ap. right; destruct (returned fails fuel w f b (OpAppend d) _ _ SOk R Ap) as (l' & b' & Q). eauto 10.
        * cbn [set_buf f_fd f_name f1] in Er, Ap. rewrite wux_eq in Er.
          destruct (write_unbuffered_ok strerror S os OK fuel w1 (f_fd f) (f_name f) (skipn k d) _ eq_refl) as [E2|(w2 & st2 & l2 & E2 & W2)].
          { rewrite E2 in Er. cbn [bind] in Er. auto. }
          right. rewrite E2 in Er, Ap. cbn [bind] in Er, Ap.
          destruct (veil fails st2) as [s|] eqn:Ev.
          -- assert (s = st2) by (destruct st2; cbn in Ev; [congruence|]; destruct fails; congruence). subst s.
             destruct (returned fails fuel w f b (OpAppend d) _ _ st2 R Ap) as (l' & b' & Q). eauto 10.
          -- destruct st2 as [|kd m1 m2]; [discriminate|]. destruct fails; [|discriminate].
             destruct W, W2. destruct wo_taken0 as (n & Hn). pose proof (wo_all eq_refl) as Ha.
             eexists w2, _, None, (l ++ l2), []. split; [symmetry; exact Er|]. split; auto.
             ++ rewrite wo_log0, wo_log, app_assoc. reflexivity.
             ++ apply Forall_app; auto.
             ++ apply Forall_app; split; now apply only_own.
             ++ rewrite all_taken_app, Ha, Hn, <- app_assoc. apply (ef_append_direct B b (OpAppend d) (firstn k d ++ firstn n (skipn k d)) (skipn n (skipn k d))).
                ** now rewrite <- app_assoc, !firstn_skipn.
                ** rewrite app_assoc, app_length. lia.
             ++ discriminate.
             ++ intros _. split; [reflexivity|]. split; [reflexivity|]. eauto 8.
      + right. apply flush_returned in E. rewrite E in Ap. cbn [bind] in Ap. destruct (returned fails fuel w f b (OpAppend d) _ _ _ R Ap) as (l' & b' & Q). eauto 10.
      + right. destruct (flush_threw _ _ _ _ _ _ _ R1 E) as (l & n & kd & m1 & m2 & -> & Hf & Hl & Hk & Ho & Ht & E2). rewrite E2 in Ap. cbn [bind] in Ap.
        exists w1, f1, None, l, (b ++ firstn k d). split; [auto|]. split; auto.
        * now apply only_own.
        * rewrite Ht. apply (ef_append_kept B b (OpAppend d) (firstn k d) (skipn k d)); [now rewrite firstn_skipn|exact Kk].
        * discriminate.
        * intros _. split; [auto|]. split; [reflexivity|]. eauto 8.
  Qed.

  Lemma close_x_ok fails fuel w f b r : brep f b -> close_x strerror S os fails fuel w f = r ->
    r = OutOfFuel \/ exists w' f' st l b', r = Ret (w', f', st) /\ op_x fails fuel w f b OpClose w' f' st l b'.
  Proof.
    intros R Er. unfold close_x in Er. assert (Cl : close strerror S os fuel w f = close strerror S os fuel w f) by reflexivity. unfold close at 2 in Cl.
    destruct (flush_x_cases fails fuel w f b R) as [(E & _)|(w1 & f1 & st & E)]; rewrite E in Er; cbn [bind] in Er; [auto|]. right.
    destruct st as [s|].
    - apply flush_returned in E. rewrite E in Cl. cbn [bind] in Cl.
      destruct (flush_buffer_ok B strerror S os OK fuel w f b _ R eq_refl) as [X|(w1' & st & l & X & W)]; [congruence|]. rewrite E in X. injection X as <- -> <-.
      change (f_fd (set_buf f (f_buf f) 0)) with (f_fd f) in *. change (f_name (set_buf f (f_buf f) 0)) with (f_name f) in *.
      pose proof (sys_ok S os OK w1 (CClose (f_fd f))) as K. pose proof (sys_log S os w1 (CClose (f_fd f))) as L.
      destruct (sys w1 (CClose (f_fd f))) as [w2 a]. cbn [fst snd] in K, L.
      assert (G : forall s', (match s with SOk => if (a_ret a <? 0)%Z then PosixError strerror (f_name f) (a_errno a) else SOk | _ => s end) = s' ->
         r = Ret (w2, set_fd (set_buf f (f_buf f) 0) (-1), Some s') -> exists w' f' st l b', r = Ret (w', f', st) /\ op_x fails fuel w f b OpClose w' f' st l b').
      { intros s' Hs Hr. rewrite Hs in Cl. destruct (returned fails fuel w f b OpClose _ _ s' R Cl) as (l' & b' & Q). eauto 10. }
      destruct s as [|kd m1 m2]; [|eapply G; [reflexivity|now rewrite <- Er]].
      destruct (a_ret a <? 0)%Z eqn:Ea; [|eapply G; [reflexivity|now rewrite <- Er]].
      unfold error_x in Er. destruct fails; [|eapply G; [reflexivity|now rewrite <- Er]].
      destruct W. pose proof (wo_all eq_refl) as Ha. exists w2, (set_buf f (f_buf f) 0), None, (l ++ [(CClose (f_fd f), a)]), []. split; [auto|]. split; auto.
      + rewrite L, wo_log, <- app_assoc. reflexivity.
      + apply Forall_app. split; [auto|]. constructor; [exact K|constructor].
      + apply brep_empty. exact (proj1 R).
      + apply Forall_app. split; [now apply only_own|]. constructor; [|constructor]. intros fd' d' E'. discriminate.
      + rewrite all_taken_app, Ha. cbn. rewrite app_nil_r. apply ef_written; auto.
      + discriminate.
      + intros _. split; [auto|]. split; [reflexivity|]. unfold PosixError in Cl. destruct (_ =? _)%Z in Cl; eauto 8.
    - destruct (flush_threw _ _ _ _ _ _ _ R E) as (l & n & kd & m1 & m2 & -> & Hf & Hl & Hk & Ho & Ht & E2). rewrite E2 in Cl. cbn [bind] in Cl.
      exists w1, f, None, l, b. split; [auto|]. split; auto.
      + now apply only_own.
      + rewrite Ht. now apply ef_flush.
      + discriminate.
      + intros _. split; [auto|]. split; [reflexivity|]. destruct (sys w1 _) as [w2 a]. eauto 8.
  Qed.

  (** The directory part of Sync. *)
  Lemma sync_dir_x_cases fails w f :
    (exists w' st, sync_dir_if_manifest_x strerror S os fails w f = (w', Some st) /\ sync_dir_if_manifest strerror S os w f = (w', st)) \/
    (fails = true /\ f_manifest f = true /\ exists w' w2 k m1 m2 ld, sync_dir_if_manifest_x strerror S os fails w f = (w', None) /\ sync_dir_if_manifest strerror S os w f = (w2, SErr k m1 m2) /\
       w_log w' = w_log w ++ ld /\ log_ok ld /\
       exists a, (ld = [(COpen (f_dir f) RdOnly, a)] /\ (a_ret a < 0)%Z) \/ (exists a1, ld = [(COpen (f_dir f) RdOnly, a); (CFsync (a_ret a), a1)] /\ (0 <= a_ret a)%Z /\ a_ret a1 <> 0%Z)).
  Proof.
    unfold sync_dir_if_manifest_x, sync_dir_if_manifest. destruct (f_manifest f); cbn [negb]; [|left; eauto].
    pose proof (sys_ok S os OK w (COpen (f_dir f) RdOnly)) as K. pose proof (sys_log S os w (COpen (f_dir f) RdOnly)) as L. destruct (sys w (COpen (f_dir f) RdOnly)) as [w1 a]. cbn [fst snd] in K, L.
    assert (PE : forall c e, exists k m1 m2, PosixError strerror c e = SErr k m1 m2) by (intros c e; unfold PosixError; destruct (_ =? _)%Z; eauto).
    destruct (Z.ltb_spec (a_ret a) 0) as [Hn|Hp].
    - destruct fails; cbn [error_x]; [|left; eauto]. right. split; [auto|]. split; [auto|]. destruct (PE (f_dir f) (a_errno a)) as (k & m1 & m2 & ->). exists w1, w1, k, m1, m2, [(COpen (f_dir f) RdOnly, a)].
      split; [auto|]. split; [auto|]. split; [exact L|]. split; [constructor; [exact K|constructor]|]. exists a. auto.
    - unfold sync_fd_x, sync_fd. pose proof (sys_ok S os OK w1 (CFsync (a_ret a))) as K1. pose proof (sys_log S os w1 (CFsync (a_ret a))) as L1. destruct (sys w1 (CFsync (a_ret a))) as [w2 a1]. cbn [fst snd] in K1, L1.
      destruct (Z.eqb_spec (a_ret a1) 0) as [Z0|Z0]; [left; destruct (sys w2 _) as [w3 ?]; eauto|]. unfold error_x. destruct fails; [|left; destruct (sys w2 _) as [w3 ?]; eauto].
      right. split; [auto|]. split; [auto|]. destruct (sys w2 (CClose (a_ret a))) as [w3 a2]. destruct (PE (f_dir f) (a_errno a1)) as (k & m1 & m2 & ->).
      exists w2, w3, k, m1, m2, [(COpen (f_dir f) RdOnly, a); (CFsync (a_ret a), a1)]. split; [auto|]. split; [auto|]. split; [rewrite L1, L, <- app_assoc; reflexivity|].
      split; [constructor; [exact K|]; constructor; [exact K1|constructor]|]. exists a. right. exists a1. auto.
  Qed.

  Lemma sync_x_ok fails fuel w f b r : brep f b -> sync_x strerror S os fails fuel w f = r ->
    r = OutOfFuel \/ exists w' f' st l b', r = Ret (w', f', st) /\ op_x fails fuel w f b OpSync w' f' st l b'.
  Proof.
    intros R Er. unfold sync_x in Er. assert (Sy : sync strerror S os fuel w f = sync strerror S os fuel w f) by reflexivity. unfold sync at 2 in Sy.
    destruct (sync_dir_x_cases fails w f) as [(w1 & s0 & E0 & F0)|(Hf & Hm & w1 & w2 & k & m1 & m2 & ld & E0 & F0 & L0 & K0 & a & Sh)]; rewrite E0 in Er; rewrite F0 in Sy.
    - destruct s0 as [|k m1 m2].
      2:{ right. destruct (returned fails fuel w f b OpSync _ _ _ R Sy) as (l' & b' & Q). eauto 10. }
      destruct (sync_dir_ok strerror S os OK w f w1 SOk F0) as (ld & good & L0 & K0 & D0 & T0 & _).
      assert (Wd : Forall (fun e : event => forall fd d, fst e = CWrite fd d -> fd = f_fd f) ld).
      { destruct D0 as [(_ & -> & _)|(_ & [(a & -> & _)|(a & a1 & a2 & -> & _)])]; repeat constructor; intros; discriminate. }
      destruct (flush_x_cases fails fuel w1 f b R) as [(E & _)|(w2 & f1 & st & E)]; rewrite E in Er; cbn [bind] in Er; [auto|]. right.
      destruct st as [[|k m1 m2]|].
      + apply flush_returned in E. rewrite E in Sy. cbn [bind] in Sy.
        destruct (flush_buffer_ok B strerror S os OK fuel w1 f b _ R eq_refl) as [X|(w2' & st & l & X & W)]; [congruence|]. rewrite E in X. injection X as <- -> <-.
        unfold sync_fd_x in Er. unfold sync_fd in Sy. change (f_fd (set_buf f (f_buf f) 0)) with (f_fd f) in *. change (f_name (set_buf f (f_buf f) 0)) with (f_name f) in *.
        pose proof (sys_ok S os OK w2 (CFsync (f_fd f))) as K1. pose proof (sys_log S os w2 (CFsync (f_fd f))) as L1. destruct (sys w2 (CFsync (f_fd f))) as [w3 a]. cbn [fst snd] in K1, L1.
        destruct (a_ret a =? 0)%Z eqn:Za; [destruct (returned fails fuel w f b OpSync _ _ _ R Sy) as (l' & b' & Q); eauto 10|].
        unfold error_x in Er. destruct fails; [|destruct (returned false fuel w f b OpSync _ _ _ R Sy) as (l' & b' & Q); eauto 10].
        destruct W. pose proof (wo_all eq_refl) as Ha. exists w3, (set_buf f (f_buf f) 0), None, (ld ++ l ++ [(CFsync (f_fd f), a)]), []. split; [auto|]. split; auto.
        * rewrite L1, wo_log, L0, <- !app_assoc. reflexivity.
        * apply Forall_app. split; [auto|]. apply Forall_app. split; [auto|]. constructor; [exact K1|constructor].
        * apply brep_empty. exact (proj1 R).
        * apply Forall_app. split; [auto|]. apply Forall_app. split; [now apply only_own|]. constructor; [|constructor]. intros fd' d' E'. discriminate.
        * rewrite !all_taken_app, T0, Ha. cbn. rewrite app_nil_r. apply ef_written. auto.
        * discriminate.
        * intros _. split; [auto|]. split; [reflexivity|]. unfold PosixError in Sy. destruct (a_errno a =? _)%Z in Sy; eauto 8.
      + apply flush_returned in E. rewrite E in Sy. cbn [bind] in Sy. destruct (returned fails fuel w f b OpSync _ _ _ R Sy) as (l' & b' & Q). eauto 10.
      + destruct (flush_threw _ _ _ _ _ _ _ R E) as (l & n & kd & m1 & m2 & -> & Hf & Hl & Hk & Ho & Ht & E2). rewrite E2 in Sy. cbn [bind] in Sy.
        exists w2, f, None, (ld ++ l), b. split; [auto|]. split; auto.
        * rewrite Hl, L0, <- app_assoc. reflexivity.
        * apply Forall_app; auto.
        * apply Forall_app; split; [auto|now apply only_own].
        * rewrite all_taken_app, T0, Ht. now apply ef_flush.
        * discriminate.
        * intros _. split; [auto|]. split; [reflexivity|]. eauto 8.
    - right. exists w1, f, None, ld, b. split; [auto|]. split; auto.
      + destruct Sh as [(-> & _)|(a1 & -> & _)]; repeat constructor; intros; discriminate.
      + replace (all_taken ld) with (firstn 0 b); [now apply ef_flush|]. destruct Sh as [(-> & _)|(a1 & -> & _)]; reflexivity.
      + discriminate.
      + intros _. split; [auto|]. split; [reflexivity|]. eauto 8.
  Qed.

  Lemma wstep_x_ok fails fuel w f b o r : brep f b -> wstep_x B strerror S os fails fuel w f o = r ->
    r = OutOfFuel \/ exists w' f' st l b', r = Ret (w', f', st) /\ op_x fails fuel w f b o w' f' st l b'.
  Proof.
    intros R. destruct o as [d| | |]; cbn [wstep_x]; [apply append_x_ok|apply flush_x_ok|apply sync_x_ok|apply close_x_ok]; exact R.
  Qed.

  (** ** What the effect of one call adds up to *)
  Lemma effect_taken b o st x b' : effect B b o st x b' -> (forall s, st = Some s -> s = SOk) ->
    exists d1 d2, op_data o = d1 ++ d2 /\ (st <> None -> d2 = []) /\ subseq (b ++ d1) (x ++ b').
  Proof.
    intros E H. destruct E as [x b' E _|k m1 m2 x b' E|n E|E|d1 d2 n E _|d1 d2 E _].
    - exists (op_data o), []. rewrite app_nil_r, E. split; [auto|]. split; [auto|apply subseq_refl].
    - discriminate (H _ eq_refl).
    - assert (op_data o = []) as -> by (destruct o; [destruct E|..]; reflexivity). exists [], []. rewrite !app_nil_r. split; [auto|]. split; [auto|].
      apply (subseq_app [] (firstn n b) b b); [apply subseq_nil|apply subseq_refl].
    - assert (op_data o = []) as -> by (destruct E; subst o; reflexivity). exists [], []. rewrite !app_nil_r. split; [auto|]. split; [auto|apply subseq_refl].
    - subst o. exists d1, d2. split; [auto|]. split; [congruence|]. apply (subseq_app [] (firstn n (b ++ d1)) (b ++ d1) (b ++ d1)); [apply subseq_nil|apply subseq_refl].
    - subst o. exists d1, d2. split; [auto|]. split; [congruence|]. rewrite app_nil_r. apply subseq_refl.
  Qed.
  Lemma effect_repeats b o st x b' : effect B b o st x b' -> length b <= B ->
    exists e, (st <> None -> e = []) /\ length e <= B /\ subseq e (b ++ op_data o) /\ subseq (x ++ b') (b ++ op_data o ++ e).
  Proof.
    intros E Hb. assert (N : forall y : list N, subseq y (y ++ [])) by (intros y; rewrite app_nil_r; apply subseq_refl).
    destruct E as [x b' E _|k m1 m2 x b' E|n E|E|d1 d2 n E L|d1 d2 E _].
    - exists []. rewrite app_nil_r, E. repeat split; auto using subseq_nil, subseq_refl; cbn; lia.
    - exists []. rewrite app_nil_r. repeat split; auto using subseq_nil; cbn; lia.
    - exists b. split; [congruence|]. split; [auto|]. assert (op_data o = []) as -> by (destruct o; [destruct E|..]; reflexivity). rewrite app_nil_r. split; [apply subseq_refl|].
      cbn [app]. apply subseq_app; [apply subseq_firstn|apply subseq_refl].
    - exists []. split; [auto|]. split; [cbn; lia|]. split; [apply subseq_nil|]. rewrite !app_nil_r. rewrite <- (app_nil_r b) at 1. apply subseq_app; [apply subseq_refl|apply subseq_nil].
    - subst o. cbn [op_data]. exists (b ++ d1). split; [congruence|]. split; [lia|]. split; [rewrite app_assoc; rewrite <- (app_nil_r (b ++ d1)) at 1; apply subseq_app; [apply subseq_refl|apply subseq_nil]|].
      replace (b ++ (d1 ++ d2) ++ b ++ d1) with (((b ++ d1) ++ d2) ++ b ++ d1) by (rewrite <- !app_assoc; reflexivity). apply subseq_app; [|apply subseq_refl].
      rewrite <- (app_nil_r (firstn n _)). apply subseq_app; [apply subseq_firstn|apply subseq_nil].
    - subst o. cbn [op_data]. exists []. split; [auto|]. split; [cbn; lia|]. split; [apply subseq_nil|]. rewrite !app_nil_r, app_assoc. rewrite <- (app_nil_r (b ++ d1)) at 1. apply subseq_app; [apply subseq_refl|apply subseq_nil].
  Qed.

  Lemma wrun_x_ok fuel : forall ops w f b r, brep f b -> wrun_x B strerror S os fuel w f ops = r ->
    r = OutOfFuel \/ exists w' f' sts l b', r = Ret (w', f', sts) /\ w_log w' = w_log w ++ l /\ log_ok l /\ length sts = length ops /\ brep f' b' /\
      (f_fd f' = f_fd f \/ f_fd f' = (-1)%Z) /\
      Forall (fun e => forall fd d, fst e = CWrite fd d -> fd = f_fd f \/ fd = (-1)%Z) l /\
      ((forall s, In (Some s) sts -> s = SOk) -> exists d, taken_on (map fst ops) sts d /\ subseq (b ++ d) (all_taken l ++ b')) /\
      (forall seen, subseq b seen -> exists out, with_repeats B seen (map fst ops) sts out /\ subseq (all_taken l ++ b') (b ++ out)).
  Proof.
    induction ops as [|[o fails] ops IH]; intros w f b r R Er; cbn [wrun_x] in Er.
    - right. exists w, f, [], [], b. rewrite app_nil_r. do 5 (split; [auto; constructor|]). split; [auto|]. split; [constructor|].
      split; [intros _; exists []; rewrite app_nil_r; split; [constructor|apply subseq_refl]|]. intros seen _. exists []. rewrite app_nil_r. split; [constructor|apply subseq_refl].
    - destruct (wstep_x_ok fails fuel w f b o _ R eq_refl) as [E|(w1 & f1 & st & l & b1 & E & Q)]; rewrite E in Er; cbn [bind] in Er; [auto|]. destruct Q.
      destruct (IH w1 f1 b1 _ xo_brep0 eq_refl) as [E2|(w2 & f2 & sts & l2 & b2 & E2 & L2 & K2 & Hn & R2 & Fd & Wr & Tk & Rp)]; rewrite E2 in Er; cbn [bind] in Er; [auto|].
      right. exists w2, f2, (st :: sts), (l ++ l2), b2. split; [auto|]. split; [rewrite L2, xo_log0, <- app_assoc; reflexivity|]. split; [apply Forall_app; auto|]. split; [cbn; now rewrite Hn|].
      split; [auto|]. split; [destruct xo_fd0 as [Q|Q], Fd as [P|P]; rewrite ?P, ?Q; auto|].
      split.
      { apply Forall_app. split; [eapply Forall_impl; [|exact xo_writes0]; intros e He fd d Ed; left; eauto|]. eapply Forall_impl; [|exact Wr]. intros e He fd d Ed. destruct (He fd d Ed) as [->| ->]; auto. }
      split.
      + intros Hs. destruct (Tk (fun s Hin => Hs s (or_intror Hin))) as (d & Td & Sd).
        destruct (effect_taken _ _ _ _ _ xo_effect0) as (d1 & d2 & Ed & Ez & Sx); [intros s ->; apply Hs; now left|].
        exists (d1 ++ d). split.
        * cbn [map fst]. destruct st as [s|]; [|now apply (to_threw o (map fst ops) sts d1 d2 d)]. rewrite (Hs s) by now left. rewrite (Ez ltac:(discriminate)), app_nil_r in Ed. rewrite <- Ed. now constructor.
        * rewrite all_taken_app, <- app_assoc. apply (subseq_trans _ (all_taken l ++ b1 ++ d)).
          -- rewrite !app_assoc. apply subseq_app; [exact Sx|apply subseq_refl].
          -- apply subseq_app; [apply subseq_refl|exact Sd].
      + intros seen Hseen. destruct (effect_repeats _ _ _ _ _ xo_effect0 (proj1 (proj2 (proj2 R)))) as (e & E1 & E3 & E4 & E5).
        assert (Sb : subseq b1 (seen ++ op_data o)).
        { apply (subseq_trans _ (b ++ op_data o)); [|apply subseq_app; [exact Hseen|apply subseq_refl]].
          clear - xo_effect0. destruct xo_effect0 as [x b' E _|k m1 m2 x b' E|n E|E|d1 d2 n -> L|d1 d2 -> _]; auto using subseq_nil.
          - rewrite <- E. apply (subseq_app [] x b' b' (subseq_nil _) (subseq_refl _)).
          - apply (subseq_trans _ (x ++ b')); [apply (subseq_app [] x b' b' (subseq_nil _) (subseq_refl _))|exact E].
          - rewrite <- (app_nil_r b) at 1. apply subseq_app; [apply subseq_refl|apply subseq_nil].
          - cbn [op_data]. rewrite app_assoc. rewrite <- (app_nil_r (b ++ d1)) at 1. apply subseq_app; [apply subseq_refl|apply subseq_nil]. }
        destruct (Rp _ Sb) as (out & Wo & So). exists (op_data o ++ e ++ out). split.
        * cbn [map fst]. constructor; auto. apply (subseq_trans _ (b ++ op_data o)); [exact E4|apply subseq_app; [exact Hseen|apply subseq_refl]].
        * rewrite all_taken_app, <- app_assoc. apply (subseq_trans _ (all_taken l ++ b1 ++ out)); [apply subseq_app; [apply subseq_refl|exact So]|].
          rewrite app_assoc. replace (b ++ op_data o ++ e ++ out) with ((b ++ op_data o ++ e) ++ out) by (rewrite !app_assoc; reflexivity). apply subseq_app; [exact E5|apply subseq_refl].
  Qed.

  (** With memory exhausted no error status comes out. *)
  Lemma wu_true fuel w fd name data w' s : write_unbuffered_x strerror S os true fuel w fd name data = Ret (w', Some s) -> s = SOk.
  Proof. rewrite wux_eq. destruct (write_unbuffered strerror S os fuel w fd name data) as [[w1 st]| | |]; cbn [bind]; try discriminate. destruct st; cbn [veil]; intros E; congruence. Qed.
  Lemma fb_true fuel w f w' f' s : flush_buffer_x strerror S os true fuel w f = Ret (w', f', Some s) -> s = SOk.
  Proof. rewrite fbx_eq. destruct (flush_buffer strerror S os fuel w f) as [[[w1 f1] st]| | |]; cbn [bind]; try discriminate. destruct st; cbn [veil]; intros E; congruence. Qed.
  Lemma wstep_x_true fuel w f o w' f' s : wstep_x B strerror S os true fuel w f o = Ret (w', f', Some s) -> s = SOk.
  Proof.
    destruct o as [d| | |]; cbn [wstep_x].
    - unfold append_x. destruct (B <? f_pos f); [discriminate|]. destruct (bput_bytes _ _ _) as [buf| | |]; cbn [bind]; try discriminate. destruct (skipn _ d) as [|x rest]; [congruence|].
      destruct (flush_buffer_x _ _ _ _ _ _ _) as [[[w1 f1] st]| | |] eqn:E; cbn [bind]; try discriminate. destruct st as [[|k m1 m2]|]; [| |congruence].
      + destruct (_ <? B).
        * destruct (bput_bytes (f_buf f1) _ _) as [buf2| | |]; cbn [bind]; congruence.
        * destruct (write_unbuffered_x _ _ _ _ _ _ _ _) as [[w2 st2]| | |] eqn:E2; cbn [bind]; try discriminate. intros X. injection X as _ _ ->. eapply wu_true; exact E2.
      + intros _. apply fb_true in E. discriminate.
    - apply fb_true.
    - unfold sync_x. assert (D : forall w1 s1, sync_dir_if_manifest_x strerror S os true w f = (w1, Some s1) -> s1 = SOk).
      { unfold sync_dir_if_manifest_x, sync_fd_x, error_x. intros w1 s1. destruct (f_manifest f); cbn [negb]; [|congruence]. destruct (sys w _) as [wa a]. destruct (a_ret a <? 0)%Z; [congruence|].
        destruct (sys wa _) as [wb a1]. destruct (a_ret a1 =? 0)%Z; [|congruence]. destruct (sys wb _). congruence. }
      destruct (sync_dir_if_manifest_x strerror S os true w f) as [w1 [[|k m1 m2]|]] eqn:Ed; [|specialize (D _ _ eq_refl); discriminate|congruence].
      destruct (flush_buffer_x _ _ _ _ _ _ _) as [[[w2 f1] st]| | |] eqn:E; cbn [bind]; try discriminate. destruct st as [[|k m1 m2]|]; [|apply fb_true in E; discriminate|congruence].
      unfold sync_fd_x, error_x. destruct (sys w2 _) as [w3 a]. destruct (a_ret a =? 0)%Z; congruence.
    - unfold close_x. destruct (flush_buffer_x _ _ _ _ _ _ _) as [[[w2 f1] st]| | |] eqn:E; cbn [bind]; try discriminate. destruct st as [st|]; [|congruence].
      apply fb_true in E. subst st. destruct (sys w2 _) as [w3 a]. unfold error_x. destruct (a_ret a <? 0)%Z; congruence.
  Qed.

  Lemma session_x_ok dbg fuel w0 name fl ops w2 f2 fd l sts : session_x dbg B strerror os fuel w0 name fl ops w2 f2 fd l sts ->
    exists b, brep f2 b /\ (0 <= fd)%Z /\ (f_fd f2 = fd \/ f_fd f2 = (-1)%Z) /\ log_ok l /\ length sts = length ops /\ f_name f2 = name /\ in_dir name (f_dir f2) /\ (f_manifest f2 = true <-> names_manifest name) /\
      Forall (fun e => forall fd' d, fst e = CWrite fd' d -> fd' = fd \/ fd' = (-1)%Z) l /\
      ((forall s, In (Some s) sts -> s = SOk) -> exists d, taken_on (map fst ops) sts d /\ subseq d (all_taken l ++ b)) /\
      (exists out, with_repeats B [] (map fst ops) sts out /\ subseq (all_taken l ++ b) out).
  Proof.
    intros (w1 & f & a & E1 & L1 & Ef & E2 & L2).
    assert (Hf : (0 <= fd)%Z /\ f_fd f = fd /\ brep f [] /\ f_name f = name /\ in_dir name (f_dir f) /\ (f_manifest f = true <-> names_manifest name)).
    { unfold new_writable in E1. pose proof (sys_log S os w0 (COpen name fl)) as L. destruct (sys w0 (COpen name fl)) as [wa aa]. cbn [fst snd] in L.
      destruct (Z.ltb_spec (a_ret aa) 0) as [Hn|Hp]; [discriminate|].
      destruct (new_wfile_ok dbg B name (a_ret aa)) as (m' & d' & En & Hm & Hd). rewrite En in E1. cbn [bind] in E1. injection E1 as <- <-.
      rewrite L1 in L. apply app_inv_head in L. assert (a = aa) by congruence. subst aa. rewrite Ef. cbn [f_fd f_name f_dir f_manifest].
      split; [exact Hp|]. split; [reflexivity|]. split; [split; [apply repeat_length|repeat split; cbn; lia]|]. auto. }
    destruct Hf as (Hfd & Hf & Rf & Hn & Hd & Hm).
    assert (Sm : forall ops w f w' f' sts, wrun_x B strerror S os fuel w f ops = Ret (w', f', sts) -> forall b, brep f b -> f_name f' = f_name f /\ f_dir f' = f_dir f /\ f_manifest f' = f_manifest f).
    { clear - OK. induction ops as [|[o fails] ops IH]; intros w f w' f' sts E b R; cbn [wrun_x] in E; [injection E as _ <- _; auto|].
      destruct (wstep_x_ok fails fuel w f b o _ R eq_refl) as [X|(w1 & f1 & st & l & b1 & X & Q)]; rewrite X in E; cbn [bind] in E; [discriminate|].
      destruct (wrun_x B strerror S os fuel w1 f1 ops) as [[[w2 f2] sts2]| | |] eqn:E2; cbn [bind] in E; try discriminate. injection E as <- <- _.
      destruct (IH _ _ _ _ _ E2 b1 (xo_brep _ _ _ _ _ _ _ _ _ _ _ Q)) as (A1 & A2 & A3). destruct (xo_same _ _ _ _ _ _ _ _ _ _ _ Q) as (C1 & C2 & C3). repeat split; congruence. }
    destruct (Sm _ _ _ _ _ _ E2 [] Rf) as (N1 & N2 & N3).
    destruct (wrun_x_ok fuel ops w1 f [] _ Rf eq_refl) as [E|(w3 & f3 & sts3 & l' & b & E & L3 & K3 & Ln & R3 & Fd & Wr & Tk & Rp)]; [congruence|].
    rewrite E2 in E. injection E as <- <- <-. rewrite L2 in L3. apply app_inv_head in L3. subst l'. exists b. rewrite N1, N2, N3. rewrite Hf in Fd, Wr.
    split; [auto|]. split; [auto|]. split; [exact Fd|]. do 5 (split; [auto|]). split; [exact Wr|]. split; [exact Tk|]. apply (Rp []). apply subseq_nil.
  Qed.
End Run.
