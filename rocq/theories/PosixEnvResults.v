(** PosixEnvResults.v -- what the calls of the POSIX environment return. *)
From Coq Require Import List Arith NArith ZArith Lia Bool.
From Verif Require Import Outcome Status MemEnv PosixOs PosixWritable PosixWritableSpec PosixWritableProofs PosixRead PosixEnv PosixFs PosixEnvSpec PosixFsProofs PosixEnvProofs PosixEnvSteps PosixEnvAcct.
Import ListNotations.
Local Open Scope outcome_scope.

Lemma not_found_error strerror ctx e : not_found (PosixError strerror ctx e) -> e = ENOENT.
Proof. unfold PosixError. destruct (Z.eqb_spec e ENOENT); [auto|contradiction]. Qed.

Lemma ret_inj {A} (a b : A) : Ret a = Ret b -> a = b.
Proof. congruence. Qed.

Section Results.
  Variable dbg : bool.
  Variable B : nat.
  Variable strerror : Z -> str.
  Variable S : Type.
  Variable os : S -> syscall -> S * answer.
  Variable v0 : view.
  Hypothesis OK : os_ok os.
  Hypothesis SANE : sane v0.
  Notation names := (names (v_next v0) (v_name v0)).
  Notation bound := (bound (v_next v0) (v_name v0)).
  Notation opened := (opened (v_next v0) (v_name v0)).
  Notation live := (live (v_next v0) (v_name v0)).
  Notation legal := (legal (v_next v0) (v_name v0)).
  Notation truncated := (truncated (v_next v0) (v_name v0)).
  Notation truthful := (truthful (v_next v0) (v_name v0)).
  Notation writer := (writer (v_next v0) (v_name v0)).
  Notation contents := (contents (v_next v0) (v_name v0) (v_data v0)).
  Notation flushed := (flushed (v_next v0) (v_name v0) (v_data v0)).
  Notation clean := (clean (v_next v0) (v_name v0) (v_data v0)).
  Notation visible := (visible (v_next v0) (v_name v0) (v_data v0)).
  Notation Inv := (Inv B S v0).
  Notation PosixError := (PosixError strerror).
  Notation preach := (preach dbg B strerror S os v0).
  Notation pcall_ := (pcall_ dbg B strerror S os).

  Lemma preach_last s0 lim0 x r H e' v' : preach s0 lim0 (mk_pev x r :: H) e' v' ->
    exists e v fuel q l, preach s0 lim0 H e v /\ legal H x /\ pcall_ fuel e (length H) x = Ret (e', q) /\
      w_log (p_w e') = w_log (p_w e) ++ l /\ ksteps v l v' /\ r = observe v' q.
  Proof. intros R. inversion R as [|? e v fuel ? ? q l ? R0 Lg E L K]; subst. exists e, v, fuel, q, l. auto 7. Qed.

  Lemma visible_data H e v i : Inv H e v -> clean H i -> i < v_next v -> visible B H i (v_data v i).
  Proof.
    intros I C Hi. destruct (i_file _ _ _ _ _ _ I i Hi C) as (F1 & F2). destruct (writer H i) as [h|].
    - destruct F2 as (f & b & _ & _ & _ & (_ & _ & Hb & _) & _ & Ec). exists b. auto.
    - exists []. rewrite app_nil_r. cbn [length]. auto with arith.
  Qed.

  (** ** Names *)
  Lemma truthful_call H e v fuel x e' q l v' :
    Inv H e v -> legal H x -> pcall_ fuel e (length H) x = Ret (e', q) -> w_log (p_w e') = w_log (p_w e) ++ l -> ksteps v l v' ->
    truthful H x (observe v' q).
  Proof.
    intros I Lg E L K. pose proof (i_name _ _ _ _ _ _ I) as Nm.
    destruct x; cbn [PosixEnv.pcall_] in E.
    - (* NewSequentialFile *)
      unfold new_sequential in E. dosys E w1 a Es Ls.
      destruct (Z.ltb_spec (a_ret a) 0) as [Hr|Hr]; unfold pnew in E; injection E as <- <-; cbn [p_w] in L;
        rewrite (log1 _ _ _ _ Ls L) in K; apply ksteps_one in K; apply open_read_inv in K; cbn [observe PosixEnvSpec.truthful]; rewrite <- Nm.
      + destruct K as [(_ & _ & He)|(Hx & _)]; [|lia]. split; [intros Ex; now apply error_not_ok' in Ex|]. intros Hn. apply not_found_error in Hn. auto.
      + destruct K as [(Hx & _)|(_ & _ & i & Hi & _)]; [lia|]. split; [congruence|contradiction].
    - (* NewRandomAccessFile *)
      unfold new_random in E. dosys E w1 a Es Ls.
      destruct (Z.ltb_spec (a_ret a) 0) as [Hr|Hr].
      { unfold pnew in E. injection E as <- <-. cbn [p_w] in L. rewrite (log1 _ _ _ _ Ls L) in K. apply ksteps_one in K. apply open_read_inv in K.
        cbn [observe PosixEnvSpec.truthful]. rewrite <- Nm. destruct K as [(_ & _ & He)|(Hx & _)]; [|lia].
        split; [intros Ex; now apply error_not_ok' in Ex|]. intros Hn. apply not_found_error in Hn. auto. }
      destruct (acquire (l_mmap (p_lim e))) as [m got] eqn:Eg. destruct got; cbn [negb] in E.
      + unfold get_file_size in E. dosys E w2 a2 Es2 Ls2. destruct (Z.eqb_spec (a_ret a2) 0) as [Hz|Hz]; cbn [negb] in E.
        * dosys E w3 a3 Es3 Ls3. destruct (Z.eqb_spec (a_ret a3) (-1)) as [Hm3|Hm3]; cbn [negb] in E; dosys E w4 a4 Es4 Ls4; unfold pnew in E;
            injection E as <- <-; cbn [p_w] in L; rewrite Ls4, Ls3, Ls2, Ls, <- !app_assoc in L; apply app_inv_head in L; subst l; cbn [app] in K;
            apply ksteps_cons in K as (v1 & K1 & K); apply ksteps_cons in K as (v2 & K2 & K); apply ksteps_cons in K as (v3 & K3 & K);
            apply open_read_inv in K1; destruct K1 as [(Hx & _)|(_ & Hn & i & Hi & _)]; try lia; cbn [observe PosixEnvSpec.truthful]; rewrite <- Nm.
          -- split; [intros Ex; now apply error_not_ok' in Ex|]. intros Hf. apply not_found_error in Hf. exfalso. eapply mmap_noent; eauto.
          -- split; [congruence|contradiction].
        * destruct (PosixError f (a_errno a2)) as [|c m1 m2] eqn:Ep; [now apply error_not_ok' in Ep|]. dosys E w5 a5 Es5 Ls5. unfold pnew in E.
          injection E as <- <-. cbn [p_w] in L. rewrite Ls5, Ls2, Ls, <- !app_assoc in L. apply app_inv_head in L. subst l. cbn [app] in K.
          apply ksteps_cons in K as (v1 & K1 & K). apply ksteps_cons in K as (v2 & K2 & K).
          apply open_read_inv in K1. apply stat_inv in K2. destruct K1 as [(Hx & _)|(_ & Hn & i & Hi & ->)]; [lia|].
          destruct K2 as (_ & [(_ & He)|(Hx & _)]); [|lia]. cbn [observe PosixEnvSpec.truthful]. rewrite <- Nm. split; [discriminate|].
          rewrite <- Ep. intros Hf. apply not_found_error in Hf. exact (He Hf).
      + unfold new_pread in E. cbn [l_fd l_mmap] in E. destruct (acquire (l_fd (p_lim e))) as [m2 got2] eqn:Eg2.
        assert (R : q = QStat SOk /\ exists a' l', l = (COpen f RdOnly, a) :: l' /\ a' = a).
        { destruct got2; [|dosys E w2 a2 Es2 Ls2]; unfold pnew in E; injection E as <- <-; cbn [p_w] in L; (split; [reflexivity|]);
            [rewrite (log1 _ _ _ _ Ls L)|rewrite Ls2, Ls, <- !app_assoc in L; apply app_inv_head in L; rewrite <- L]; eexists; eexists; split; reflexivity. }
        destruct R as (-> & _ & l' & -> & _). apply ksteps_cons in K as (v1 & K1 & _). apply open_read_inv in K1.
        destruct K1 as [(Hx & _)|(_ & Hn & i & Hi & _)]; [lia|]. cbn [observe PosixEnvSpec.truthful]. rewrite <- Nm. split; [congruence|contradiction].
    - (* NewWritableFile *)
      unfold NewWritableFile, new_writable in E. dosys E w1 a Es Ls. destruct (Z.ltb_spec (a_ret a) 0) as [Hr|Hr].
      + cbn [bind] in E. unfold pnew in E. injection E as <- <-. cbn [p_w] in L. rewrite (log1 _ _ _ _ Ls L) in K. apply ksteps_one in K.
        cbn [observe PosixEnvSpec.truthful]. intros Hn. apply not_found_error in Hn. unfold no_place. rewrite <- Nm. eapply open_write_noent; eauto. discriminate.
      + destruct (new_wfile_ok dbg B f (a_ret a)) as (m & d & Ew & _). rewrite Ew in E. cbn [bind] in E. unfold pnew in E. injection E as <- <-.
        cbn [observe PosixEnvSpec.truthful]. contradiction.
    - (* NewAppendableFile *)
      unfold NewAppendableFile, new_writable in E. dosys E w1 a Es Ls. destruct (Z.ltb_spec (a_ret a) 0) as [Hr|Hr].
      + cbn [bind] in E. unfold pnew in E. injection E as <- <-. cbn [p_w] in L. rewrite (log1 _ _ _ _ Ls L) in K. apply ksteps_one in K.
        cbn [observe PosixEnvSpec.truthful]. intros Hn. apply not_found_error in Hn. unfold no_place. rewrite <- Nm. eapply open_write_noent; eauto. discriminate.
      + destruct (new_wfile_ok dbg B f (a_ret a)) as (m & d & Ew & _). rewrite Ew in E. cbn [bind] in E. unfold pnew in E. injection E as <- <-.
        cbn [observe PosixEnvSpec.truthful]. contradiction.
    - (* FileExists *)
      unfold file_exists in E. dosys E w1 a Es Ls. injection E as <- <-. cbn [p_w] in L. rewrite (log1 _ _ _ _ Ls L) in K. apply ksteps_one in K.
      apply access_inv in K. cbn [observe PosixEnvSpec.truthful]. rewrite <- Nm. intros Hb. apply Z.eqb_eq in Hb.
      destruct K as (_ & [(Hx & _)|(_ & Hx)]); [lia|exact Hx].
    - (* GetChildren *)
      unfold get_children in E. dosys E w1 a Es Ls. destruct (N.eqb_spec (a_val a) 0) as [Hz|Hz]; cbn [bind] in E.
      + injection E as <- <-. cbn [p_w] in L. rewrite (log1 _ _ _ _ Ls L) in K. apply ksteps_one in K. cbn [observe PosixEnvSpec.truthful]. rewrite <- Nm.
        split; [intros Ex; now apply error_not_ok' in Ex|]. intros Hn. apply not_found_error in Hn. inversion K; subst; try discriminate; try congruence; auto.
      + destruct (read_dir S os fuel w1 (a_val a) []) as [[w2 res]| | |] eqn:Er; cbn [bind] in E; try discriminate.
        destruct (read_dir_view S os _ _ _ _ _ _ Er) as (l2 & Ll2 & _). dosys E w3 a3 Es3 Ls3. cbn [bind] in E. injection E as <- <-. cbn [p_w] in L.
        rewrite Ls3, Ll2, Ls, <- !app_assoc in L. apply app_inv_head in L. subst l. cbn [app] in K. apply ksteps_cons in K as (v1 & K1 & _).
        cbn [observe PosixEnvSpec.truthful]. rewrite <- Nm. split; [|contradiction]. intros _. inversion K1; subst; try discriminate; congruence.
    - (* RemoveFile *)
      unfold remove_file in E. dosys E w1 a Es Ls. injection E as <- <-. cbn [p_w] in L. rewrite (log1 _ _ _ _ Ls L) in K. apply ksteps_one in K.
      apply unlink_inv in K. cbn [observe PosixEnvSpec.truthful]. rewrite <- Nm. destruct K as [(Hr & _ & He)|(Hr & Hn & _)]; rewrite Hr; cbn [Z.eqb negb].
      + split; [intros Ex; now apply error_not_ok' in Ex|]. intros Hn. apply not_found_error in Hn. auto.
      + split; [auto|contradiction].
    - (* GetFileSize *)
      unfold get_file_size in E. dosys E w1 a Es Ls. destruct (Z.eqb_spec (a_ret a) 0) as [Hr|Hr]; cbn [negb] in E; injection E as <- <-; cbn [p_w] in L;
        rewrite (log1 _ _ _ _ Ls L) in K; apply ksteps_one in K; apply stat_inv in K; cbn [observe PosixEnvSpec.truthful]; rewrite <- Nm;
        destruct K as (_ & [(Hx & He)|(Hx & i & Hi & _)]); try lia.
      + split; [congruence|contradiction].
      + split; [intros Ex; now apply error_not_ok' in Ex|]. intros Hn. apply not_found_error in Hn. auto.
    - (* RenameFile *)
      unfold rename_file in E. dosys E w1 an Es Ls. injection E as <- <-. cbn [p_w] in L. rewrite (log1 _ _ _ _ Ls L) in K. apply ksteps_one in K.
      cbn [observe PosixEnvSpec.truthful]. unfold no_place. rewrite <- !Nm. pose proof (rename_noent _ _ _ _ _ K) as Ne. apply rename_inv in K.
      destruct K as [(Hr & _)|(Hr & i & Hi & _)]; rewrite Hr in *; cbn [Z.eqb negb].
      + split; [intros Ex; now apply error_not_ok' in Ex|]. intros Hn. apply not_found_error in Hn. apply Ne; [discriminate|exact Hn].
      + split; [congruence|contradiction].
    - (* CreateDir *)
      unfold create_dir in E. dosys E w1 an Es Ls. injection E as <- <-. cbn [p_w] in L. rewrite (log1 _ _ _ _ Ls L) in K. apply ksteps_one in K.
      cbn [observe PosixEnvSpec.truthful]. unfold no_place. rewrite <- !Nm. pose proof (mkdir_noent _ _ _ _ K) as Ne. apply mkdir_inv in K.
      destruct K as [(Hr & _)|(Hr & Hi & _)]; rewrite Hr in *; cbn [Z.eqb negb].
      + split; [intros Ex; now apply error_not_ok' in Ex|]. intros Hn. apply not_found_error in Hn. apply Ne; [discriminate|exact Hn].
      + split; [congruence|contradiction].
    - (* RemoveDir *)
      unfold remove_dir in E. dosys E w1 a Es Ls. injection E as <- <-. cbn [p_w] in L. rewrite (log1 _ _ _ _ Ls L) in K. apply ksteps_one in K.
      apply rmdir_inv in K. cbn [observe PosixEnvSpec.truthful]. rewrite <- Nm. destruct K as [(Hr & _ & He)|(Hr & Hn & _)]; rewrite Hr; cbn [Z.eqb negb].
      + split; [intros Ex; now apply error_not_ok' in Ex|]. intros Hn. apply not_found_error in Hn. auto.
      + split; [auto|contradiction].
    - (* Read *)
      destruct (oget (p_objs e) h) as [[f|f|f]|]; try discriminate. destruct (seq_read strerror S os fuel (p_w e) f n) as [[[w st] r]| | |]; cbn [bind] in E; try discriminate.
      injection E as <- <-. cbn [observe]. destruct r as [|d|b o k]; [exact Logic.I|exact Logic.I|].
      destruct (v_map v' b) as [[i m]|]; [destruct (_ <=? _)%N|]; exact Logic.I.
    - (* Skip *)
      destruct (oget (p_objs e) h) as [[f|f|f]|]; try discriminate. destruct (seq_skip strerror S os (p_w e) f n) as [w st]. injection E as <- <-. exact Logic.I.
    - (* Read at an offset *)
      destruct (oget (p_objs e) h) as [[f|f|f]|]; try discriminate. destruct (ran_read dbg strerror S os (p_w e) f off n) as [[[w st] r]| | |]; cbn [bind] in E; try discriminate.
      injection E as <- <-. cbn [observe]. destruct r as [|d|b o k]; [exact Logic.I|exact Logic.I|].
      destruct (v_map v' b) as [[i m]|]; [destruct (_ <=? _)%N|]; exact Logic.I.
    - unfold pwrite in E. destruct (oget (p_objs e) h) as [[f|f|f]|]; try discriminate. destruct (wstep _ _ _ _ _ _ _ _) as [[[w f'] st]| | |]; cbn [bind] in E; try discriminate.
      injection E as <- <-. exact Logic.I.
    - unfold pwrite in E. destruct (oget (p_objs e) h) as [[f|f|f]|]; try discriminate. destruct (wstep _ _ _ _ _ _ _ _) as [[[w f'] st]| | |]; cbn [bind] in E; try discriminate.
      injection E as <- <-. exact Logic.I.
    - unfold pwrite in E. destruct (oget (p_objs e) h) as [[f|f|f]|]; try discriminate. destruct (wstep _ _ _ _ _ _ _ _) as [[[w f'] st]| | |]; cbn [bind] in E; try discriminate.
      injection E as <- <-. exact Logic.I.
    - unfold pwrite in E. destruct (oget (p_objs e) h) as [[f|f|f]|]; try discriminate. destruct (wstep _ _ _ _ _ _ _ _) as [[[w f'] st]| | |]; cbn [bind] in E; try discriminate.
      injection E as <- <-. exact Logic.I.
    - destruct (oget (p_objs e) h) as [[f|f|f]|]; try discriminate.
      + destruct (destroy strerror S os fuel (p_w e) f); cbn [bind] in E; try discriminate. injection E as <- <-. reflexivity.
      + injection E as <- <-. reflexivity.
      + destruct (ran_delete dbg S os (p_w e) (p_lim e) f) as [[w lim]| | |]; cbn [bind] in E; try discriminate. injection E as <- <-. reflexivity.
  Qed.

  (** ** What readers get *)
  Lemma seq_result H e v fuel h n e' d l v' i f :
    Inv H e v -> pcall_ fuel e (length H) (PSRead h n) = Ret (e', QData SOk (Bytes d)) ->
    w_log (p_w e') = w_log (p_w e) ++ l -> ksteps v l v' -> live H h KSeq i f -> piece d (v_data v i) (Z.to_nat (pos H h)) n.
  Proof.
    intros I E L K (Lo & _). cbn [PosixEnv.pcall_] in E. destruct (oget (p_objs e) h) as [[f0|f0|f0]|] eqn:Eo; try discriminate.
    destruct (seq_read strerror S os fuel (p_w e) f0 n) as [[[w st] r]| | |] eqn:Er; cbn [bind] in E; try discriminate.
    injection E as <- -> ->. cbn [p_w] in L. destruct (seq_desc _ _ _ _ _ _ _ _ I Eo) as (i' & g & (L' & _) & Hx). assert (i' = i) by congruence. subst i'.
    destruct (seq_read_view _ _ _ _ _ _ _ _ _ _ _ _ _ _ Er L K Hx) as [(Hst & _)|(_ & d' & Ed & D1 & D2 & D3 & _)]; [congruence|].
    injection Ed as <-. cbn [d_off d_ino] in *. unfold piece. auto.
  Qed.
  Lemma size_result H e v fuel f e' n l v' :
    Inv H e v -> pcall_ fuel e (length H) (PSize f) = Ret (e', QSize SOk n) ->
    w_log (p_w e') = w_log (p_w e) ++ l -> ksteps v l v' -> exists i, bound H f = Some i /\ n = N.of_nat (length (v_data v i)).
  Proof.
    intros I E L K. cbn [PosixEnv.pcall_] in E. unfold get_file_size in E. dosys E w1 a Es Ls. destruct (Z.eqb_spec (a_ret a) 0) as [Hr|Hr]; cbn [negb] in E.
    - injection E as <- <-. cbn [p_w] in L. rewrite (log1 _ _ _ _ Ls L) in K. apply ksteps_one in K. apply stat_inv in K.
      destruct K as (_ & [(Hx & _)|(_ & i & Hi & Hv)]); [lia|]. exists i. rewrite <- (i_name _ _ _ _ _ _ I). auto.
    - injection E as _ Es' _. now apply error_not_ok' in Es'.
  Qed.

  Lemma ran_result_fd H e v fuel h off n e' d l v' i f lim0 :
    Inv H e v -> Acct S v0 lim0 H e v -> pcall_ fuel e (length H) (PRRead h off n) = Ret (e', QData SOk (Bytes d)) ->
    w_log (p_w e') = w_log (p_w e) ++ l -> ksteps v l v' -> live H h KRand i f -> (off < 2 ^ 63)%N ->
    (access_of (l_mmap lim0, l_fd lim0) H h = Some ByFd /\ piece d (v_data v i) (N.to_nat off) n) \/
    (access_of (l_mmap lim0, l_fd lim0) H h = Some ByName /\ exists j, bound H f = Some j /\ piece d (v_data v j) (N.to_nat off) n).
  Proof.
    intros I C E L K (Lo & _) Ho. cbn [PosixEnv.pcall_] in E. destruct (oget (p_objs e) h) as [[f0|f0|f0]|] eqn:Eo; try discriminate.
    pose proof (c_how _ _ _ _ _ _ C _ _ Eo) as Hw. pose proof (i_obj _ _ _ _ _ _ I _ _ _ _ _ Eo Lo) as Ok.
    assert (Ht : Z.to_nat (off_t off) = N.to_nat off).
    { unfold off_t. destruct (N.ltb_spec off (2 ^ 63)); lia. }
    destruct f0 as [fd g|g|b len g]; cbn [obj_access obj_ok] in Hw, Ok.
    - destruct (ran_read dbg strerror S os (p_w e) (RPerm fd g) off n) as [[[w st] r]| | |] eqn:Er; cbn [bind] in E; try discriminate. cbn [ran_read] in Er.
      apply assert_ret in Er. dosys Er w1 a Es Ls. destruct (_ <? _)%Z; [discriminate|]. injection Er as <- <- <-. injection E as <- Est <-. cbn [p_w] in L.
      rewrite (log1 _ _ _ _ Ls L) in K. apply ksteps_one in K. apply pread_inv in K. destruct (Z.ltb_spec (a_ret a) 0) as [Hr|Hr]; [now apply error_not_ok' in Est|].
      destruct K as (_ & [Hx|(x & Hx & _ & X1 & X2 & X3 & X4)]); [lia|]. destruct Ok as (_ & _ & _ & (y & Hy & Hi)). assert (y = x) by congruence. subst y.
      rewrite Hi, Ht in *. left. split; [exact Hw|]. rewrite X1, Nat2Z.id, firstn_all. unfold piece. auto.
    - destruct (ran_read dbg strerror S os (p_w e) (RTemp g) off n) as [[[w st] r]| | |] eqn:Er; cbn [bind] in E; try discriminate. cbn [ran_read] in Er.
      dosys Er w1 a Es Ls. destruct (Z.ltb_spec (a_ret a) 0) as [Hr|Hr]; [injection Er as <- <- <-; discriminate|].
      apply assert_ret in Er. dosys Er w2 a2 Es2 Ls2. destruct (_ <? _)%Z; [discriminate|]. apply assert_ret in Er. dosys Er w3 a3 Es3 Ls3. injection Er as <- <- <-.
      injection E as <- Est <-. cbn [p_w] in L. rewrite Ls3, Ls2, Ls, <- !app_assoc in L. apply app_inv_head in L. subst l. cbn [app] in K. apply ksteps_cons in K as (v1 & K1 & K).
      apply ksteps_cons in K as (v2 & K2 & K). apply open_read_inv in K1. destruct K1 as [(Hx & _)|(_ & Hn & j & Hj & ->)]; [lia|].
      apply pread_inv in K2 as (_ & K2). destruct (Z.ltb_spec (a_ret a2) 0) as [Hr2|Hr2]; [now apply error_not_ok' in Est|].
      destruct K2 as [Hx|(x & Hx & _ & X1 & X2 & X3 & X4)]; [lia|]. cbn [with_fd v_fd v_data] in Hx, X3, X4. rewrite upd_eq in Hx. injection Hx as <-. cbn [d_ino] in X3, X4.
      right. split; [exact Hw|]. destruct Ok as (_ & ->). exists j. rewrite <- (i_name _ _ _ _ _ _ I). split; [exact Hj|].
      rewrite Ht in *. rewrite X1, Nat2Z.id, firstn_all. unfold piece. auto.
    - destruct (ran_read dbg strerror S os (p_w e) (RMmap b len g) off n) as [[[w st] r]| | |] eqn:Er; cbn [bind] in E; try discriminate. cbn [ran_read] in Er.
      destruct (_ <? _)%N; injection Er as <- <- <-; try discriminate.
  Qed.
  (** Through a mapping. *)
  Lemma ran_result_map H e v fuel h off n e' st r l v' i f lim0 :
    Inv H e v -> Acct S v0 lim0 H e v -> pcall_ fuel e (length H) (PRRead h off n) = Ret (e', QData st r) ->
    w_log (p_w e') = w_log (p_w e) ++ l -> ksteps v l v' -> live H h KRand i f -> access_of (l_mmap lim0, l_fd lim0) H h = Some ByMap -> (off + n < 2 ^ 63)%N ->
    exists b len, oget (p_objs e) h = Some (ObR (RMmap b len f)) /\ v' = v /\ v_map v b = Some (i, len) /\
      (truncated H h = false -> (len <= N.of_nat (length (v_data v i)))%N) /\
      ((len < off + n)%N /\ st = PosixError f EINVAL /\ r = Bytes [] \/ (off + n <= len)%N /\ st = SOk /\ r = View b off n).
  Proof.
    intros I C E L K (Lo & _) Ha Ho. cbn [PosixEnv.pcall_] in E. destruct (oget (p_objs e) h) as [[f0|f0|f0]|] eqn:Eo; try discriminate.
    pose proof (c_how _ _ _ _ _ _ C _ _ Eo) as Hw. pose proof (i_obj _ _ _ _ _ _ I _ _ _ _ _ Eo Lo) as Ok.
    destruct f0 as [fd g|g|b len g]; cbn [obj_access] in Hw; try congruence. cbn [obj_ok] in Ok. destruct Ok as (_ & -> & Hm & Ht).
    cbn [ran_read] in E. unfold u64 in E. rewrite N.mod_small in E by lia.
    destruct (N.ltb_spec len (off + n)) as [Hl|Hl]; cbn [bind] in E; injection E as <- <- <-; cbn [p_w] in L; apply log0 in L; subst l; apply ksteps_nil in K; subst v';
      exists b, len; repeat (split; [assumption || reflexivity|]); [left|right]; auto.
  Qed.

  (** ** The length of a mapping is that of the file when it was made *)
  Definition map_was (H : history) (e : penv S) : Prop :=
    forall h b n g, oget (p_objs e) h = Some (ObR (RMmap b n g)) -> h < length H /\ exists i K, opened H h = Some (KRand, i, g) /\
      n = N.of_nat (length K) /\ (clean (before H h) i -> visible B (before H h) i K).
  Lemma before_keep ev H h : h <= length H -> before (ev :: H) h = before H h.
  Proof. intros Hh. unfold before. cbn [length]. replace (Datatypes.S (length H) - h) with (Datatypes.S (length H - h)) by lia. reflexivity. Qed.
  Lemma map_was_old H e ev e' : map_was H e ->
    (forall h b n g, oget (p_objs e') h = Some (ObR (RMmap b n g)) -> oget (p_objs e) h = Some (ObR (RMmap b n g))) -> map_was (ev :: H) e'.
  Proof.
    intros M Hold h b n g Ho. apply Hold in Ho. destruct (M _ _ _ _ Ho) as (Hl & i & K & Op & Hn & Hv). split; [cbn [length]; lia|].
    exists i, K. split; [|rewrite before_keep by lia; auto]. apply opened_keep. exact Op.
  Qed.
  Lemma map_was_pnew H e ev w lim o st e' q : map_was H e -> oget (p_objs e) (length H) = None ->
    pnew S e w lim (length H) o st = (e', q) -> (forall b n g, o <> Some (ObR (RMmap b n g))) -> map_was (ev :: H) e'.
  Proof.
    intros M Hn E Ho. unfold pnew in E. injection E as <- _. apply (map_was_old H e); [exact M|]. intros h b n g. cbn [p_objs].
    destruct o as [o|]; [|auto]. cbn [oget]. destruct (Nat.eqb_spec (length H) h) as [<-|]; [|auto]. intros E. injection E as ->. exfalso. eapply Ho. reflexivity.
  Qed.
  Lemma map_was_write H e ev fuel h o e' q : map_was H e -> pwrite B strerror S os fuel e h o = Ret (e', q) -> map_was (ev :: H) e'.
  Proof.
    intros M E. unfold pwrite in E. destruct (oget (p_objs e) h) as [[f|f|f]|] eqn:Eo; try discriminate.
    destruct (wstep _ _ _ _ _ _ _ _) as [[[w f'] st]| | |]; cbn [bind] in E; try discriminate. injection E as <- _.
    apply (map_was_old H e); [exact M|]. intros h' b n g. cbn [p_objs]. rewrite oget_oset by congruence. destruct (h =? h'); [discriminate|auto].
  Qed.
  Lemma map_was_call H e v fuel x e' q l v' : Inv H e v -> map_was H e ->
    pcall_ fuel e (length H) x = Ret (e', q) -> w_log (p_w e') = w_log (p_w e) ++ l -> ksteps v l v' -> map_was (mk_pev x (observe v' q) :: H) e'.
  Proof.
    intros I M E L K.
    assert (Hn : oget (p_objs e) (length H) = None).
    { destruct (oget (p_objs e) (length H)) eqn:Eo; [|reflexivity]. destruct (obj_open _ _ _ _ _ _ _ _ I Eo) as (k & i & g & (L1 & _) & _). apply opened_lt in L1. lia. }
    assert (Id : forall w lim, map_was (mk_pev x (observe v' q) :: H) (mk_penv w lim (p_objs e))) by (intros w lim; apply (map_was_old H e); auto).
    destruct x; cbn [PosixEnv.pcall_] in E.
    - destruct (new_sequential strerror S os (p_w e) f) as [[w o] st]. apply ret_inj in E. eapply map_was_pnew; [exact M|exact Hn|exact E|]. destruct o; discriminate.
    - destruct (new_random strerror S os (p_w e) (p_lim e) f) as [[[w lim] o] st] eqn:Er. apply ret_inj in E.
      assert (Ew : w_log w = w_log (p_w e) ++ l) by (unfold pnew in E; injection E as <- _; exact L). clear L.
      assert (D : (forall b n g, o <> Some (RMmap b n g)) \/ st = SOk /\ exists b n i, o = Some (RMmap b n f) /\ bound H f = Some i /\ n = N.of_nat (length (v_data v i))).
      { unfold new_random in Er. dosys Er w1 a Es Ls. destruct (Z.ltb_spec (a_ret a) 0) as [Hr|Hr]; [injection Er as <- <- <- <-; left; discriminate|].
        destruct (acquire (l_mmap (p_lim e))) as [m got]. destruct got; cbn [negb] in Er.
        - unfold get_file_size in Er. dosys Er w2 a2 Es2 Ls2. destruct (Z.eqb_spec (a_ret a2) 0) as [Hz|Hz]; cbn [negb] in Er.
          + dosys Er w3 a3 Es3 Ls3. destruct (Z.eqb_spec (a_ret a3) (-1)) as [Hm3|Hm3]; cbn [negb] in Er; dosys Er w4 a4 Es4 Ls4; injection Er as <- <- <- <-; [left; discriminate|].
            right. split; [reflexivity|]. exists (a_val a3), (a_val a2).
            rewrite Ls4, Ls3, Ls2, Ls, <- !app_assoc in Ew. apply app_inv_head in Ew. subst l. cbn [app] in K.
            apply ksteps_cons in K as (v1 & K1 & K). apply ksteps_cons in K as (v2 & K2 & _). apply open_read_inv in K1. apply stat_inv in K2.
            destruct K1 as [(Hx & _)|(_ & _ & i & Hi & ->)]; [lia|]. destruct K2 as (_ & [(Hx & _)|(_ & j & Hj & Hv)]); [lia|]. cbn [with_fd v_name v_data] in Hj, Hv.
            exists j. rewrite <- (i_name _ _ _ _ _ _ I). auto.
          + destruct (PosixError f (a_errno a2)) as [|c m1 m2] eqn:Ep; [now apply error_not_ok' in Ep|]. dosys Er w5 a5 Es5 Ls5. injection Er as <- <- <- <-. left; discriminate.
        - unfold new_pread in Er. cbn [l_fd l_mmap] in Er. destruct (acquire (l_fd (p_lim e))) as [m2 got2]. destruct got2; [|dosys Er w2 a2 Es2 Ls2]; injection Er as <- <- <- <-; left; discriminate. }
      destruct D as [D|(-> & b & n & i & -> & Hb & Hv)].
      + eapply map_was_pnew; [exact M|exact Hn|exact E|]. destruct o as [o|]; cbn [option_map]; [|discriminate]. intros b n g Eo. injection Eo as ->. eapply D. reflexivity.
      + unfold pnew in E. cbn [option_map] in E. injection E as <- <-. cbn [observe] in *.
        intros h b' n' g'. cbn [p_objs oget]. destruct (Nat.eqb_spec (length H) h) as [<-|Hne].
        * intros Eo. injection Eo as <- <- <-. split; [cbn [length]; lia|]. exists i, (v_data v i). split.
          { cbn [PosixEnvSpec.opened]. rewrite Nat.eqb_refl. cbn [done pe_res pe_call opens].
            destruct (names_same v0 (mk_pev (PNewRand f) (RStat SOk)) H) as (_ & N2); [discriminate|]. rewrite N2, Hb. reflexivity. }
          split; [exact Hv|]. rewrite before_keep by lia. unfold before. rewrite Nat.sub_diag. cbn [skipn]. intros Cl. eapply visible_data; eauto.
          eapply old_name; eauto. rewrite (i_name _ _ _ _ _ _ I). exact Hb.
        * intros Eo. destruct (M _ _ _ _ Eo) as (Hl & i' & K' & Op & Hn' & Hv'). split; [cbn [length]; lia|].
          exists i', K'. split; [apply opened_keep; exact Op|]. rewrite before_keep by lia. auto.
    - destruct (NewWritableFile dbg B strerror S os (p_w e) f) as [[[w o] st]| | |]; cbn [bind] in E; try discriminate. apply ret_inj in E.
      eapply map_was_pnew; [exact M|exact Hn|exact E|]. destruct o; discriminate.
    - destruct (NewAppendableFile dbg B strerror S os (p_w e) f) as [[[w o] st]| | |]; cbn [bind] in E; try discriminate. apply ret_inj in E.
      eapply map_was_pnew; [exact M|exact Hn|exact E|]. destruct o; discriminate.
    - destruct (file_exists S os (p_w e) f) as [w b]. injection E as <- <-. apply Id.
    - destruct (get_children strerror S os fuel (p_w e) d) as [[[w st] r]| | |]; cbn [bind] in E; try discriminate. injection E as <- <-. apply Id.
    - destruct (remove_file strerror S os (p_w e) f) as [w b]. injection E as <- <-. apply Id.
    - destruct (get_file_size strerror S os (p_w e) f) as [[w b] st]. injection E as <- <-. apply Id.
    - destruct (rename_file strerror S os (p_w e) a b) as [w st]. injection E as <- <-. apply Id.
    - destruct (create_dir strerror S os (p_w e) d) as [w st]. injection E as <- <-. apply Id.
    - destruct (remove_dir strerror S os (p_w e) d) as [w st]. injection E as <- <-. apply Id.
    - destruct (oget (p_objs e) h) as [[f|f|f]|]; try discriminate. destruct (seq_read strerror S os fuel (p_w e) f n) as [[[w st] r]| | |]; cbn [bind] in E; try discriminate.
      injection E as <- <-. apply Id.
    - destruct (oget (p_objs e) h) as [[f|f|f]|]; try discriminate. destruct (seq_skip strerror S os (p_w e) f n) as [w st]. injection E as <- <-. apply Id.
    - destruct (oget (p_objs e) h) as [[f|f|f]|]; try discriminate. destruct (ran_read dbg strerror S os (p_w e) f off n) as [[[w st] r]| | |]; cbn [bind] in E; try discriminate.
      injection E as <- <-. apply Id.
    - eapply map_was_write; eauto.
    - eapply map_was_write; eauto.
    - eapply map_was_write; eauto.
    - eapply map_was_write; eauto.
    - assert (Dl : exists w lim, e' = mk_penv w lim (odel (p_objs e) h)).
      { destruct (oget (p_objs e) h) as [[f|f|f]|]; try discriminate.
        - destruct (destroy strerror S os fuel (p_w e) f); cbn [bind] in E; try discriminate. injection E as <- <-. eauto.
        - injection E as <- <-. eauto.
        - destruct (ran_delete dbg S os (p_w e) (p_lim e) f) as [[w lim]| | |]; cbn [bind] in E; try discriminate. injection E as <- <-. eauto. }
      destruct Dl as (w & lim & ->). apply (map_was_old H e); [exact M|]. intros h' b n g. cbn [p_objs]. rewrite oget_odel. destruct (h =? h'); [discriminate|auto].
  Qed.
  Lemma preach_map_was s0 lim0 H e v : preach s0 lim0 H e v -> map_was H e.
  Proof.
    induction 1 as [|H e v fuel x e' q l v' R IH Lg E L K]; [intros h b n g Ho; discriminate|].
    eapply map_was_call; eauto. eapply preach_inv; eauto.
  Qed.

  (** ** GetChildren *)
  (** Nothing changes names meanwhile. *)
  Lemma names_since_now v s : length (v_past v) = ds_since s -> names_since v s = [v_name v].
  Proof. intros E. unfold names_since. rewrite E, Nat.sub_diag. reflexivity. Qed.
  Lemma there_now v s g : length (v_past v) = ds_since s -> there_once v s g <-> child v (ds_path s) g.
  Proof.
    intros E. unfold there_once. rewrite (names_since_now _ _ E). split.
    - intros (x & [<-|[]] & X). exact X.
    - intros X. exists (v_name v). split; [left; reflexivity|exact X].
  Qed.
  Lemma there_all_now v s g : length (v_past v) = ds_since s -> there_always v s g <-> child v (ds_path s) g.
  Proof.
    intros E. unfold there_always. rewrite (names_since_now _ _ E). split.
    - intros X. apply X. left. reflexivity.
    - intros X x [<-|[]]. exact X.
  Qed.
  Lemma read_dir_names fuel : forall w d acc w' r l v v' s, read_dir S os fuel w d acc = Ret (w', r) -> w_log w' = w_log w ++ l -> ksteps v l v' ->
    v_dir v d = Some s -> length (v_past v) = ds_since s -> NoDup (ds_given s) -> (forall g, In g (ds_given s) -> dots g \/ child v (ds_path s) g) ->
    readdir_failed l = false -> exists G, r = acc ++ G /\ NoDup (ds_given s ++ G) /\ forall g, In g (ds_given s ++ G) <-> dots g \/ child v (ds_path s) g.
  Proof.
    induction fuel as [|fuel IH]; intros w d acc w' r l v v' s E Ll K Hd Hp ND Hin Nf; cbn [read_dir] in E; [discriminate|]. dosys E w1 a Es Ls.
    destruct (Z.eqb_spec (a_ret a) 0) as [Hr|Hr].
    - injection E as <- <-. rewrite (log1 _ _ _ _ Ls Ll) in K, Nf. apply ksteps_one in K. cbn [readdir_failed existsb fst snd] in Nf. rewrite Hr, orb_false_r in Nf. cbn [Z.eqb andb] in Nf.
      apply negb_false_iff, Z.eqb_eq in Nf. inversion K; subst; try discriminate; try congruence.
      match goal with Hq : v_dir _ d = Some ?s0, Hv : forall g, dots g \/ there_always ?vv ?s0 g -> In g _ |- _ => assert (s0 = s) by congruence; subst s0; rename vv into v end.
      exists []. rewrite !app_nil_r. split; [reflexivity|]. split; [exact ND|]. intros g. split; [apply Hin|]. intros [X|X]; [auto|]. apply (there_all_now v s g Hp) in X. auto.
    - destruct (read_dir_view S os fuel _ _ _ _ _ E) as (l' & Ll' & _). rewrite Ll', Ls, <- app_assoc in Ll. apply app_inv_head in Ll. subst l. cbn [app] in K, Nf.
      apply ksteps_cons in K as (v1 & K1 & K). assert (Nf' : readdir_failed l' = false) by (unfold readdir_failed in Nf |- *; cbn [existsb] in Nf; apply orb_false_iff in Nf; apply Nf).
      inversion K1; subst; try discriminate; try congruence.
      match goal with Hq : v_dir v d = Some ?s0 |- _ => assert (s0 = s) by congruence; subst s0 end.
      match goal with Hq : dots _ \/ there_once _ _ _ |- _ => rename Hq into Hon end. rewrite (there_now v s _ Hp) in Hon.
      match goal with Hq : In _ (ds_given s) -> _ |- _ => rename Hq into Hnew end. rewrite (there_all_now v s _ Hp) in Hnew.
      assert (Hni : ~ In (a_data a) (ds_given s)) by (intros X; destruct (Hnew X); destruct Hon; contradiction).
      destruct (IH _ _ _ _ _ _ _ _ (mk_dstream (ds_path s) (ds_since s) (ds_given s ++ [a_data a])) E Ll' K) as (G & -> & N1 & N2); cbn [with_dir v_dir v_past ds_path ds_since ds_given]; auto.
      + apply upd_eq.
      + apply NoDup_rev in ND. rewrite <- (rev_involutive (_ ++ _)). apply NoDup_rev. rewrite rev_app_distr. cbn [rev app].
        constructor; [intros X; apply in_rev in X; contradiction|exact ND].
      + intros g X. change (dots g \/ child v (ds_path s) g). apply in_app_or in X as [X|[<-|[]]]; auto.
      + cbn [ds_given ds_path] in N1, N2. rewrite <- app_assoc in N1, N2. exists ([a_data a] ++ G). split; [now rewrite <- app_assoc|]. split; [exact N1|exact N2].
  Qed.
  Lemma children_result H e v fuel d e' L l v' :
    Inv H e v -> pcall_ fuel e (length H) (PChildren d) = Ret (e', QNames SOk L) ->
    w_log (p_w e') = w_log (p_w e) ++ l -> ksteps v l v' -> readdir_failed l = false ->
    NoDup L /\ forall g, In g L <-> g = dot \/ g = dot ++ dot \/ (~ In slash g /\ bound H (dir_prefix d ++ g) <> None).
  Proof.
    intros I E Ll K Nf. cbn [PosixEnv.pcall_] in E. unfold get_children in E. dosys E w1 a Es Ls. destruct (N.eqb_spec (a_val a) 0) as [Hz|Hz]; cbn [bind] in E.
    { injection E as _ Ex _. now apply error_not_ok' in Ex. }
    destruct (read_dir S os fuel w1 (a_val a) []) as [[w2 res]| | |] eqn:Er; cbn [bind] in E; try discriminate.
    destruct (read_dir_view S os _ _ _ _ _ _ Er) as (l2 & Ll2 & _). dosys E w3 c Es3 Ls3. cbn [bind] in E. injection E as <- <-. cbn [p_w] in Ll.
    rewrite Ls3, Ll2, Ls, <- !app_assoc in Ll. apply app_inv_head in Ll. subst l. cbn [app] in K, Nf. apply ksteps_cons in K as (v1 & K1 & K).
    apply ksteps_app in K as (v2 & K2 & _). assert (Nf' : readdir_failed l2 = false).
    { unfold readdir_failed in Nf |- *. cbn [existsb] in Nf. rewrite existsb_app in Nf. apply orb_false_iff in Nf as (_ & Nf). apply orb_false_iff in Nf as (Nf & _). exact Nf. }
    inversion K1; subst; try discriminate; try congruence.
    destruct (read_dir_names _ _ _ _ _ _ _ _ _ (mk_dstream d (length (v_past v)) []) Er Ll2 K2) as (G & -> & N1 & N2); cbn [with_dir v_dir v_past ds_path ds_since ds_given]; auto; [apply upd_eq|constructor|intros g []|].
    cbn [app ds_given ds_path] in *. split; [exact N1|]. intros g. rewrite N2. unfold dots, child, lists. cbn [with_dir v_name]. rewrite (i_name _ _ _ _ _ _ I). tauto.
  Qed.

  (** ** Names of live objects *)
  Lemma live_obj H e v h k i g : Inv H e v -> live H h k i g -> exists o, oget (p_objs e) h = Some o /\ obj_ok B v0 H v h o k i g.
  Proof.
    intros I L. destruct (oget (p_objs e) h) as [o|] eqn:Eo; [exists o; split; [reflexivity|]; eapply (i_obj _ _ _ _ _ _ I); [exact Eo|apply L]|].
    exfalso. apply (proj2 (i_live _ _ _ _ _ _ I h)); [exists k, i, g; exact L|exact Eo].
  Qed.
  Lemma none_live H e v : Inv H e v -> (forall h k i g, ~ live H h k i g) -> forall A (of : pobj -> option A) a, ~ owns of (p_objs e) a.
  Proof.
    intros I Nl A of a (h & o & Ho & _). destruct (obj_open _ _ _ _ _ _ _ _ I Ho) as (k & i & g & L & _). eapply Nl. exact L.
  Qed.
End Results.
