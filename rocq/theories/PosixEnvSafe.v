(** PosixEnvSafe.v -- every legal call of the POSIX environment returns, on any
    kernel all of whose answers are right. *)
From Coq Require Import List Arith NArith ZArith Lia Bool.
From Verif Require Import Outcome Status MemEnv PosixOs PosixWritable PosixWritableSpec PosixWritableProofs PosixRead PosixEnv PosixFs PosixEnvSpec PosixFsProofs PosixEnvProofs PosixEnvSteps.
Import ListNotations.
Local Open Scope outcome_scope.

Section Safe.
  Variable dbg : bool.
  Variable B : nat.
  Variable strerror : Z -> str.
  Variable S : Type.
  Variable os : S -> syscall -> S * answer.
  Variable v0 : view.
  Hypothesis OK : os_ok os.
  Hypothesis SANE : sane v0.
  Variable R : S -> view -> Prop.
  Hypothesis CONF : conforms os R.
  Notation sys := (sys os).

  (** A property of worlds that system calls keep. *)
  Definition kept (G : world S -> Prop) : Prop := forall w c, served c = true -> G w -> G (fst (sys w c)).

  Section Kept.
    Variable G : world S -> Prop.
    Hypothesis HG : kept G.

    Lemma kept_sys w c w' a : sys w c = (w', a) -> served c = true -> G w -> G w'.
    Proof. intros E Hs Hg. pose proof (HG w c Hs Hg) as X. rewrite E in X. exact X. Qed.
    Ltac ks E := first [eapply kept_sys; [exact E|reflexivity|]].

    Lemma kept_write fuel : forall w fd name data w' st, write_unbuffered strerror S os fuel w fd name data = Ret (w', st) -> G w -> G w'.
    Proof.
      induction fuel as [|fuel IH]; intros w fd name data w' st E Hg; destruct data as [|x data]; cbn [write_unbuffered] in E; try discriminate;
        try (injection E as <- _; exact Hg).
      dosys E w1 a Es Ls. assert (G1 : G w1) by (ks Es; exact Hg).
      destruct (a_ret a <? 0)%Z; [destruct (a_errno a =? EINTR)%Z|destruct (_ <? _)%Z; [discriminate|]]; eauto. injection E as <- _. exact G1.
    Qed.
    Lemma kept_flush fuel w f w' f' st : flush_buffer strerror S os fuel w f = Ret (w', f', st) -> G w -> G w'.
    Proof.
      unfold flush_buffer. intros E Hg. destruct (bread_n _ _ _) as [d| | |]; cbn [bind] in E; try discriminate.
      destruct (write_unbuffered _ _ _ _ _ _ _ _) as [[w1 s1]| | |] eqn:Ew; cbn [bind] in E; try discriminate. injection E as <- _ _. eapply kept_write; eauto.
    Qed.
    Lemma kept_close fuel w f w' f' st : close strerror S os fuel w f = Ret (w', f', st) -> G w -> G w'.
    Proof.
      unfold close. intros E Hg. destruct (flush_buffer _ _ _ _ _ _) as [[[w1 f1] s1]| | |] eqn:Ef; cbn [bind] in E; try discriminate.
      dosys E w2 a Es Ls. injection E as <- _ _. ks Es. eapply kept_flush; eauto.
    Qed.
    Lemma kept_sync_fd w fd p w' st : sync_fd strerror S os w fd p = (w', st) -> G w -> G w'.
    Proof. unfold sync_fd. intros E Hg. dosys E w1 a Es Ls. injection E as <- _. ks Es. exact Hg. Qed.
    Lemma kept_sync_dir w f w' st : sync_dir_if_manifest strerror S os w f = (w', st) -> G w -> G w'.
    Proof.
      unfold sync_dir_if_manifest. intros E Hg. destruct (f_manifest f); cbn [negb] in E; [|injection E as <- _; exact Hg].
      dosys E w1 a Es Ls. assert (G1 : G w1) by (ks Es; exact Hg). destruct (a_ret a <? 0)%Z; [injection E as <- _; exact G1|].
      destruct (sync_fd strerror S os w1 (a_ret a) (f_dir f)) as [w2 s2] eqn:Ey. dosys E w3 a3 Es3 Ls3. injection E as <- _. ks Es3. eapply kept_sync_fd; eauto.
    Qed.
    Lemma kept_wstep fuel w f o w' f' st : wstep B strerror S os fuel w f o = Ret (w', f', st) -> G w -> G w'.
    Proof.
      destruct o as [d| | |]; cbn [wstep]; intros E Hg.
      - unfold append in E. destruct (B <? f_pos f); [discriminate|]. cbv zeta in E.
        destruct (bput_bytes (f_buf f) (f_pos f) _) as [buf| | |]; cbn [bind] in E; try discriminate.
        destruct (skipn _ d) as [|x rest]; [injection E as <- _ _; exact Hg|].
        match type of E with context [flush_buffer _ _ _ _ _ ?ff] => remember ff as f1 eqn:Ef1 end. clear Ef1.
        destruct (flush_buffer strerror S os fuel w f1) as [[[w1 f2] s1]| | |] eqn:Ef; cbn [bind] in E; try discriminate.
        pose proof (kept_flush _ _ _ _ _ _ Ef Hg) as G1. destruct s1; [|injection E as <- _ _; exact G1].
        destruct (length (x :: rest) <? B).
        + destruct (bput_bytes (f_buf f2) 0 _) as [buf2| | |]; cbn [bind] in E; try discriminate. injection E as <- _ _. exact G1.
        + destruct (write_unbuffered strerror S os fuel w1 (f_fd f2) (f_name f2) (x :: rest)) as [[w2 s2]| | |] eqn:Ew; cbn [bind] in E; try discriminate.
          injection E as <- _ _. eapply kept_write; eauto.
      - eapply kept_flush; eauto.
      - unfold sync in E. destruct (sync_dir_if_manifest strerror S os w f) as [w1 s1] eqn:Ed. pose proof (kept_sync_dir _ _ _ _ Ed Hg) as G1.
        destruct s1; [|injection E as <- _ _; exact G1].
        destruct (flush_buffer strerror S os fuel w1 f) as [[[w2 f2] s2]| | |] eqn:Ef; cbn [bind] in E; try discriminate.
        pose proof (kept_flush _ _ _ _ _ _ Ef G1) as G2. destruct s2; [|injection E as <- _ _; exact G2].
        destruct (sync_fd strerror S os w2 (f_fd f2) (f_name f2)) as [w3 s3] eqn:Ey. injection E as <- _ _. eapply kept_sync_fd; eauto.
      - eapply kept_close; eauto.
    Qed.
    Lemma kept_destroy fuel w f w' : destroy strerror S os fuel w f = Ret w' -> G w -> G w'.
    Proof.
      unfold destroy. intros E Hg. destruct (0 <=? f_fd f)%Z; [|injection E as <-; exact Hg].
      destruct (close strerror S os fuel w f) as [[[w1 f1] s1]| | |] eqn:Ec; cbn [bind] in E; try discriminate. injection E as <-. eapply kept_close; eauto.
    Qed.
    Lemma kept_seq_read fuel : forall w f n w' st r, seq_read strerror S os fuel w f n = Ret (w', st, r) -> G w -> G w'.
    Proof.
      induction fuel as [|fuel IH]; intros w f n w' st r E Hg; cbn [seq_read] in E; [discriminate|]. dosys E w1 a Es Ls.
      assert (G1 : G w1) by (ks Es; exact Hg).
      destruct (a_ret a <? 0)%Z; [destruct (a_errno a =? EINTR)%Z; [eauto|]|destruct (_ <? _)%Z; [discriminate|]]; injection E as <- _ _; exact G1.
    Qed.
    Lemma kept_read_dir fuel : forall w d acc w' r, read_dir S os fuel w d acc = Ret (w', r) -> G w -> G w'.
    Proof.
      induction fuel as [|fuel IH]; intros w d acc w' r E Hg; cbn [read_dir] in E; [discriminate|]. dosys E w1 a Es Ls.
      assert (G1 : G w1) by (ks Es; exact Hg). destruct (a_ret a =? 0)%Z; [injection E as <- _; exact G1|eauto].
    Qed.
    Lemma kept_new_random w lim f w' lim' o st : new_random strerror S os w lim f = (w', lim', o, st) -> G w -> G w'.
    Proof.
      unfold new_random, get_file_size, new_pread. intros E Hg. dosys E w1 a Es Ls. assert (G1 : G w1) by (ks Es; exact Hg).
      destruct (a_ret a <? 0)%Z; [injection E as <- _ _ _; exact G1|]. destruct (acquire (l_mmap lim)) as [m got]. destruct got; cbn [negb] in E.
      - dosys E w2 a2 Es2 Ls2. assert (G2 : G w2) by (ks Es2; exact G1). destruct (a_ret a2 =? 0)%Z; cbn [negb] in E.
        + dosys E w3 a3 Es3 Ls3. assert (G3 : G w3) by (ks Es3; exact G2). destruct (a_ret a3 =? -1)%Z; cbn [negb] in E; dosys E w4 a4 Es4 Ls4; injection E as <- _ _ _; ks Es4; exact G3.
        + destruct (PosixError strerror f (a_errno a2)); [dosys E w3 a3 Es3 Ls3; assert (G3 : G w3) by (ks Es3; exact G2); destruct (a_ret a3 =? -1)%Z; cbn [negb] in E|]; dosys E w4 a4 Es4 Ls4; injection E as <- _ _ _; ks Es4; assumption.
      - cbn [l_fd l_mmap] in E. destruct (acquire (l_fd lim)) as [m2 got2]. destruct got2; [injection E as <- _ _ _; exact G1|].
        dosys E w2 a2 Es2 Ls2. injection E as <- _ _ _. ks Es2. exact G1.
    Qed.

    Lemma kept_call fuel e n x e' q : pcall_ dbg B strerror S os fuel e n x = Ret (e', q) -> G (p_w e) -> G (p_w e').
    Proof.
      assert (W : forall h o, pwrite B strerror S os fuel e h o = Ret (e', q) -> G (p_w e) -> G (p_w e')).
      { intros h o E Hg. unfold pwrite in E. destruct (oget (p_objs e) h) as [[f|f|f]|]; try discriminate.
        destruct (wstep B strerror S os fuel (p_w e) f o) as [[[w1 f1] s1]| | |] eqn:Es; cbn [bind] in E; try discriminate. injection E as <- _. eapply kept_wstep; eauto. }
      assert (NW : forall f fl w o st, new_writable dbg B strerror S os (p_w e) f fl = Ret (w, o, st) -> G (p_w e) -> G w).
      { intros f fl w o st E Hg. unfold new_writable in E. dosys E w1 a Es Ls. assert (G1 : G w1) by (ks Es; exact Hg). destruct (a_ret a <? 0)%Z; [injection E as <- _ _; exact G1|].
        destruct (new_wfile dbg B f (a_ret a)); cbn [bind] in E; try discriminate. injection E as <- _ _. exact G1. }
      destruct x; cbn [pcall_]; intros E Hg; eauto.
      - unfold new_sequential in E. dosys E w1 a Es Ls. assert (G1 : G w1) by (ks Es; exact Hg). destruct (a_ret a <? 0)%Z; apply (f_equal (fun o => match o with Ret r => p_w (fst r) | _ => w1 end)) in E; cbn in E; subst w1; exact G1.
      - destruct (new_random strerror S os (p_w e) (p_lim e) f) as [[[w lim] o] st] eqn:En. apply (f_equal (fun o => match o with Ret r => p_w (fst r) | _ => w end)) in E; cbn in E; subst w. eapply kept_new_random; eauto.
      - destruct (NewWritableFile dbg B strerror S os (p_w e) f) as [[[w o] st]| | |] eqn:En; cbn [bind] in E; try discriminate.
        apply (f_equal (fun o => match o with Ret r => p_w (fst r) | _ => w end)) in E; cbn in E; subst w. eapply NW; [exact En|exact Hg].
      - destruct (NewAppendableFile dbg B strerror S os (p_w e) f) as [[[w o] st]| | |] eqn:En; cbn [bind] in E; try discriminate.
        apply (f_equal (fun o => match o with Ret r => p_w (fst r) | _ => w end)) in E; cbn in E; subst w. eapply NW; [exact En|exact Hg].
      - unfold file_exists in E. dosys E w1 a Es Ls. injection E as <- _. ks Es. exact Hg.
      - unfold get_children in E. dosys E w1 a Es Ls. assert (G1 : G w1) by (ks Es; exact Hg). destruct (N.eqb (a_val a) 0); cbn [bind] in E; [injection E as <- _; exact G1|].
        destruct (read_dir S os fuel w1 (a_val a) []) as [[w2 r]| | |] eqn:Er; cbn [bind] in E; try discriminate. dosys E w3 a3 Es3 Ls3. cbn [bind] in E. injection E as <- _. ks Es3. eapply kept_read_dir; eauto.
      - unfold remove_file in E. dosys E w1 a Es Ls. injection E as <- _. ks Es. exact Hg.
      - unfold get_file_size in E. dosys E w1 a Es Ls. assert (G1 : G w1) by (ks Es; exact Hg). destruct (a_ret a =? 0)%Z; cbn [negb] in E; injection E as <- _; exact G1.
      - unfold rename_file in E. dosys E w1 c Es Ls. injection E as <- _. ks Es. exact Hg.
      - unfold create_dir in E. dosys E w1 a Es Ls. injection E as <- _. ks Es. exact Hg.
      - unfold remove_dir in E. dosys E w1 a Es Ls. injection E as <- _. ks Es. exact Hg.
      - destruct (oget (p_objs e) h) as [[f|f|f]|]; try discriminate. destruct (seq_read strerror S os fuel (p_w e) f n0) as [[[w st] r]| | |] eqn:Er; cbn [bind] in E; try discriminate.
        injection E as <- _. eapply kept_seq_read; eauto.
      - destruct (oget (p_objs e) h) as [[f|f|f]|]; try discriminate. unfold seq_skip in E. dosys E w1 a Es Ls. assert (G1 : G w1) by (ks Es; exact Hg). destruct (_ =? _)%Z; injection E as <- _; exact G1.
      - destruct (oget (p_objs e) h) as [[f|f|f]|]; try discriminate. destruct (ran_read dbg strerror S os (p_w e) f off n0) as [[[w st] r]| | |] eqn:Er; cbn [bind] in E; try discriminate.
        injection E as <- _. destruct f as [fd g|g|b len g]; cbn [ran_read] in Er.
        + apply assert_ret in Er. dosys Er w1 a Es Ls. assert (G1 : G w1) by (ks Es; exact Hg). destruct (_ <? _)%Z; [discriminate|]. injection Er as <- _ _. exact G1.
        + dosys Er w1 a Es Ls. assert (G1 : G w1) by (ks Es; exact Hg). destruct (_ <? _)%Z; [injection Er as <- _ _; exact G1|]. apply assert_ret in Er.
          dosys Er w2 a2 Es2 Ls2. assert (G2 : G w2) by (ks Es2; exact G1). destruct (_ <? _)%Z; [discriminate|]. cbv zeta in Er. apply assert_ret in Er. dosys Er w3 a3 Es3 Ls3. injection Er as <- _ _. ks Es3. exact G2.
        + destruct (_ <? _)%N; injection Er as <- _ _; exact Hg.
      - destruct (oget (p_objs e) h) as [[f|f|f]|]; try discriminate.
        + destruct (destroy strerror S os fuel (p_w e) f) as [w1| | |] eqn:Ed; cbn [bind] in E; try discriminate. injection E as <- _. eapply kept_destroy; eauto.
        + unfold seq_delete in E. injection E as <- _. cbn [p_w]. apply HG; [reflexivity|exact Hg].
        + destruct (ran_delete dbg S os (p_w e) (p_lim e) f) as [[w lim]| | |] eqn:Ed; cbn [bind] in E; try discriminate. injection E as <- _. cbn [p_w].
          destruct f as [fd g|g|b len g]; cbn [ran_delete] in Ed.
          * apply assert_ret in Ed. dosys Ed w1 a Es Ls. injection Ed as <- _. ks Es. exact Hg.
          * injection Ed as <- _. exact Hg.
          * dosys Ed w1 a Es Ls. injection Ed as <- _. ks Es. exact Hg.
    Qed.
  End Kept.

  (** The files are still as the calls made say. *)
  Definition follows (L : log) (v : view) (w : world S) : Prop := exists l v', w_log w = L ++ l /\ ksteps v l v' /\ R (w_st w) v'.
  Lemma follows_kept L v : kept (follows L v).
  Proof.
    intros w c Hs (l & v' & E & K & Hr). destruct (CONF _ _ c Hr Hs) as (v2 & K2 & Hr2). exists (l ++ [(c, snd (os (w_st w) c))]), v2.
    cbn [PosixOs.sys fst w_log w_st]. split; [rewrite E, app_assoc; reflexivity|]. split; [|exact Hr2]. apply ksteps_app. exists v'. split; [exact K|]. apply ksteps_one. exact K2.
  Qed.
  Lemma follows_start w v : R (w_st w) v -> follows (w_log w) v w.
  Proof. intros Hr. exists [], v. split; [now rewrite app_nil_r|]. split; [constructor|exact Hr]. Qed.
  Lemma sys_right w v c w' a : sys w c = (w', a) -> served c = true -> R (w_st w) v -> exists v', kstep v (c, a) v' /\ R (w_st w') v'.
  Proof. intros E Hs Hr. unfold PosixOs.sys in E. injection E as <- <-. cbn [w_st]. apply CONF; auto. Qed.

  Notation legal := (legal (v_next v0) (v_name v0)).
  Notation live := (live (v_next v0) (v_name v0)).
  Notation Inv := (Inv B S v0).
  Notation pcall_ := (pcall_ dbg B strerror S os).

  Definition fine {A} (r : outcome A) : Prop := match r with Ret _ | OutOfFuel => True | _ => False end.
  Lemma fine_bind {A C} (r : outcome A) (k : A -> outcome C) : fine r -> (forall a, r = Ret a -> fine (k a)) -> fine (bind r k).
  Proof. destruct r; cbn; auto. Qed.
  Lemma fine_assert (c : bool) : c = true -> fine (assert_ dbg c).
  Proof. intros ->. unfold assert_. now rewrite andb_false_r. Qed.

  Lemma seq_read_fine fuel : forall w v f n, R (w_st w) v -> fine (seq_read strerror S os fuel w f n).
  Proof.
    induction fuel as [|fuel IH]; intros w v f n Hr; cbn [seq_read]; [exact Logic.I|].
    destruct (sys_step os w (CRead (sq_fd f) n)) as (w1 & a & Es & Ls). rewrite Es.
    destruct (sys_right _ v _ _ _ Es eq_refl Hr) as (v1 & K & Hr1).
    destruct (Z.ltb_spec (a_ret a) 0) as [Hn|Hp]; [destruct (a_errno a =? EINTR)%Z; [eauto|exact Logic.I]|].
    destruct (Z.ltb_spec (Z.of_N n) (a_ret a)) as [Hb|Hb]; [|exact Logic.I]. exfalso. apply read_inv in K. destruct K as [(Hx & _)|(x & _ & Hl & Hn & _)]; lia.
  Qed.
  Lemma pread_bound w v fd n off w' a : sys w (CPread fd n off) = (w', a) -> R (w_st w) v -> (Z.of_N n <? a_ret a)%Z = false.
  Proof.
    intros Es Hr. destruct (sys_right _ v _ _ _ Es eq_refl Hr) as (v1 & K & _). apply pread_inv in K as (_ & K). apply Z.ltb_ge. destruct K as [Hx|(x & _ & _ & Hl & Hn & _)]; lia.
  Qed.
  Lemma read_dir_fine fuel : forall w d acc, fine (read_dir S os fuel w d acc).
  Proof.
    induction fuel as [|fuel IH]; intros w d acc; cbn [read_dir]; [exact Logic.I|].
    destruct (sys w (CReaddir d)) as [w1 a]. destruct (a_ret a =? 0)%Z; [exact Logic.I|apply IH].
  Qed.
  Lemma wstep_fine fuel w f b o : brep B f b -> fine (wstep B strerror S os fuel w f o).
  Proof. intros Br. destruct (wstep_ok B strerror S os OK fuel w f b o _ Br eq_refl) as [->|(w1 & f1 & st & l & b1 & -> & _)]; exact Logic.I. Qed.
  Lemma new_writable_fine w f fl : fine (new_writable dbg B strerror S os w f fl).
  Proof.
    unfold new_writable. destruct (sys w (COpen f fl)) as [w1 a]. destruct (a_ret a <? 0)%Z; [exact Logic.I|].
    destruct (new_wfile_ok dbg B f (a_ret a)) as (m & d & -> & _). exact Logic.I.
  Qed.

  Lemma live_oget H e v h k i g : Inv H e v -> live H h k i g -> exists o, oget (p_objs e) h = Some o /\ obj_ok B v0 H v h o k i g.
  Proof.
    intros I L. destruct (oget (p_objs e) h) as [o|] eqn:Eo; [exists o; split; [reflexivity|]; eapply (i_obj _ _ _ _ _ _ I); [exact Eo|apply L]|].
    exfalso. apply (proj2 (i_live _ _ _ _ _ _ I h)); [exists k, i, g; exact L|exact Eo].
  Qed.

  Lemma call_fine H e v fuel x : Inv H e v -> R (w_st (p_w e)) v -> legal H x -> fine (pcall_ fuel e (length H) x).
  Proof.
    intros I Hr Lg.
    assert (W : forall h o, (exists i f, live H h KWrite i f) -> fine (pwrite B strerror S os fuel e h o)).
    { intros h o (i & f & L). destruct (live_oget _ _ _ _ _ _ _ I L) as (ob & Eo & Ok). unfold pwrite. rewrite Eo.
      destruct ob as [f1|f1|[fd g|g|b n g]]; cbn [obj_ok] in Ok; destruct Ok as (Hk & Ok); try discriminate.
      destruct Ok as (_ & _ & (b & Br) & _). apply fine_bind; [eapply wstep_fine; eauto|]. intros [[w1 f2] st] _. exact Logic.I. }
    destruct x; cbn [PosixEnv.pcall_ PosixEnvSpec.legal] in *; try (apply W; exact Lg).
    - destruct (new_sequential strerror S os (p_w e) f) as [[w o] st]. exact Logic.I.
    - destruct (new_random strerror S os (p_w e) (p_lim e) f) as [[[w lim] o] st]. exact Logic.I.
    - apply fine_bind; [apply new_writable_fine|]. intros [[w o] st] _. exact Logic.I.
    - apply fine_bind; [apply new_writable_fine|]. intros [[w o] st] _. exact Logic.I.
    - destruct (file_exists S os (p_w e) f) as [w b]. exact Logic.I.
    - apply fine_bind; [|intros [[w o] st] _; exact Logic.I]. unfold get_children. destruct (sys (p_w e) (COpendir d)) as [w1 a]. destruct (N.eqb (a_val a) 0); [exact Logic.I|].
      apply fine_bind; [apply read_dir_fine|]. intros [w2 r] _. destruct (sys w2 (CClosedir (a_val a))) as [w3 c]. exact Logic.I.
    - destruct (remove_file strerror S os (p_w e) f) as [w b]. exact Logic.I.
    - destruct (get_file_size strerror S os (p_w e) f) as [[w b] st]. exact Logic.I.
    - destruct (rename_file strerror S os (p_w e) a b) as [w st]. exact Logic.I.
    - destruct (create_dir strerror S os (p_w e) d) as [w st]. exact Logic.I.
    - destruct (remove_dir strerror S os (p_w e) d) as [w st]. exact Logic.I.
    - destruct Lg as (_ & i & f & L). destruct (live_oget _ _ _ _ _ _ _ I L) as (ob & Eo & Ok). rewrite Eo.
      destruct ob as [f1|f1|[fd g|g|b m g]]; cbn [obj_ok] in Ok; destruct Ok as (Hk & Ok); try discriminate.
      apply fine_bind; [eapply seq_read_fine; eauto|]. intros [[w st] r] _. exact Logic.I.
    - destruct Lg as (_ & i & f & L). destruct (live_oget _ _ _ _ _ _ _ I L) as (ob & Eo & Ok). rewrite Eo.
      destruct ob as [f1|f1|[fd g|g|b m g]]; cbn [obj_ok] in Ok; destruct Ok as (Hk & Ok); try discriminate.
      destruct (seq_skip strerror S os (p_w e) f1 n) as [w st]. exact Logic.I.
    - destruct Lg as (_ & i & f & L). destruct (live_oget _ _ _ _ _ _ _ I L) as (ob & Eo & Ok). rewrite Eo.
      destruct ob as [f1|f1|[fd g|g|b m g]]; cbn [obj_ok] in Ok; destruct Ok as (Hk & Ok); try discriminate; (apply fine_bind; [|intros [[w st] r] _; exact Logic.I]); cbn [ran_read].
      + destruct Ok as (_ & Hf & _). apply fine_bind; [apply fine_assert; apply negb_true_iff, Z.eqb_neq; lia|]. intros _ _.
        destruct (sys_step os (p_w e) (CPread fd n (off_t off))) as (w1 & a & Es & _). rewrite Es, (pread_bound _ v _ _ _ _ _ Es Hr). exact Logic.I.
      + destruct (sys_step os (p_w e) (COpen g RdOnly)) as (w1 & a & Es & _). rewrite Es. destruct (Z.ltb_spec (a_ret a) 0) as [Hn|Hp]; [exact Logic.I|].
        destruct (sys_right _ v _ _ _ Es eq_refl Hr) as (v1 & K & Hr1).
        assert (As : fine (assert_ dbg (negb (a_ret a =? -1)%Z))) by (apply fine_assert; apply negb_true_iff, Z.eqb_neq; lia).
        apply fine_bind; [exact As|]. intros _ _. destruct (sys_step os w1 (CPread (a_ret a) n (off_t off))) as (w2 & a2 & Es2 & _). rewrite Es2, (pread_bound _ v1 _ _ _ _ _ Es2 Hr1).
        cbv zeta. apply fine_bind; [exact As|]. intros _ _. destruct (sys w2 (CClose (a_ret a))) as [w3 a3]. exact Logic.I.
      + destruct (_ <? _)%N; exact Logic.I.
    - destruct Lg as (k & i & f & L). destruct (live_oget _ _ _ _ _ _ _ I L) as (ob & Eo & Ok). rewrite Eo.
      destruct ob as [f1|f1|[fd g|g|b m g]]; cbn [obj_ok] in Ok.
      + destruct Ok as (_ & _ & _ & (b & Br) & _). apply fine_bind; [|intros w _; exact Logic.I]. unfold destroy. destruct (0 <=? f_fd f1)%Z; [|exact Logic.I].
        apply fine_bind; [apply (wstep_fine fuel (p_w e) f1 b OpClose Br)|]. intros [[w1 f2] st] _. exact Logic.I.
      + exact Logic.I.
      + destruct Ok as (_ & _ & Hf & _). apply fine_bind; [|intros [w lim] _; exact Logic.I]. cbn [ran_delete]. apply fine_bind; [apply fine_assert; apply negb_true_iff, Z.eqb_neq; lia|].
        intros _ _. destruct (sys (p_w e) (CClose fd)) as [w1 a]. exact Logic.I.
      + exact Logic.I.
      + apply fine_bind; [|intros [w lim] _; exact Logic.I]. cbn [ran_delete]. destruct (sys (p_w e) (CMunmap b m)) as [w1 a]. exact Logic.I.
  Qed.

  (** A legal call does not run into undefined behaviour or a failing assert; if it
      returns, the history goes on. *)
  Lemma call_safe s0 lim0 H e v fuel x : preach dbg B strerror S os v0 s0 lim0 H e v -> R (w_st (p_w e)) v -> legal H x ->
    pcall_ fuel e (length H) x = OutOfFuel \/
    exists e' q v', pcall_ fuel e (length H) x = Ret (e', q) /\ R (w_st (p_w e')) v' /\
      preach dbg B strerror S os v0 s0 lim0 (mk_pev x (observe v' q) :: H) e' v'.
  Proof.
    intros P Hr Lg. pose proof (preach_inv dbg B strerror S os v0 OK SANE _ _ _ _ _ P) as I. pose proof (call_fine _ _ _ fuel x I Hr Lg) as F.
    destruct (pcall_ fuel e (length H) x) as [[e' q]| | |] eqn:E; cbn [fine] in F; try contradiction; [right|left; reflexivity].
    destruct (kept_call (follows (w_log (p_w e)) v) (follows_kept _ _) _ _ _ _ _ _ E (follows_start _ _ Hr)) as (l & v' & L & K & Hr').
    exists e', q, v'. split; [reflexivity|]. split; [exact Hr'|]. eapply pr_call; eauto.
  Qed.

  (** ** Termination *)
  Variable K : nat.
  Hypothesis PROG : progressing os K.
  Hypothesis PAT : patient os K.

  Lemma seq_read_ends f n : forall k fuel w, interrupts os k (w_st w) (sq_fd f) n = false -> k <= fuel -> seq_read strerror S os fuel w f n <> OutOfFuel.
  Proof.
    induction k as [|k IH]; intros fuel w Hi Hf; [discriminate|]. destruct fuel as [|fuel]; [lia|]. cbn [seq_read interrupts] in *. unfold PosixOs.sys. cbv zeta beta iota in *.
    remember (os (w_st w) (CRead (sq_fd f) n)) as r eqn:Er. clear Er. cbn [w_st] in *.
    destruct (a_ret (snd r) <? 0)%Z; [|destruct (_ <? _)%Z; discriminate]. destruct (a_errno (snd r) =? EINTR)%Z; [|discriminate]. cbn [andb] in Hi.
    apply IH; [exact Hi|lia].
  Qed.
  Lemma read_dir_ends d L : forall n fuel w v s acc, R (w_st w) v -> v_dir v d = Some s -> length (v_past v) = ds_since s ->
    (forall g, dots g \/ child v (ds_path s) g -> In g L) -> NoDup (ds_given s) -> incl (ds_given s) L -> length L <= n + length (ds_given s) -> n < fuel ->
    read_dir S os fuel w d acc <> OutOfFuel.
  Proof.
    induction n as [|n IH]; intros fuel w v s acc Hr Hd Hp HL ND Hi Hn Hf; (destruct fuel as [|fuel]; [cbn in Hf; lia|]); cbn [read_dir];
      destruct (sys_step os w (CReaddir d)) as (w1 & a & Es & _); rewrite Es; destruct (sys_right _ v _ _ _ Es eq_refl Hr) as (v1 & Kk & Hr1);
      (destruct (Z.eqb_spec (a_ret a) 0) as [Hz|Hz]; [discriminate|]); inversion Kk; subst; try discriminate; try congruence;
      (match goal with Hq : v_dir v d = Some ?s0 |- _ => assert (s0 = s) by congruence; subst s0 end);
      (match goal with Hq : dots _ \/ there_once _ _ _ |- _ => rename Hq into Hon end);
      (match goal with Hq : In _ (ds_given s) -> _ |- _ => rename Hq into Hnew end);
      assert (Hon' : dots (a_data a) \/ child v (ds_path s) (a_data a)) by (destruct Hon as [X|(x & X1 & X2)]; [auto|right; unfold names_since in X1; rewrite Hp, Nat.sub_diag in X1; destruct X1 as [<-|[]]; exact X2]);
      assert (Hni : ~ In (a_data a) (ds_given s)) by (intros X; destruct (Hnew X) as (X1 & X2); destruct Hon' as [Y|Y]; [contradiction|]; apply X2; intros x Hx; unfold names_since in Hx; rewrite Hp, Nat.sub_diag in Hx; destruct Hx as [<-|[]]; exact Y);
      assert (ND' : NoDup (ds_given s ++ [a_data a])) by (apply NoDup_rev in ND; rewrite <- (rev_involutive (ds_given s ++ [a_data a])); apply NoDup_rev; rewrite rev_app_distr; cbn [rev app]; constructor; [intros X; apply in_rev in X; contradiction|exact ND]);
      assert (Hi' : incl (ds_given s ++ [a_data a]) L) by (intros x X; apply in_app_or in X as [X|[<-|[]]]; auto).
    - exfalso. pose proof (NoDup_incl_length ND' Hi') as X. rewrite app_length in X. cbn in X. lia.
    - eapply (IH _ _ _ (mk_dstream (ds_path s) (ds_since s) (ds_given s ++ [a_data a]))); [exact Hr1| | | | | | |]; cbn [with_dir v_dir v_past ds_path ds_since ds_given]; auto; [apply upd_eq|rewrite app_length; cbn; lia|lia].
  Qed.
  Lemma fuel_read_dir w v d a w1 : sys w (COpendir d) = (w1, a) -> R (w_st w) v -> a_val a <> 0%N ->
    exists n, forall fuel, n <= fuel -> read_dir S os fuel w1 (a_val a) [] <> OutOfFuel.
  Proof.
    intros Es Hr Hz. destruct (sys_right _ v _ _ _ Es eq_refl Hr) as (v1 & Kk & Hr1). inversion Kk; subst; try discriminate; try congruence.
    exists (Datatypes.S (length (dot :: (dot ++ dot) :: l))). intros fuel Hf.
    eapply (read_dir_ends _ (dot :: (dot ++ dot) :: l) (length (dot :: (dot ++ dot) :: l)) fuel _ _ (mk_dstream d (length (v_past v)) [])); [exact Hr1|cbn [with_dir v_dir]; apply upd_eq|reflexivity| |constructor|intros x []|cbn; lia|lia].
    cbn [ds_path]. intros g [[->| ->]|X]; cbn [In]; auto.
  Qed.
  Lemma not_out {A C} (r : outcome A) (k : A -> outcome C) : r <> OutOfFuel -> (forall a, r = Ret a -> k a <> OutOfFuel) -> bind r k <> OutOfFuel.
  Proof. intros H1 H2. destruct r; cbn; try congruence. apply H2. reflexivity. Qed.
  Lemma assert_out c : assert_ dbg c <> OutOfFuel.
  Proof. unfold assert_. destruct (_ && _); discriminate. Qed.

  Definition enough (H : history) (e : penv S) (x : pcall) (n : nat) : Prop := forall fuel, n <= fuel -> pcall_ fuel e (length H) x <> OutOfFuel.
  (** Enough for every call but GetChildren. *)
  Definition fuel_for (x : pcall) : nat :=
    match x with
    | PSRead _ _ => K
    | PWAppend _ d => K * (B + length d)
    | PWClose _ | PWFlush _ | PWSync _ | PDelete _ => K * (B + 0)
    | _ => 0
    end.
  Lemma call_ends_in H e v x : Inv H e v -> R (w_st (p_w e)) v -> legal H x -> (forall d, x <> PChildren d) -> enough H e x (fuel_for x).
  Proof.
    intros I Hr Lg Nc.
    assert (W : forall h o, (exists i f, live H h KWrite i f) -> forall fuel, K * (B + length (op_data o)) <= fuel -> pwrite B strerror S os fuel e h o <> OutOfFuel).
    { intros h o (i & f & L) fuel Hf. destruct (live_oget _ _ _ _ _ _ _ I L) as (ob & Eo & Ok). unfold pwrite. rewrite Eo.
      destruct ob as [f1|f1|[fd g|g|b n g]]; cbn [obj_ok] in Ok; destruct Ok as (Hk & Ok); try discriminate.
      destruct Ok as (_ & _ & (b & Br) & _). apply not_out; [eapply wstep_terminates; eauto|]. intros [[w1 f2] st] _. discriminate. }
    assert (Nw : forall f fl, new_writable dbg B strerror S os (p_w e) f fl <> OutOfFuel).
    { intros f fl. pose proof (new_writable_fine (p_w e) f fl) as F. unfold new_writable in *. destruct (sys (p_w e) (COpen f fl)) as [w1 a].
      destruct (a_ret a <? 0)%Z; [discriminate|]. destruct (new_wfile_ok dbg B f (a_ret a)) as (m & d & -> & _). discriminate. }
    unfold enough. destruct x; cbn [PosixEnv.pcall_ PosixEnvSpec.legal fuel_for] in *.
    - intros fuel _. destruct (new_sequential strerror S os (p_w e) f) as [[w o] st]. discriminate.
    - intros fuel _. destruct (new_random strerror S os (p_w e) (p_lim e) f) as [[[w lim] o] st]. discriminate.
    - intros fuel _. apply not_out; [apply (Nw f WrTrunc)|]. intros [[w o] st] _. discriminate.
    - intros fuel _. apply not_out; [apply (Nw f WrAppend)|]. intros [[w o] st] _. discriminate.
    - intros fuel _. destruct (file_exists S os (p_w e) f) as [w b]. discriminate.
    - exfalso. now apply (Nc d).
    - intros fuel _. destruct (remove_file strerror S os (p_w e) f) as [w b]. discriminate.
    - intros fuel _. destruct (get_file_size strerror S os (p_w e) f) as [[w b] st]. discriminate.
    - intros fuel _. destruct (rename_file strerror S os (p_w e) a b) as [w st]. discriminate.
    - intros fuel _. destruct (create_dir strerror S os (p_w e) d) as [w st]. discriminate.
    - intros fuel _. destruct (remove_dir strerror S os (p_w e) d) as [w st]. discriminate.
    - destruct Lg as (_ & i & f & L). intros fuel Hf. destruct (live_oget _ _ _ _ _ _ _ I L) as (ob & Eo & Ok). rewrite Eo.
      destruct ob as [f1|f1|f1]; cbn [obj_ok] in Ok; [destruct Ok as (Hk & _); discriminate| |destruct f1; destruct Ok as (Hk & _); discriminate].
      apply not_out; [|intros [[w st] r] _; discriminate]. eapply seq_read_ends; [apply PAT|exact Hf].
    - intros fuel _. destruct (oget (p_objs e) h) as [[f1|f1|f1]|]; try discriminate. destruct (seq_skip strerror S os (p_w e) f1 n) as [w st]. discriminate.
    - intros fuel _. destruct (oget (p_objs e) h) as [[f1|f1|f1]|]; try discriminate. apply not_out; [|intros [[w st] r] _; discriminate].
      destruct f1 as [fd g|g|b m g]; cbn [ran_read].
      + apply not_out; [apply assert_out|]. intros _ _. destruct (sys (p_w e) (CPread fd n (off_t off))) as [w1 a]. destruct (_ <? _)%Z; discriminate.
      + destruct (sys (p_w e) (COpen g RdOnly)) as [w1 a]. destruct (_ <? _)%Z; [discriminate|]. apply not_out; [apply assert_out|]. intros _ _.
        destruct (sys w1 (CPread (a_ret a) n (off_t off))) as [w2 a2]. destruct (_ <? _)%Z; [discriminate|]. cbv zeta. apply not_out; [apply assert_out|]. intros _ _.
        destruct (sys w2 (CClose (a_ret a))) as [w3 a3]. discriminate.
      + destruct (_ <? _)%N; discriminate.
    - intros fuel Hf. apply W; [exact Lg|exact Hf].
    - intros fuel Hf. apply W; [exact Lg|exact Hf].
    - intros fuel Hf. apply W; [exact Lg|exact Hf].
    - intros fuel Hf. apply W; [exact Lg|exact Hf].
    - destruct Lg as (k & i & f & L). intros fuel Hf. destruct (live_oget _ _ _ _ _ _ _ I L) as (ob & Eo & Ok). rewrite Eo.
      destruct ob as [f1|f1|f1]; cbn [obj_ok] in Ok; [| discriminate |].
      + destruct Ok as (_ & _ & _ & (b & Br) & _). apply not_out; [|intros w _; discriminate]. unfold destroy. destruct (0 <=? f_fd f1)%Z; [|discriminate].
        apply not_out; [|intros [[w1 f2] st] _; discriminate]. apply (wstep_terminates B strerror S os OK K fuel (p_w e) f1 b OpClose PROG Br Hf).
      + apply not_out; [|intros [w lim] _; discriminate]. destruct f1 as [fd g|g|b m g]; cbn [ran_delete].
        * apply not_out; [apply assert_out|]. intros _ _. destruct (sys (p_w e) (CClose fd)) as [w1 a]. discriminate.
        * discriminate.
        * destruct (sys (p_w e) (CMunmap b m)) as [w1 a]. discriminate.
  Qed.
  Lemma call_ends H e v x : Inv H e v -> R (w_st (p_w e)) v -> legal H x -> exists n, enough H e x n.
  Proof.
    intros I Hr Lg. destruct x; try (eexists; eapply call_ends_in; eauto; discriminate).
    unfold enough. cbn [PosixEnv.pcall_]. unfold get_children. destruct (sys_step os (p_w e) (COpendir d)) as (w1 & a & Es & _). destruct (N.eqb_spec (a_val a) 0) as [Hz|Hz].
      + exists 0. intros fuel _. rewrite Es. rewrite Hz. discriminate.
      + destruct (fuel_read_dir _ v _ _ _ Es Hr Hz) as (n & Hn). exists n. intros fuel Hf. rewrite Es. destruct (N.eqb_spec (a_val a) 0); [contradiction|].
        apply not_out; [|intros [[w o] st] _; discriminate]. apply not_out; [apply Hn; exact Hf|]. intros [w2 r] _. destruct (sys w2 (CClosedir (a_val a))) as [w3 c]. discriminate.
  Qed.
  Lemma call_returns s0 lim0 H e v x : preach dbg B strerror S os v0 s0 lim0 H e v -> R (w_st (p_w e)) v -> legal H x ->
    exists n, forall fuel, n <= fuel -> exists e' q v', pcall_ fuel e (length H) x = Ret (e', q) /\ R (w_st (p_w e')) v' /\
      preach dbg B strerror S os v0 s0 lim0 (mk_pev x (observe v' q) :: H) e' v'.
  Proof.
    intros P Hr Lg. pose proof (preach_inv dbg B strerror S os v0 OK SANE _ _ _ _ _ P) as I. destruct (call_ends _ _ _ x I Hr Lg) as (n & Hn). exists n. intros fuel Hf.
    destruct (call_safe _ _ _ _ _ fuel x P Hr Lg) as [E|E]; [exfalso; exact (Hn fuel Hf E)|exact E].
  Qed.
End Safe.
