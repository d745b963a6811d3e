(** PosixFsProofs.v -- lemmas on the file system of PosixFs.v. *)
From Coq Require Import List Arith NArith ZArith Lia Bool.
From Verif Require Import Outcome Status MemEnv PosixOs PosixWritable PosixWritableSpec PosixWritableProofs PosixRead PosixEnv PosixFs PosixEnvSpec.
Import ListNotations.

Lemma upd_eq {A B} eqd (f : A -> B) k x : upd eqd f k x k = x.
Proof. unfold upd. destruct (eqd k k); [reflexivity|congruence]. Qed.
Lemma upd_ne {A B} eqd (f : A -> B) k x y : y <> k -> upd eqd f k x y = f y.
Proof. intros H. unfold upd. destruct (eqd y k); [congruence|reflexivity]. Qed.

Definition ext (a b : list N) : Prop := exists r, b = a ++ r.
Lemma ext_refl a : ext a a. Proof. exists []. now rewrite app_nil_r. Qed.
Lemma ext_trans a b c : ext a b -> ext b c -> ext a c.
Proof. intros (r & ->) (r' & ->). exists (r ++ r'). now rewrite app_assoc. Qed.
Lemma ext_nil a : ext [] a. Proof. exists a. reflexivity. Qed.

Lemma put_end data p d : p = length data -> put data p d = data ++ d.
Proof.
  intros ->. unfold put. rewrite Nat.sub_diag. cbn [repeat]. rewrite app_nil_r, firstn_all, skipn_all2 by lia. now rewrite app_nil_r.
Qed.
Lemma put_length data p d : length data <= length (put data p d).
Proof.
  unfold put. rewrite !app_length, firstn_length, app_length, repeat_length, skipn_length. lia.
Qed.
Lemma put_ext data safe p d : ext safe data -> ext (firstn p safe) (put data p d).
Proof.
  intros (r & ->). unfold put. rewrite <- !app_assoc, firstn_app, <- !app_assoc. eexists. reflexivity.
Qed.

Lemma ksteps_app v l1 l2 v2 : ksteps v (l1 ++ l2) v2 <-> exists v1, ksteps v l1 v1 /\ ksteps v1 l2 v2.
Proof.
  split.
  - revert v. induction l1 as [|e l1 IH]; intros v H; cbn [app] in H.
    + exists v. split; [constructor|exact H].
    + inversion H; subst. destruct (IH _ H5) as (w & A & C). exists w. split; [econstructor; eauto|exact C].
  - intros (v1 & H1 & H2). induction H1; cbn [app]; [exact H2|]. econstructor; eauto.
Qed.
Lemma ksteps_one v e v' : ksteps v [e] v' <-> kstep v e v'.
Proof. split; intros H; [inversion H as [|? ? ? ? ? K1 K2]; subst; inversion K2; subst; exact K1|econstructor; [exact H|constructor]]. Qed.
Lemma ksteps_nil v v' : ksteps v [] v' <-> v' = v.
Proof. split; intros H; [inversion H; reflexivity|subst; constructor]. Qed.

(** ** [sane] is kept *)
Lemma create_sane v p : p <> [] -> sane v -> sane (create v p).
Proof.
  intros Hp (A1 & A2 & A3 & A4 & A5). unfold create, with_data, with_name, sane. cbn [v_name v_data v_fd v_map v_next v_safe].
  split; [|split; [|split; [|split]]].
  - intros q i. unfold upd. destruct (eqs q p); [intros E; injection E as <-; lia|]. intros E. apply A1 in E. lia.
  - intros fd x E. apply A2 in E. lia.
  - intros b i n E. apply A3 in E. lia.
  - unfold upd. destruct (eqs [] p); [congruence|exact A4].
  - intros i. unfold upd. destruct (Nat.eq_dec i (v_next v)); [exists []; reflexivity|apply A5].
Qed.
Lemma with_fd_sane v fd x : sane v -> (forall y, x = Some y -> (0 <= fd)%Z /\ (0 <= d_off y)%Z /\ d_ino y < v_next v) -> sane (with_fd v fd x).
Proof.
  intros (A1 & A2 & A3 & A4 & A5) Hx. unfold with_fd, sane. cbn [v_name v_data v_fd v_map v_next v_safe].
  split; [auto|]. split; [|auto]. intros g y. unfold upd. destruct (Z.eq_dec g fd) as [->|]; [apply Hx|apply A2].
Qed.
Lemma with_name_sane v p x : sane v -> (forall i, x = Some i -> p <> [] /\ i < v_next v) -> sane (with_name v p x).
Proof.
  intros (A1 & A2 & A3 & A4 & A5) Hx. unfold with_name, sane. cbn [v_name v_data v_fd v_map v_next v_safe].
  split; [|split; [auto|split; [auto|split; [|auto]]]].
  - intros q i. unfold upd. destruct (eqs q p); [apply Hx|apply A1].
  - unfold upd. destruct (eqs [] p) as [E|]; [|exact A4]. destruct x as [i|]; [|reflexivity]. destruct (Hx i eq_refl). congruence.
Qed.
Lemma with_data_sane v i d s : sane v -> ext s d -> sane (with_data v i d s).
Proof.
  intros (A1 & A2 & A3 & A4 & A5) Hx. unfold with_data, sane. cbn [v_name v_data v_fd v_map v_next v_safe].
  split; [auto|]. split; [auto|]. split; [auto|]. split; [auto|].
  intros j. unfold upd. destruct (Nat.eq_dec j i); [exact Hx|apply A5].
Qed.
Lemma with_map_sane v b x : sane v -> (forall i n, x = Some (i, n) -> i < v_next v) -> sane (with_map v b x).
Proof.
  intros (A1 & A2 & A3 & A4 & A5) Hx. unfold with_map, sane. cbn [v_name v_data v_fd v_map v_next v_safe].
  split; [auto|]. split; [auto|]. split; [|auto]. intros c i n. unfold upd. destruct (N.eq_dec c b); [apply Hx|apply A3].
Qed.

Lemma kstep_sane v e v' : kstep v e v' -> sane v -> sane v'.
Proof.
  intros K Sn. pose proof Sn as (A1 & A2 & A3 & A4 & A5). destruct K; try exact Sn.
  - apply with_fd_sane; [exact Sn|]. intros y E. injection E as <-. cbn. split; [lia|]. split; [lia|]. eapply A1; eauto.
  - apply with_fd_sane; [apply with_data_sane; [exact Sn|apply ext_nil]|]. intros y E. injection E as <-. cbn. split; [lia|]. split; [lia|]. eapply A1; eauto.
  - apply with_fd_sane; [exact Sn|]. intros y E. injection E as <-. cbn. split; [lia|]. split; [lia|]. eapply A1; eauto.
  - apply with_fd_sane; [exact Sn|]. intros y E. injection E as <-. cbn. split; [lia|]. split; [lia|]. eapply A1; eauto.
  - apply with_fd_sane; [apply create_sane; assumption|]. intros y E. injection E as <-. cbn. lia.
  - apply with_fd_sane; [exact Sn|]. discriminate.
  - cbv zeta. apply with_fd_sane.
    + apply with_data_sane; [exact Sn|]. apply put_ext. exact (A5 _).
    + intros y E. injection E as <-. cbn [d_off d_ino with_data v_next]. destruct (A2 _ _ H0) as (? & ? & ?). split; [lia|]. split; [lia|auto].
  - apply with_fd_sane; [exact Sn|]. intros y E. injection E as <-. cbn. destruct (A2 _ _ H) as (? & ? & ?). split; [lia|]. split; [lia|auto].
  - apply with_fd_sane; [exact Sn|]. intros y E. injection E as <-. cbn. destruct (A2 _ _ H) as (? & ? & ?). split; [lia|]. split; [lia|auto].
  - unfold synced, sane. cbn [v_name v_data v_fd v_map v_next v_safe]. split; [auto|]. split; [auto|]. split; [auto|]. split; [auto|].
    intros j. unfold upd. destruct (Nat.eq_dec j (d_ino x)) as [->|]; [apply ext_refl|apply A5].
  - apply with_map_sane; [exact Sn|]. intros i n E. injection E as <- _. eapply A2; eauto.
  - apply with_map_sane; [exact Sn|]. discriminate.
  - apply with_name_sane; [exact Sn|]. discriminate.
  - apply create_sane; assumption.
  - apply with_name_sane; [exact Sn|]. discriminate.
  - apply with_name_sane; [apply with_name_sane; [exact Sn|]|discriminate]. intros j E. injection E as <-. split; [assumption|]. eapply A1; eauto.
Qed.
Lemma ksteps_sane v l v' : ksteps v l v' -> sane v -> sane v'.
Proof. induction 1; intros Sn; [exact Sn|]. apply IHksteps. eapply kstep_sane; eauto. Qed.

(** ** What the calls on one writable file do *)
Record wframe (fd : Z) (i : nat) (v v' : view) : Prop := {
  wf_name : forall p, v_name v' p = v_name v p;
  wf_next : v_next v' = v_next v;
  wf_map : forall b, v_map v' b = v_map v b;
  wf_dir : forall d, v_dir v' d = v_dir v d;
  wf_fd : forall y, y <> fd -> v_fd v' y = v_fd v y;
  wf_data : forall j, j <> i -> v_data v' j = v_data v j;
  wf_len : length (v_data v i) <= length (v_data v' i);
  wf_safe : forall j, j <> i -> ext (v_safe v j) (v_safe v' j);
  wf_sure : forall p, v_sure v p = true -> v_sure v' p = true }.
Lemma wframe_refl fd i v : wframe fd i v v.
Proof. constructor; auto. intros. apply ext_refl. Qed.
Lemma wframe_trans fd i v1 v2 v3 : wframe fd i v1 v2 -> wframe fd i v2 v3 -> wframe fd i v1 v3.
Proof.
  intros A C. destruct A, C. constructor; intros.
  - rewrite wf_name1. auto.
  - congruence.
  - rewrite wf_map1. auto.
  - rewrite wf_dir1. auto.
  - rewrite wf_fd1 by assumption. auto.
  - rewrite wf_data1 by assumption. auto.
  - lia.
  - eapply ext_trans; [apply wf_safe0; assumption|apply wf_safe1; assumption].
  - auto.
Qed.

Definition at_end (v : view) (fd : Z) (i : nat) : Prop :=
  exists x, v_fd v fd = Some x /\ d_ino x = i /\ (d_app x = true \/ d_off x = Z.of_nat (length (v_data v i))).
Definition opens_ino (v : view) (fd : Z) (i : nat) : Prop := exists x, v_fd v fd = Some x /\ d_ino x = i.

Lemma write_view v fd d a v' i : kstep v (CWrite fd d, a) v' -> sane v -> opens_ino v fd i ->
  wframe fd i v v' /\ opens_ino v' fd i /\
  (at_end v fd i -> at_end v' fd i /\ v_data v' i = v_data v i ++ taken (CWrite fd d, a) /\ v_safe v' i = v_safe v i).
Proof.
  intros K Sn (x0 & Hx0 & Hi). inversion K; subst.
  - discriminate.
  - split; [apply wframe_refl|]. split; [exists x0; auto|]. intros E. split; [exact E|]. split; [|reflexivity].
    cbn [taken]. replace (Z.to_nat (a_ret a)) with 0 by lia. cbn [firstn]. now rewrite app_nil_r.
  - assert (x0 = x) by congruence. subst x0. cbv zeta.
    set (p := if d_app x then length (v_data v (d_ino x)) else Z.to_nat (d_off x)).
    split; [|split].
    + constructor; cbn [with_fd with_data v_name v_data v_fd v_map v_dir v_next v_safe v_sure]; auto.
      * intros y Hy. now rewrite upd_ne.
      * intros j Hj. now rewrite upd_ne.
      * rewrite upd_eq. apply put_length.
      * intros j Hj. rewrite upd_ne by exact Hj. apply ext_refl.
    + eexists. cbn [with_fd v_fd]. rewrite upd_eq. split; [reflexivity|reflexivity].
    + intros (y & Hy & _ & He). assert (y = x) by congruence. subst y.
      assert (Hp : p = length (v_data v (d_ino x))).
      { unfold p. destruct (d_app x); [reflexivity|]. destruct He as [He|He]; [discriminate|]. rewrite He. now rewrite Nat2Z.id. }
      split; [|split].
      * eexists. cbn [with_fd with_data v_fd v_data]. rewrite upd_eq. split; [reflexivity|]. split; [reflexivity|]. right.
        cbn [d_off]. rewrite upd_eq, put_end by exact Hp. rewrite app_length, Hp. reflexivity.
      * cbn [with_fd with_data v_data]. rewrite upd_eq, put_end by exact Hp. reflexivity.
      * cbn [with_fd with_data v_safe]. rewrite upd_eq. apply firstn_all2. rewrite Hp. destruct Sn as (_ & _ & _ & _ & Hs).
        destruct (Hs (d_ino x)) as (r & ->). rewrite app_length. lia.
Qed.

Lemma writes_view fd i l : only_writes fd l -> forall v v', ksteps v l v' -> sane v -> opens_ino v fd i ->
  wframe fd i v v' /\ opens_ino v' fd i /\
  (at_end v fd i -> at_end v' fd i /\ v_data v' i = v_data v i ++ all_taken l /\ v_safe v' i = v_safe v i).
Proof.
  induction 1 as [|[c a] l (d & Hd) Hl IH]; intros v v' K Sn Ho.
  - apply ksteps_nil in K. subst v'. split; [apply wframe_refl|]. split; [exact Ho|]. intros E. split; [exact E|]. cbn. rewrite app_nil_r. auto.
  - cbn [fst] in Hd. subst c. inversion K as [|? ? v1 ? ? K1 K2]; subst.
    destruct (write_view _ _ _ _ _ _ K1 Sn Ho) as (F1 & O1 & E1).
    destruct (IH _ _ K2 (kstep_sane _ _ _ K1 Sn) O1) as (F2 & O2 & E2).
    split; [eapply wframe_trans; eauto|]. split; [exact O2|]. intros E. destruct (E1 E) as (E3 & D1 & S1). destruct (E2 E3) as (E4 & D2 & S2).
    split; [exact E4|]. split; [|congruence]. rewrite D2, D1, <- app_assoc. reflexivity.
Qed.

(** On a descriptor that is not open nothing is written. *)
Lemma writes_dead fd l : only_writes fd l -> forall v v', ksteps v l v' -> v_fd v fd = None -> v' = v.
Proof.
  induction 1 as [|[c a] l (d & Hd) Hl IH]; intros v v' K Hn.
  - apply ksteps_nil in K. exact K.
  - cbn [fst] in Hd. subst c. inversion K as [|? ? v1 ? ? K1 K2]; subst.
    assert (v1 = v) by (inversion K1; subst; [discriminate|reflexivity|congruence]). subst v1. eauto.
Qed.

Lemma close_frame v fd i : wframe fd i v (with_fd v fd None).
Proof. constructor; cbn [with_fd v_name v_data v_fd v_map v_dir v_next v_safe v_sure]; auto; [intros; now rewrite upd_ne|intros; apply ext_refl]. Qed.

(** A descriptor opened and closed again. *)
Record same_files (v v' : view) : Prop := {
  sf_name : forall p, v_name v' p = v_name v p;
  sf_next : v_next v' = v_next v;
  sf_map : forall b, v_map v' b = v_map v b;
  sf_dir : forall d, v_dir v' d = v_dir v d;
  sf_fd : forall y, v_fd v' y = v_fd v y;
  sf_data : forall j, v_data v' j = v_data v j;
  sf_safe : forall j, ext (v_safe v j) (v_safe v' j);
  sf_sure : forall p, v_sure v p = true -> v_sure v' p = true }.
Lemma same_refl v : same_files v v.
Proof. constructor; auto. intros. apply ext_refl. Qed.
Lemma same_frame fd i v v' : same_files v v' -> wframe fd i v v'.
Proof. intros A. destruct A. constructor; auto. now rewrite sf_data0. Qed.

Lemma dirsync_view f ld good v v' : dirsync f ld good -> ksteps v ld v' -> sane v ->
  same_files v v' /\
  (good = true -> f_manifest f = true -> exists j, v_name v (f_dir f) = Some j /\ forall p, v_name v (parent p) = Some j -> v_sure v' p = true).
Proof.
  intros D K Sn. destruct D as [(Hm & -> & Hg)|(Hm & [(a & -> & Ha & Hg)|(a & a1 & a2 & -> & Ha & Hg)])].
  - apply ksteps_nil in K. subst v'. split; [apply same_refl|]. congruence.
  - apply ksteps_one in K. split; [|congruence]. inversion K; subst; try lia; try discriminate; apply same_refl.
  - inversion K as [|? ? v1 ? ? K1 K']; subst. inversion K' as [|? ? v2 ? ? K2 K'']; subst. apply ksteps_one in K''.
    inversion K1; subst; try lia; try discriminate; try congruence.
    inversion K''; subst; try discriminate.
    inversion K2; subst; try discriminate.
    + (* the directory fsync failed *)
      split.
      * constructor; cbn [with_fd v_name v_data v_fd v_map v_dir v_next v_safe v_sure]; auto; [|intros; apply ext_refl].
        intros y. unfold upd. destruct (Z.eq_dec y (a_ret a)) as [->|]; auto.
      * intros Hg. apply Z.eqb_eq in Hg. lia.
    + cbn [with_fd v_fd] in H3. rewrite upd_eq in H3. injection H3 as <-. cbn [d_ino].
      split.
      * constructor; cbn [with_fd synced v_name v_data v_fd v_map v_dir v_next v_safe v_sure]; auto.
        -- intros y. unfold upd. destruct (Z.eq_dec y (a_ret a)) as [->|]; auto.
        -- intros j. unfold upd. destruct (Nat.eq_dec j i) as [->|]; [|apply ext_refl]. destruct Sn as (_ & _ & _ & _ & Hs). apply Hs.
        -- intros p ->. reflexivity.
      * intros _ _. exists i. split; [assumption|]. intros p Hp. cbn [with_fd synced v_sure v_name]. rewrite Hp, Nat.eqb_refl. apply orb_true_r.
Qed.

Definition sure_dir (v v' : view) (f : wfile) : Prop :=
  exists j, v_name v (f_dir f) = Some j /\ forall p, v_name v (parent p) = Some j -> v_sure v' p = true.

Section Ops.
  Variable B : nat.
  Variable strerror : Z -> str.
  Variable S : Type.

  Lemma op_view w f b o w' f' st l b' v v' i :
    op_ok B strerror S w f b o w' f' st l b' -> ksteps v l v' -> sane v -> opens_ino v (f_fd f) i ->
    wframe (f_fd f) i v v' /\
    (is_close o = false -> opens_ino v' (f_fd f) i) /\ (is_close o = true -> v_fd v' (f_fd f) = None) /\
    (at_end v (f_fd f) i -> v_data v' i = v_data v i ++ all_taken l /\ ext (v_safe v i) (v_safe v' i) /\
       (is_close o = false -> at_end v' (f_fd f) i)) /\
    (o = OpSync -> st = SOk -> v_safe v' i = v_data v' i /\ (f_manifest f = true -> sure_dir v v' f)).
  Proof.
    intros Q K Sn Ho. pose proof (so_shape _ _ _ _ _ _ _ _ _ _ _ _ Q) as Sh. clear Q.
    destruct o as [d| | |]; cbn [shape is_close] in Sh |- *.
    - destruct (writes_view _ _ _ Sh _ _ K Sn Ho) as (F & O & E). split; [exact F|]. split; [auto|]. split; [discriminate|].
      split; [|discriminate]. intros Ae. destruct (E Ae) as (E1 & E2 & E3). split; [exact E2|]. split; [rewrite E3; apply ext_refl|auto].
    - destruct (writes_view _ _ _ Sh _ _ K Sn Ho) as (F & O & E). split; [exact F|]. split; [auto|]. split; [discriminate|].
      split; [|discriminate]. intros Ae. destruct (E Ae) as (E1 & E2 & E3). split; [exact E2|]. split; [rewrite E3; apply ext_refl|auto].
    - destruct Sh as (ld & lr & good & -> & D & C). apply ksteps_app in K as (v1 & K1 & K2).
      destruct (dirsync_view _ _ _ _ _ D K1 Sn) as (F1 & G1).
      pose proof (ksteps_sane _ _ _ K1 Sn) as Sn1.
      assert (Td : all_taken ld = []).
      { destruct D as [(_ & -> & _)|(_ & [(a & -> & _)|(a & a1 & a2 & -> & _)])]; reflexivity. }
      assert (Ho1 : opens_ino v1 (f_fd f) i).
      { destruct Ho as (x & Hx & Hi). exists x. rewrite (sf_fd _ _ F1). auto. }
      assert (At1 : at_end v (f_fd f) i -> at_end v1 (f_fd f) i).
      { intros (x & Hx & Hi & He). exists x. rewrite (sf_fd _ _ F1), (sf_data _ _ F1). auto. }
      rewrite all_taken_app, Td. cbn [app].
      destruct C as [(Hg & -> & Hst)|(Hg & lw & lt & -> & Hw & C)].
      + apply ksteps_nil in K2. subst v'. split; [apply same_frame; exact F1|]. split; [auto|]. split; [discriminate|]. split; [|congruence].
        intros Ae. cbn. rewrite app_nil_r. split; [apply (sf_data _ _ F1)|]. split; [apply (sf_safe _ _ F1)|auto].
      + apply ksteps_app in K2 as (v2 & K2 & K3). destruct (writes_view _ _ _ Hw _ _ K2 Sn1 Ho1) as (F2 & O2 & E2).
        pose proof (ksteps_sane _ _ _ K2 Sn1) as Sn2.
        assert (F12 : wframe (f_fd f) i v v2) by (eapply wframe_trans; [apply same_frame; exact F1|exact F2]).
        rewrite all_taken_app.
        assert (D12 : at_end v (f_fd f) i -> at_end v2 (f_fd f) i /\ v_data v2 i = v_data v i ++ all_taken lw /\ ext (v_safe v i) (v_safe v2 i)).
        { intros Ae. destruct (E2 (At1 Ae)) as (A1 & A2 & A3). split; [exact A1|]. rewrite A2, A3, (sf_data _ _ F1). split; [reflexivity|]. apply (sf_safe _ _ F1). }
        destruct C as [(-> & Hst)|(a & -> & Hst)].
        * apply ksteps_nil in K3. subst v'. split; [exact F12|]. split; [auto|]. split; [discriminate|]. split; [|congruence].
          intros Ae. destruct (D12 Ae) as (A1 & A2 & A3). cbn. rewrite app_nil_r. auto.
        * apply ksteps_one in K3. change (all_taken [(CFsync (f_fd f), a)]) with (@nil N). rewrite app_nil_r. inversion K3; subst; try discriminate.
          -- split; [exact F12|]. split; [auto|]. split; [discriminate|].
             split; [intros Ae; destruct (D12 Ae) as (A1 & A2 & A3); auto|].
             intros _ E. apply Hst in E. lia.
          -- assert (Hix : d_ino x = i) by (destruct O2 as (y & Hy & Hi); congruence). subst i.
             assert (F3 : same_files v2 (synced v2 (d_ino x))).
             { constructor; cbn [synced v_name v_data v_fd v_map v_dir v_next v_safe v_sure]; auto.
               - intros j. unfold upd. destruct (Nat.eq_dec j (d_ino x)) as [->|]; [|apply ext_refl]. destruct Sn2 as (_ & _ & _ & _ & Hs). apply Hs.
               - intros p ->. reflexivity. }
             split; [eapply wframe_trans; [exact F12|apply same_frame; exact F3]|]. split; [auto|]. split; [discriminate|]. split.
             ++ intros Ae. destruct (D12 Ae) as (A1 & A2 & A3). split; [exact A2|]. split; [|auto].
                eapply ext_trans; [exact A3|apply (sf_safe _ _ F3)].
             ++ intros _ _. cbn [synced v_safe v_data]. rewrite upd_eq. split; [reflexivity|]. intros Hm.
                destruct (G1 eq_refl Hm) as (j & Hj & Hp). exists j. split; [exact Hj|]. intros p E. apply (sf_sure _ _ F3), (wf_sure _ _ _ _ F2). auto.
    - destruct Sh as (lw & a & -> & Hw). apply ksteps_app in K as (v1 & K1 & K2). apply ksteps_one in K2.
      destruct (writes_view _ _ _ Hw _ _ K1 Sn Ho) as (F & O & E). inversion K2; subst; try discriminate.
      split; [eapply wframe_trans; [exact F|apply close_frame]|]. split; [discriminate|]. split; [intros _; cbn [with_fd v_fd]; apply upd_eq|].
      split; [|discriminate]. intros Ae. destruct (E Ae) as (E1 & E2 & E3). cbn [with_fd v_data v_safe].
      rewrite all_taken_app, E3. cbn. rewrite app_nil_r. split; [exact E2|]. split; [apply ext_refl|discriminate].
  Qed.

  (** On an object that is closed. *)
  Lemma op_view_dead w f b o w' f' st l b' v v' :
    op_ok B strerror S w f b o w' f' st l b' -> ksteps v l v' -> sane v -> (f_fd f < 0)%Z -> same_files v v' /\ (o = OpSync -> st <> SOk).
  Proof.
    intros Q K Sn Hf. pose proof (so_shape _ _ _ _ _ _ _ _ _ _ _ _ Q) as Sh. pose proof (so_lok _ _ _ _ _ _ _ _ _ _ _ _ Q) as Lk. clear Q.
    assert (Hn : forall u, sane u -> v_fd u (f_fd f) = None).
    { intros u (_ & A2 & _). destruct (v_fd u (f_fd f)) eqn:E; [|reflexivity]. apply A2 in E. lia. }
    destruct o as [d| | |]; cbn [shape is_close] in Sh |- *.
    - rewrite (writes_dead _ _ Sh _ _ K (Hn _ Sn)). split; [apply same_refl|discriminate].
    - rewrite (writes_dead _ _ Sh _ _ K (Hn _ Sn)). split; [apply same_refl|discriminate].
    - destruct Sh as (ld & lr & good & -> & D & C). apply ksteps_app in K as (v1 & K1 & K2). apply Forall_app in Lk as (_ & Lk).
      destruct (dirsync_view _ _ _ _ _ D K1 Sn) as (F1 & G1).
      pose proof (ksteps_sane _ _ _ K1 Sn) as Sn1.
      destruct C as [(Hg & -> & Hst)|(Hg & lw & lt & -> & Hw & C)].
      + apply ksteps_nil in K2. subst v'. auto.
      + apply ksteps_app in K2 as (v2 & K2 & K3). apply Forall_app in Lk as (_ & Lk). rewrite (writes_dead _ _ Hw _ _ K2 (Hn _ Sn1)) in *.
        destruct C as [(-> & Hst)|(a & -> & Hst)].
        * apply ksteps_nil in K3. subst v'. auto.
        * apply ksteps_one in K3. inversion Lk as [|? ? L1 _]; subst. cbn [fst snd answer_ok] in L1.
          assert (E : v' = v1). { inversion K3; subst; try discriminate; try reflexivity. rewrite (Hn _ Sn1) in *. discriminate. }
          subst v'. split; [exact F1|]. intros _ E. apply Hst in E. now apply L1 in E.
    - destruct Sh as (lw & a & -> & Hw). apply ksteps_app in K as (v1 & K1 & K2). apply ksteps_one in K2.
      rewrite (writes_dead _ _ Hw _ _ K1 (Hn _ Sn)) in *. inversion K2; subst; try discriminate. split; [|discriminate].
      constructor; cbn [with_fd v_name v_data v_fd v_map v_dir v_next v_safe v_sure]; auto; [|intros; apply ext_refl].
      intros y. unfold upd. destruct (Z.eq_dec y (f_fd f)) as [->|]; [rewrite (Hn _ Sn); reflexivity|reflexivity].
  Qed.
End Ops.

(** ** What the other calls do *)
Lemma open_read_inv v p a v' : kstep v (COpen p RdOnly, a) v' ->
  (a_ret a = (-1)%Z /\ v' = v /\ (a_errno a = ENOENT -> v_name v p = None)) \/
  ((0 <= a_ret a)%Z /\ v_fd v (a_ret a) = None /\ exists i, v_name v p = Some i /\ v' = with_fd v (a_ret a) (Some (mk_fdesc i 0 false))).
Proof.
  intros K. inversion K; subst; try discriminate; [left; auto|right; eauto|congruence].
Qed.
Definition opened_write (v : view) (p : str) (fl : oflags) (i : nat) (v1 : view) : Prop :=
  (v_name v p = Some i /\ v1 = match fl with WrTrunc => with_data v i [] [] | _ => v end) \/
  (v_name v p = None /\ p <> [] /\ i = v_next v /\ v1 = create v p).
Lemma open_write_inv v p fl a v' : kstep v (COpen p fl, a) v' -> fl <> RdOnly ->
  (a_ret a = (-1)%Z /\ v' = v) \/
  ((0 <= a_ret a)%Z /\ v_fd v (a_ret a) = None /\ exists i v1, opened_write v p fl i v1 /\
     v' = with_fd v1 (a_ret a) (Some (mk_fdesc i 0 (match fl with WrAppend => true | _ => false end)))).
Proof.
  intros K Hf. inversion K; subst; try discriminate; try congruence; [left; auto| | | |]; right; (split; [assumption|]; split; [assumption|]).
  - exists i, (with_data v i [] []). split; [left; auto|reflexivity].
  - exists i, v. split; [left; auto|reflexivity].
  - exists i, v. split; [left; auto|reflexivity].
  - exists (v_next v), (create v p). split; [right; auto|reflexivity].
Qed.
Lemma close_inv v fd a v' : kstep v (CClose fd, a) v' -> v' = with_fd v fd None.
Proof. intros K. inversion K; subst; try discriminate. reflexivity. Qed.
Lemma open_write_noent v p fl a v' : kstep v (COpen p fl, a) v' -> fl <> RdOnly -> (a_ret a < 0)%Z -> a_errno a = ENOENT -> p = [] \/ v_name v (parent p) = None.
Proof. intros K Hf Hr He. inversion K; subst; try discriminate; try lia. destruct fl; try congruence; match goal with Hx : _ -> noent_ok _ _ |- _ => exact (Hx He) end. Qed.
Lemma mkdir_noent v p a v' : kstep v (CMkdir p, a) v' -> a_ret a <> 0%Z -> a_errno a = ENOENT -> p = [] \/ v_name v (parent p) = None.
Proof. intros K Hr He. inversion K; subst; try discriminate; try lia. match goal with Hx : _ -> noent_ok _ _ |- _ => exact (Hx He) end. Qed.
Lemma rename_noent v p q a v' : kstep v (CRename p q, a) v' -> a_ret a <> 0%Z -> a_errno a = ENOENT -> v_name v p = None \/ q = [] \/ v_name v (parent q) = None.
Proof. intros K Hr He. inversion K; subst; try discriminate; try lia. match goal with Hx : _ -> noent_ok _ _ |- _ => exact (Hx He) end. Qed.
Lemma mmap_noent v fd n a v' : kstep v (CMmap fd n, a) v' -> a_ret a = (-1)%Z -> a_errno a <> ENOENT.
Proof. intros K Hr He. inversion K; subst; try discriminate; try lia. match goal with Hx : _ -> noent_ok _ _ |- _ => exact (Hx He) end. Qed.
Lemma stat_inv v p a v' : kstep v (CStat p, a) v' -> v' = v /\
  ((a_ret a = (-1)%Z /\ (a_errno a = ENOENT -> v_name v p = None)) \/
   (a_ret a = 0%Z /\ exists i, v_name v p = Some i /\ a_val a = N.of_nat (length (v_data v i)))).
Proof. intros K. inversion K; subst; try discriminate; split; auto. right. eauto. Qed.
Lemma mmap_inv v fd len a v' : kstep v (CMmap fd len, a) v' ->
  (a_ret a = (-1)%Z /\ v' = v) \/
  ((0 <= a_ret a)%Z /\ v_map v (a_val a) = None /\ exists x, v_fd v fd = Some x /\ v' = with_map v (a_val a) (Some (d_ino x, len))).
Proof. intros K. inversion K; subst; try discriminate; [auto|right; eauto]. Qed.
Lemma munmap_inv v b len a v' i : kstep v (CMunmap b len, a) v' -> v_map v b = Some (i, len) -> v' = with_map v b None.
Proof. intros K Hm. inversion K; subst; try discriminate; auto. exfalso. match goal with Hx : forall _, v_map _ _ <> _ |- _ => exact (Hx _ Hm) end. Qed.
Lemma pread_inv v fd n off a v' : kstep v (CPread fd n off, a) v' -> v' = v /\
  ((a_ret a = (-1)%Z) \/
   exists x, v_fd v fd = Some x /\ (0 <= off)%Z /\ a_ret a = Z.of_nat (length (a_data a)) /\ (N.of_nat (length (a_data a)) <= n)%N /\
     a_data a = firstn (length (a_data a)) (skipn (Z.to_nat off) (v_data v (d_ino x))) /\
     (a_data a = [] -> n = 0%N \/ length (v_data v (d_ino x)) <= Z.to_nat off)).
Proof. intros K. inversion K; subst; try discriminate; split; auto. right. exists x. auto 7. Qed.
Lemma read_inv v fd n a v' : kstep v (CRead fd n, a) v' ->
  (a_ret a = (-1)%Z /\ v' = v) \/
  (exists x, v_fd v fd = Some x /\ a_ret a = Z.of_nat (length (a_data a)) /\ (N.of_nat (length (a_data a)) <= n)%N /\
     a_data a = firstn (length (a_data a)) (skipn (Z.to_nat (d_off x)) (v_data v (d_ino x))) /\
     (a_data a = [] -> n = 0%N \/ length (v_data v (d_ino x)) <= Z.to_nat (d_off x)) /\
     v' = with_fd v fd (Some (mk_fdesc (d_ino x) (d_off x + a_ret a) (d_app x)))).
Proof. intros K. inversion K; subst; try discriminate; [auto|]. right. exists x. auto 7. Qed.
Lemma lseek_inv v fd off a v' : kstep v (CLseek fd off, a) v' ->
  (a_ret a = (-1)%Z /\ v' = v) \/
  (exists x, v_fd v fd = Some x /\ a_ret a = (d_off x + off)%Z /\ (0 <= a_ret a)%Z /\ v' = with_fd v fd (Some (mk_fdesc (d_ino x) (a_ret a) (d_app x)))).
Proof. intros K. inversion K; subst; try discriminate; [auto|]. right. exists x. auto. Qed.
Lemma access_inv v p a v' : kstep v (CAccess p, a) v' -> v' = v /\
  ((a_ret a = (-1)%Z /\ (a_errno a = ENOENT -> v_name v p = None)) \/ (a_ret a = 0%Z /\ v_name v p <> None)).
Proof. intros K. inversion K; subst; try discriminate; split; auto. Qed.
Lemma unlink_inv v p a v' : kstep v (CUnlink p, a) v' ->
  (a_ret a = (-1)%Z /\ v' = v /\ (a_errno a = ENOENT -> v_name v p = None)) \/ (a_ret a = 0%Z /\ v_name v p <> None /\ v' = with_name v p None).
Proof. intros K. inversion K; subst; try discriminate; auto. Qed.
Lemma rmdir_inv v p a v' : kstep v (CRmdir p, a) v' ->
  (a_ret a = (-1)%Z /\ v' = v /\ (a_errno a = ENOENT -> v_name v p = None)) \/ (a_ret a = 0%Z /\ v_name v p <> None /\ v' = with_name v p None).
Proof. intros K. inversion K; subst; try discriminate; auto. Qed.
Lemma mkdir_inv v p a v' : kstep v (CMkdir p, a) v' ->
  (a_ret a = (-1)%Z /\ v' = v) \/ (a_ret a = 0%Z /\ v_name v p = None /\ p <> [] /\ v' = create v p).
Proof. intros K. inversion K; subst; try discriminate; auto. Qed.
Lemma rename_inv v p q a v' : kstep v (CRename p q, a) v' ->
  (a_ret a = (-1)%Z /\ v' = v) \/
  (a_ret a = 0%Z /\ exists i, v_name v p = Some i /\
    ((v_name v q = Some i /\ v' = v) \/ (v_name v q <> Some i /\ q <> [] /\ v' = with_name (with_name v q (Some i)) p None))).
Proof. intros K. inversion K; subst; try discriminate; [auto|right|right]; split; auto; eauto 7. Qed.
