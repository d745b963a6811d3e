(** PosixConcFacts.v -- consequences of the invariant of PosixConcProofs.v. *)
From Coq Require Import List Arith NArith ZArith Lia Bool Permutation.
From Verif Require Import Outcome Status MemEnv PosixOs PosixWritable PosixRead PosixEnv PosixFs PosixEnvSpec PosixConc PosixConcSpec PosixConcSafe PosixConcHeld PosixConcInv PosixConcProofs PosixConcTrace.
Import ListNotations.

Lemma alive_kind tr h k f k' f' : alive tr h k f -> alive tr h k' f' -> k = k' /\ f = f'.
Proof. intros ((x & A1 & A2 & _) & _) ((y & B1 & B2 & _) & _). rewrite A1 in B1. injection B1 as <-. rewrite A2 in B2. injection B2 as <- <-. auto. Qed.

Lemma nodup_fst {A} (l : list (nat * A)) h x y : NoDup (map fst l) -> In (h, x) l -> In (h, y) l -> x = y.
Proof.
  induction l as [|[k z] l IH]; cbn [map fst]; intros N [] H2; inversion N; subst.
  - injection H as -> ->. destruct H2 as [E|H2]; [congruence|]. exfalso. apply (in_map fst) in H2. auto.
  - destruct H2 as [E|H2]; [|auto]. injection E as -> ->. exfalso. apply (in_map fst) in H. auto.
Qed.

Section Facts.
  Variable dbg : bool.
  Variable B : nat.
  Variable strerror : Z -> str.
  Variables (v0 : view) (lim0 : limits) (m0 : nat).
  Hypothesis S0 : forall fd, v_fd v0 fd <> None -> (0 <= fd)%Z.
  Notation cstep := (cstep dbg B strerror).
  Notation cruns := (cruns dbg B strerror v0 lim0 m0).
  Notation inv := (inv B v0 lim0).
  Notation inv_runs := (inv_runs dbg B strerror v0 lim0 m0 S0).
  Notation did_runs := (did_runs dbg B strerror v0 lim0 m0 S0).
  Notation all cf Rs := (obj_items (c_objs cf) ++ all_thr (c_thr cf) Rs).

  (** Everything is held by a running call or by a live object. *)
  Lemma item_of tr cf Rs m i : inv tr cf Rs -> In (m, i) (all cf Rs) ->
    (exists o, In (m, o) (c_objs cf) /\ In i (items o)) \/
    (exists t x p R, nth_error (c_thr cf) t = Some (TIn m x p) /\ nth_error Rs t = Some R /\ exists b, In (b, i) R /\ who m x b = m) \/
    (exists t n x p R k f, nth_error (c_thr cf) t = Some (TIn n x p) /\ nth_error Rs t = Some R /\ In (true, i) R /\ on x = Some m /\ shared x = false /\
       alive tr m k f /\ wf (Some k) R).
  Proof.
    intros H X. apply in_app_or in X. destruct X as [X|X]; [left; apply in_obj_items; exact X|right].
    apply all_thr_in in X. destruct X as (t & T & R & ET & ER & X). destruct T as [|n x p]; [destruct X|]. cbn [thr_items] in X. apply tag_in in X. destruct X as (b & X & E).
    destruct (i_thr _ _ _ _ _ _ H _ _ _ _ _ ET ER) as [Cn En (o & Sf & Wf & IO)].
    destruct b; cbn [who] in E; [|subst m; left; exists t, x, p, R; split; [exact ET|]; split; [exact ER|]; exists false; auto].
    unfold its_object in IO. destruct (on x) as [h|] eqn:Ox; subst m.
    - right. destruct IO as (ob & -> & Al & _). destruct (sh_dec x) as [Sx|Sx].
      + exfalso. unfold okind in Wf. rewrite Sx in Wf. exact (wf_tags _ _ Wf eq_refl i X).
      + unfold okind in Wf. rewrite Sx in Wf. cbn [option_map] in Wf. exists t, n, x, p, R, (kind_of ob), (oname ob). auto 8.
    - left. exists t, x, p, R. split; [exact ET|]. split; [exact ER|]. exists false. cbn [who]. split; [|reflexivity]. exfalso. subst o. unfold okind in Wf. cbn [option_map] in Wf.
      assert (W : wf None R) by (destruct (shared x); exact Wf). exact (wf_tags _ _ W eq_refl i X).
  Qed.
  Lemma running tr cf Rs t n x p : inv tr cf Rs -> nth_error (c_thr cf) t = Some (TIn n x p) -> in_progress tr n /\ call_no tr n = Some x.
  Proof. intros H ET. destruct (thr_at _ _ _ _ (i_len _ _ _ _ _ _ H) ET) as (R & ER). destruct (i_thr _ _ _ _ _ _ H _ _ _ _ _ ET ER) as [Cn En _]. unfold in_progress. split; [split|]; congruence. Qed.
  Lemma item_holder tr cf Rs m i : inv tr cf Rs -> In (m, i) (all cf Rs) -> in_progress tr m \/ exists k f, alive tr m k f.
  Proof.
    intros H X. destruct (item_of _ _ _ _ _ H X) as [(o & I0 & _)|[(t & x & p & R & ET & _)|(t & n & x & p & R & k & f & _ & _ & _ & _ & _ & A & _)]].
    - right. exists (kind_of o), (oname o). apply (i_objs _ _ _ _ _ _ H _ _ I0).
    - left. apply (running _ _ _ _ _ _ _ H ET).
    - eauto.
  Qed.

  (** ** Safety of every step *)
  Lemma no_bad tr cf t n x o : cruns tr cf -> nth_error (c_thr cf) t = Some (TIn n x (PBad o)) -> o = BadFuel.
  Proof.
    intros R E. destruct (inv_runs _ _ R) as (Rs & H). destruct (thr_at _ _ _ _ (i_len _ _ _ _ _ _ H) E) as (R1 & ER). destruct (i_thr _ _ _ _ _ _ H _ _ _ _ _ E ER) as [_ _ (ob & Sf & _)]. exact Sf.
  Qed.

  (** ** What is open *)
  Lemma fd_held tr cf fd : cruns tr cf -> v_fd (now v0 tr) fd = v_fd v0 fd /\ owner tr fd = None \/
    exists m, owner tr fd = Some m /\ v_fd v0 fd = None /\ v_fd (now v0 tr) fd <> None /\ (0 <= fd)%Z /\ (in_progress tr m \/ exists k f, alive tr m k f).
  Proof.
    intros R. destruct (inv_runs _ _ R) as (Rs & H). rewrite (i_now _ _ _ _ _ _ H). destruct (owner tr fd) as [m|] eqn:O.
    - right. exists m. split; [reflexivity|]. pose proof (h_own _ _ _ _ _ _ (i_held _ _ _ _ _ _ H) _ _ O) as X. destruct (h_fd _ _ _ _ _ _ (i_held _ _ _ _ _ _ H) _ _ X) as (X1 & X2 & X3 & _).
      split; [exact X3|]. split; [exact X2|]. split; [exact X1|]. eapply item_holder; eassumption.
    - left. split; [|reflexivity]. destruct (h_fd0 _ _ _ _ _ _ (i_held _ _ _ _ _ _ H) fd) as [E|(m & X)]; [exact E|].
      destruct (h_fd _ _ _ _ _ _ (i_held _ _ _ _ _ _ H) _ _ X) as (_ & _ & _ & X4). congruence.
  Qed.
  Lemma map_held tr cf b : cruns tr cf -> v_map (now v0 tr) b = v_map v0 b /\ map_owner tr b = None \/
    exists m, map_owner tr b = Some m /\ v_map v0 b = None /\ v_map (now v0 tr) b <> None /\ (in_progress tr m \/ exists k f, alive tr m k f).
  Proof.
    intros R. destruct (inv_runs _ _ R) as (Rs & H). rewrite (i_now _ _ _ _ _ _ H). destruct (map_owner tr b) as [m|] eqn:O.
    - right. exists m. split; [reflexivity|]. destruct (h_mown _ _ _ _ _ _ (i_held _ _ _ _ _ _ H) _ _ O) as (len & X). destruct (h_map _ _ _ _ _ _ (i_held _ _ _ _ _ _ H) _ _ _ X) as ((i & X1) & X2 & _).
      split; [exact X2|]. split; [congruence|]. eapply item_holder; eassumption.
    - left. split; [|reflexivity]. destruct (h_map0 _ _ _ _ _ _ (i_held _ _ _ _ _ _ H) b) as [E|(m & len & X)]; [exact E|].
      destruct (h_map _ _ _ _ _ _ (i_held _ _ _ _ _ _ H) _ _ _ X) as (_ & _ & X4). congruence.
  Qed.
  Lemma dir_held tr cf d : cruns tr cf -> v_dir (now v0 tr) d = v_dir v0 d /\ dir_owner tr d = None \/
    exists m, dir_owner tr d = Some m /\ v_dir v0 d = None /\ v_dir (now v0 tr) d <> None /\ (in_progress tr m \/ exists k f, alive tr m k f).
  Proof.
    intros R. destruct (inv_runs _ _ R) as (Rs & H). rewrite (i_now _ _ _ _ _ _ H). destruct (dir_owner tr d) as [m|] eqn:O.
    - right. exists m. split; [reflexivity|]. pose proof (h_down _ _ _ _ _ _ (i_held _ _ _ _ _ _ H) _ _ O) as X. destruct (h_dir _ _ _ _ _ _ (i_held _ _ _ _ _ _ H) _ _ X) as (X1 & X2 & _).
      split; [exact X2|]. split; [exact X1|]. eapply item_holder; eassumption.
    - left. split; [|reflexivity]. destruct (h_dir0 _ _ _ _ _ _ (i_held _ _ _ _ _ _ H) d) as [E|(m & X)]; [exact E|].
      destruct (h_dir _ _ _ _ _ _ (i_held _ _ _ _ _ _ H) _ _ X) as (_ & _ & X4). congruence.
  Qed.
  Lemma fd_nonneg tr cf fd : cruns tr cf -> v_fd (now v0 tr) fd <> None -> (0 <= fd)%Z.
  Proof. intros R X. destruct (fd_held _ _ fd R) as [(E & _)|(m & _ & _ & _ & E & _)]; [apply S0; congruence|exact E]. Qed.
  Lemma quiet_items tr cf Rs : inv tr cf Rs -> quiet tr -> (forall h k f, ~ alive tr h k f) -> all cf Rs = [].
  Proof.
    intros H Q A. destruct (all cf Rs) as [|[m i] G] eqn:E; [reflexivity|]. exfalso. destruct (item_holder tr cf Rs m i H) as [X|(k & f & X)]; [rewrite E; left; reflexivity|exact (Q m X)|exact (A _ _ _ X)].
  Qed.
  Lemma nothing_left tr cf : cruns tr cf -> quiet tr -> (forall h k f, ~ alive tr h k f) ->
    (forall fd, v_fd (now v0 tr) fd = v_fd v0 fd) /\ (forall b, v_map (now v0 tr) b = v_map v0 b) /\ (forall d, v_dir (now v0 tr) d = v_dir v0 d) /\ c_lim cf = lim0.
  Proof.
    intros R Q A. destruct (inv_runs _ _ R) as (Rs & H). pose proof (quiet_items _ _ _ H Q A) as E. pose proof (i_held _ _ _ _ _ _ H) as Hd. rewrite E in Hd. rewrite (i_now _ _ _ _ _ _ H).
    split; [|split; [|split]].
    - intros fd. destruct (h_fd0 _ _ _ _ _ _ Hd fd) as [X|(m & [])]. exact X.
    - intros b. destruct (h_map0 _ _ _ _ _ _ Hd b) as [X|(m & len & [])]. exact X.
    - intros d. destruct (h_dir0 _ _ _ _ _ _ Hd d) as [X|(m & [])]. exact X.
    - pose proof (h_lim _ _ _ _ _ _ Hd LMmap) as X. pose proof (h_lim _ _ _ _ _ _ Hd LFd) as Y. cbn [lim_get slots_of debts_of flat_map] in X, Y. unfold zlen in X, Y. cbn [length] in X, Y. destruct (c_lim cf), lim0. cbn in *. f_equal; lia.
  Qed.
  Lemma one_fd tr cf h k f fd fd' : cruns tr cf -> alive tr h k f -> owner tr fd = Some h -> owner tr fd' = Some h -> fd = fd'.
  Proof.
    intros R A O O'. destruct (inv_runs _ _ R) as (Rs & H). pose proof (h_own _ _ _ _ _ _ (i_held _ _ _ _ _ _ H) _ _ O) as X. pose proof (h_own _ _ _ _ _ _ (i_held _ _ _ _ _ _ H) _ _ O') as X'.
    pose proof (alive_ended _ _ _ _ A) as Ae.
    assert (NR : forall t x p, nth_error (c_thr cf) t = Some (TIn h x p) -> False) by (intros t x p ET; destruct (running _ _ _ _ _ _ _ H ET) as ((_ & X1) & _); congruence).
    destruct (item_of _ _ _ _ _ H X) as [(o & I0 & J)|[(t & x & p & R1 & ET & _)|(t & n & x & p & R1 & k1 & f1 & ET & ER & J & Ox & Sx & _ & W)]]; [| exfalso; eauto |].
    - destruct (item_of _ _ _ _ _ H X') as [(o' & I0' & J')|[(t & x & p & R1 & ET & _)|(t & n & x & p & R1 & k1 & f1 & ET & ER & J' & Ox & Sx & _ & W)]]; [| exfalso; eauto |].
      + assert (o = o') by exact (nodup_fst _ _ _ _ (i_keys _ _ _ _ _ _ H) I0 I0'). subst o'.
        apply (wf_one _ _ (wf_items o)); apply in_map; assumption.
      + exfalso. destruct (i_thr _ _ _ _ _ _ H _ _ _ _ _ ET ER) as [_ _ (ob & _ & _ & IO)]. unfold its_object in IO. rewrite Ox in IO. destruct IO as (o1 & _ & _ & IO). rewrite Sx in IO. apply IO. apply (in_map fst) in I0. exact I0.
    - destruct (item_of _ _ _ _ _ H X') as [(o' & I0' & J')|[(t' & x' & p' & R' & ET' & _)|(t' & n' & x' & p' & R' & k' & f' & ET' & ER' & J' & Ox' & Sx' & _ & W')]]; [|exfalso; eauto|].
      + exfalso. destruct (i_thr _ _ _ _ _ _ H _ _ _ _ _ ET ER) as [_ _ (ob & _ & _ & IO)]. unfold its_object in IO. rewrite Ox in IO. destruct IO as (o1 & _ & _ & IO). rewrite Sx in IO. apply IO. apply (in_map fst) in I0'. exact I0'.
      + destruct (Nat.eq_dec t t') as [<-|N].
        * rewrite ER in ER'. injection ER' as <-. exact (wf_one _ _ W _ _ J J').
        * exfalso. pose proof (i_excl _ _ _ _ _ _ H _ _ _ _ _ _ _ _ _ N ET ET' Ox Ox'). congruence.
  Qed.

  (** ** How much is open *)
  Lemma maps_slots tr cf Rs : inv tr cf Rs -> length (maps (all cf Rs)) <= length (slots_of LMmap (all cf Rs)).
  Proof.
    intros H. unfold maps, slots_of. rewrite !flat_map_app, !app_length. apply Nat.add_le_mono.
    - generalize (c_objs cf). intros l. induction l as [|[h o] l IH]; cbn [obj_items flat_map fst snd]; [apply le_n|]. rewrite !flat_map_app, !app_length. apply Nat.add_le_mono; [|exact IH].
      destruct o as [f|f|[fd f|f|b len f]]; cbn; try lia. destruct (0 <=? f_fd f)%Z; cbn; lia.
    - assert (X : forall Ts Rs', (forall t n x p R, nth_error Ts t = Some (TIn n x p) -> nth_error Rs' t = Some R -> exists k, wf k R) ->
        length (flat_map (fun p : gitem => match snd p with IMap b _ => [b] | _ => [] end) (all_thr Ts Rs')) <=
        length (flat_map (fun p : gitem => match snd p with ISlot l' => if is_which LMmap l' then [fst p] else [] | _ => [] end) (all_thr Ts Rs'))).
      { induction Ts as [|T Ts IH]; intros [|R Rs'] W; cbn [all_thr flat_map]; try apply le_n. rewrite !flat_map_app, !app_length. apply Nat.add_le_mono.
        - destruct T as [|n x p]; [cbn; lia|]. destruct (W 0 n x p R eq_refl eq_refl) as (k & Wk). exact (wf_maps _ _ Wk n x).
        - apply IH. intros t n x p R1 E1 E2. exact (W (S t) n x p R1 E1 E2). }
      apply X. intros t n x p R ET ER. destruct (i_thr _ _ _ _ _ _ H _ _ _ _ _ ET ER) as [_ _ (o & _ & W & _)]. eauto.
  Qed.
  Lemma map_count tr cf bs : cruns tr cf -> NoDup bs -> (forall b, In b bs -> v_map (now v0 tr) b <> None /\ v_map v0 b = None) ->
    (Z.of_nat (length bs) <= Z.max 0 (l_mmap lim0))%Z.
  Proof.
    intros R N Hb. destruct (inv_runs _ _ R) as (Rs & H). pose proof (i_held _ _ _ _ _ _ H) as Hd.
    assert (L1 : length bs <= length (maps (all cf Rs))).
    { apply NoDup_incl_length; [exact N|]. intros b Ib. destruct (Hb b Ib) as (X & Y). rewrite (i_now _ _ _ _ _ _ H) in X. destruct (h_map0 _ _ _ _ _ _ Hd b) as [E|(m & len & Z)]; [congruence|]. eapply in_maps; exact Z. }
    pose proof (maps_slots _ _ _ H) as L2. pose proof (h_slots _ _ _ _ _ _ Hd LMmap) as L3. unfold zlen in L3. cbn [lim_get] in L3. lia.
  Qed.
  Lemma fd_count tr cf hs : cruns tr cf -> NoDup hs -> (forall h, In h hs -> exists f fd, alive tr h KRand f /\ owner tr fd = Some h) ->
    (Z.of_nat (length hs) <= Z.max 0 (l_fd lim0))%Z.
  Proof.
    intros R N Hb. destruct (inv_runs _ _ R) as (Rs & H). pose proof (i_held _ _ _ _ _ _ H) as Hd.
    assert (L1 : length hs <= length (slots_of LFd (all cf Rs))).
    { apply NoDup_incl_length; [exact N|]. intros h Ih. destruct (Hb h Ih) as (f & fd & A & O). pose proof (h_own _ _ _ _ _ _ Hd _ _ O) as X.
      assert (Y : In (h, ISlot LFd) (all cf Rs)).
      { destruct (item_of _ _ _ _ _ H X) as [(o & I0 & J)|[(t & x & p & R1 & ET & _)|(t & n & x & p & R1 & k1 & f1 & ET & ER & J & Ox & Sx & A1 & W)]].
        - apply in_or_app. left. eapply obj_items_in; [exact I0|]. destruct (i_objs _ _ _ _ _ _ H _ _ I0) as (_ & A1). destruct (alive_kind _ _ _ _ _ _ A A1) as (E & _).
          destruct o as [g|g|[fd' g|g|b len g]]; try discriminate E; cbn in J |- *; intuition discriminate.
        - exfalso. destruct (running _ _ _ _ _ _ _ H ET) as ((_ & X1) & _). pose proof (alive_ended _ _ _ _ A). congruence.
        - destruct (alive_kind _ _ _ _ _ _ A A1) as (<- & _). apply in_or_app. right. destruct (all_thr_at _ _ _ _ _ ET ER) as (rest & P & _).
          apply (Permutation_in _ (Permutation_sym P)). apply in_or_app. left. cbn [thr_items]. apply in_map_iff. exists (true, ISlot LFd). split; [cbn [fst snd who]; rewrite Ox; reflexivity|]. eapply (wf_rand _ _ W eq_refl). exact J. }
      apply in_flat_map. exists (h, ISlot LFd). split; [exact Y|]. left. reflexivity. }
    pose proof (h_slots _ _ _ _ _ _ Hd LFd) as L3. unfold zlen in L3. cbn [lim_get] in L3. lia.
  Qed.
End Facts.
