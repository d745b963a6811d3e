(** PosixConcSaved.v -- flushing, durability and appending by several writers, along
    all executions of PosixConc.v. *)
From Coq Require Import List Arith NArith ZArith Lia Bool Permutation.
From Verif Require Import Outcome Status MemEnv PosixOs PosixWritable PosixWritableSpec PosixWritableProofs PosixRead PosixEnv PosixFs PosixEnvSpec PosixConc PosixConcSpec PosixConcSafe PosixConcHeld PosixConcInv PosixConcProofs PosixConcTrace PosixConcFacts PosixConcReads PosixConcWriteSpec PosixConcWr PosixConcWrites PosixConcFiles.
Import ListNotations.

Lemma begins_trans {A} (x y z : list A) : begins x y -> begins y z -> begins x z.
Proof. intros (r & ->) (s & ->). exists (s ++ r). apply app_assoc_reverse. Qed.
Lemma begins_refl {A} (x : list A) : begins x x.
Proof. exists []. now rewrite app_nil_r. Qed.
Lemma begins_both {A} (x y z : list A) : begins y z -> begins (x ++ y) (x ++ z).
Proof. intros (s & ->). exists s. apply app_assoc. Qed.
Lemma begins_firstn {A} k (x y : list A) : begins x y -> length y <= k -> begins (firstn k x) y.
Proof.
  intros (r & ->) L. exists (firstn (k - length y) r). rewrite firstn_app. rewrite (firstn_all2 y) by exact L. reflexivity.
Qed.
Lemma begins_length {A} (x y : list A) : begins x y -> length y <= length x.
Proof. intros (r & ->). rewrite app_length. lia. Qed.
Lemma sent_later later tr h : begins (sent (later ++ tr) h) (sent tr h).
Proof.
  induction later as [|[l v] later IH]; [apply begins_refl|]. cbn [app sent]. destruct l as [n x|n c a|n r]; try exact IH. apply begins_app. exact IH.
Qed.

Section Saved.
  Variable dbg : bool.
  Variable B : nat.
  Variable strerror : Z -> str.
  Variables (v0 : view) (lim0 : limits) (m0 : nat).
  Hypothesis S0 : forall fd, v_fd v0 fd <> None -> (0 <= fd)%Z.
  Hypothesis N0 : forall p i, v_name v0 p = Some i -> i < v_next v0.
  Notation cruns := (cruns dbg B strerror v0 lim0 m0).
  Notation inv_runs := (inv_runs dbg B strerror v0 lim0 m0 S0).
  Notation did_runs := (did_runs dbg B strerror v0 lim0 m0 S0).
  Notation act_step := (act_step dbg B strerror v0 lim0 m0 S0).
  Notation back := (back dbg B strerror v0 lim0 m0 S0).

  Section Writer.
  Variables (h : nat) (x0 : pcall).
  Hypothesis Wx : writer x0 = true.
  Notation winv_runs := (winv_runs dbg B strerror v0 lim0 m0 S0 h).

  (** A call on the object, other than its deletion, returns. *)
  Lemma returns tr cf n r v x : cruns ((End n r, v) :: tr) cf -> call_no tr h = Some x0 -> call_no tr n = Some x -> on x = Some h -> x <> PDelete h ->
    exists st b, r = RStat st /\ length b <= B /\ subseq (sent tr h ++ b) (handed tr h) /\
      (all_ok tr h -> st = SOk -> sent tr h ++ b = handed tr h /\ (flushing x = true -> b = []) /\ (syncing x = true -> was_forced tr h (handed tr h))).
  Proof.
    intros R C Cn Ox Nd. change ((End n r, v) :: tr) with ([] ++ (End n r, v) :: tr) in R. destruct (end_step _ _ _ _ _ _ _ _ _ _ _ _ R) as (cf0 & t & y & o & q & R0 & Et & Ev & Er).
    destruct (inv_runs _ _ R0) as (Rs & H). destruct (running _ _ _ _ _ _ _ _ _ _ H Et) as (_ & Cy). assert (y = x) by congruence. subst y.
    assert (W : winv B h tr cf0). { apply winv_runs; [exact R0|]. intros y Cy'. congruence. }
    destruct (w_thr _ _ _ _ W _ _ _ _ Et Ox) as (Sx & La & fd & g & A0 & NC & CA & CN & CW & CS & CO & CE & CF). cbn [wr] in CW.
    assert (Q1 : exists f st b, (o, q) = (Some (ObW f), QStat st) /\ brep B f b /\ (NC -> (0 <= f_fd f)%Z) /\ subseq (g_acc g ++ b) (handed tr h) /\
             (A0 -> st = SOk -> g_acc g ++ b = handed tr h /\ (flushing x = true -> b = []) /\ (syncing x = true -> g_safe g = Some (handed tr h)))).
    { unfold Q in CW. destruct x; try exact CW. cbn [on] in Ox. injection Ox as ->. elim Nd. reflexivity. }
    destruct Q1 as (f & st & b & Eq & Rb & _ & Sb & Al). injection Eq as -> ->. rewrite CS in *. exists st, b. split; [exact Er|]. split; [apply Rb|]. split; [exact Sb|].
    intros A E. destruct (Al (CA A) E) as (X1 & X2 & X3). auto.
  Qed.
  (** The object is deleted. *)
  Lemma deleted tr cf n r : cruns tr cf -> call_no tr h = Some x0 -> call_no tr n = Some (PDelete h) -> ended tr n = Some r -> never_closed tr h -> all_ok tr h ->
    (forall fd d a, In (CWrite fd d, a) (acts tr n) -> failed a = false) -> sent tr h = handed tr h.
  Proof.
    intros R C Cn En Nc A F. assert (W : winv B h tr cf) by (apply winv_runs; [exact R|congruence]). apply (w_del _ _ _ _ W n Cn); auto. congruence.
  Qed.
  Lemma in_order tr cf : cruns tr cf -> call_no tr h = Some x0 -> subseq (sent tr h) (handed tr h) /\ (all_ok tr h -> begins (handed tr h) (sent tr h)).
  Proof. intros R C. assert (W : winv B h tr cf) by (apply winv_runs; [exact R|congruence]). exact (w_all _ _ _ _ W). Qed.

  (** ** What fsync() made safe stays safe *)
  Lemma no_owner_before later c a v earlier cf fd l1 l2 : cruns (later ++ (Act h c a, v) :: earlier) cf -> call_no earlier h = Some x0 -> earlier = l2 ++ l1 -> owner l1 fd = Some h -> False.
  Proof.
    intros R C E O. destruct (makes dbg B strerror v0 lim0 m0 S0 h x0 Wx _ _ _ _ _ _ R C) as (Ea & _). destruct (runs_split _ _ _ _ _ _ _ _ _ _ R) as (cf0 & _ & _ & R0 & _).
    assert (R1 : exists cf1, cruns l1 cf1). { subst earlier. clear -R0. revert cf0 R0. induction l2 as [|e l2 IH]; intros cf0 R0; [exists cf0; exact R0|].
      change ((e :: l2) ++ l1) with ([] ++ e :: (l2 ++ l1)) in R0. destruct (runs_split _ _ _ _ _ _ _ _ _ _ R0) as (cf2 & _ & _ & R2 & _). exact (IH _ R2). }
    destruct R1 as (cf1 & R1). destruct (inv_runs _ _ R1) as (Rs & H). assert (X : (0 <= fd)%Z /\ v_fd (c_view cf1) fd <> None) by (eapply owned; eassumption). destruct X as (_ & X). rewrite <- (i_now _ _ _ _ _ _ H) in X.
    destruct (v_fd (now v0 l1) fd) as [y|] eqn:Ey; [|congruence]. destruct (fd_track dbg B strerror v0 lim0 m0 S0 _ _ R1 fd h y O Ey) as (l3 & p' & fl' & a' & v' & l4 & El & _).
    subst l1 earlier. rewrite app_assoc in Ea. destruct (acts_app (l2 ++ l3) h (COpen p' fl') a' v' l4) as (l & Ex). rewrite Ex in Ea. destruct (acts l4 h); discriminate.
  Qed.
  Lemma forced_inv e tr s : was_forced (e :: tr) h s -> was_forced tr h s \/ exists n fd a v, e = (Act n (CFsync fd) a, v) /\ owner tr fd = Some h /\ a_ret a = 0%Z /\ sent tr h = s.
  Proof.
    intros (later & n & fd & a & v & earlier & E & X). destruct later as [|e' later]; cbn [app] in E.
    - injection E as -> ->. right. exists n, fd, a, v. auto.
    - injection E as _ ->. left. exists later, n, fd, a, v, earlier. auto.
  Qed.
  Lemma forced_begins tr s : was_forced tr h s -> begins (sent tr h) s.
  Proof. intros (later & n & fd & a & v & earlier & -> & _ & _ & <-). change ((Act n (CFsync fd) a, v) :: earlier) with ([(Act n (CFsync fd) a, v)] ++ earlier). rewrite app_assoc. apply sent_later. Qed.
  Lemma forced_safe later p fl a v earlier cf i s : cruns (later ++ (Act h (COpen p fl) a, v) :: earlier) cf -> call_no earlier h = Some x0 -> (0 <= a_ret a)%Z -> v_name v p = Some i ->
    only_writer v0 later ((Act h (COpen p fl) a, v) :: earlier) h i ->
    was_forced (later ++ (Act h (COpen p fl) a, v) :: earlier) h s ->
    begins (v_safe (now v0 (later ++ (Act h (COpen p fl) a, v) :: earlier)) i) (v_data v i ++ s).
  Proof.
    intros R C Op Ni. revert cf R. induction later as [|[l w] later IH]; intros cf R OW F.
    - exfalso. cbn [app] in F. destruct F as (l2 & n & fd & a' & v' & l1 & E & O & _). destruct l2 as [|e l2]; cbn [app] in E; [discriminate|]. injection E as _ E.
      eapply no_owner_before with (l2 := l2 ++ [(Act n (CFsync fd) a', v')]); [exact R|exact C| |exact O]. rewrite <- app_assoc. exact E.
    - cbn [app] in *. set (base := (Act h (COpen p fl) a, v) :: earlier) in *. destruct (back _ _ _ _ R) as (cf0 & R0 & K). pose proof (only_less v0 h _ _ _ _ OW) as OW0. specialize (IH _ R0 OW0).
      assert (Cb : call_no (later ++ base) h = Some x0) by (eapply (call_later dbg B strerror v0 lim0 m0 S0); [exact R0|exact C]).
      destruct (contents dbg B strerror v0 lim0 m0 S0 N0 h x0 Wx later p fl a v earlier cf0 i R0 C Op Ni OW0) as (E1 & E2 & E3). fold base in E1, E2, E3.
      cbn [now]. apply forced_inv in F. destruct F as [F|(n & fd & a' & v' & E & O & Ra & Es)].
      + specialize (IH F). destruct l as [n x|n c a'|n r]; try (rewrite K; exact IH).
        assert (Dec : changes (now v0 (later ++ base)) c a' i \/ ~ changes (now v0 (later ++ base)) c a' i).
        { destruct c as [p' fl'| |fd d| | | | | | | | | | | | | | | | | | | |]; cbn [changes]; auto.
          - destruct fl'; auto. destruct (Z_lt_le_dec (a_ret a') 0); [right; lia|]. destruct (v_name (now v0 (later ++ base)) p') as [j|]; [|right; intros (_ & X); discriminate]. destruct (Nat.eq_dec j i) as [->|N]; [left; auto|right; intros (_ & X); congruence].
          - destruct (Z_lt_le_dec (a_ret a') 0); [right; lia|]. destruct (v_fd (now v0 (later ++ base)) fd) as [y|]; [|right; intros (_ & z & X & _); discriminate]. destruct (Nat.eq_dec (d_ino y) i) as [Ei|N]; [left; split; [assumption|]; exists y; auto|right; intros (_ & z & X & Y); congruence]. }
        pose proof (forced_begins _ _ F) as Bs. assert (Bd : begins (v_data (now v0 (later ++ base)) i) (v_data v i ++ s)) by (rewrite E1; apply begins_both; exact Bs).
        destruct Dec as [Ch|Nc].
        * assert (Oo : on_obj (later ++ base) n h = true) by (apply (OW [] n c a' w later); auto).
          assert (R' : cruns ([] ++ (Act n c a', w) :: later ++ base) cf) by exact R.
          pose proof (on_h_legal dbg B strerror v0 lim0 m0 S0 h x0 Wx _ _ _ _ _ _ _ R' Cb Oo) as Lg.
          destruct c as [p' fl'| |fd d| | | | | | | | | | | | | | | | | | | |]; try contradiction Ch; [subst fl'; contradiction Ch|]. destruct Ch as (La & y & Ey & Ei).
          destruct (k_write_inv _ _ _ _ _ K) as [(_ & X)|(_ & z & Ez & Kw)]; [lia|]. assert (z = y) by congruence. subst z.
          destruct Lg as [->|Lg]; [exfalso; pose proof (fd_nonneg dbg B strerror v0 lim0 m0 S0 _ _ (-1)%Z R0) as X; rewrite Ey in X; specialize (X ltac:(discriminate)); lia|].
          destruct (own_fd dbg B strerror v0 lim0 m0 S0 h x0 Wx later p fl a v earlier _ fd R0 C Lg) as (-> & _). rewrite <- Ei in E3. destruct (Kw _ (E3 _ Lg Ey) eq_refl) as (_ & D2 & _). rewrite Ei in D2. rewrite D2.
          apply begins_firstn; [exact IH|apply begins_length; exact Bd].
        * destruct (k_data _ _ _ _ _ K Nc E2) as (_ & [-> | ->]); assumption.
      + injection E as -> _. destruct (own_fd dbg B strerror v0 lim0 m0 S0 h x0 Wx later p fl a v earlier _ fd R0 C O) as (-> & y & Ey & Ei). fold base in Ey.
        assert (Es' : v_safe w i = v_data (now v0 (later ++ base)) i).
        { inversion K; subst; try discriminate; try lia. assert (x = y) by congruence. subst x. assert (d_ino y = i) by congruence. cbn [v_safe synced]. subst i. apply upd_same. }
        rewrite Es', E1, Es. apply begins_refl.
  Qed.
  End Writer.

  (** ** Several appenders *)
  Lemma append_open f fuel c k : path (prog_of dbg B strerror fuel (PNewAppend f) None) [] (PSys c k) -> c = COpen f WrAppend.
  Proof. cbn [prog_of]. unfold pnew_writable, psys. cbn [pbind]. intros X. apply path_psys in X. destruct X as [(_ & X)|(a & l' & X & _)]; [injection X as -> _; reflexivity|discriminate]. Qed.
  Lemma k_app v c a v' fd : kstep v (c, a) v' -> fd_new c a fd = false -> forall x, v_fd v' fd = Some x -> exists y, v_fd v fd = Some y /\ d_app y = d_app x.
  Proof.
    intros K F x. inversion K; subst; cbn [v_fd with_fd with_map with_dir with_name with_data create synced]; eauto; unfold upd;
      match goal with |- context [Z.eq_dec fd ?z] => destruct (Z.eq_dec fd z) as [->|]; eauto end; try discriminate.
    all: try (cbn [fd_new] in F; rewrite Z.eqb_refl in F; replace (0 <=? a_ret a)%Z with true in F by (symmetry; apply Z.leb_le; assumption); discriminate).
    all: intros E; injection E as <-; eauto.
  Qed.
  Lemma app_track h f tr cf : cruns tr cf -> call_no tr h = Some (PNewAppend f) -> forall fd x, owner tr fd = Some h -> v_fd (now v0 tr) fd = Some x -> d_app x = true.
  Proof.
    intros R. revert cf R. induction tr as [|[l w] tr IH]; intros cf R C fd x O E; [discriminate|]. destruct (back _ _ _ _ R) as (cf0 & R0 & K). specialize (IH _ R0). cbn [now] in E. destruct l as [n y|n c a|n r].
    - subst w. cbn [owner] in O. cbn [call_no] in C. destruct (Nat.eqb_spec n h) as [->|]; [|eauto]. exfalso.
      assert (X : (0 <= fd)%Z /\ v_fd (c_view cf0) fd <> None) by (destruct (inv_runs _ _ R0) as (Rs & H); eapply owned; eassumption). destruct X as (_ & X). rewrite <- (view_runs dbg B strerror v0 lim0 m0 S0 _ _ R0) in X.
      destruct (fd_track dbg B strerror v0 lim0 m0 S0 _ _ R0 fd h x O E) as (l1 & p & fl & a & v & l2 & -> & _).
      destruct (act_in_progress dbg B strerror v0 lim0 m0 S0 _ _ _ _ _ _ _ R0) as (Y & _). destruct (call_no l2 h) as [z|] eqn:Ez; [|congruence].
      assert (Z1 : call_no (l1 ++ (Act h (COpen p fl) a, v) :: l2) h = Some z) by (eapply (call_later dbg B strerror v0 lim0 m0 S0); [exact R0|exact Ez]).
      change ((Beg h y, now v0 (l1 ++ (Act h (COpen p fl) a, v) :: l2)) :: l1 ++ (Act h (COpen p fl) a, v) :: l2) with ([] ++ (Beg h y, now v0 (l1 ++ (Act h (COpen p fl) a, v) :: l2)) :: (l1 ++ (Act h (COpen p fl) a, v) :: l2)) in R.
      destruct (runs_split _ _ _ _ _ _ _ _ _ _ R) as (cf2 & t & cf3 & R2 & St & _). cbn [fst] in St. inversion St; subst. destruct (inv_runs _ _ R2) as (Rs & H). assert (c_next cf2 < c_next cf2) by (apply (i_next _ _ _ _ _ _ H); congruence). lia.
    - cbn [call_no] in C. specialize (IH C). destruct (fd_new c a fd) eqn:Fn.
      + destruct c as [p fl| | | | | | | | | | | | | | | | | | | | | |]; try discriminate Fn. cbn [owner fd_new] in *. rewrite Fn in O. injection O as ->. apply andb_true_iff in Fn. destruct Fn as (F1 & F2). apply Z.eqb_eq in F1. apply Z.leb_le in F2.
        assert (R' : cruns ([] ++ (Act h (COpen p fl) a, w) :: tr) cf) by exact R. destruct (act_step _ _ _ _ _ _ _ R') as (cf1 & t & x1 & k & R1 & Et & _). destruct (inv_runs _ _ R1) as (Rs & H). destruct (running _ _ _ _ _ _ _ _ _ _ H Et) as (_ & Cn). assert (x1 = PNewAppend f) by congruence. subst x1.
        destruct (makes dbg B strerror v0 lim0 m0 S0 h (PNewAppend f) eq_refl _ _ _ _ _ _ R' C) as (Ea & _).
        destruct (did_runs _ _ R1 _ _ _ _ Et) as (fuel & o & P & O1 & _). rewrite (O1 eq_refl), Ea in P. apply append_open in P. injection P as -> ->.
        inversion K; subst; try discriminate; try lia; cbn [v_fd with_fd] in E; rewrite upd_same in E; injection E as <-; reflexivity.
      + assert (O' : owner tr fd = Some h). { destruct c; try exact O; cbn [owner fd_new] in *; [rewrite Fn in O; exact O|]. destruct (Z.eqb_spec fd0 fd); [discriminate|exact O]. }
        destruct (k_app _ _ _ _ _ K Fn _ E) as (y & Ey & <-). exact (IH _ _ O' Ey).
    - subst w. cbn [owner call_no] in *. eauto.
  Qed.
  Lemma appends_less e later earlier i : only_appends v0 (e :: later) earlier i -> only_appends v0 later earlier i.
  Proof. intros O l2 n c a v l1 -> X. apply (O (e :: l2) n c a v l1); auto. Qed.
  Lemma changes_dec v c a i : changes v c a i \/ ~ changes v c a i.
  Proof.
    destruct c as [p' fl'| |fd d| | | | | | | | | | | | | | | | | | | |]; cbn [changes]; auto.
    - destruct fl'; auto. destruct (Z_lt_le_dec (a_ret a) 0); [right; lia|]. destruct (v_name v p') as [j|]; [|right; intros (_ & X); discriminate]. destruct (Nat.eq_dec j i) as [->|N]; [left; auto|right; intros (_ & X); congruence].
    - destruct (Z_lt_le_dec (a_ret a) 0); [right; lia|]. destruct (v_fd v fd) as [y|]; [|right; intros (_ & z & X & _); discriminate]. destruct (Nat.eq_dec (d_ino y) i) as [Ei|N]; [left; split; [assumption|]; exists y; auto|right; intros (_ & z & X & Y); congruence].
  Qed.
  (** One step under [only_appends]. *)
  Lemma append_step l w later base cf i : cruns ((l, w) :: later ++ base) cf -> i < v_next (now v0 base) -> only_appends v0 ((l, w) :: later) base i ->
    exists e, added v0 ((l, w) :: later) base i = added v0 later base i ++ e /\ v_data w i = v_data (now v0 (later ++ base)) i ++ e /\
      (v_safe w i = v_safe (now v0 (later ++ base)) i \/ v_safe w i = v_data (now v0 (later ++ base)) i \/ v_safe w i = firstn (length (v_data (now v0 (later ++ base)) i)) (v_safe (now v0 (later ++ base)) i)).
  Proof.
    intros R L OA. destruct (back _ _ _ _ R) as (cf0 & R0 & K).
    assert (L' : i < v_next (now v0 (later ++ base))). { pose proof (next_mono dbg B strerror v0 lim0 m0 S0 later base _ R0). lia. }
    destruct l as [n x|n c a|n r]; try (rewrite K; exists []; cbn [added]; rewrite !app_nil_r; auto).
    assert (R' : cruns ([] ++ (Act n c a, w) :: later ++ base) cf) by exact R.
    destruct (changes_dec (now v0 (later ++ base)) c a i) as [Ch|Nc].
    + destruct (OA [] n c a w later eq_refl Ch) as (fd & d & h & f & -> & Oo & Ch0). destruct Ch as (La & x & Ex & Ei).
      pose proof (on_h_legal dbg B strerror v0 lim0 m0 S0 h (PNewAppend f) eq_refl _ _ _ _ _ _ _ R' Ch0 Oo) as Lg.
      destruct Lg as [->|Lg]; [exfalso; pose proof (fd_nonneg dbg B strerror v0 lim0 m0 S0 _ _ (-1)%Z R0) as X; rewrite Ex in X; specialize (X ltac:(discriminate)); lia|].
      pose proof (app_track h f _ _ R0 Ch0 _ _ Lg Ex) as Ap. destruct (k_write_inv _ _ _ _ _ K) as [(_ & X)|(_ & z & Ez & Kw)]; [lia|]. assert (z = x) by congruence. subst z.
      destruct (Kw _ (or_introl Ap) eq_refl) as (D1 & D2 & _). rewrite Ei in D1, D2. cbn [added]. rewrite Ex, Ei, Nat.eqb_refl. eexists. split; [reflexivity|]. auto.
    + destruct (k_data _ _ _ _ _ K Nc L') as (D1 & D2). exists []. rewrite !app_nil_r. split; [|split; [exact D1|tauto]].
      destruct c; cbn [added]; try reflexivity. cbn [changes] in Nc. destruct (v_fd (now v0 (later ++ base)) fd) as [x|] eqn:Ex; [|now rewrite app_nil_r]. destruct (Nat.eqb_spec (d_ino x) i) as [Ei|]; [|now rewrite app_nil_r].
      replace (Z.to_nat (a_ret a)) with 0; [cbn [firstn]; now rewrite app_nil_r|]. destruct (Z_lt_le_dec (a_ret a) 0); [lia|]. exfalso. apply Nc. split; [assumption|]. exists x. auto.
  Qed.
  Lemma appended later base cf i : cruns (later ++ base) cf -> i < v_next (now v0 base) -> only_appends v0 later base i ->
    v_data (now v0 (later ++ base)) i = v_data (now v0 base) i ++ added v0 later base i.
  Proof.
    intros R L. revert cf R. induction later as [|[l w] later IH]; intros cf R OA; [cbn [app added]; now rewrite app_nil_r|]. cbn [app now] in *.
    destruct (back _ _ _ _ R) as (cf0 & R0 & _). destruct (append_step _ _ _ _ _ _ R L OA) as (e & -> & -> & _). rewrite (IH _ R0 (appends_less _ _ _ _ OA)). apply app_assoc_reverse.
  Qed.
  Lemma append_safe later base cf i D : cruns (later ++ base) cf -> i < v_next (now v0 base) -> only_appends v0 later base i ->
    begins (v_safe (now v0 base) i) D -> begins (v_data (now v0 base) i) D -> begins (v_safe (now v0 (later ++ base)) i) D.
  Proof.
    intros R L. revert cf R. induction later as [|[l w] later IH]; intros cf R OA B1 B2; [exact B1|]. cbn [app now] in *.
    destruct (back _ _ _ _ R) as (cf0 & R0 & _). pose proof (appends_less _ _ _ _ OA) as OA0. specialize (IH _ R0 OA0 B1 B2). pose proof (appended _ _ _ _ R0 L OA0) as E.
    assert (Bd : begins (v_data (now v0 (later ++ base)) i) D) by (rewrite E; apply begins_app; exact B2).
    destruct (append_step _ _ _ _ _ _ R L OA) as (e & _ & _ & [-> |[-> | ->]]); auto. apply begins_firstn; [exact IH|apply begins_length; exact Bd].
  Qed.
  (** The bytes of one of the writers of the file. *)
  Lemma own_file l t h x0 a b p fl an v fd y cf : writer x0 = true -> cruns (l ++ t) cf -> l ++ t = a ++ (Act h (COpen p fl) an, v) :: b -> call_no b h = Some x0 ->
    owner t fd = Some h -> v_fd (now v0 t) fd = Some y -> v_name v p = Some (d_ino y).
  Proof.
    intros Wx R E C O Ey. assert (R1 : exists cf1, cruns t cf1). { clear -R. revert cf R. induction l as [|e l IH]; intros cf R; [exists cf; exact R|].
      change ((e :: l) ++ t) with ([] ++ e :: (l ++ t)) in R. destruct (runs_split _ _ _ _ _ _ _ _ _ _ R) as (cf2 & _ & _ & R2 & _). exact (IH _ R2). }
    destruct R1 as (cf1 & R1). destruct (fd_track dbg B strerror v0 lim0 m0 S0 _ _ R1 fd h y O Ey) as (l2 & p' & fl' & a' & v' & l1 & Et & Ea & _ & En). subst t. rewrite app_assoc in E, R.
    destruct (split_unique _ _ _ _ _ _ E) as [(_ & E1 & _)|[(m & Em & Eb)|(m & Em & Eb)]].
    - injection E1 as -> _ _ ->. exact En.
    - exfalso. subst b. rewrite E in R.
      assert (C1 : call_no l1 h = Some x0).
      { assert (R2 : cruns ((a ++ (Act h (COpen p fl) an, v) :: m) ++ (Act h (COpen p' fl') a', v') :: l1) cf) by (rewrite <- app_assoc; exact R).
        destruct (act_in_progress dbg B strerror v0 lim0 m0 S0 _ _ _ _ _ _ _ R2) as (X & _). destruct (call_no l1 h) as [z|] eqn:Ez; [|congruence].
        destruct (runs_split _ _ _ _ _ _ _ _ _ _ R) as (cf0 & _ & _ & R0 & _).
        assert (Y : call_no (m ++ (Act h (COpen p' fl') a', v') :: l1) h = Some z) by (eapply (call_later dbg B strerror v0 lim0 m0 S0); [exact R0|exact Ez]). congruence. }
      eapply (one_act dbg B strerror v0 lim0 m0 S0 h x0 Wx); [exact R|exact C1].
    - exfalso. subst l1. eapply (one_act dbg B strerror v0 lim0 m0 S0 h x0 Wx); [exact R|exact C].
  Qed.
  Lemma sub_end {A} (x y e : list A) : subseq x y -> subseq (x ++ e) (y ++ e).
  Proof. intros S. apply subseq_app; [exact S|apply subseq_refl]. Qed.
  (** [tr] = all of the trace; [h] was opened on file [i] somewhere in it. *)
  Lemma own_bytes top later base cf h x0 a b p fl an v i : writer x0 = true -> cruns (top ++ later ++ base) cf ->
    top ++ later ++ base = a ++ (Act h (COpen p fl) an, v) :: b -> call_no b h = Some x0 -> v_name v p = Some i ->
    exists s, sent (later ++ base) h = sent base h ++ s /\ subseq s (added v0 later base i).
  Proof.
    intros Wx R E C Ni. revert top R E. induction later as [|[l w] later IH]; intros top R E; [exists []; cbn [app added]; rewrite app_nil_r; split; [reflexivity|apply subseq_nil]|].
    assert (Et : top ++ ((l, w) :: later) ++ base = (top ++ [(l, w)]) ++ later ++ base) by (rewrite <- app_assoc; reflexivity).
    destruct (IH (top ++ [(l, w)])) as (s & E1 & E2); [rewrite <- Et; exact R|rewrite <- Et; exact E|]. clear IH. cbn [app].
    assert (R1 : exists cf1, cruns ((l, w) :: later ++ base) cf1). { change (top ++ ((l, w) :: later) ++ base) with (top ++ (l, w) :: (later ++ base)) in R. destruct (runs_split _ _ _ _ _ _ _ _ _ _ R) as (_ & _ & cf1 & _ & _ & _ & R1). exists cf1. exact R1. }
    destruct R1 as (cf1 & R1). destruct (back _ _ _ _ R1) as (cf0 & R0 & K).
    destruct l as [n x|n c an'|n r]; try (exists s; split; [exact E1|exact E2]). cbn [sent].
    destruct (on_obj (later ++ base) n h) eqn:Oo.
    - assert (R' : cruns ([] ++ (Act n c an', w) :: later ++ base) cf1) by exact R1.
      (* the object was made before *)
      assert (Ch : call_no (later ++ base) h = Some x0).
      { unfold on_obj in Oo. destruct (call_no (later ++ base) n) as [y|] eqn:Cy; [|discriminate]. destruct (on y) as [h'|] eqn:Oy; [|discriminate]. apply Nat.eqb_eq in Oo. subst h'.
        destruct (inv_runs _ _ R0) as (Rs & H). pose proof (i_on _ _ _ _ _ _ H _ _ _ Cy Oy) as En. destruct (ended (later ++ base) h) as [r|] eqn:Er; [|congruence].
        destruct (finished dbg B strerror v0 lim0 m0 S0 _ _ _ _ R0 Er) as (l5 & v5 & l6 & cf5 & x5 & _ & _ & _ & _ & El & _ & C5 & _).
        assert (C6 : call_no (later ++ base) h = Some x5). { rewrite El. change ((End h r, v5) :: l6) with ([(End h r, v5)] ++ l6). rewrite app_assoc. eapply (call_later dbg B strerror v0 lim0 m0 S0); [|exact C5]. rewrite <- app_assoc. cbn [app]. rewrite <- El. exact R0. }
        assert (C7 : call_no (top ++ ((Act n c an', w) :: later) ++ base) h = Some x5). { cbn [app]. change (top ++ (Act n c an', w) :: later ++ base) with (top ++ [(Act n c an', w)] ++ (later ++ base)). rewrite app_assoc. eapply (call_later dbg B strerror v0 lim0 m0 S0); [|exact C6]. rewrite <- app_assoc. exact R. }
        assert (C8 : call_no (top ++ ((Act n c an', w) :: later) ++ base) h = Some x0). { rewrite E. change ((Act h (COpen p fl) an, v) :: b) with ([(Act h (COpen p fl) an, v)] ++ b). rewrite app_assoc. eapply (call_later dbg B strerror v0 lim0 m0 S0); [|exact C]. rewrite <- app_assoc. cbn [app]. rewrite <- E. exact R. }
        congruence. }
      pose proof (on_h_legal dbg B strerror v0 lim0 m0 S0 h x0 Wx _ _ _ _ _ _ _ R' Ch Oo) as Lg.
      destruct (is_write c) eqn:Iw.
      + destruct c as [| |fd d| | | | | | | | | | | | | | | | | | | |]; try discriminate Iw. cbn [took added]. rewrite E1.
        destruct (k_write_inv _ _ _ _ _ K) as [(_ & L)|(L & x & Ex & _)].
        * replace (Z.to_nat (a_ret an')) with 0 by lia. cbn [firstn]. exists s. rewrite app_nil_r. split; [reflexivity|]. destruct (v_fd (now v0 (later ++ base)) fd) as [x|]; [destruct (d_ino x =? i)|]; apply sub_more; exact E2.
        * destruct Lg as [->|Lg]; [exfalso; pose proof (fd_nonneg dbg B strerror v0 lim0 m0 S0 _ _ (-1)%Z R0) as X; rewrite Ex in X; specialize (X ltac:(discriminate)); lia|].
          assert (En : v_name v p = Some (d_ino x)). { eapply (own_file (top ++ [(Act n (CWrite fd d) an', w)]) (later ++ base)); [exact Wx|rewrite <- Et; exact R|rewrite <- Et; exact E|exact C|exact Lg|exact Ex]. }
          assert (d_ino x = i) by congruence. rewrite Ex. subst i. rewrite Nat.eqb_refl. eexists. split; [apply app_assoc_reverse|]. apply sub_end. exact E2.
      + assert (Tk : took c an' = []) by (destruct c; try discriminate Iw; reflexivity). rewrite Tk, app_nil_r. exists s. split; [exact E1|]. destruct c; try discriminate Iw; exact E2.
    - rewrite app_nil_r. exists s. split; [exact E1|]. cbn [added]. destruct c; try exact E2. apply sub_more. exact E2.
  Qed.
End Saved.
