(** PosixConcReads.v -- what concurrent calls answer. *)
From Coq Require Import List Arith NArith ZArith Lia Bool Permutation.
From Verif Require Import Outcome Status MemEnv PosixOs PosixWritable PosixRead PosixEnv PosixFs PosixEnvSpec PosixConc PosixConcSpec PosixConcSafe PosixConcHeld PosixConcInv PosixConcProofs PosixConcTrace PosixConcFacts.
Import ListNotations.

Lemma path_done {A} (a : A) l q : path (PDone a) l q -> l = [] /\ q = PDone a.
Proof. inversion 1; subst; auto. Qed.
Lemma path_bad {A} o l (q : prog A) : path (PBad o) l q -> l = [] /\ q = PBad o.
Proof. inversion 1; subst; auto. Qed.
Lemma path_psys {A} c (k : answer -> prog A) l q : path (PSys c k) l q -> l = [] /\ q = PSys c k \/ exists a l', l = (c, a) :: l' /\ path (k a) l' q.
Proof. inversion 1; subst; eauto. Qed.
Lemma path_psub {A} w (k : Z -> prog A) l q : path (PSub w k) l q -> l = [] /\ q = PSub w k \/ exists z, path (k z) l q.
Proof. inversion 1; subst; eauto. Qed.
Lemma path_padd {A} w (k : prog A) l q : path (PAdd w k) l q -> l = [] /\ q = PAdd w k \/ path k l q.
Proof. inversion 1; subst; eauto. Qed.

(** All system calls of a program. *)
Fixpoint only {A} (P : syscall -> Prop) (p : prog A) : Prop :=
  match p with
  | PDone _ | PBad _ => True
  | PSys c k => P c /\ forall a, only P (k a)
  | PSub _ k => forall z, only P (k z)
  | PAdd _ k => only P k
  end.
Lemma only_path {A} P (p q : prog A) l : path p l q -> only P p -> Forall (fun e => P (fst e)) l /\ only P q.
Proof.
  induction 1 as [p|c k a l q H IH|w k z l q H IH|w k l q H IH]; cbn [only]; intros O.
  - auto.
  - destruct O as (O1 & O2). destruct (IH (O2 a)) as (X & Y). split; [constructor; auto|exact Y].
  - apply IH, O.
  - apply IH, O.
Qed.

(** NewRandomAccessFile opens and stats [f] only, and maps as many bytes as it was
    told [f] has. *)
Definition of_name (f : str) (c : syscall) : Prop := match c with COpen p _ | CStat p => p = f | _ => True end.
Section New.
  Variable strerror : Z -> str.
  Lemma new_random_only f : only (of_name f) (pnew_random strerror f).
  Proof.
    unfold pnew_random, pnew_pread, pacquire, pget_file_size, psys. cbn [pbind only of_name]. split; [reflexivity|]. intros a. destruct (a_ret a <? 0)%Z; [exact Logic.I|]. cbn [only pbind]. intros z.
    destruct (0 <? z)%Z; cbn [pbind only negb of_name].
    - split; [reflexivity|]. intros a1. destruct (negb (a_ret a1 =? 0)%Z).
      + destruct (PosixOs.PosixError strerror f (a_errno a1)) eqn:E; cbn [pbind only of_name]; [split; [exact Logic.I|]; intros a2; destruct (negb (a_ret a2 =? -1)%Z)|].
        * cbn [pbind only of_name]. auto.
        * destruct (PosixOs.PosixError strerror f (a_errno a2)); cbn [pbind only of_name]; auto.
        * auto.
      + cbn [pbind only of_name]. split; [exact Logic.I|]. intros a2. destruct (negb (a_ret a2 =? -1)%Z).
        * cbn [pbind only of_name]. auto.
        * destruct (PosixOs.PosixError strerror f (a_errno a2)); cbn [pbind only of_name]; auto.
    - intros z1. destruct (0 <? z1)%Z; cbn [pbind only of_name]; auto.
  Qed.
  Lemma new_random_maps f l o : path (pnew_random strerror f) l o -> forall fd len a, In (CMmap fd len, a) l ->
    exists l1 l2 s, l = l1 ++ (CMmap fd len, a) :: l2 /\ In (CStat f, s) l1 /\ a_ret s = 0%Z /\ a_val s = len.
  Proof.
    unfold pnew_random, pnew_pread, pacquire, pget_file_size, psys. cbn [pbind]. intros P fd len a I0.
    apply path_psys in P. destruct P as [(-> & _)|(a0 & l0 & -> & P)]; [destruct I0|]. destruct I0 as [E|I0]; [discriminate|].
    destruct (a_ret a0 <? 0)%Z; [apply path_done in P; destruct P as (-> & _); destruct I0|]. cbn [pbind] in P.
    apply path_psub in P. destruct P as [(-> & _)|(z & P)]; [destruct I0|]. destruct (0 <? z)%Z; cbn [pbind negb] in P.
    - apply path_psys in P. destruct P as [(-> & _)|(s & l1 & -> & P)]; [destruct I0|]. destruct I0 as [E|I0]; [discriminate|].
      destruct (Z.eqb_spec (a_ret s) 0) as [Es|Es]; cbn [negb pbind] in P.
      + apply path_psys in P. destruct P as [(-> & _)|(m & l2 & -> & P)]; [destruct I0|]. destruct I0 as [E|I0].
        * injection E as <- <- <-. exists [(COpen f RdOnly, a0); (CStat f, s)], l2, s. split; [reflexivity|]. split; [right; left; reflexivity|]. auto.
        * exfalso. assert (X : Forall (fun e => match fst e with CMmap _ _ => False | _ => True end) l2).
          { eapply (only_path (fun c => match c with CMmap _ _ => False | _ => True end)); [exact P|]. destruct (negb (a_ret m =? -1)%Z); [cbn [pbind only]; auto|].
            destruct (PosixOs.PosixError strerror f (a_errno m)); cbn [pbind only]; auto. }
          rewrite Forall_forall in X. exact (X _ I0).
      + destruct (PosixOs.PosixError strerror f (a_errno s)) eqn:E; [elim (posix_error strerror f (a_errno s)); exact E|]. cbn [pbind] in P.
        apply path_psys in P. destruct P as [(-> & _)|(m & l2 & -> & P)]; [destruct I0|]. destruct I0 as [E1|I0]; [discriminate|].
        apply path_padd in P. destruct P as [(-> & _)|P]; [destruct I0|]. apply path_done in P. destruct P as (-> & _). destruct I0.
    - exfalso. assert (X : Forall (fun e => match fst e with CMmap _ _ => False | _ => True end) l0).
      { eapply (only_path (fun c => match c with CMmap _ _ => False | _ => True end)); [exact P|]. cbn [pbind only]. intros z1. destruct (0 <? z1)%Z; cbn [pbind only]; auto. }
      rewrite Forall_forall in X. exact (X _ I0).
  Qed.
End New.

Section Reads.
  Variable dbg : bool.
  Variable B : nat.
  Variable strerror : Z -> str.
  Variables (v0 : view) (lim0 : limits) (m0 : nat).
  Hypothesis S0 : forall fd, v_fd v0 fd <> None -> (0 <= fd)%Z.
  Notation cstep := (cstep dbg B strerror).
  Notation cruns := (cruns dbg B strerror v0 lim0 m0).
  Notation inv := (inv B v0 lim0).
  Notation inv_runs := (inv_runs dbg B strerror v0 lim0 m0 S0).
  Notation did_runs := (did_runs dbg B strerror v0 lim0 m0 S0).
  Notation act_step := (act_step dbg B strerror v0 lim0 m0 S0).

  Lemma read_size tr cf n h off k : cruns tr cf -> call_no tr n = Some (PRRead h off k) -> (off + k < 2 ^ 63)%N.
  Proof.
    induction 1 as [|tr cf t o cf' R IH St]; [discriminate|]. destruct o as [l|]; cbn [add_lab]; [|exact IH]. cbn [call_no]. destruct l as [m x|m c a|m r]; try exact IH.
    destruct (Nat.eqb_spec m n) as [->|]; [|exact IH]. intros E. injection E as ->. inversion St; subst. match goal with M : may_begin _ _ |- _ => destruct M as ((ob & _ & Fi) & _) end.
    destruct ob; cbn [fits] in Fi; try contradiction. exact Fi.
  Qed.
  (** What a call that has returned did. *)
  Lemma finished tr cf n r : cruns tr cf -> ended tr n = Some r ->
    exists later v earlier cf0 x fuel o ob q, tr = later ++ (End n r, v) :: earlier /\ cruns earlier cf0 /\ call_no earlier n = Some x /\ in_progress earlier n /\
      path (prog_of dbg B strerror fuel x ob) (acts tr n) (PDone (o, q)) /\ acts tr n = acts earlier n /\ r = observe (now v0 earlier) q /\ c_view cf0 = now v0 earlier /\
      (on x = None -> ob = None) /\
      (forall h, on x = Some h -> shared x = true -> exists o1, ob = Some o1 /\ In (h, o1) (c_objs cf0)) /\
      exists t, nth_error (c_thr cf0) t = Some (TIn n x (PDone (o, q))).
  Proof.
    intros R E. destruct (ended_split _ _ _ E) as (later & v & earlier & ->). destruct (end_step _ _ _ _ _ _ _ _ _ _ _ _ R) as (cf0 & t & x & o & q & R0 & Et & Ev & Er).
    destruct (did_runs _ _ R0 _ _ _ _ Et) as (fuel & ob & P & O1 & O2). destruct (inv_runs _ _ R0) as (Rs & H). destruct (running _ _ _ _ _ _ _ _ _ _ H Et) as (Pr & Cn).
    pose proof (i_now _ _ _ _ _ _ H) as Nw. pose proof (acts_end dbg B strerror v0 lim0 m0 S0 _ _ _ _ _ _ R) as Ae.
    exists later, v, earlier, cf0, x, fuel, o, ob, q. rewrite Ae, Nw, Ev. repeat (split; [solve [auto]|]). eauto.
  Qed.

  (** Calls about names. *)
  Lemma asks_path fuel x ob c ctx l o q v : asks x = Some (c, ctx) -> path (prog_of dbg B strerror fuel x ob) l (PDone (o, q)) ->
    exists a, l = [(c, a)] /\ observe v q = answers strerror x ctx a.
  Proof.
    intros A P. destruct x; try discriminate A; cbn [asks] in A; injection A as <- <-; cbn [prog_of] in P; unfold pask, pget_file_size, psys in P; cbn [pbind] in P;
      apply path_psys in P; destruct P as [(_ & P)|(an & l' & -> & P)]; try discriminate P; exists an.
    all: try (destruct (Z.eqb_spec (a_ret an) 0) as [Ea|Ea]; cbn [negb] in P); cbn [pbind] in P; apply path_done in P; destruct P as (-> & P); injection P as -> ->; (split; [reflexivity|]); unfold answers; cbn [observe].
    all: try rewrite Ea; try (apply Z.eqb_neq in Ea; rewrite Ea); try reflexivity.
    all: unfold PosixOs.PosixError, PosixWritableSpec.status_of, ENOENT; destruct (a_errno an =? 2)%Z; reflexivity.
  Qed.
  Lemma names_atomic tr cf n x c ctx r : cruns tr cf -> call_no tr n = Some x -> asks x = Some (c, ctx) -> ended tr n = Some r ->
    exists later a v earlier, tr = later ++ (Act n c a, v) :: earlier /\ acts tr n = [(c, a)] /\ in_progress earlier n /\ kstep (now v0 earlier) (c, a) v /\ r = answers strerror x ctx a.
  Proof.
    intros R C A E. destruct (finished _ _ _ _ R E) as (l1 & v1 & l2 & cf0 & x' & fuel & o & ob & q & -> & R0 & Cn & Pr & P & Ae & Er & Ev & O1 & O2 & t & Et).
    assert (x' = x). { pose proof (call_later dbg B strerror v0 lim0 m0 S0 (l1 ++ [(End n r, v1)]) l2 cf n x') as X. rewrite <- app_assoc in X. cbn [app] in X. specialize (X R Cn). congruence. } subst x'.
    destruct (asks_path _ _ _ _ _ _ _ _ (now v0 l2) A P) as (a & El & Ea). 
    assert (I0 : In (c, a) (acts l2 n)) by (rewrite <- Ae, El; left; reflexivity). apply acts_in in I0. destruct I0 as (l3 & v3 & l4 & ->).
    exists (l1 ++ (End n r, v1) :: l3), a, v3, l4. split; [rewrite <- app_assoc; reflexivity|]. split; [exact El|]. destruct (act_step _ _ _ _ _ _ _ R0) as (cf4 & t4 & x4 & k4 & R4 & Et4 & K).
    split; [eapply (act_in_progress dbg B strerror v0 lim0 m0 S0); exact R0|]. split; [exact K|]. congruence.
  Qed.

  (** ** Read of a RandomAccessFile *)
  (** an object in the table that no call has for itself *)
  Lemma shared_items tr cf Rs h ob i : inv tr cf Rs -> In (h, ob) (c_objs cf) ->
    In (h, i) (obj_items (c_objs cf) ++ all_thr (c_thr cf) Rs) -> In i (items ob).
  Proof.
    intros H I0 X. destruct (item_of _ _ _ _ _ _ _ _ H X) as [(o & I1 & J)|[(t & x & p & R & ET & _)|(t & n & x & p & R & k & f & ET & ER & J & Ox & Sx & _)]].
    - rewrite (nodup_fst _ _ _ _ (i_keys _ _ _ _ _ _ H) I0 I1). exact J.
    - exfalso. destruct (running _ _ _ _ _ _ _ _ _ _ H ET) as ((_ & X1) & _). destruct (i_objs _ _ _ _ _ _ H _ _ I0) as (_ & A). pose proof (alive_ended _ _ _ _ A). congruence.
    - exfalso. destruct (i_thr _ _ _ _ _ _ H _ _ _ _ _ ET ER) as [_ _ (o1 & _ & _ & IO)]. unfold its_object in IO. rewrite Ox in IO. destruct IO as (o2 & _ & _ & IO). rewrite Sx in IO. apply IO. apply (in_map fst) in I0. exact I0.
  Qed.
  Lemma temp_not_kept tr cf h f : cruns tr cf -> In (h, ObR (RTemp f)) (c_objs cf) -> ~ kept tr h.
  Proof.
    intros R I0. destruct (inv_runs _ _ R) as (Rs & H). intros [(fd & O)|(b & O)].
    - pose proof (h_own _ _ _ _ _ _ (i_held _ _ _ _ _ _ H) _ _ O) as X. exact (shared_items _ _ _ _ _ _ H I0 X).
    - destruct (h_mown _ _ _ _ _ _ (i_held _ _ _ _ _ _ H) _ _ O) as (len & X). exact (shared_items _ _ _ _ _ _ H I0 X).
  Qed.
  (** all files opened by a NewRandomAccessFile are the one asked for *)
  Lemma made_path tr cf h k f f' : cruns tr cf -> alive tr h k f' -> call_no tr h = Some (PNewRand f) -> f' = f /\ exists q, path (pnew_random strerror f) (acts tr h) q.
  Proof.
    intros R A C. pose proof (alive_ended _ _ _ _ A) as E. destruct A as ((x & A1 & A2 & _) & _). rewrite C in A1. injection A1 as <-. injection A2 as <- <-. split; [reflexivity|].
    destruct (finished _ _ _ _ R E) as (l1 & v1 & l2 & cf0 & x' & fuel & o & ob & q & -> & R0 & Cn & Pr & P & _).
    assert (x' = PNewRand f). { pose proof (call_later dbg B strerror v0 lim0 m0 S0 (l1 ++ [(End h (RStat SOk), v1)]) l2 cf h x') as X. rewrite <- app_assoc in X. cbn [app] in X. specialize (X R Cn). congruence. } subst x'.
    cbn [prog_of] in P. eauto.
  Qed.
  Lemma act_acts later n c a v earlier : In (c, a) (acts (later ++ (Act n c a, v) :: earlier) n).
  Proof. destruct (acts_app later n c a v earlier) as (l & ->). apply in_or_app. right. left. reflexivity. Qed.
  Lemma during_act later n c a v earlier cf (P : view -> Prop) : cruns (later ++ (Act n c a, v) :: earlier) cf -> P v -> during v0 (later ++ (Act n c a, v) :: earlier) n P.
  Proof.
    intros R H. exists later, ((Act n c a, v) :: earlier). split; [reflexivity|]. split; [|exact H].
    destruct (act_in_progress dbg B strerror v0 lim0 m0 S0 _ _ _ _ _ _ _ R) as (X & Y). split; assumption.
  Qed.
  Lemma during_before later n c a v earlier cf (P : view -> Prop) : cruns (later ++ (Act n c a, v) :: earlier) cf -> P (now v0 earlier) -> during v0 (later ++ (Act n c a, v) :: earlier) n P.
  Proof.
    intros R H. exists (later ++ [(Act n c a, v)]), earlier. split; [rewrite <- app_assoc; reflexivity|]. split; [|exact H]. exact (act_in_progress dbg B strerror v0 lim0 m0 S0 _ _ _ _ _ _ _ R).
  Qed.
  Lemma during_later later tr n (P : view -> Prop) : during v0 tr n P -> during v0 (later ++ tr) n P.
  Proof. intros (l1 & l2 & -> & X). exists (later ++ l1), l2. rewrite app_assoc. auto. Qed.
  (** the file of a descriptor that [h] opened *)
  Lemma fd_of tr cf h k f f' fd x : cruns tr cf -> alive tr h k f' -> call_no tr h = Some (PNewRand f) -> owner tr fd = Some h -> v_fd (now v0 tr) fd = Some x ->
    during v0 tr h (fun v => v_name v f = Some (d_ino x)).
  Proof.
    intros R A C O E. destruct (fd_track dbg B strerror v0 lim0 m0 S0 _ _ R _ _ _ O E) as (l1 & p & fl & a & v & l2 & Et & Ea & _ & En). destruct (made_path _ _ _ _ _ _ R A C) as (_ & q & P).
    assert (p = f). { destruct (only_path (of_name f) _ _ _ P (new_random_only strerror f)) as (X & _). rewrite Forall_forall in X. rewrite Et in X. exact (X _ (act_acts l1 h (COpen p fl) a v l2)). } subst p.
    rewrite Et in *. eapply during_act; [exact R|]. cbn beta. exact En.
  Qed.
  Lemma call_mono later tr cf n x y : cruns (later ++ tr) cf -> call_no tr n = Some x -> call_no (later ++ tr) n = Some y -> x = y.
  Proof. intros R C D. pose proof (call_later dbg B strerror v0 lim0 m0 S0 _ _ _ _ _ R C). congruence. Qed.
  Lemma call_back later tr cf n x : cruns (later ++ tr) cf -> ended tr n <> None -> call_no (later ++ tr) n = Some x -> call_no tr n = Some x.
  Proof.
    intros R E C. destruct (call_no tr n) as [y|] eqn:Ey; [f_equal; eapply call_mono; eassumption|]. exfalso.
    (* a call that has ended has begun *)
    clear C. assert (X : exists cf1, cruns tr cf1).
    { clear - R S0. remember (later ++ tr) as tr0 eqn:E0. revert later E0. induction R as [|tr1 cf1 t o cf' R IH St]; intros later E0.
      - destruct later; [cbn in E0; subst tr; eexists; constructor|discriminate].
      - destruct o as [l|]; cbn [add_lab] in E0; [|exact (IH later E0)]. destruct later as [|e later]; cbn [app] in E0; [|injection E0 as _ E0; exact (IH later E0)].
        subst tr. eexists. exact (cr_step _ _ _ _ _ _ _ _ _ _ _ R St). }
    destruct X as (cf1 & R1). destruct (ended tr n) as [r|] eqn:Er; [|congruence]. destruct (finished _ _ _ _ R1 Er) as (l1 & v1 & l2 & cf2 & x2 & fu & o & ob & q & -> & R2 & Cn & _).
    pose proof (call_later dbg B strerror v0 lim0 m0 S0 (l1 ++ [(End n r, v1)]) l2 cf1 n x2) as Y. rewrite <- app_assoc in Y. cbn [app] in Y. specialize (Y R1 Cn). congruence.
  Qed.

  Lemma nat_of_N k : Z.to_nat (Z.of_N k) = N.to_nat k.
  Proof. lia. Qed.
  Lemma off_t_small off : (off < 2 ^ 63)%N -> off_t off = Z.of_N off.
  Proof. intros L. unfold off_t. apply N.ltb_lt in L. rewrite L. reflexivity. Qed.
  Lemma read_map tr cf Rs h b len f : inv tr cf Rs -> cruns tr cf -> In (h, ObR (RMmap b len f)) (c_objs cf) -> call_no tr h = Some (PNewRand f) ->
    exists i, v_map (now v0 tr) b = Some (i, len) /\ map_owner tr b = Some h /\ during v0 tr h (fun v => v_name v f = Some i) /\
      exists j, during v0 tr h (fun v => v_name v f = Some j /\ N.of_nat (length (v_data v j)) = len).
  Proof.
    intros H R I0 Ch. destruct (i_objs _ _ _ _ _ _ H _ _ I0) as (_ & Al).
    assert (X : In (h, IMap b len) (obj_items (c_objs cf) ++ all_thr (c_thr cf) Rs)) by (apply in_or_app; left; eapply obj_items_in; [exact I0|left; reflexivity]).
    destruct (h_map _ _ _ _ _ _ (i_held _ _ _ _ _ _ H) _ _ _ X) as ((i & E) & _ & O). rewrite <- (i_now _ _ _ _ _ _ H) in E. exists i. split; [exact E|]. split; [exact O|].
    destruct (map_track dbg B strerror v0 lim0 m0 S0 _ _ R _ _ _ _ O E) as (l1 & fd & a & v & l2 & x & Et & Ea & Ef & Ei). subst i tr.
    destruct (made_path _ _ _ _ _ _ R Al Ch) as (_ & q & P). pose proof (act_acts l1 h (CMmap fd len) a v l2) as Ia.
    destruct (new_random_maps _ _ _ _ P _ _ _ Ia) as (s1 & s2 & s & Es & Is & Rs1 & Vs).
    destruct (act_step _ _ _ _ _ _ _ R) as (cf2 & t2 & x2 & k2 & R2 & Et2 & K2).
    split.
    - destruct (use_fd dbg B strerror v0 lim0 m0 S0 _ _ _ _ _ _ _ fd R eq_refl) as [->|(m & Om & En & Nf)].
      + exfalso. assert (0 <= -1)%Z; [|lia]. eapply (fd_nonneg dbg B strerror v0 lim0 m0 S0); [exact R2|congruence].
      + assert (m = h). { destruct En as [->|(y & Cy & Oy)]; [reflexivity|]. exfalso. pose proof (call_mono (l1 ++ [(Act h (CMmap fd len) a, v)]) l2 cf h y (PNewRand f)) as Y. rewrite <- app_assoc in Y. cbn [app] in Y. specialize (Y R Cy Ch). subst y. discriminate. } subst m.
        destruct (fd_track dbg B strerror v0 lim0 m0 S0 _ _ R2 _ _ _ Om Ef) as (l3 & p & fl & a3 & v3 & l4 & -> & Ea3 & _ & En3).
        assert (p = f). { destruct (only_path (of_name f) _ _ _ P (new_random_only strerror f)) as (Xo & _). rewrite Forall_forall in Xo. specialize (Xo (COpen p fl, a3)). apply Xo.
          change (l1 ++ (Act h (CMmap fd len) a, v) :: l3 ++ (Act h (COpen p fl) a3, v3) :: l4) with (l1 ++ ((Act h (CMmap fd len) a, v) :: l3) ++ (Act h (COpen p fl) a3, v3) :: l4). rewrite app_assoc. apply act_acts. } subst p.
        pose proof (during_act l3 h (COpen f fl) a3 v3 l4 cf2 (fun v => v_name v f = Some (d_ino x)) R2 En3) as D. apply (during_later (l1 ++ [(Act h (CMmap fd len) a, v)])) in D. rewrite <- app_assoc in D. exact D.
    - assert (Is' : In (CStat f, s) (acts (l1 ++ (Act h (CMmap fd len) a, v) :: l2) h)) by (rewrite Es; apply in_or_app; left; exact Is).
      apply acts_in in Is'. destruct Is' as (l3 & v3 & l4 & E3). rewrite E3 in *. destruct (act_step _ _ _ _ _ _ _ R) as (cf4 & t4 & x4 & k4 & R4 & Et4 & K4).
      inversion K4; subst; try discriminate; try (exfalso; congruence). exists i. eapply during_act; [exact R|]. cbn beta. split; [assumption|]. congruence.
  Qed.

  Theorem read_right tr cf n h off k f d v : cruns ((End n (RData SOk d), v) :: tr) cf -> call_no tr n = Some (PRRead h off k) -> call_no tr h = Some (PNewRand f) ->
    exists i, (kept tr h -> during v0 tr h (fun v => v_name v f = Some i)) /\ (~ kept tr h -> during v0 tr n (fun v => v_name v f = Some i)) /\
      during v0 tr n (fun v => piece d (v_data v i) (N.to_nat off) k).
  Proof.
    intros R Cn Ch. assert (Er : ended ((End n (RData SOk d), v) :: tr) n = Some (RData SOk d)) by (cbn [ended]; now rewrite Nat.eqb_refl).
    destruct (end_step dbg B strerror v0 lim0 m0 [] _ _ _ _ _ R) as (cf0 & t & x & o & q & R0 & Et & Ev & Erq).
    destruct (did_runs _ _ R0 _ _ _ _ Et) as (fuel & ob & P & _ & O2). destruct (inv_runs _ _ R0) as (Rs & H). destruct (running _ _ _ _ _ _ _ _ _ _ H Et) as (Pr & Cn').
    assert (x = PRRead h off k) by congruence. subst x. clear Cn'. destruct (O2 h eq_refl eq_refl) as (o1 & -> & I0). clear O2.
    pose proof (read_size _ _ _ _ _ _ R0 Cn) as Sz. destruct (i_objs _ _ _ _ _ _ H _ _ I0) as (_ & Al). pose proof (i_now _ _ _ _ _ _ H) as Nw.
    assert (Kn : kind_of o1 = KRand /\ oname o1 = f). { destruct Al as ((y & A1 & A2 & _) & _). rewrite Ch in A1. injection A1 as <-. cbn [opens] in A2. injection A2 as A2 A3. auto. }
    destruct Kn as (Kd & Kn). destruct o1 as [g|g|r]; try discriminate Kd. cbn [prog_of] in P. destruct r as [fd g|g|b len g]; cbn [oname] in Kn; subst g; unfold pran_read, psys in P; cbn [pbind] in P.
    - (* a descriptor of its own *)
      destruct (assert_ dbg (negb (fd =? -1)%Z)) as [u0| | |] eqn:As; cbn [plift pbind] in P; try (apply path_bad in P; destruct P; discriminate).
      apply path_psys in P. destruct P as [(_ & P)|(a & l' & Ea & P)]; [discriminate|]. destruct (Z.of_N k <? a_ret a)%Z; cbn [pbind] in P; [apply path_bad in P; destruct P; discriminate|].
      apply path_done in P. destruct P as (-> & P). injection P as -> ->. cbn [observe] in Erq.
      destruct (a_ret a <? 0)%Z eqn:Neg; [injection Erq as Erq _; elim (posix_error strerror f (a_errno a)); congruence|]. injection Erq as ->.
      assert (Ia : In (CPread fd k (off_t off), a) (acts tr n)) by (rewrite Ea; left; reflexivity). apply acts_in in Ia. destruct Ia as (l1 & v1 & l2 & ->).
      destruct (act_step _ _ _ _ _ _ _ R0) as (cf1 & t1 & x1 & k1 & R1 & Et1 & K1). apply Z.ltb_ge in Neg.
      assert (Kp : exists y, v_fd (now v0 l2) fd = Some y /\ piece (firstn (Z.to_nat (a_ret a)) (a_data a)) (v_data (now v0 l2) (d_ino y)) (N.to_nat off) k).
      { inversion K1; subst; try discriminate; [exfalso; lia|]. exists x. split; [assumption|]. rewrite off_t_small in * by lia.
        match goal with Hl : a_ret a = Z.of_nat (length (a_data a)) |- _ => rewrite Hl, Nat2Z.id, firstn_all end. unfold piece. rewrite nat_of_N in *. auto. }
      destruct Kp as (y & Ey & Pc). exists (d_ino y).
      assert (D1 : during v0 (l1 ++ (Act n (CPread fd k (off_t off)) a, v1) :: l2) n (fun v => piece (firstn (Z.to_nat (a_ret a)) (a_data a)) (v_data v (d_ino y)) (N.to_nat off) k))
        by (eapply during_before; [exact R0|exact Pc]).
      split; [|split; [|exact D1]].
      + intros _. destruct (use_fd dbg B strerror v0 lim0 m0 S0 _ _ _ _ _ _ _ fd R0 eq_refl) as [->|(m & Om & En & Nf)].
        * exfalso. assert (0 <= -1)%Z; [|lia]. eapply (fd_nonneg dbg B strerror v0 lim0 m0 S0); [exact R1|congruence].
        * assert (m = h).
          { destruct En as [->|(z & Cz & Oz)].
            - exfalso. destruct (fd_track dbg B strerror v0 lim0 m0 S0 _ _ R1 _ _ _ Om Ey) as (l3 & p & fl & a3 & v3 & l4 & -> & _).
              pose proof (act_acts (l1 ++ (Act n (CPread fd k (off_t off)) a, v1) :: l3) n (COpen p fl) a3 v3 l4) as Ia. rewrite <- app_assoc in Ia. cbn [app] in Ia. rewrite Ea in Ia. destruct Ia as [Ia|[]]. discriminate.
            - pose proof (call_mono (l1 ++ [(Act n (CPread fd k (off_t off)) a, v1)]) l2 cf0 n z (PRRead h off k)) as Y. rewrite <- app_assoc in Y. specialize (Y R0 Cz Cn). subst z. injection Oz as ->. reflexivity. }
          subst m. 
          assert (Al1 : exists k1 f1, alive l2 h k1 f1).
          { destruct (inv_runs _ _ R1) as (Rs1 & H1). pose proof (h_own _ _ _ _ _ _ (i_held _ _ _ _ _ _ H1) _ _ Om) as X1. destruct (item_holder _ _ _ _ _ _ _ _ H1 X1) as [(X2 & X3)|X2]; [|exact X2]. exfalso.
            destruct (did_runs _ _ R1 _ _ _ _ Et1) as (fu & ob & _ & _ & O2). pose proof (running _ _ _ _ _ _ _ _ _ _ H1 Et1) as (_ & C1).
            pose proof (call_mono (l1 ++ [(Act n (CPread fd k (off_t off)) a, v1)]) l2 cf0 n x1 (PRRead h off k)) as Y. rewrite <- app_assoc in Y. specialize (Y R0 C1 Cn). subst x1.
            destruct (O2 h eq_refl eq_refl) as (o2 & _ & I2). destruct (i_objs _ _ _ _ _ _ H1 _ _ I2) as (_ & A2). pose proof (alive_ended _ _ _ _ A2). congruence. }
          destruct Al1 as (k2 & f2 & Al1).
          assert (Ch1 : call_no l2 h = Some (PNewRand f)).
          { pose proof (call_back (l1 ++ [(Act n (CPread fd k (off_t off)) a, v1)]) l2 cf0 h (PNewRand f)) as Y. rewrite <- app_assoc in Y. apply Y; [exact R0| |exact Ch]. rewrite (alive_ended _ _ _ _ Al1). discriminate. }
          pose proof (fd_of _ _ _ _ _ _ _ _ R1 Al1 Ch1 Om Ey) as D. apply (during_later (l1 ++ [(Act n (CPread fd k (off_t off)) a, v1)])) in D. rewrite <- app_assoc in D. exact D.
      + intros Nk. exfalso. apply Nk. left. exists fd.
        assert (X : In (h, IFd fd) (obj_items (c_objs cf0) ++ all_thr (c_thr cf0) Rs)) by (apply in_or_app; left; eapply obj_items_in; [exact I0|left; reflexivity]).
        apply (h_fd _ _ _ _ _ _ (i_held _ _ _ _ _ _ H) _ _ X).
    - (* opened again *)
      pose proof (temp_not_kept _ _ _ _ R0 I0) as Nk.
      apply path_psys in P. destruct P as [(_ & P)|(ao & l' & Ea & P)]; [discriminate|]. destruct (a_ret ao <? 0)%Z eqn:Ao; cbn [pbind] in P.
      { apply path_done in P. destruct P as (_ & P). injection P as -> ->. cbn [observe] in Erq. injection Erq as Erq _. elim (posix_error strerror f (a_errno ao)). congruence. }
      destruct (assert_ dbg (negb (a_ret ao =? -1)%Z)) as [u0| | |] eqn:As; cbn [plift pbind] in P; try (apply path_bad in P; destruct P; discriminate).
      apply path_psys in P. destruct P as [(_ & P)|(a & l2' & -> & P)]; [discriminate|]. destruct (Z.of_N k <? a_ret a)%Z; cbn [pbind] in P; [apply path_bad in P; destruct P; discriminate|].
      cbn [plift pbind] in P. apply path_psys in P. destruct P as [(_ & P)|(ac & l3' & -> & P)]; [discriminate|].
      apply path_done in P. destruct P as (-> & P). injection P as -> ->. cbn [observe] in Erq.
      destruct (a_ret a <? 0)%Z eqn:Neg; [injection Erq as Erq _; elim (posix_error strerror f (a_errno a)); congruence|]. injection Erq as ->.
      assert (Ia : In (CPread (a_ret ao) k (off_t off), a) (acts tr n)) by (rewrite Ea; right; left; reflexivity). apply acts_in in Ia. destruct Ia as (l1 & v1 & l2 & ->).
      destruct (act_step _ _ _ _ _ _ _ R0) as (cf1 & t1 & x1 & k1 & R1 & Et1 & K1). apply Z.ltb_ge in Neg.
      assert (Kp : exists y, v_fd (now v0 l2) (a_ret ao) = Some y /\ piece (firstn (Z.to_nat (a_ret a)) (a_data a)) (v_data (now v0 l2) (d_ino y)) (N.to_nat off) k).
      { inversion K1; subst; try discriminate; [exfalso; lia|]. exists x. split; [assumption|]. rewrite off_t_small in * by lia.
        match goal with Hl : a_ret a = Z.of_nat (length (a_data a)) |- _ => rewrite Hl, Nat2Z.id, firstn_all end. unfold piece. rewrite nat_of_N in *. auto. }
      destruct Kp as (y & Ey & Pc). exists (d_ino y).
      assert (D1 : during v0 (l1 ++ (Act n (CPread (a_ret ao) k (off_t off)) a, v1) :: l2) n (fun v => piece (firstn (Z.to_nat (a_ret a)) (a_data a)) (v_data v (d_ino y)) (N.to_nat off) k))
        by (eapply during_before; [exact R0|exact Pc]).
      split; [intros X; elim (Nk X)|split; [|exact D1]]. intros _.
      destruct (acts_app l1 n (CPread (a_ret ao) k (off_t off)) a v1 l2) as (l4 & E4). rewrite Ea in E4.
      assert (El2 : exists c, acts l2 n = [c] /\ fst c = COpen f RdOnly).
      { destruct (acts l2 n) as [|e1 [|e2 [|e3 [|e4 r4]]]]; cbn [app] in E4; try discriminate E4.
        - injection E4 as <- _. eexists. split; reflexivity. }
      destruct El2 as ([ce ae] & El2 & Ece). cbn [fst] in Ece. subst ce.
      destruct (use_fd dbg B strerror v0 lim0 m0 S0 _ _ _ _ _ _ _ (a_ret ao) R0 eq_refl) as [E1|(m & Om & En & Nf)].
      + exfalso. apply Z.ltb_ge in Ao. lia.
      + assert (m = n).
        { destruct En as [->|(z & Cz & Oz)]; [reflexivity|]. exfalso. destruct (inv_runs _ _ R1) as (Rs1 & H1).
          pose proof (call_mono (l1 ++ [(Act n (CPread (a_ret ao) k (off_t off)) a, v1)]) l2 cf0 n z (PRRead h off k)) as Y. rewrite <- app_assoc in Y. specialize (Y R0 Cz Cn). subst z. injection Oz as ->.
          destruct (did_runs _ _ R1 _ _ _ _ Et1) as (fu & ob & P1 & _ & O2). pose proof (running _ _ _ _ _ _ _ _ _ _ H1 Et1) as (_ & C1).
          assert (x1 = PRRead m off k) by congruence. subst x1. destruct (O2 m eq_refl eq_refl) as (o2 & -> & I2). rewrite El2 in P1. cbn [prog_of] in P1.
          destruct o2 as [g|g|[fd g|g|b len g]]; cbn [prog_of pran_read] in P1; unfold psys in P1; cbn [pbind] in P1.
          - apply path_bad in P1. destruct P1. discriminate.
          - apply path_bad in P1. destruct P1. discriminate.
          - destruct (assert_ dbg (negb (fd =? -1)%Z)) as [u9| | |]; cbn [plift pbind] in P1; try (apply path_bad in P1; destruct P1; discriminate).
            apply path_psys in P1. destruct P1 as [(P1 & _)|(a9 & l9 & P1 & _)]; [discriminate|injection P1; discriminate].
          - apply (temp_not_kept _ _ _ _ R1 I2). left. eauto.
          - destruct (len <? u64 (off + k))%N; apply path_done in P1; destruct P1; discriminate. }
        subst m. destruct (fd_track dbg B strerror v0 lim0 m0 S0 _ _ R1 _ _ _ Om Ey) as (l5 & p & fl & a5 & v5 & l6 & -> & _ & _ & En5).
        assert (p = f). { pose proof (act_acts l5 n (COpen p fl) a5 v5 l6) as Ia. rewrite El2 in Ia. destruct Ia as [Ia|[]]. congruence. } subst p.
        pose proof (during_act l5 n (COpen f fl) a5 v5 l6 cf1 (fun v => v_name v f = Some (d_ino y)) R1 En5) as D.
        apply (during_later (l1 ++ [(Act n (CPread (a_ret ao) k (off_t off)) a, v1)])) in D. rewrite <- app_assoc in D. exact D.
    - (* a mapping *)
      destruct (read_map _ _ _ _ _ _ _ H R0 I0 Ch) as (i & Em & Om & Dn & _).
      destruct (len <? u64 (off + k))%N; apply path_done in P; destruct P as (_ & P); injection P as -> ->; cbn [observe] in Erq.
      { injection Erq as Erq _. elim (posix_error strerror f EINVAL). congruence. }
      rewrite <- Ev, <- Nw, Em in Erq. destruct (N.leb_spec (off + k) (N.of_nat (length (v_data (now v0 tr) i)))) as [L|L]; [|discriminate]. injection Erq as ->.
      exists i. split; [intros _; exact Dn|]. split; [intros Nk; elim Nk; right; eauto|].
      exists [], tr. split; [reflexivity|]. split; [exact Pr|]. cbn beta. unfold piece.
      assert (Lk : length (firstn (N.to_nat k) (skipn (N.to_nat off) (v_data (now v0 tr) i))) = N.to_nat k) by (rewrite firstn_length, skipn_length; lia).
      rewrite Lk. split; [reflexivity|]. split; [lia|]. intros E. rewrite E in Lk. cbn in Lk. left. lia.
  Qed.

  (** A Read does not fault unless the file lost bytes that were there when the
      object was made, or the name stood for different files while it was made. *)
  Theorem read_fault tr cf n h off k f v : cruns ((End n RFault, v) :: tr) cf -> call_no tr n = Some (PRRead h off k) -> call_no tr h = Some (PNewRand f) ->
    exists i j, during v0 tr h (fun v => v_name v f = Some i) /\
      during v0 tr h (fun v' => v_name v' f = Some j /\ (length (v_data (now v0 tr) i) < length (v_data v' j))).
  Proof.
    intros R Cn Ch. destruct (end_step dbg B strerror v0 lim0 m0 [] _ _ _ _ _ R) as (cf0 & t & x & o & q & R0 & Et & Ev & Erq).
    destruct (did_runs _ _ R0 _ _ _ _ Et) as (fuel & ob & P & _ & O2). destruct (inv_runs _ _ R0) as (Rs & H). destruct (running _ _ _ _ _ _ _ _ _ _ H Et) as (Pr & Cn').
    assert (x = PRRead h off k) by congruence. subst x. clear Cn'. destruct (O2 h eq_refl eq_refl) as (o1 & -> & I0). clear O2.
    pose proof (read_size _ _ _ _ _ _ R0 Cn) as Sz. destruct (i_objs _ _ _ _ _ _ H _ _ I0) as (_ & Al). pose proof (i_now _ _ _ _ _ _ H) as Nw.
    assert (Kn : kind_of o1 = KRand /\ oname o1 = f). { destruct Al as ((y & A1 & A2 & _) & _). rewrite Ch in A1. injection A1 as <-. cbn [opens] in A2. injection A2 as A2 A3. auto. }
    destruct Kn as (Kd & Kn). destruct o1 as [g|g|r]; try discriminate Kd. cbn [prog_of] in P. destruct r as [fd g|g|b len g]; cbn [oname] in Kn; subst g; unfold pran_read, psys in P; cbn [pbind] in P.
    - destruct (assert_ dbg (negb (fd =? -1)%Z)) as [u0| | |] eqn:As; cbn [plift pbind] in P; try (apply path_bad in P; destruct P; discriminate).
      apply path_psys in P. destruct P as [(_ & P)|(a & l' & Ea & P)]; [discriminate|]. destruct (Z.of_N k <? a_ret a)%Z; cbn [pbind] in P; [apply path_bad in P; destruct P; discriminate|].
      apply path_done in P. destruct P as (-> & P). injection P as -> ->. discriminate Erq.
    - apply path_psys in P. destruct P as [(_ & P)|(ao & l' & Ea & P)]; [discriminate|]. destruct (a_ret ao <? 0)%Z eqn:Ao; cbn [pbind] in P.
      { apply path_done in P. destruct P as (_ & P). injection P as -> ->. discriminate Erq. }
      destruct (assert_ dbg (negb (a_ret ao =? -1)%Z)) as [u0| | |] eqn:As; cbn [plift pbind] in P; try (apply path_bad in P; destruct P; discriminate).
      apply path_psys in P. destruct P as [(_ & P)|(a & l2' & -> & P)]; [discriminate|]. destruct (Z.of_N k <? a_ret a)%Z; cbn [pbind] in P; [apply path_bad in P; destruct P; discriminate|].
      cbn [plift pbind] in P. apply path_psys in P. destruct P as [(_ & P)|(ac & l3' & -> & P)]; [discriminate|].
      apply path_done in P. destruct P as (-> & P). injection P as -> ->. discriminate Erq.
    - destruct (read_map _ _ _ _ _ _ _ H R0 I0 Ch) as (i & Em & Om & Dn & j & Dj). exists i, j. split; [exact Dn|].
      destruct (N.ltb_spec len (u64 (off + k))) as [L|L]; apply path_done in P; destruct P as (_ & P); injection P as -> ->; cbn [observe] in Erq; [discriminate|].
      rewrite <- Ev, <- Nw, Em in Erq. destruct (N.leb_spec (off + k) (N.of_nat (length (v_data (now v0 tr) i)))) as [L2|L2]; [discriminate|].
      destruct Dj as (l1 & l2 & E & Pj & Dj1 & Dj2). exists l1, l2. split; [exact E|]. split; [exact Pj|]. cbn beta. split; [exact Dj1|].
      assert (U : u64 (off + k) = (off + k)%N). { unfold u64. apply N.mod_small. eapply N.lt_trans; [exact Sz|]. reflexivity. }
      rewrite U in L. clear U. lia.
  Qed.
End Reads.
