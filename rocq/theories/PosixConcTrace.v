(** PosixConcTrace.v -- where descriptors and mappings come from, and what calls do,
    along a trace. *)
From Coq Require Import List Arith NArith ZArith Lia Bool Permutation.
From Verif Require Import Outcome Status MemEnv PosixOs PosixWritable PosixRead PosixEnv PosixFs PosixEnvSpec PosixConc PosixConcSpec PosixConcSafe PosixConcHeld PosixConcInv PosixConcProofs.
Import ListNotations.

(** The part of a program that has been run, and what is left. *)
Inductive path {A} : prog A -> list (syscall * answer) -> prog A -> Prop :=
| p_nil p : path p [] p
| p_sys c k a l q : path (k a) l q -> path (PSys c k) ((c, a) :: l) q
| p_sub w k z l q : path (k z) l q -> path (PSub w k) l q
| p_add w k l q : path k l q -> path (PAdd w k) l q.
Lemma path_sys {A} (p : prog A) l c k a : path p l (PSys c k) -> path p (l ++ [(c, a)]) (k a).
Proof. remember (PSys c k) as q eqn:E. induction 1; subst; cbn [app]; econstructor; auto. constructor. Qed.
Lemma path_sub {A} (p : prog A) l w k z : path p l (PSub w k) -> path p l (k z).
Proof. remember (PSub w k) as q eqn:E. induction 1; subst; econstructor; auto. constructor. Qed.
Lemma path_add {A} (p : prog A) l w k : path p l (PAdd w k) -> path p l k.
Proof. remember (PAdd w k) as q eqn:E. induction 1; subst; econstructor; auto. constructor. Qed.

Lemma acts_in tr n c a : In (c, a) (acts tr n) -> exists later v earlier, tr = later ++ (Act n c a, v) :: earlier.
Proof.
  induction tr as [|[l v] tr IH]; cbn [acts]; [intros []|].
  assert (X : In (c, a) (acts tr n) -> exists later v' earlier, (l, v) :: tr = later ++ (Act n c a, v') :: earlier).
  { intros H. destruct (IH H) as (l1 & v1 & l2 & ->). exists ((l, v) :: l1), v1, l2. reflexivity. }
  destruct l as [m x|m c' a'|m r]; auto. destruct (Nat.eqb_spec m n) as [->|]; [|exact X]. intros H. apply in_app_or in H. destruct H as [H|[H|[]]]; [exact (X H)|]. injection H as -> ->.
  exists [], v, tr. reflexivity.
Qed.
Lemma acts_app later n c a v earlier : exists l, acts (later ++ (Act n c a, v) :: earlier) n = acts earlier n ++ (c, a) :: l.
Proof.
  induction later as [|[l w] later (l' & IH)].
  - cbn [app acts]. rewrite Nat.eqb_refl. exists []. reflexivity.
  - cbn [app acts]. destruct l as [m x|m c' a'|m r]; try (exists l'; exact IH). destruct (m =? n); [|exists l'; exact IH]. exists (l' ++ [(c', a')]). rewrite IH. rewrite <- app_assoc. reflexivity.
Qed.
Lemma ended_split tr n r : ended tr n = Some r -> exists later v earlier, tr = later ++ (End n r, v) :: earlier.
Proof.
  induction tr as [|[l v] tr IH]; cbn [ended]; [discriminate|].
  assert (X : ended tr n = Some r -> exists later v' earlier, (l, v) :: tr = later ++ (End n r, v') :: earlier).
  { intros H. destruct (IH H) as (l1 & v1 & l2 & ->). exists ((l, v) :: l1), v1, l2. reflexivity. }
  destruct l as [m x|m c' a'|m r']; auto. destruct (Nat.eqb_spec m n) as [->|]; [|exact X]. intros E. injection E as ->. exists [], v, tr. reflexivity.
Qed.

Lemma k_mmap_inv v fd len a v' : kstep v (CMmap fd len, a) v' -> (0 <= a_ret a)%Z -> exists x, v' = with_map v (a_val a) (Some (d_ino x, len)) /\ v_fd v fd = Some x.
Proof. intros K A. inversion K; subst; try discriminate; [lia|eauto]. Qed.

Section Trace.
  Variable dbg : bool.
  Variable B : nat.
  Variable strerror : Z -> str.
  Variables (v0 : view) (lim0 : limits) (m0 : nat).
  Hypothesis S0 : forall fd, v_fd v0 fd <> None -> (0 <= fd)%Z.
  Notation cstep := (cstep dbg B strerror).
  Notation cruns := (cruns dbg B strerror v0 lim0 m0).
  Notation inv := (inv B v0 lim0).

  Lemma runs_split later e earlier cf : cruns (later ++ e :: earlier) cf ->
    exists cf0 t cf1, cruns earlier cf0 /\ cstep t cf0 (Some (fst e)) cf1 /\ snd e = c_view cf1 /\ cruns (e :: earlier) cf1.
  Proof.
    intros R. remember (later ++ e :: earlier) as tr eqn:E. revert later E. induction R as [|tr cf t o cf' R IH St]; intros later E; [destruct later; discriminate|].
    destruct o as [l|]; cbn [add_lab] in E; [|exact (IH later E)]. destruct later as [|e' later]; cbn [app] in E.
    - injection E as <- <-. exists cf, t, cf'. cbn [fst snd]. split; [exact R|]. split; [exact St|]. split; [reflexivity|]. exact (cr_step _ _ _ _ _ _ _ _ _ _ _ R St).
    - injection E as _ E. exact (IH later E).
  Qed.
  Lemma act_step later n c a v earlier cf : cruns (later ++ (Act n c a, v) :: earlier) cf ->
    exists cf0 t x k, cruns earlier cf0 /\ nth_error (c_thr cf0) t = Some (TIn n x (PSys c k)) /\ kstep (now v0 earlier) (c, a) v.
  Proof.
    intros R. destruct (runs_split _ _ _ _ R) as (cf0 & t & cf1 & R0 & St & Ev & _). cbn [fst snd] in *. inversion St; subst. exists cf0, t, x, k. split; [exact R0|]. split; [assumption|].
    destruct (inv_runs _ _ _ _ _ _ S0 _ _ R0) as (Rs & H). rewrite (i_now _ _ _ _ _ _ H). cbn [c_view]. assumption.
  Qed.
  (** Calls and results do not change later. *)
  Lemma call_later later tr cf n x : cruns (later ++ tr) cf -> call_no tr n = Some x -> call_no (later ++ tr) n = Some x.
  Proof.
    revert cf. induction later as [|[l v] later IH]; intros cf R C; [exact C|]. change (cruns ([] ++ (l, v) :: (later ++ tr)) cf) in R. destruct (runs_split [] _ _ _ R) as (cf0 & t & cf1 & R0 & St & _ & _). specialize (IH cf0 R0 C). cbn [app call_no]. destruct l as [m y|m c a|m r]; auto.
    destruct (Nat.eqb_spec m n) as [->|]; [|exact IH]. cbn [fst] in St. inversion St; subst. destruct (inv_runs _ _ _ _ _ _ S0 _ _ R0) as (Rs & H). exfalso.
    assert (c_next cf0 < c_next cf0) by (apply (i_next _ _ _ _ _ _ H); rewrite IH; discriminate). lia.
  Qed.
  Lemma ended_later later tr cf n r : cruns (later ++ tr) cf -> ended tr n = Some r -> ended (later ++ tr) n = Some r.
  Proof.
    revert cf. induction later as [|[l v] later IH]; intros cf R C; [exact C|]. change (cruns ([] ++ (l, v) :: (later ++ tr)) cf) in R. destruct (runs_split [] _ _ _ R) as (cf0 & t & cf1 & R0 & St & _ & _). specialize (IH cf0 R0 C). cbn [app ended]. destruct l as [m y|m c a|m r']; auto.
    destruct (Nat.eqb_spec m n) as [->|]; [|exact IH]. cbn [fst] in St. inversion St; subst. destruct (inv_runs _ _ _ _ _ _ S0 _ _ R0) as (Rs & H). exfalso.
    match goal with E : nth_error (c_thr cf0) t = Some (TIn n _ _) |- _ => destruct (thr_at _ _ _ _ (i_len _ _ _ _ _ _ H) E) as (R1 & ER); destruct (i_thr _ _ _ _ _ _ H _ _ _ _ _ E ER) as [_ X _]; congruence end.
  Qed.
  Lemma act_in_progress later n c a v earlier cf : cruns (later ++ (Act n c a, v) :: earlier) cf -> in_progress earlier n.
  Proof.
    intros R. destruct (act_step _ _ _ _ _ _ _ R) as (cf0 & t & x & k & R0 & Et & _). destruct (inv_runs _ _ _ _ _ _ S0 _ _ R0) as (Rs & H).
    destruct (thr_at _ _ _ _ (i_len _ _ _ _ _ _ H) Et) as (R1 & ER). destruct (i_thr _ _ _ _ _ _ H _ _ _ _ _ Et ER) as [X Y _]. split; congruence.
  Qed.

  (** The file a descriptor is open on is the one its name stood for when it was opened. *)
  Lemma fd_track tr cf : cruns tr cf -> forall fd n x, owner tr fd = Some n -> v_fd (now v0 tr) fd = Some x ->
    exists later p fl a v earlier, tr = later ++ (Act n (COpen p fl) a, v) :: earlier /\ a_ret a = fd /\ (0 <= fd)%Z /\ v_name v p = Some (d_ino x).
  Proof.
    induction 1 as [|tr cf t o cf' R IH St]; [discriminate|]. intros fd n x.
    destruct (inv_runs _ _ _ _ _ _ S0 _ _ R) as (Rs & H). pose proof (i_now _ _ _ _ _ _ H) as Nw.
    destruct o as [l|]; cbn [add_lab]; [|apply IH]. cbn [now].
    assert (Keep : forall e, owner tr fd = Some n -> option_map d_ino (v_fd (now v0 tr) fd) = Some (d_ino x) ->
              exists later p fl a v earlier, e :: tr = later ++ (Act n (COpen p fl) a, v) :: earlier /\ a_ret a = fd /\ (0 <= fd)%Z /\ v_name v p = Some (d_ino x)).
    { intros e O E. destruct (v_fd (now v0 tr) fd) as [y|] eqn:Ey; [|discriminate]. injection E as E. destruct (IH fd n y O Ey) as (l1 & p & fl & a & v & l2 & -> & X). rewrite E in X. exists (e :: l1), p, fl, a, v, l2. split; [reflexivity|exact X]. }
    destruct l as [m y|m c a|m r].
    - cbn [owner]. intros O E. inversion St; subst; cbn [c_view] in *. apply Keep; [exact O|]. rewrite Nw, E. reflexivity.
    - assert (K : kstep (now v0 tr) (c, a) (c_view cf')) by (inversion St; subst; rewrite Nw; assumption).
      destruct (is_close c) eqn:Cl.
      + destruct c; try discriminate. cbn [owner]. destruct (Z.eqb_spec fd0 fd) as [->|N]; [discriminate|]. intros O E. apply Keep; [exact O|].
        rewrite <- (k_fd _ _ _ _ K fd); [rewrite E; reflexivity| |reflexivity]. cbn [uses_fd]. congruence.
      + destruct (fd_new c a fd) eqn:Fn.
        * destruct c; try discriminate. cbn [owner]. cbn [fd_new] in Fn. rewrite Fn. intros O E. injection O as ->. apply andb_true_iff in Fn. destruct Fn as (F1 & F2). apply Z.eqb_eq in F1. apply Z.leb_le in F2.
          exists []. eexists. eexists. exists a, (c_view cf'), tr. split; [reflexivity|]. split; [exact F1|]. split; [exact F2|].
          destruct (k_new _ _ _ _ _ K) as (_ & y & E1 & E2); [lia|]. rewrite F1 in E1. congruence.
        * intros O E. assert (O' : owner tr fd = Some n). { destruct c; try exact O; cbn [owner fd_new] in *; [rewrite Fn in O; exact O|discriminate]. }
          apply Keep; [exact O'|]. rewrite <- (k_ino _ _ _ _ K Cl fd Fn). rewrite E. reflexivity.
    - cbn [owner]. intros O E. inversion St; subst; cbn [c_view] in *. apply Keep; [exact O|]. rewrite Nw, E. reflexivity.
  Qed.
  Lemma map_track tr cf : cruns tr cf -> forall b n i len, map_owner tr b = Some n -> v_map (now v0 tr) b = Some (i, len) ->
    exists later fd a v earlier x, tr = later ++ (Act n (CMmap fd len) a, v) :: earlier /\ a_val a = b /\ v_fd (now v0 earlier) fd = Some x /\ d_ino x = i.
  Proof.
    induction 1 as [|tr cf t o cf' R IH St]; [discriminate|]. intros b n i len.
    destruct (inv_runs _ _ _ _ _ _ S0 _ _ R) as (Rs & H). pose proof (i_now _ _ _ _ _ _ H) as Nw.
    destruct o as [l|]; cbn [add_lab]; [|apply IH]. cbn [now].
    assert (Keep : forall e, map_owner tr b = Some n -> v_map (now v0 tr) b = Some (i, len) ->
              exists later fd a v earlier x, e :: tr = later ++ (Act n (CMmap fd len) a, v) :: earlier /\ a_val a = b /\ v_fd (now v0 earlier) fd = Some x /\ d_ino x = i).
    { intros e O E. destruct (IH b n i len O E) as (l1 & fd & a & v & l2 & x & -> & X). exists (e :: l1), fd, a, v, l2, x. split; [reflexivity|exact X]. }
    destruct l as [m y|m c a|m r].
    - cbn [map_owner]. intros O E. inversion St; subst; cbn [c_view] in *. apply Keep; [exact O|]. rewrite Nw. exact E.
    - assert (K : kstep (now v0 tr) (c, a) (c_view cf')) by (inversion St; subst; rewrite Nw; assumption).
      destruct (map_new c a b) eqn:Fn.
      + destruct c; try discriminate. cbn [map_owner]. cbn [map_new] in Fn. rewrite Fn. intros O E. injection O as ->. apply andb_true_iff in Fn. destruct Fn as (F1 & F2). apply N.eqb_eq in F1. apply Z.leb_le in F2.
        destruct (k_mmap_inv _ _ _ _ _ K F2) as (x & Ev & Ex). rewrite Ev in E. unfold with_map in E. cbn [v_map] in E. unfold upd in E. rewrite F1 in E. destruct (N.eq_dec b b); [|congruence]. injection E as <- <-.
        exists []. eexists. exists a, (c_view cf'), tr, x. split; [reflexivity|]. auto.
      + intros O E. assert (O' : map_owner tr b = Some n /\ uses_map c <> Some b).
        { destruct c; try (split; [exact O|discriminate]); cbn [map_owner map_new uses_map] in *; [rewrite Fn in O; split; [exact O|discriminate]|]. match type of O with context [(?z =? b)%N] => destruct (N.eqb_spec z b) end; [discriminate|]. split; [exact O|congruence]. }
        destruct O' as (O' & U). apply Keep; [exact O'|]. rewrite <- (k_map _ _ _ _ K b U Fn). exact E.
    - cbn [map_owner]. intros O E. inversion St; subst; cbn [c_view] in *. apply Keep; [exact O|]. rewrite Nw. exact E.
  Qed.

  (** What a running call has done. *)
  Definition did (tr : trace) (cf : conf) : Prop := forall t n x p, nth_error (c_thr cf) t = Some (TIn n x p) ->
    exists fuel o, path (prog_of dbg B strerror fuel x o) (acts tr n) p /\ (on x = None -> o = None) /\
      (forall h, on x = Some h -> shared x = true -> exists ob, o = Some ob /\ In (h, ob) (c_objs cf)).
  Lemma acts_new tr cf : cruns tr cf -> acts tr (c_next cf) = [].
  Proof.
    intros R. destruct (acts tr (c_next cf)) as [|[c a] l] eqn:E; [reflexivity|]. exfalso.
    assert (X : In (c, a) (acts tr (c_next cf))) by (rewrite E; left; reflexivity). clear E. apply acts_in in X. destruct X as (later & v & earlier & ->).
    destruct (act_in_progress _ _ _ _ _ _ _ R) as (X & _). destruct (call_no earlier (c_next cf)) as [y|] eqn:Ey; [|congruence].
    assert (Z : call_no (later ++ (Act (c_next cf) c a, v) :: earlier) (c_next cf) = Some y) by (eapply call_later; [exact R|exact Ey]).
    destruct (inv_runs _ _ _ _ _ _ S0 _ _ R) as (Rs & H). assert (c_next cf < c_next cf) by (apply (i_next _ _ _ _ _ _ H); congruence). lia.
  Qed.
  Lemma did_runs tr cf : cruns tr cf -> did tr cf.
  Proof.
    induction 1 as [|tr cf t o cf' R IH St].
    { intros t n x p E. cbn [c_thr] in E. apply nth_error_In, repeat_spec in E. discriminate. }
    destruct (inv_runs _ _ _ _ _ _ S0 _ _ R) as (Rs & H).
    assert (Other : forall u n x p e, nth_error (c_thr cf) u = Some (TIn n x p) -> (forall c a v, e = (Act n c a, v) -> False) -> acts (e :: tr) n = acts tr n).
    { intros u n x p [l v] E N. cbn [acts]. destruct l as [m y|m c a|m r]; auto. destruct (Nat.eqb_spec m n) as [->|]; [|reflexivity]. exfalso. eapply N. reflexivity. }
    destruct St as [x fuel Et M|n x c k a v' Et K|n x l k Et|n x l k Et|n x o q Et]; cbn [add_lab c_view].
    - intros u n' x' p E. cbn [c_thr c_objs] in *. rewrite set_thr_setr in E. destruct (Nat.eq_dec t u) as [<-|N].
      + rewrite (setr_same _ _ _ _ Et) in E. injection E as <- <- <-. exists fuel, (object cf x). cbn [acts]. rewrite (acts_new _ _ R). split; [constructor|]. unfold object, taken, may_begin in *.
        split; [intros ->; reflexivity|]. intros h Oh Sh. rewrite Oh in *. rewrite Sh in *. destruct M as ((ob & M1 & _) & _). exists ob. split; [exact M1|apply oget_in; exact M1].
      + rewrite setr_other in E by exact N. destruct (IH _ _ _ _ E) as (fu & o & P & O1 & O2). exists fu, o. cbn [acts]. split; [exact P|]. split; [exact O1|]. intros h Oh Sh.
        destruct (O2 h Oh Sh) as (ob & -> & I0). exists ob. split; [reflexivity|]. unfold taken, may_begin in *. destruct (on x) as [h'|] eqn:Ox; [|exact I0]. destruct (shared x) eqn:Sx; [exact I0|].
        apply odel_in. split; [exact I0|]. intros ->. destruct M as (_ & M). apply (M eq_refl u n' x' p E Oh).
    - intros u n' x' p E. cbn [c_thr c_objs] in *. rewrite set_thr_setr in E. destruct (Nat.eq_dec t u) as [<-|N].
      + rewrite (setr_same _ _ _ _ Et) in E. injection E as <- <- <-. destruct (IH _ _ _ _ Et) as (fu & o & P & O1 & O2). exists fu, o. cbn [acts]. rewrite Nat.eqb_refl. split; [apply path_sys; exact P|auto].
      + rewrite setr_other in E by exact N. destruct (IH _ _ _ _ E) as (fu & o & P & O1 & O2). exists fu, o. split; [|auto]. cbn [acts]. destruct (Nat.eqb_spec n n') as [->|]; [|exact P].
        elim N. eapply (i_uniq _ _ _ _ _ _ H); eassumption.
    - intros u n' x' p E. cbn [c_thr c_objs] in *. rewrite set_thr_setr in E. destruct (Nat.eq_dec t u) as [<-|N].
      + rewrite (setr_same _ _ _ _ Et) in E. injection E as <- <- <-. destruct (IH _ _ _ _ Et) as (fu & o & P & O1 & O2). exists fu, o. split; [eapply path_sub; exact P|auto].
      + rewrite setr_other in E by exact N. apply (IH _ _ _ _ E).
    - intros u n' x' p E. cbn [c_thr c_objs] in *. rewrite set_thr_setr in E. destruct (Nat.eq_dec t u) as [<-|N].
      + rewrite (setr_same _ _ _ _ Et) in E. injection E as <- <- <-. destruct (IH _ _ _ _ Et) as (fu & o & P & O1 & O2). exists fu, o. split; [eapply path_add; exact P|auto].
      + rewrite setr_other in E by exact N. apply (IH _ _ _ _ E).
    - intros u n' x' p E. cbn [c_thr c_objs] in *. rewrite set_thr_setr in E. destruct (Nat.eq_dec t u) as [<-|N]; [rewrite (setr_same _ _ _ _ Et) in E; discriminate|].
      rewrite setr_other in E by exact N. destruct (IH _ _ _ _ E) as (fu & o1 & P & O1 & O2). exists fu, o1. cbn [acts]. split; [exact P|]. split; [exact O1|]. intros h Oh Sh.
      destruct (O2 h Oh Sh) as (ob & -> & I0). exists ob. split; [reflexivity|]. unfold given. destruct (shared x); [exact I0|]. destruct o; [right|]; exact I0.
  Qed.

  (** What a call that has returned did. *)
  Lemma end_step later n r v earlier cf : cruns (later ++ (End n r, v) :: earlier) cf ->
    exists cf0 t x o q, cruns earlier cf0 /\ nth_error (c_thr cf0) t = Some (TIn n x (PDone (o, q))) /\ c_view cf0 = v /\ r = observe v q.
  Proof.
    intros R. destruct (runs_split _ _ _ _ R) as (cf0 & t & cf1 & R0 & St & Ev & _). cbn [fst snd] in *. inversion St; subst. exists cf0, t, x, o, q. auto.
  Qed.
  Lemma acts_end later n r v earlier cf : cruns (later ++ (End n r, v) :: earlier) cf -> acts (later ++ (End n r, v) :: earlier) n = acts earlier n.
  Proof.
    revert cf. induction later as [|[l w] later IH]; intros cf R; [reflexivity|]. change (cruns ([] ++ (l, w) :: (later ++ (End n r, v) :: earlier)) cf) in R. destruct (runs_split [] _ _ _ R) as (cf0 & t & cf1 & R0 & St & _ & _). specialize (IH cf0 R0) as E.
    cbn [app acts]. destruct l as [m y|m c a|m r']; auto. destruct (Nat.eqb_spec m n) as [->|]; [|auto]. exfalso.
    destruct (act_in_progress [] _ _ _ _ _ _ R) as (_ & X). assert (Y : ended (later ++ (End n r, v) :: earlier) n = Some r); [|congruence].
    eapply ended_later; [exact R0|]. cbn [ended]. now rewrite Nat.eqb_refl.
  Qed.
  (** The open descriptors used. *)
  Lemma use_fd later n c a v earlier cf fd : cruns (later ++ (Act n c a, v) :: earlier) cf -> uses_fd c = Some fd ->
    (fd = -1)%Z \/ exists m, owner earlier fd = Some m /\ entitled earlier n m /\ v_fd (now v0 earlier) fd <> None.
  Proof.
    intros R U. destruct (act_step _ _ _ _ _ _ _ R) as (cf0 & t & x & k & R0 & Et & K). destruct (inv_runs _ _ _ _ _ _ S0 _ _ R0) as (Rs & H).
    destruct (thr_at _ _ _ _ (i_len _ _ _ _ _ _ H) Et) as (R1 & ER). destruct (i_thr _ _ _ _ _ _ H _ _ _ _ _ Et ER) as [Cn En (o & Sf & Wf & IO)].
    destruct (at_thread _ _ _ _ _ _ _ _ _ _ _ H Et ER) as (rest & P1 & _).
    assert (Own : forall m, In (m, IFd fd) (obj_items (c_objs cf0) ++ all_thr (c_thr cf0) Rs) -> (m = n \/ on x = Some m) ->
              exists m, owner earlier fd = Some m /\ entitled earlier n m /\ v_fd (now v0 earlier) fd <> None).
    { intros m I0 E. destruct (h_fd _ _ _ _ _ _ (i_held _ _ _ _ _ _ H) m fd I0) as (_ & X1 & _ & X2). exists m. split; [exact X2|]. split; [|rewrite (i_now _ _ _ _ _ _ H); exact X1].
      unfold entitled. destruct E as [->|E]; [left; reflexivity|right; eauto]. }
    assert (InR : forall b R', In (b, IFd fd) R' -> (forall y, In y R' -> In y R1) -> (fd = -1)%Z \/ exists m, owner earlier fd = Some m /\ entitled earlier n m /\ v_fd (now v0 earlier) fd <> None).
    { intros b R' I0 Sub. right. apply (Own (who n x b)).
      - apply (Permutation_in _ (Permutation_sym P1)). apply in_or_app. left. apply in_map_iff. exists (b, IFd fd). auto.
      - unfold who. destruct b; [|auto]. destruct (on x); auto. }
    assert (Ok : ok_fd (borrow x o) R1 fd -> (fd = -1)%Z \/ exists m, owner earlier fd = Some m /\ entitled earlier n m /\ v_fd (now v0 earlier) fd <> None).
    { intros [E|E]; [left; exact E|]. apply in_app_or in E. destruct E as [E|E].
      - apply in_map_iff in E. destruct E as ([b i] & E & I0). cbn in E. subst i. eapply InR; [exact I0|auto].
      - right. unfold borrow in E. destruct (shared x) eqn:Sx; [|destruct E]. destruct o as [ob|]; [|destruct E]. unfold its_object in IO. destruct (on x) as [h|] eqn:Ox; [|discriminate].
        destruct IO as (ob' & X & _ & IO). injection X as <-. rewrite Sx in IO. apply (Own h); [|auto]. apply in_or_app. left. eapply obj_items_in; eassumption. }
    destruct c; try discriminate U; cbn [uses_fd] in U; injection U as ->; cbn [safe] in Sf; try (apply Ok; apply Sf).
    destruct Sf as [(-> & _)|(b & R' & P & _)]; [left; reflexivity|]. eapply (InR b R1); [|auto]. apply (Permutation_in _ (Permutation_sym P)). left. reflexivity.
  Qed.
  Lemma use_map later n b len a v earlier cf : cruns (later ++ (Act n (CMunmap b len) a, v) :: earlier) cf ->
    exists m i, map_owner earlier b = Some m /\ entitled earlier n m /\ v_map (now v0 earlier) b = Some (i, len).
  Proof.
    intros R. destruct (act_step _ _ _ _ _ _ _ R) as (cf0 & t & x & k & R0 & Et & K). destruct (inv_runs _ _ _ _ _ _ S0 _ _ R0) as (Rs & H).
    destruct (thr_at _ _ _ _ (i_len _ _ _ _ _ _ H) Et) as (R1 & ER). destruct (i_thr _ _ _ _ _ _ H _ _ _ _ _ Et ER) as [Cn En (o & Sf & Wf & IO)].
    destruct (at_thread _ _ _ _ _ _ _ _ _ _ _ H Et ER) as (rest & P1 & _). cbn [safe] in Sf. destruct Sf as (t1 & R' & P & _).
    assert (I0 : In (who n x t1, IMap b len) (obj_items (c_objs cf0) ++ all_thr (c_thr cf0) Rs)).
    { apply (Permutation_in _ (Permutation_sym P1)). apply in_or_app. left. apply in_map_iff. exists (t1, IMap b len). split; [reflexivity|]. apply (Permutation_in _ (Permutation_sym P)). left. reflexivity. }
    destruct (h_map _ _ _ _ _ _ (i_held _ _ _ _ _ _ H) _ _ _ I0) as ((i & X1) & _ & X2). exists (who n x t1), i. split; [exact X2|]. split; [|rewrite (i_now _ _ _ _ _ _ H); exact X1].
    unfold entitled, who. destruct t1; [|auto]. destruct (on x) eqn:Ox; [right; eauto|auto].
  Qed.
  Lemma use_dir later n c d a v earlier cf : cruns (later ++ (Act n c a, v) :: earlier) cf -> uses_dir c = Some d ->
    exists m, dir_owner earlier d = Some m /\ entitled earlier n m /\ v_dir (now v0 earlier) d <> None.
  Proof.
    intros R U. destruct (act_step _ _ _ _ _ _ _ R) as (cf0 & t & x & k & R0 & Et & K). destruct (inv_runs _ _ _ _ _ _ S0 _ _ R0) as (Rs & H).
    destruct (thr_at _ _ _ _ (i_len _ _ _ _ _ _ H) Et) as (R1 & ER). destruct (i_thr _ _ _ _ _ _ H _ _ _ _ _ Et ER) as [Cn En (o & Sf & Wf & IO)].
    destruct (at_thread _ _ _ _ _ _ _ _ _ _ _ H Et ER) as (rest & P1 & _).
    assert (I0 : exists t1, In (t1, IDir d) R1).
    { destruct c; try discriminate U; cbn [uses_dir] in U; injection U as ->; cbn [safe] in Sf.
      - destruct Sf as (Sf & _). apply in_map_iff in Sf. destruct Sf as ([b i] & E & I0). cbn in E. subst i. eauto.
      - destruct Sf as (t1 & R' & P & _). exists t1. apply (Permutation_in _ (Permutation_sym P)). left. reflexivity. }
    destruct I0 as (t1 & I0).
    assert (I1 : In (who n x t1, IDir d) (obj_items (c_objs cf0) ++ all_thr (c_thr cf0) Rs)).
    { apply (Permutation_in _ (Permutation_sym P1)). apply in_or_app. left. apply in_map_iff. exists (t1, IDir d). auto. }
    destruct (h_dir _ _ _ _ _ _ (i_held _ _ _ _ _ _ H) _ _ I1) as (X1 & _ & X2). exists (who n x t1). split; [exact X2|]. split; [|rewrite (i_now _ _ _ _ _ _ H); exact X1].
    unfold entitled, who. destruct t1; [|auto]. destruct (on x) eqn:Ox; [right; eauto|auto].
  Qed.
End Trace.
