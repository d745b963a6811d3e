(** PosixConcStream.v -- the position of a SequentialFile, along all executions of
    PosixConc.v. *)
From Coq Require Import List Arith NArith ZArith Lia Bool Permutation.
From Verif Require Import Outcome Status MemEnv PosixOs PosixWritable PosixWritableSpec PosixWritableProofs PosixRead PosixEnv PosixFs PosixEnvSpec PosixConc PosixConcSpec PosixConcSafe PosixConcHeld PosixConcInv PosixConcProofs PosixConcTrace PosixConcFacts PosixConcReads PosixConcWriteSpec PosixConcWr PosixConcWrites PosixConcFiles PosixConcSaved PosixConcObj PosixConcStreamSpec.
Import ListNotations.

(** How far a system call moves a descriptor it is made on. *)
Definition shift1 (c : syscall) (a : answer) : Z :=
  match c with
  | CRead _ _ => Z.of_nat (length (firstn (Z.to_nat (a_ret a)) (a_data a)))
  | CLseek _ off => if (a_ret a =? -1)%Z then 0 else off
  | _ => 0
  end%Z.
Fixpoint shifts (l : list (syscall * answer)) : Z := match l with [] => 0%Z | (c, a) :: l' => (shift1 c a + shifts l')%Z end.
Lemma shifts_app l r : shifts (l ++ r) = (shifts l + shifts r)%Z.
Proof. induction l as [|[c a] l IH]; cbn [app shifts]; [reflexivity|]. rewrite IH. lia. Qed.
Lemma skip_by_off_t k : skip_by k = off_t k.
Proof. reflexivity. Qed.

(** What calls on a SequentialFile do. *)
Definition on_fd (fd : Z) (c : syscall) : Prop := match c with CRead fd' _ | CLseek fd' _ | CClose fd' => fd' = fd | _ => False end.
(** what the result of a call [x] says it has moved *)
Definition says (x : pcall) (q : presult) : Z :=
  match x, q with
  | PSRead _ _, QData SOk (Bytes d) => Z.of_nat (length d)
  | PSSkip _ k, QStat SOk => skip_by k
  | _, _ => 0%Z
  end.
(** A Read that has returned OK: the last system call delivered the bytes, the
    others nothing. *)
Definition last_read (fd : Z) (k : N) (d : list N) (l : list (syscall * answer)) : Prop :=
  exists l1 a, l = l1 ++ [(CRead fd k, a)] /\ shifts l1 = 0%Z /\ (0 <= a_ret a)%Z /\ d = firstn (Z.to_nat (a_ret a)) (a_data a).

Section Prog.
  Variable dbg : bool.
  Variable B : nat.
  Variable strerror : Z -> str.
  Lemma read_path f k : forall fuel l st r, path (pseq_read strerror fuel f k) l (PDone (st, r)) ->
    (st <> SOk /\ r = Untouched /\ shifts l = 0%Z \/ exists d, st = SOk /\ r = Bytes d /\ last_read (sq_fd f) k d l).
  Proof.
    induction fuel as [|fuel IH]; intros l st r P; cbn [pseq_read] in P.
    - apply path_bad in P. destruct P as (_ & P). discriminate.
    - unfold psys in P. cbn [pbind] in P. apply path_psys in P. destruct P as [(_ & P)|(a & l' & -> & P)]; [discriminate|]. destruct (Z.ltb_spec (a_ret a) 0) as [L|L].
      + assert (S1 : shift1 (CRead (sq_fd f) k) a = 0%Z) by (cbn [shift1]; replace (Z.to_nat (a_ret a)) with 0 by lia; reflexivity).
        destruct (a_errno a =? EINTR)%Z.
        * destruct (IH _ _ _ P) as [(X1 & X2 & X3)|(d & -> & -> & l1 & b & -> & X2 & X3 & ->)].
          -- left. cbn [shifts]. rewrite S1, X3. auto.
          -- right. eexists. split; [reflexivity|]. split; [reflexivity|]. exists ((CRead (sq_fd f) k, a) :: l1), b. split; [reflexivity|]. cbn [shifts]. rewrite S1, X2. auto.
        * apply path_done in P. destruct P as (-> & P). injection P as -> ->. left. cbn [shifts]. rewrite S1. split; [apply posix_error|auto].
      + destruct (Z.of_N k <? a_ret a)%Z; [apply path_bad in P; destruct P as (_ & P); discriminate|]. apply path_done in P. destruct P as (-> & P). injection P as -> ->. right. eexists. split; [reflexivity|]. split; [reflexivity|].
        exists [], a. auto.
  Qed.
  Lemma read_only f k : forall fuel, only (on_fd (sq_fd f)) (pseq_read strerror fuel f k).
  Proof.
    induction fuel as [|fuel IH]; cbn [pseq_read]; [exact Logic.I|]. unfold psys. cbn [pbind only on_fd]. split; [reflexivity|]. intros a. destruct (a_ret a <? 0)%Z; [destruct (a_errno a =? EINTR)%Z; [exact IH|exact Logic.I]|].
    destruct (Z.of_N k <? a_ret a)%Z; exact Logic.I.
  Qed.
  Lemma only_bind {A C} (P : syscall -> Prop) (p : prog A) (f : A -> prog C) : only P p -> (forall a, only P (f a)) -> only P (pbind p f).
  Proof. intros H Hf. induction p as [a|o|c k IH|l k IH|l k IH]; cbn [pbind only] in *; auto. destruct H as (H1 & H2). split; auto. Qed.
  Lemma path_bind {A C} (p : prog A) (f : A -> prog C) : forall l c, path (pbind p f) l (PDone c) -> exists l1 a l2, l = l1 ++ l2 /\ path p l1 (PDone a) /\ path (f a) l2 (PDone c).
  Proof.
    induction p as [a|o|c k IH|w k IH|w k IH]; intros l r P; cbn [pbind] in P.
    - exists [], a, l. split; [reflexivity|]. split; [constructor|exact P].
    - apply path_bad in P. destruct P as (_ & P). discriminate.
    - apply path_psys in P. destruct P as [(_ & P)|(a & l' & -> & P)]; [discriminate|]. destruct (IH a _ _ P) as (l1 & b & l2 & -> & P1 & P2). exists ((c, a) :: l1), b, l2. split; [reflexivity|]. split; [constructor; exact P1|exact P2].
    - apply path_psub in P. destruct P as [(_ & P)|(z & P)]; [discriminate|]. destruct (IH z _ _ P) as (l1 & b & l2 & -> & P1 & P2). exists l1, b, l2. split; [reflexivity|]. split; [econstructor; exact P1|exact P2].
    - apply path_padd in P. destruct P as [(_ & P)|P]; [discriminate|]. destruct (IH _ _ P) as (l1 & b & l2 & -> & P1 & P2). exists l1, b, l2. split; [reflexivity|]. split; [econstructor; exact P1|exact P2].
  Qed.
  Lemma stream_only fuel x f : fits x (ObS f) -> only (on_fd (sq_fd f)) (prog_of dbg B strerror fuel x (Some (ObS f))).
  Proof.
    intros F. destruct x; try contradiction F; cbn [prog_of].
    - apply only_bind; [apply read_only|]. intros [st r]. exact Logic.I.
    - unfold pseq_skip, psys. cbn [pbind only on_fd]. auto.
    - unfold psys. cbn [pbind only on_fd]. auto.
  Qed.
  Lemma stream_says fuel x f l o q : fits x (ObS f) -> path (prog_of dbg B strerror fuel x (Some (ObS f))) l (PDone (o, q)) ->
    shifts l = says x q /\ (forall h k, x = PSRead h k -> (exists st, q = QData st Untouched /\ st <> SOk) \/ exists d, q = QData SOk (Bytes d) /\ last_read (sq_fd f) k d l) /\
    (forall h k, x = PSSkip h k -> exists st, q = QStat st).
  Proof.
    intros F P. destruct x; try contradiction F; cbn [prog_of] in P.
    - apply path_bind in P. destruct P as (l1 & [st r] & l2 & -> & P1 & P2). apply path_done in P2. destruct P2 as (-> & P2). injection P2 as -> ->. rewrite app_nil_r.
      destruct (read_path _ _ _ _ _ _ P1) as [(X1 & -> & X3)|(d & -> & -> & X)].
      + split; [rewrite X3; destruct st; [congruence|reflexivity]|]. split; [|discriminate]. intros h' k E. left. eauto.
      + split; [|split; [|discriminate]]. 2:{ intros h' k E. injection E as <- <-. right. eauto. }
        destruct X as (l3 & a & -> & X2 & X3 & ->). rewrite shifts_app, X2. cbn [shifts shift1 says]. lia.
    - unfold pseq_skip, psys in P. cbn [pbind] in P. apply path_psys in P. destruct P as [(_ & P)|(a & l' & -> & P)]; [discriminate|]. apply path_done in P. destruct P as (-> & P). injection P as -> ->.
      split; [|split; [discriminate|eauto]]. cbn [shifts shift1 says]. destruct (a_ret a =? -1)%Z; [|unfold skip_by, off_t; apply Z.add_0_r].
      destruct (PosixOs.PosixError strerror (sq_name f) (a_errno a)) eqn:E; [elim (posix_error strerror (sq_name f) (a_errno a)); exact E|reflexivity].
    - unfold psys in P. cbn [pbind] in P. apply path_psys in P. destruct P as [(_ & P)|(a & l' & -> & P)]; [discriminate|]. apply path_done in P. destruct P as (-> & P). injection P as -> ->. split; [reflexivity|]. split; discriminate.
  Qed.
  Lemma new_stream_path f l q : path (pnew_sequential strerror f) l q -> l = [] \/ exists a, l = [(COpen f RdOnly, a)].
  Proof.
    intros P. unfold pnew_sequential, psys in P. cbn [pbind] in P. apply path_psys in P. destruct P as [(-> & _)|(a & l' & -> & P)]; [auto|]. right. exists a. destruct (a_ret a <? 0)%Z; apply path_done in P; destruct P as (-> & _); reflexivity.
  Qed.
End Prog.

Lemma k_read_inv v fd n a v' : kstep v (CRead fd n, a) v' -> (a_ret a = -1)%Z /\ v' = v \/
  exists x, v_fd v fd = Some x /\ a_ret a = Z.of_nat (length (a_data a)) /\ piece (a_data a) (v_data v (d_ino x)) (Z.to_nat (d_off x)) n /\
    v' = with_fd v fd (Some (mk_fdesc (d_ino x) (d_off x + a_ret a) (d_app x))).
Proof. intros K. inversion K; subst; try discriminate; auto. right. eexists. repeat split; eauto. Qed.

Section Stream.
  Variable dbg : bool.
  Variable B : nat.
  Variable strerror : Z -> str.
  Variables (v0 : view) (lim0 : limits) (m0 : nat).
  Hypothesis S0 : forall fd, v_fd v0 fd <> None -> (0 <= fd)%Z.
  Notation cstep := (cstep dbg B strerror).
  Notation cruns := (cruns dbg B strerror v0 lim0 m0).
  Notation inv := (inv B v0 lim0).
  Notation inv_runs := (inv_runs dbg B strerror v0 lim0 m0 S0).
  Notation oinv_runs := (oinv_runs dbg B strerror v0 lim0 m0 S0).
  Variables (h : nat) (f : str).

  (** The file [h] was opened on. *)
  Definition named (tr : trace) (i : nat) : Prop :=
    exists later p fl a v earlier, tr = later ++ (Act h (COpen p fl) a, v) :: earlier /\ (0 <= a_ret a)%Z /\ v_name v p = Some i.
  Lemma named_cons e tr i : named tr i -> named (e :: tr) i.
  Proof. intros (l & p & fl & a & v & r & -> & X). exists (e :: l), p, fl, a, v, r. auto. Qed.
  Lemma named_app l tr i : named tr i -> named (l ++ tr) i.
  Proof. intros H. induction l as [|e l IH]; [exact H|]. apply named_cons. exact IH. Qed.

  (** The calls on [h]: they run [prog_of] on the sequential file. *)
  Lemma stream_call tr cf Rs t n x p : cruns tr cf -> inv tr cf Rs -> call_no tr h = Some (PNewSeq f) -> nth_error (c_thr cf) t = Some (TIn n x p) -> on x = Some h ->
    exists fuel g, path (prog_of dbg B strerror fuel x (Some (ObS g))) (acts tr n) p /\ fits x (ObS g) /\ shared x = false.
  Proof.
    intros R H C Et Ox. destruct (o_on _ _ _ _ _ (oinv_runs _ _ R) _ _ _ _ _ Et Ox) as (fuel & ob & P & _ & (y & Cy & Oy) & Fi). rewrite C in Cy. injection Cy as <-. cbn [opens] in Oy.
    destruct ob as [g|g|g]; try discriminate Oy. exists fuel, g. split; [exact P|]. split; [exact Fi|]. destruct x; try reflexivity. contradiction Fi.
  Qed.
  (** The descriptor of [h] is moved only by calls on [h]. *)
  Definition at_pos (tr : trace) (z : Z) : Prop := forall fd x, owner tr fd = Some h -> v_fd (now v0 tr) fd = Some x -> (d_off x = z /\ (0 <= z)%Z) /\ named tr (d_ino x).
  Definition read_done (tr : trace) (n : nat) (l : list (syscall * answer)) : Prop :=
    forall fd k d, last_read fd k d l -> (0 <= moved tr h)%Z /\ exists i, named tr i /\ during v0 tr n (fun v => piece d (v_data v i) (Z.to_nat (moved tr h)) k).
  Record sinv (tr : trace) (cf : conf) : Prop := mk_sinv {
    s_idle : (forall t n x p, nth_error (c_thr cf) t = Some (TIn n x p) -> on x <> Some h) -> at_pos tr (moved tr h);
    s_run : forall t n x p, nth_error (c_thr cf) t = Some (TIn n x p) -> on x = Some h -> at_pos tr (moved tr h + shifts (acts tr n)) /\ read_done tr n (acts tr n);
    s_new : ended tr h = None -> moved tr h = 0%Z;
    s_done : forall later n d v earlier k, tr = later ++ (End n (RData SOk d), v) :: earlier -> call_no earlier n = Some (PSRead h k) ->
      (0 <= moved earlier h)%Z /\ exists i, named earlier i /\ during v0 earlier n (fun v => piece d (v_data v i) (Z.to_nat (moved earlier h)) k)
  }.
  Lemma on_dec (x : pcall) : on x = Some h \/ on x <> Some h.
  Proof. destruct (on x) as [h'|]; [destruct (Nat.eq_dec h' h); [left|right]; congruence|right; discriminate]. Qed.
  (** somebody runs a call on h, or nobody does *)
  Lemma busy_dec cf : (exists t n x p, nth_error (c_thr cf) t = Some (TIn n x p) /\ on x = Some h) \/ (forall t n x p, nth_error (c_thr cf) t = Some (TIn n x p) -> on x <> Some h).
  Proof.
    generalize (c_thr cf). intros l. induction l as [|[|n x p] l IH].
    - right. intros [|t] n x p E; discriminate.
    - destruct IH as [(t & n & x & p & E & O)|IH]; [left; exists (S t), n, x, p; auto|right]. intros [|t] n x p E; [discriminate|exact (IH _ _ _ _ E)].
    - destruct (on_dec x) as [O|O]; [left; exists 0, n, x, p; auto|]. destruct IH as [(t & n' & x' & p' & E & O')|IH]; [left; exists (S t), n', x', p'; auto|right].
      intros [|t] n' x' p' E; [cbn in E; injection E as <- <- <-; exact O|exact (IH _ _ _ _ E)].
  Qed.
  Lemma at_pos_keep e tr z : owner (e :: tr) = owner tr -> now v0 (e :: tr) = now v0 tr -> at_pos tr z -> at_pos (e :: tr) z.
  Proof. intros E1 E2 A fd x O V. rewrite E1 in O. rewrite E2 in V. destruct (A fd x O V). split; [assumption|apply named_cons; assumption]. Qed.
  Lemma during_cons e tr n (P : view -> Prop) : during v0 tr n P -> during v0 (e :: tr) n P.
  Proof. intros (l & r & -> & X). exists (e :: l), r. auto. Qed.
  Lemma read_done_keep e tr n l : moved (e :: tr) h = moved tr h -> read_done tr n l -> read_done (e :: tr) n l.
  Proof. intros E D fd k d L. destruct (D _ _ _ L) as (Z0 & i & X & Y). split; [rewrite E; exact Z0|]. exists i. split; [apply named_cons; exact X|]. rewrite E. apply during_cons. exact Y. Qed.

  (** One step of the kernel by call [n] which is not on [h]. *)
  Lemma at_pos_other tr cf Rs t n x c k a v z : cruns tr cf -> inv tr cf Rs -> call_no tr h = Some (PNewSeq f) -> nth_error (c_thr cf) t = Some (TIn n x (PSys c k)) -> kstep (c_view cf) (c, a) v ->
    on x <> Some h -> (n = h -> z = 0%Z) -> at_pos tr z -> at_pos ((Act n c a, v) :: tr) z.
  Proof.
    intros R H C Et K Nx Nz A fd y O V. cbn [now] in V. pose proof (view_runs dbg B strerror v0 lim0 m0 S0 _ _ R) as Vw. destruct (running _ _ _ _ _ _ _ _ _ _ H Et) as (Ip & Cn).
    assert (R' : cruns ([] ++ (Act n c a, v) :: tr) (mk_conf v (c_lim cf) (c_objs cf) (c_next cf) (set_thr t (TIn n x (k a)) (c_thr cf)))).
    { cbn [app]. exact (cr_step _ _ _ _ _ _ _ _ _ _ _ R (s_sys _ _ _ _ _ _ _ _ _ _ _ Et K)). }
    destruct (fd_new c a fd) eqn:Fn.
    - (* just opened *)
      destruct c as [p fl| | | | | | | | | | | | | | | | | | | | | |]; try discriminate Fn. cbn [owner fd_new] in O, Fn. rewrite Fn in O. injection O as ->. apply andb_true_iff in Fn. destruct Fn as (F1 & F2). apply Z.eqb_eq in F1. apply Z.leb_le in F2.
      rewrite (Nz eq_refl). destruct (k_new _ _ _ _ _ K) as (_ & y' & E1 & E2); [lia|]. rewrite F1 in E1. assert (y' = y) by congruence. subst y'. split.
      + inversion K; subst; try discriminate; try lia; cbn [v_fd with_fd] in E1; rewrite upd_same in E1; injection E1 as <-; (split; [reflexivity|cbn; lia]).
      + exists [], p, fl, a, v, tr. split; [reflexivity|]. split; [lia|exact E2].
    - assert (O' : owner tr fd = Some h /\ is_close c && (match c with CClose fd' => (fd' =? fd)%Z | _ => false end) = false).
      { destruct c; try (split; [exact O|reflexivity]); cbn [owner fd_new] in *; [rewrite Fn in O; auto|]. match type of O with context [(?z =? fd)%Z] => destruct (Z.eqb_spec z fd) end; [discriminate|auto]. }
      destruct O' as (O' & Ncl).
      assert (U : uses_fd c <> Some fd).
      { intros U. destruct (use_fd dbg B strerror v0 lim0 m0 S0 _ _ _ _ _ _ _ fd R' U) as [E|(m & Om & En & _)].
        - destruct (owned B strerror v0 lim0 _ _ _ _ _ H O') as (X & _). lia.
        - rewrite O' in Om. injection Om as <-. destruct En as [E|(y' & Cy & Oy)]; [|rewrite Cn in Cy; injection Cy as <-; contradiction].
          subst n. assert (x = PNewSeq f) by congruence. subst x. destruct (did_runs dbg B strerror v0 lim0 m0 S0 _ _ R _ _ _ _ Et) as (fuel & o & P & O1 & _). cbn [prog_of] in P.
          pose proof (path_sys _ _ _ _ a P) as P2. apply new_stream_path in P2. destruct P2 as [E|(b & E)]; [destruct (acts tr h); discriminate|].
          change [(COpen f RdOnly, b)] with ([] ++ [(COpen f RdOnly, b)]) in E. apply app_inj_tail in E. destruct E as (_ & E). injection E as -> ->. discriminate U. }
      rewrite (k_fd _ _ _ _ K fd U Fn) in V. rewrite <- Vw in V. destruct (A _ _ O' V). split; [assumption|apply named_cons; assumption].
  Qed.
  (** One step of the kernel by a call on [h]. *)
  Lemma at_pos_self tr cf Rs t n x c k a v z : cruns tr cf -> inv tr cf Rs -> call_no tr h = Some (PNewSeq f) -> nth_error (c_thr cf) t = Some (TIn n x (PSys c k)) -> kstep (c_view cf) (c, a) v ->
    on x = Some h -> at_pos tr z ->
    at_pos ((Act n c a, v) :: tr) (z + shift1 c a) /\
    (forall fd m, c = CRead fd m -> (0 <= a_ret a)%Z -> (0 <= z)%Z /\ exists i, named tr i /\ piece (firstn (Z.to_nat (a_ret a)) (a_data a)) (v_data (now v0 tr) i) (Z.to_nat z) m).
  Proof.
    intros R H C Et K Ox A. pose proof (view_runs dbg B strerror v0 lim0 m0 S0 _ _ R) as Vw. destruct (running _ _ _ _ _ _ _ _ _ _ H Et) as (Ip & Cn).
    destruct (stream_call _ _ _ _ _ _ _ R H C Et Ox) as (fuel & g & P & Fi & Sx).
    pose proof (stream_only dbg B strerror fuel x g Fi) as On. destruct (only_path _ _ _ _ P On) as (_ & Oc). cbn [only] in Oc. destruct Oc as (Oc & _).
    assert (R' : cruns ([] ++ (Act n c a, v) :: tr) (mk_conf v (c_lim cf) (c_objs cf) (c_next cf) (set_thr t (TIn n x (k a)) (c_thr cf)))).
    { cbn [app]. exact (cr_step _ _ _ _ _ _ _ _ _ _ _ R (s_sys _ _ _ _ _ _ _ _ _ _ _ Et K)). }
    (* the descriptor it uses is that of h *)
    assert (Nh : n <> h). { intros ->. apply (i_on _ _ _ _ _ _ H _ _ _ Cn Ox). apply Ip. }
    assert (Own : forall fd, uses_fd c = Some fd -> v_fd (now v0 tr) fd <> None -> owner tr fd = Some h).
    { intros fd U Vn. destruct (use_fd dbg B strerror v0 lim0 m0 S0 _ _ _ _ _ _ _ fd R' U) as [E|(m & Om & En & _)].
      - exfalso. subst fd. pose proof (fd_nonneg dbg B strerror v0 lim0 m0 S0 _ _ (-1)%Z R Vn). lia.
      - destruct En as [->|(y & Cy & Oy)]; [|congruence]. exfalso.
        (* n has opened nothing *)
        destruct (v_fd (now v0 tr) fd) as [y|] eqn:Ey; [|congruence]. destruct (fd_track dbg B strerror v0 lim0 m0 S0 _ _ R _ _ _ Om Ey) as (l1 & p & fl & b & w & l2 & E & _).
        destruct (only_path _ _ _ _ P On) as (Fa & _). rewrite Forall_forall in Fa. specialize (Fa (COpen p fl, b)). cbn [fst on_fd] in Fa. apply Fa. rewrite E. apply act_acts. }
    destruct c as [|fd|fd d|fd k0| |fd off| | | | | | | | | | | | | | | | |]; try contradiction Oc; cbn [on_fd] in Oc; subst fd.
    - (* close *) split; [|discriminate]. cbn [shift1]. rewrite Z.add_0_r. intros fd y O V. cbn [owner now] in O, V. destruct (Z.eqb_spec (sq_fd g) fd) as [|N]; [discriminate|].
      assert (U : uses_fd (CClose (sq_fd g)) <> Some fd) by (cbn [uses_fd]; congruence). rewrite (k_fd _ _ _ _ K fd U eq_refl) in V. rewrite <- Vw in V. destruct (A _ _ O V). split; [assumption|apply named_cons; assumption].
    - (* read *)
      destruct (k_read_inv _ _ _ _ _ K) as [(E1 & ->)|(y & Ey & Er & Pc & ->)].
      + split; [|intros fd m E; lia]. cbn [shift1]. rewrite E1. cbn [Z.to_nat firstn length]. rewrite Z.add_0_r. apply at_pos_keep; [reflexivity|cbn [now]; congruence|exact A].
      + assert (Vn : v_fd (now v0 tr) (sq_fd g) <> None) by (rewrite Vw; congruence). pose proof (Own _ eq_refl Vn) as O. rewrite <- Vw in Ey, Pc. destruct (A _ _ O Ey) as ((A1 & A0) & A2).
        assert (Ef : firstn (Z.to_nat (a_ret a)) (a_data a) = a_data a) by (rewrite Er, Nat2Z.id; apply firstn_all). cbn [shift1]. rewrite Ef. split.
        * intros fd y' O' V. cbn [owner now] in O', V. cbn [v_fd with_fd] in V. unfold upd in V. destruct (Z.eq_dec fd (sq_fd g)) as [->|Ne].
          -- injection V as <-. cbn [d_off d_ino]. split; [lia|apply named_cons; exact A2].
          -- exfalso. apply Ne. destruct (running_alive B v0 lim0 h _ _ _ _ _ _ _ H Et Ox Sx) as (_ & (kd & nm & Al) & _). exact (one_fd dbg B strerror v0 lim0 m0 S0 _ _ _ _ _ _ _ R Al O' O).
        * intros fd m E _. injection E as <- <-. split; [exact A0|]. exists (d_ino y). split; [exact A2|]. rewrite <- A1. exact Pc.
    - (* lseek *) split; [|discriminate].
      assert (Kc : (a_ret a = -1)%Z /\ v = c_view cf \/ exists y, v_fd (c_view cf) (sq_fd g) = Some y /\ a_ret a = (d_off y + off)%Z /\ (0 <= a_ret a)%Z /\ v = with_fd (c_view cf) (sq_fd g) (Some (mk_fdesc (d_ino y) (a_ret a) (d_app y)))) by (inversion K; subst; try discriminate; eauto 8).
      cbn [shift1]. destruct Kc as [(E1 & ->)|(y & Ey & Er & La & ->)].
      + rewrite E1. cbn [Z.eqb Pos.eqb]. rewrite Z.add_0_r. apply at_pos_keep; [reflexivity|cbn [now]; congruence|exact A].
      + destruct (Z.eqb_spec (a_ret a) (-1)); [lia|]. assert (Vn : v_fd (now v0 tr) (sq_fd g) <> None) by (rewrite Vw; congruence). pose proof (Own _ eq_refl Vn) as O. rewrite <- Vw in Ey. destruct (A _ _ O Ey) as ((A1 & A0) & A2).
        intros fd y' O' V. cbn [owner now] in O', V. cbn [v_fd with_fd] in V. unfold upd in V. destruct (Z.eq_dec fd (sq_fd g)) as [->|Ne].
        * injection V as <-. cbn [d_off d_ino]. split; [lia|apply named_cons; exact A2].
        * exfalso. apply Ne. destruct (running_alive B v0 lim0 h _ _ _ _ _ _ _ H Et Ox Sx) as (_ & (kd & nm & Al) & _). exact (one_fd dbg B strerror v0 lim0 m0 S0 _ _ _ _ _ _ _ R Al O' O).
  Qed.
  Lemma says_moved tr n x v q y : call_no tr n = Some x -> on x = Some h -> (forall h' k, x = PSRead h' k -> (exists st, q = QData st Untouched /\ st <> SOk) \/ exists d, q = QData SOk (Bytes d)) ->
    (forall h' k, x = PSSkip h' k -> exists st, q = QStat st) -> moved ((End n (observe v q), y) :: tr) h = (moved tr h + says x q)%Z.
  Proof.
    intros C O Q1 Q2. cbn [moved]. rewrite C. f_equal. destruct x; try reflexivity; cbn [on] in O; injection O as ->.
    - destruct (Q1 _ _ eq_refl) as [(st & -> & N)|(d & ->)]; cbn [observe says].
      + destruct st; [congruence|reflexivity].
      + rewrite Nat.eqb_refl. reflexivity.
    - destruct (Q2 _ _ eq_refl) as (st & ->). cbn [observe says]. destruct st; [rewrite Nat.eqb_refl; reflexivity|reflexivity].
  Qed.
  Lemma moved_other tr n x r y : call_no tr n = Some x -> on x <> Some h -> moved ((End n r, y) :: tr) h = moved tr h.
  Proof. intros C O. cbn [moved]. rewrite C. destruct x; try (cbn [moved]; lia); cbn [on] in O; destruct r as [s|b|s l|s k|s d|]; try lia; destruct s; try lia; (destruct (Nat.eqb_spec h0 h); [congruence|lia]). Qed.

  Lemma done_cons e tr (P : Prop) : (forall n d v k, e = (End n (RData SOk d), v) -> call_no tr n = Some (PSRead h k) -> (0 <= moved tr h)%Z /\ exists i, named tr i /\ during v0 tr n (fun v => piece d (v_data v i) (Z.to_nat (moved tr h)) k)) ->
    (forall later n d v earlier k, tr = later ++ (End n (RData SOk d), v) :: earlier -> call_no earlier n = Some (PSRead h k) ->
      (0 <= moved earlier h)%Z /\ exists i, named earlier i /\ during v0 earlier n (fun v => piece d (v_data v i) (Z.to_nat (moved earlier h)) k)) ->
    forall later n d v earlier k, e :: tr = later ++ (End n (RData SOk d), v) :: earlier -> call_no earlier n = Some (PSRead h k) ->
      (0 <= moved earlier h)%Z /\ exists i, named earlier i /\ during v0 earlier n (fun v => piece d (v_data v i) (Z.to_nat (moved earlier h)) k).
  Proof. intros H1 H2 [|e' later] n d v earlier k E C; cbn [app] in E; [injection E as -> <-; eapply H1; [reflexivity|exact C]|injection E as _ E; eapply H2; eassumption]. Qed.

  Lemma sinv_runs tr cf : cruns tr cf -> call_no tr h = Some (PNewSeq f) -> sinv tr cf.
  Proof.
    induction 1 as [|tr cf t o cf' R IH St]; [discriminate|]. intros C. destruct (inv_runs _ _ R) as (Rs & H). pose proof (view_runs dbg B strerror v0 lim0 m0 S0 _ _ R) as Vw.
    destruct St as [x fuel Et M|n x c k a v' Et K|n x l k Et|n x l k Et|n x o q Et]; cbn [add_lab c_view] in *.
    - destruct (fresh B v0 lim0 _ _ _ H) as (Fc & Fe). cbn [call_no] in C. destruct (Nat.eqb_spec (c_next cf) h) as [E|Nn].
      + (* the call that makes h begins *)
        injection C as ->.
        assert (NoH : forall fd, owner tr fd <> Some h). { intros fd O. destruct (owner_called dbg B strerror v0 lim0 m0 S0 _ _ _ _ R O) as (z & X). congruence. }
        assert (NoC : forall n y, call_no tr n = Some y -> on y <> Some h) by (intros n y Cn Oy; apply (i_on _ _ _ _ _ _ H _ _ _ Cn Oy); congruence).
        assert (Mv : moved tr h = 0%Z /\ forall later n d v earlier k, tr = later ++ (End n (RData SOk d), v) :: earlier -> call_no earlier n = Some (PSRead h k) -> False).
        { clear -NoC R S0. assert (G : forall l1 l2, tr = l1 ++ l2 -> forall n y, call_no l2 n = Some y -> on y <> Some h).
          { intros l1 l2 -> n y Cn. apply (NoC n). eapply (call_later dbg B strerror v0 lim0 m0 S0); eassumption. }
          split.
          - revert G. clear. induction tr as [|[lb w] tr IH]; intros G; [reflexivity|]. assert (IH' : moved tr h = 0%Z) by (apply IH; intros l1 l2 ->; apply (G ((lb, w) :: l1)); reflexivity).
            destruct lb as [n y|n c a|n r]; try exact IH'. destruct (call_no tr n) as [y|] eqn:Ey; [|cbn [moved]; rewrite Ey; destruct r as [s|b|s l0|s k0|s d|]; lia].
            rewrite (moved_other _ _ _ _ _ Ey); [exact IH'|]. apply (G [(End n r, w)] tr eq_refl n). exact Ey.
          - intros later n d v earlier k E Cn. apply (G (later ++ [(End n (RData SOk d), v)]) earlier) with (n := n) (y := PSRead h k); [rewrite <- app_assoc; exact E|exact Cn|reflexivity]. }
        destruct Mv as (Mv & Md). constructor; cbn [moved c_thr].
        * intros _ fd y O. cbn [owner] in O. contradiction (NoH fd O).
        * intros u n x p E' Oy. exfalso. rewrite set_thr_setr in E'. destruct (Nat.eq_dec t u) as [<-|N]; [rewrite (setr_same _ _ _ _ Et) in E'; injection E' as _ <- _; discriminate Oy|].
          rewrite setr_other in E' by exact N. destruct (running _ _ _ _ _ _ _ _ _ _ H E') as (_ & Cn). exact (NoC _ _ Cn Oy).
        * intros _. exact Mv.
        * apply done_cons; [exact True|discriminate|]. intros later n d v earlier k E' Cn. contradiction (Md _ _ _ _ _ _ E' Cn).
      + destruct (IH C) as [I1 I2 I3 I4]. constructor; cbn [moved c_thr].
        * intros Nb. apply at_pos_keep; [reflexivity|cbn [now]; congruence|]. apply I1. intros u n y p E. apply (Nb u n y p). rewrite set_thr_setr. rewrite setr_other; [exact E|]. intros ->. congruence.
        * intros u n y p E Oy. rewrite set_thr_setr in E. destruct (Nat.eq_dec t u) as [<-|N].
          -- rewrite (setr_same _ _ _ _ Et) in E. injection E as <- <- <-. cbn [acts]. rewrite (acts_new dbg B strerror v0 lim0 m0 S0 _ _ R). cbn [shifts]. rewrite Z.add_0_r. split.
             ++ apply at_pos_keep; [reflexivity|cbn [now]; congruence|]. apply I1. unfold may_begin in M. rewrite Oy in M. destruct M as ((ob & M1 & M2) & M3). apply M3.
                pose proof (oget_in _ _ _ M1) as I0. destruct (i_objs _ _ _ _ _ _ H _ _ I0) as (_ & ((y & A1 & A2 & _) & _)). rewrite C in A1. injection A1 as <-. cbn [opens] in A2. destruct ob as [g|g|g]; try discriminate A2. destruct x; try reflexivity. contradiction M2.
             ++ intros fd k d (l1 & a & E & _). destruct l1; discriminate.
          -- rewrite setr_other in E by exact N. destruct (I2 _ _ _ _ E Oy) as (X1 & X2). cbn [acts]. split; [apply at_pos_keep; [reflexivity|cbn [now]; congruence|exact X1]|apply read_done_keep; [reflexivity|exact X2]].
        * exact I3.
        * apply done_cons; [exact True|discriminate|exact I4].
    - cbn [call_no] in C. destruct (IH C) as [I1 I2 I3 I4]. destruct (running _ _ _ _ _ _ _ _ _ _ H Et) as (Ip & Cn). constructor; cbn [moved c_thr].
      + intros Nb. assert (Nx : on x <> Some h). { apply (Nb t n x (k a)). rewrite set_thr_setr. apply (setr_same _ _ _ _ Et). }
        apply (at_pos_other tr cf Rs t n x c k a v'); auto.
        * intros ->. apply I3. apply Ip.
        * apply I1. intros u n' y p E. destruct (Nat.eq_dec t u) as [<-|N]; [rewrite Et in E; injection E as _ <- _; exact Nx|]. apply (Nb u n' y p). rewrite set_thr_setr, setr_other by exact N. exact E.
      + intros u n' y p E Oy. rewrite set_thr_setr in E. destruct (Nat.eq_dec t u) as [<-|N].
        * rewrite (setr_same _ _ _ _ Et) in E. injection E as <- <- <-. destruct (I2 _ _ _ _ Et Oy) as (X1 & X2). cbn [acts]. rewrite Nat.eqb_refl, shifts_app. cbn [shifts]. rewrite Z.add_0_r.
          destruct (at_pos_self _ _ _ _ _ _ _ _ _ _ _ R H C Et K Oy X1) as (Y1 & Y2). split; [rewrite Z.add_assoc; exact Y1|].
          intros fd m d (l1 & b & E & Sh & La & ->). apply app_inj_tail in E. destruct E as (E & E'). injection E' as -> ->. rewrite E, Sh, Z.add_0_r in Y2. destruct (Y2 _ _ eq_refl La) as (Z0 & i & Z1 & Z2). cbn [moved]. split; [exact Z0|]. exists i. split; [apply named_cons; exact Z1|].
          cbn [moved]. exists [(Act n (CRead fd m) b, v')], tr. split; [reflexivity|]. split; [exact Ip|exact Z2].
        * rewrite setr_other in E by exact N. destruct (I2 _ _ _ _ E Oy) as (X1 & X2).
          assert (Nx : on x <> Some h). { intros Ox. pose proof (i_excl _ _ _ _ _ _ H _ _ _ _ _ _ _ _ _ N Et E Ox Oy) as Z. destruct (stream_call _ _ _ _ _ _ _ R H C Et Ox) as (? & ? & _ & _ & Z'). congruence. }
          assert (Nn : n <> n') by (intros ->; apply N; eapply (i_uniq _ _ _ _ _ _ H); eassumption).
          assert (Ea : acts ((Act n c a, v') :: tr) n' = acts tr n') by (cbn [acts]; destruct (Nat.eqb_spec n n'); [contradiction|reflexivity]). rewrite Ea.
          split; [|apply read_done_keep; [reflexivity|exact X2]]. apply (at_pos_other tr cf Rs t n x c k a v'); auto.
          intros ->. exfalso. destruct (running _ _ _ _ _ _ _ _ _ _ H E) as (_ & Cm). apply (i_on _ _ _ _ _ _ H _ _ _ Cm Oy). apply Ip.
      + exact I3.
      + apply done_cons; [exact True|discriminate|exact I4].
    - destruct (IH C) as [I1 I2 I3 I4]. constructor; cbn [c_thr]; auto.
      + intros Nb. apply I1. intros u n' y p E. destruct (Nat.eq_dec t u) as [<-|N]; [|apply (Nb u n' y p); rewrite set_thr_setr, setr_other by exact N; exact E].
        rewrite Et in E. injection E as _ <- _. apply (Nb t n x (k (lim_get (c_lim cf) l))). rewrite set_thr_setr. apply (setr_same _ _ _ _ Et).
      + intros u n' y p E Oy. rewrite set_thr_setr in E. destruct (Nat.eq_dec t u) as [<-|N]; [rewrite (setr_same _ _ _ _ Et) in E; injection E as <- <- <-; exact (I2 _ _ _ _ Et Oy)|rewrite setr_other in E by exact N; exact (I2 _ _ _ _ E Oy)].
    - destruct (IH C) as [I1 I2 I3 I4]. constructor; cbn [c_thr]; auto.
      + intros Nb. apply I1. intros u n' y p E. destruct (Nat.eq_dec t u) as [<-|N]; [|apply (Nb u n' y p); rewrite set_thr_setr, setr_other by exact N; exact E].
        rewrite Et in E. injection E as _ <- _. apply (Nb t n x k). rewrite set_thr_setr. apply (setr_same _ _ _ _ Et).
      + intros u n' y p E Oy. rewrite set_thr_setr in E. destruct (Nat.eq_dec t u) as [<-|N]; [rewrite (setr_same _ _ _ _ Et) in E; injection E as <- <- <-; exact (I2 _ _ _ _ Et Oy)|rewrite setr_other in E by exact N; exact (I2 _ _ _ _ E Oy)].
    - cbn [call_no] in C. destruct (IH C) as [I1 I2 I3 I4]. destruct (running _ _ _ _ _ _ _ _ _ _ H Et) as (Ip & Cn).
      destruct (on_dec x) as [Ox|Nx].
      + (* a call on h ends *)
        destruct (stream_call _ _ _ _ _ _ _ R H C Et Ox) as (fuel & g & P & Fi & Sx). destruct (stream_says _ _ _ _ _ _ _ _ _ Fi P) as (Sh & Q1 & Q2). destruct (I2 _ _ _ _ Et Ox) as (X1 & X2).
        assert (Mv : moved ((End n (observe (c_view cf) q), c_view cf) :: tr) h = (moved tr h + says x q)%Z).
        { apply says_moved; auto. intros h' k' Ex. destruct (Q1 _ _ Ex) as [X|(d & X & _)]; [left; exact X|right; eauto]. }
        constructor; cbn [c_thr]; rewrite ?Mv.
        * intros _. rewrite <- Sh. apply at_pos_keep; [reflexivity|cbn [now]; congruence|exact X1].
        * intros u n' y p E Oy. exfalso. rewrite set_thr_setr in E. destruct (Nat.eq_dec t u) as [<-|N]; [rewrite (setr_same _ _ _ _ Et) in E; discriminate|]. rewrite setr_other in E by exact N.
          pose proof (i_excl _ _ _ _ _ _ H _ _ _ _ _ _ _ _ _ N Et E Ox Oy) as Z. congruence.
        * cbn [ended]. intros E. exfalso. destruct (n =? h); [discriminate|]. exact (i_on _ _ _ _ _ _ H _ _ _ Cn Ox E).
        * apply done_cons; [exact True| |exact I4]. intros n' d v k E C'. injection E as <- E _. rewrite Cn in C'. injection C' as ->.
          destruct (Q1 _ _ eq_refl) as [(st & -> & Ns)|(d' & -> & L)]; cbn [observe] in E; [congruence|]. injection E as ->. exact (X2 _ _ _ L).
      + assert (Mv : moved ((End n (observe (c_view cf) q), c_view cf) :: tr) h = moved tr h) by (eapply moved_other; eassumption).
        constructor; cbn [c_thr]; rewrite ?Mv.
        * intros Nb. apply at_pos_keep; [reflexivity|cbn [now]; congruence|]. apply I1. intros u n' y p E. destruct (Nat.eq_dec t u) as [<-|N]; [rewrite Et in E; injection E as _ <- _; exact Nx|]. apply (Nb u n' y p). rewrite set_thr_setr, setr_other by exact N. exact E.
        * intros u n' y p E Oy. rewrite set_thr_setr in E. destruct (Nat.eq_dec t u) as [<-|N]; [rewrite (setr_same _ _ _ _ Et) in E; discriminate|]. rewrite setr_other in E by exact N. destruct (I2 _ _ _ _ E Oy) as (X1 & X2).
          cbn [acts]. split; [apply at_pos_keep; [reflexivity|cbn [now]; congruence|exact X1]|apply read_done_keep; [exact Mv|exact X2]].
        * cbn [ended]. intros E. apply I3. destruct (n =? h); [discriminate|exact E].
        * apply done_cons; [exact True| |exact I4]. intros n' d v k E C'. injection E as <- _ _. rewrite Cn in C'. injection C' as ->. cbn [on] in Nx. congruence.
  Qed.
End Stream.
