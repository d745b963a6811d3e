(** PosixConcFiles.v -- what is in the files that WritableFiles write to, along all
    executions of PosixConc.v. *)
From Coq Require Import List Arith NArith ZArith Lia Bool Permutation.
From Verif Require Import Outcome Status MemEnv PosixOs PosixWritable PosixWritableSpec PosixWritableProofs PosixRead PosixEnv PosixFs PosixEnvSpec PosixConc PosixConcSpec PosixConcSafe PosixConcHeld PosixConcInv PosixConcProofs PosixConcTrace PosixConcFacts PosixConcReads PosixConcWriteSpec PosixConcWr PosixConcWrites.
Import ListNotations.

Lemma upd_same {A C} eqd (f : A -> C) k x : upd eqd f k x k = x.
Proof. unfold upd. destruct (eqd k k); congruence. Qed.
Lemma upd_other {A C} eqd (f : A -> C) k x y : y <> k -> upd eqd f k x y = f y.
Proof. unfold upd. destruct (eqd y k); congruence. Qed.

(** ** One step of the kernel *)
Lemma k_names v c a v' : kstep v (c, a) v' -> (forall p i, v_name v p = Some i -> i < v_next v) -> forall p i, v_name v' p = Some i -> i < v_next v'.
Proof.
  intros K N p i. inversion K; subst; cbn [v_name v_next with_fd with_map with_dir with_name with_data create synced] in *; try apply N.
  - unfold upd. destruct (eqs p p0); [intros E; injection E as <-; lia|]. intros E. apply N in E. lia.
  - unfold upd. destruct (eqs p p0); [discriminate|apply N].
  - unfold upd. destruct (eqs p p0); [intros E; injection E as <-; lia|]. intros E. apply N in E. lia.
  - unfold upd. destruct (eqs p p0); [discriminate|apply N].
  - unfold upd. destruct (eqs p p0); [discriminate|]. destruct (eqs p q); [|apply N]. intros E. injection E as <-. eapply N. eassumption.
Qed.
Lemma k_next v c a v' : kstep v (c, a) v' -> v_next v <= v_next v'.
Proof. intros K. inversion K; subst; cbn [v_next with_fd with_map with_dir with_name with_data create synced]; auto. Qed.
Lemma k_data v c a v' i : kstep v (c, a) v' -> ~ changes v c a i -> i < v_next v ->
  v_data v' i = v_data v i /\ (v_safe v' i = v_safe v i \/ v_safe v' i = v_data v i).
Proof.
  intros K N L. inversion K; subst; cbn [v_data v_safe with_fd with_map with_dir with_name with_data create synced]; auto.
  - cbn [changes] in N. rewrite !upd_other; auto; intros ->; apply N; auto.
  - rewrite !upd_other; auto; lia.
  - cbn [changes] in N. rewrite !upd_other; auto; intros ->; apply N; split; eauto; lia.
  - unfold upd. destruct (Nat.eq_dec i (d_ino x)) as [->|]; auto.
  - rewrite !upd_other; auto; lia.
Qed.
Lemma put_end data d : put data (length data) d = data ++ d.
Proof. unfold put. rewrite Nat.sub_diag. cbn [repeat]. rewrite app_nil_r, firstn_all. rewrite (skipn_all2 data) by lia. now rewrite app_nil_r. Qed.
Lemma k_write_inv v fd d a v' : kstep v (CWrite fd d, a) v' -> v' = v /\ (a_ret a < 0)%Z \/
  (0 <= a_ret a)%Z /\ exists x, v_fd v fd = Some x /\
    forall e, (d_app x = true \/ Z.to_nat (d_off x) = length (v_data v (d_ino x))) -> e = firstn (Z.to_nat (a_ret a)) d ->
      v_data v' (d_ino x) = v_data v (d_ino x) ++ e /\ v_safe v' (d_ino x) = firstn (length (v_data v (d_ino x))) (v_safe v (d_ino x)) /\
      exists y, v_fd v' fd = Some y /\ d_ino y = d_ino x /\ d_app y = d_app x /\ Z.to_nat (d_off y) = length (v_data v (d_ino x) ++ e).
Proof.
  intros K. inversion K; subst; try discriminate; [left; split; [reflexivity|lia]|]. right. split; [lia|]. exists x. split; [assumption|]. intros e D ->.
  cbv zeta. set (p := if d_app x then length (v_data v (d_ino x)) else Z.to_nat (d_off x)). assert (E : p = length (v_data v (d_ino x))) by (unfold p; destruct (d_app x); [reflexivity|destruct D; [discriminate|assumption]]). rewrite E.
  cbn [v_data v_safe v_fd with_fd with_data]. rewrite !upd_same, put_end. split; [reflexivity|]. split; [reflexivity|]. eexists. split; [reflexivity|]. cbn [d_ino d_app d_off]. rewrite app_length, Nat2Z.id. auto.
Qed.
(** A descriptor whose position a call does not change. *)
Lemma k_fd_same v c a v' fd : kstep v (c, a) v' -> match c with CWrite _ _ | CRead _ _ | CLseek _ _ | CClose _ => False | _ => True end -> fd_new c a fd = false -> v_fd v' fd = v_fd v fd.
Proof.
  intros K C F. inversion K; subst; try contradiction C; cbn [v_fd with_fd with_map with_dir with_name with_data create synced]; auto.
  all: cbn [fd_new] in F; apply upd_other; intros ->; rewrite Z.eqb_refl in F; replace (0 <=? a_ret a)%Z with true in F by (symmetry; apply Z.leb_le; assumption); discriminate.
Qed.

Section Files.
  Variable dbg : bool.
  Variable B : nat.
  Variable strerror : Z -> str.
  Variables (v0 : view) (lim0 : limits) (m0 : nat).
  Hypothesis S0 : forall fd, v_fd v0 fd <> None -> (0 <= fd)%Z.
  Hypothesis N0 : forall p i, v_name v0 p = Some i -> i < v_next v0.
  Notation cstep := (cstep dbg B strerror).
  Notation cruns := (cruns dbg B strerror v0 lim0 m0).
  Notation inv_runs := (inv_runs dbg B strerror v0 lim0 m0 S0).
  Notation did_runs := (did_runs dbg B strerror v0 lim0 m0 S0).
  Notation act_step := (act_step dbg B strerror v0 lim0 m0 S0).

  (** One step back. *)
  Lemma back l v tr cf : cruns ((l, v) :: tr) cf -> exists cf0, cruns tr cf0 /\
    match l with Act n c a => kstep (now v0 tr) (c, a) v | _ => v = now v0 tr end.
  Proof.
    intros R. change ((l, v) :: tr) with ([] ++ (l, v) :: tr) in R. destruct (runs_split _ _ _ _ _ _ _ _ _ _ R) as (cf0 & t & cf1 & R0 & St & Ev & _). exists cf0. split; [exact R0|].
    rewrite (view_runs dbg B strerror v0 lim0 m0 S0 _ _ R0). cbn [fst snd] in *. inversion St; subst; cbn [c_view]; auto.
  Qed.
  Lemma names_ok tr cf : cruns tr cf -> forall p i, v_name (now v0 tr) p = Some i -> i < v_next (now v0 tr).
  Proof.
    intros R. revert cf R. induction tr as [|[l v] tr IH]; intros cf R; [exact N0|]. destruct (back _ _ _ _ R) as (cf0 & R0 & X). specialize (IH _ R0). cbn [now]. destruct l as [n x|n c a|n r]; try (rewrite X; exact IH).
    exact (k_names _ _ _ _ X IH).
  Qed.
  Lemma next_mono later tr cf : cruns (later ++ tr) cf -> v_next (now v0 tr) <= v_next (now v0 (later ++ tr)).
  Proof.
    revert cf. induction later as [|[l v] later IH]; intros cf R; [apply le_n|]. cbn [app] in R. destruct (back _ _ _ _ R) as (cf0 & R0 & X). specialize (IH _ R0). cbn [app now]. destruct l as [n x|n c a|n r]; try (rewrite X; exact IH).
    pose proof (k_next _ _ _ _ X). lia.
  Qed.

  Section Writer.
  Variables (h : nat) (x0 : pcall).
  Hypothesis Wx : writer x0 = true.
  Notation winv_runs := (winv_runs dbg B strerror v0 lim0 m0 S0 h).

  Lemma writer_once fuel l c k : path (prog_of dbg B strerror fuel x0 None) l (PSys c k) -> l = [] /\ exists p fl, c = COpen p fl /\ (fl = WrTrunc \/ fl = WrAppend).
  Proof.
    assert (G : forall name fl, path (pnew_writable dbg B strerror name fl) l (PSys c k) -> (fl = WrTrunc \/ fl = WrAppend) -> l = [] /\ exists p fl, c = COpen p fl /\ (fl = WrTrunc \/ fl = WrAppend)).
    { intros name fl X F. unfold pnew_writable, psys in X. cbn [pbind] in X. apply path_psys in X. destruct X as [(-> & X)|(a & l' & -> & X)].
      - injection X as -> _. split; [reflexivity|]. eauto.
      - exfalso. destruct (a_ret a <? 0)%Z; [apply path_done in X; destruct X; discriminate|].
        destruct (new_wfile_ok dbg B name (a_ret a)) as (m & d & E & _). rewrite E in X. cbn [plift pbind] in X. apply path_done in X. destruct X; discriminate. }
    destruct x0; try discriminate Wx; cbn [prog_of]; intros P; eapply G; try exact P; auto.
  Qed.
  (** The call that makes the object opens its file and does nothing else. *)
  Lemma makes later c a v earlier cf : cruns (later ++ (Act h c a, v) :: earlier) cf -> call_no earlier h = Some x0 ->
    acts earlier h = [] /\ sent earlier h = [] /\ handed earlier h = [] /\ exists p fl, c = COpen p fl /\ (fl = WrTrunc \/ fl = WrAppend).
  Proof.
    intros R C. destruct (act_step _ _ _ _ _ _ _ R) as (cf0 & t & x & k & R0 & Et & K). destruct (inv_runs _ _ R0) as (Rs & H). destruct (running _ _ _ _ _ _ _ _ _ _ H Et) as ((_ & En) & Cn).
    assert (x = x0) by congruence.
    subst x. destruct (did_runs _ _ R0 _ _ _ _ Et) as (fuel & o & P & O1 & _). rewrite O1 in P by (destruct x0; try discriminate Wx; reflexivity). destruct (writer_once _ _ _ _ P) as (Ea & Ec). split; [exact Ea|].
    assert (W : winv B h earlier cf0). { apply winv_runs; [exact R0|]. intros y Cy. congruence. }
    destruct (w_new _ _ _ _ W En) as (X1 & X2 & _). auto.
  Qed.
  Lemma one_act l2 c' a' v' l1 c a v l0 cf : cruns (l2 ++ (Act h c' a', v') :: l1 ++ (Act h c a, v) :: l0) cf -> call_no l0 h = Some x0 -> False.
  Proof.
    intros R C. destruct (runs_split _ _ _ _ _ _ _ _ _ _ R) as (cf0 & _ & _ & R0 & _).
    assert (C1 : call_no (l1 ++ (Act h c a, v) :: l0) h = Some x0) by (eapply (call_later dbg B strerror v0 lim0 m0 S0); [exact R0|exact C]).
    destruct (makes _ _ _ _ _ _ R C1) as (X & _). destruct (acts_app l1 h c a v l0) as (l & E). rewrite E in X. destruct (acts l0 h); discriminate.
  Qed.
  Lemma split_unique {A} (e e' : A) : forall l r l' r', l ++ e :: r = l' ++ e' :: r' ->
    l = l' /\ e = e' /\ r = r' \/ (exists m, l = l' ++ e' :: m /\ r' = m ++ e :: r) \/ (exists m, l' = l ++ e :: m /\ r = m ++ e' :: r').
  Proof.
    induction l as [|x l IH]; intros r [|x' l'] r' E; cbn [app] in E.
    - left. injection E as -> ->. auto.
    - right; right. injection E as <- ->. exists l'. auto.
    - right; left. injection E as -> <-. exists l. auto.
    - injection E as -> E. destruct (IH _ _ _ E) as [(-> & -> & ->)|[(m & -> & ->)|(m & -> & ->)]]; [left; auto|right; left; exists m; auto|right; right; exists m; auto].
  Qed.
  (** If [h] has an open descriptor, it is the one it opened, on its file. *)
  Lemma own_fd later p fl a v earlier cf fd : cruns (later ++ (Act h (COpen p fl) a, v) :: earlier) cf -> call_no earlier h = Some x0 ->
    owner (later ++ (Act h (COpen p fl) a, v) :: earlier) fd = Some h ->
    fd = a_ret a /\ exists y, v_fd (now v0 (later ++ (Act h (COpen p fl) a, v) :: earlier)) fd = Some y /\ v_name v p = Some (d_ino y).
  Proof.
    intros R C O. destruct (inv_runs _ _ R) as (Rs & H). assert (X : (0 <= fd)%Z /\ v_fd (c_view cf) fd <> None) by (eapply owned; eassumption). destruct X as (_ & X). rewrite <- (i_now _ _ _ _ _ _ H) in X.
    destruct (v_fd (now v0 (later ++ (Act h (COpen p fl) a, v) :: earlier)) fd) as [y|] eqn:Ey; [|congruence]. clear X.
    destruct (fd_track dbg B strerror v0 lim0 m0 S0 _ _ R fd h y O Ey) as (l2 & p' & fl' & a' & v' & l1 & E & Ea & _ & En).
    destruct (split_unique _ _ _ _ _ _ E) as [(-> & E1 & ->)|[(m & -> & ->)|(m & -> & ->)]].
    - injection E1 as -> -> -> ->. eauto.
    - exfalso. rewrite <- app_assoc in R. cbn [app] in R. eapply one_act; [exact R|exact C].
    - exfalso. destruct (act_in_progress dbg B strerror v0 lim0 m0 S0 _ _ _ _ _ _ _ R) as (_ & _).
      assert (C1 : call_no l1 h = Some x0).
      { assert (R1 : cruns ((later ++ (Act h (COpen p fl) a, v) :: m) ++ (Act h (COpen p' fl') a', v') :: l1) cf) by (rewrite <- app_assoc; exact R).
        destruct (act_in_progress dbg B strerror v0 lim0 m0 S0 _ _ _ _ _ _ _ R1) as (X & _). destruct (call_no l1 h) as [z|] eqn:Ez; [|congruence].
        destruct (runs_split _ _ _ _ _ _ _ _ _ _ R) as (cf0 & _ & _ & R0 & _).
        assert (Y : call_no (m ++ (Act h (COpen p' fl') a', v') :: l1) h = Some z) by (eapply (call_later dbg B strerror v0 lim0 m0 S0); [exact R0|exact Ez]). congruence. }
      eapply one_act; [exact R|exact C1].
  Qed.
  (** What calls on the object do with descriptors. *)
  Lemma on_h_legal later n c a v earlier cf : cruns (later ++ (Act n c a, v) :: earlier) cf -> call_no earlier h = Some x0 -> on_obj earlier n h = true ->
    match c with
    | CWrite fd _ => fd = (-1)%Z \/ owner earlier fd = Some h
    | COpen _ fl => fl = RdOnly
    | CRead _ _ | CLseek _ _ => False
    | _ => True
    end.
  Proof.
    intros R C O. destruct (act_step _ _ _ _ _ _ _ R) as (cf0 & t & x & k & R0 & Et & K). destruct (inv_runs _ _ R0) as (Rs & H). destruct (running _ _ _ _ _ _ _ _ _ _ H Et) as ((_ & En) & Cn).
    assert (W : winv B h earlier cf0). { apply winv_runs; [exact R0|]. intros y Cy. congruence. }
    apply (on_obj_call _ _ _ _ Cn) in O. destruct (w_thr _ _ _ _ W _ _ _ _ Et O) as (Sx & La & fd & g & A0 & NC & CA & CN & CW & CS & CO & CE & CF). cbn [wr] in CW. destruct CW as (Lg & _).
    destruct c; cbn [legal] in Lg; auto. destruct Lg as (-> & [Lg|Lg]); auto.
  Qed.


  (** ** Only calls on [h] change the file *)
  Lemma only_less e later earlier i : only_writer v0 (e :: later) earlier h i -> only_writer v0 later earlier h i.
  Proof. intros O l2 n c a v l1 -> X. apply (O (e :: l2) n c a v l1); auto. Qed.
  Lemma contents later p fl a v earlier cf i : cruns (later ++ (Act h (COpen p fl) a, v) :: earlier) cf -> call_no earlier h = Some x0 -> (0 <= a_ret a)%Z -> v_name v p = Some i ->
    only_writer v0 later ((Act h (COpen p fl) a, v) :: earlier) h i ->
    let tr := later ++ (Act h (COpen p fl) a, v) :: earlier in
    v_data (now v0 tr) i = v_data v i ++ sent tr h /\ i < v_next (now v0 tr) /\
    (forall y, owner tr (a_ret a) = Some h -> v_fd (now v0 tr) (a_ret a) = Some y -> d_app y = true \/ Z.to_nat (d_off y) = length (v_data (now v0 tr) i)).
  Proof.
    intros R C Op Ni. revert cf R. induction later as [|[l w] later IH]; intros cf R OW tr.
    - subst tr. change ([] ++ (Act h (COpen p fl) a, v) :: earlier) with ((Act h (COpen p fl) a, v) :: earlier) in *. cbn [now].
      change ((Act h (COpen p fl) a, v) :: earlier) with ([] ++ (Act h (COpen p fl) a, v) :: earlier) in R.
      destruct (makes _ _ _ _ _ _ R C) as (_ & Es & _ & (p' & fl' & Ec & Fl)). injection Ec as <- <-.
      pose proof R as R'. change ([] ++ (Act h (COpen p fl) a, v) :: earlier) with ((Act h (COpen p fl) a, v) :: earlier) in R'. destruct (back _ _ _ _ R') as (cf0 & R0 & K). split; [|split].
      + cbn [sent took]. rewrite Es. destruct (on_obj earlier h h); now rewrite app_nil_r.
      + apply (names_ok _ _ R' p i). exact Ni.
      + intros y _ Ey. destruct Fl as [-> | ->]; inversion K; subst; try discriminate; try lia; cbn [v_fd with_fd] in Ey; rewrite upd_same in Ey; injection Ey as <-; cbn [d_app d_off d_ino]; try (left; reflexivity); right.
        * cbn [v_name with_fd with_data] in Ni. assert (i0 = i) by congruence. subst i0. cbn [v_data with_fd with_data]. rewrite upd_same. reflexivity.
        * cbn [v_name with_fd with_data create] in Ni. cbn [with_name v_name] in Ni. rewrite upd_same in Ni. injection Ni as <-. cbn [v_data with_fd with_data create]. cbn [with_name v_data]. rewrite upd_same. reflexivity.
    - subst tr. cbn [app] in *. set (base := (Act h (COpen p fl) a, v) :: earlier) in *. destruct (back _ _ _ _ R) as (cf0 & R0 & K). destruct (IH _ R0 (only_less _ _ _ _ OW)) as (E1 & E2 & E3). clear IH.
      assert (Cb : call_no (later ++ base) h = Some x0) by (eapply (call_later dbg B strerror v0 lim0 m0 S0); [exact R0|exact C]).
      cbn [now]. destruct l as [n x|n c a'|n r].
      + subst w. cbn [sent owner]. auto.
      + assert (Nh : n <> h). { intros ->. change ((Act h c a', w) :: later ++ base) with ([] ++ (Act h c a', w) :: later ++ base) in R. eapply one_act; [exact R|exact C]. }
        assert (Rs : cruns ([] ++ (Act n c a', w) :: later ++ base) cf) by exact R.
        assert (Sole : changes (now v0 (later ++ base)) c a' i -> on_obj (later ++ base) n h = true) by (apply (OW [] n c a' w later); reflexivity).
        assert (Own : forall fd, owner (later ++ base) fd = Some h -> fd = a_ret a /\ exists y, v_fd (now v0 (later ++ base)) fd = Some y /\ d_ino y = i).
        { intros fd O. destruct (own_fd later p fl a v earlier _ fd R0 C O) as (X1 & y & X2 & X3). split; [exact X1|]. exists y. split; [exact X2|congruence]. }
        assert (Own' : forall fd, owner ((Act n c a', w) :: later ++ base) fd = Some h -> owner (later ++ base) fd = Some h /\ fd_new c a' fd = false /\ (forall fd', c = CClose fd' -> fd' <> fd)).
        { intros fd O. destruct c; cbn [owner fd_new] in *; try (split; [exact O|]; split; [reflexivity|discriminate]).
          - destruct ((a_ret a' =? fd)%Z && (0 <=? fd)%Z); [congruence|]. split; [exact O|]. split; [reflexivity|discriminate].
          - destruct (Z.eqb_spec fd0 fd); [discriminate|]. split; [exact O|]. split; [reflexivity|]. intros fd' E. injection E as <-. assumption. }
        assert (Used : forall fd, uses_fd c = Some fd -> owner (later ++ base) fd = Some h -> on_obj (later ++ base) n h = true).
        { intros fd U O. destruct (use_fd dbg B strerror v0 lim0 m0 S0 _ _ _ _ _ _ _ fd Rs U) as [->|(m & Om & En & _)].
          - destruct (Own _ O) as (X & _). lia.
          - rewrite O in Om. injection Om as <-. destruct En as [En|(y & Cy & Oy)]; [congruence|]. apply (on_obj_call _ _ _ _ Cy). exact Oy. }
        pose proof (k_next _ _ _ _ K) as Kn.
        (* a write on the descriptor of h *)
        destruct (on_obj (later ++ base) n h) eqn:Oo.
        * pose proof (on_h_legal _ _ _ _ _ _ _ Rs Cb Oo) as Lg. cbn [sent]. rewrite Oo. destruct (is_write c) eqn:Iw.
          -- destruct c as [| |fd d| | | | | | | | | | | | | | | | | | | |]; try discriminate Iw. cbn [took owner]. destruct (k_write_inv _ _ _ _ _ K) as [(-> & L)|(L & x & Ex & Kw)].
             ++ replace (Z.to_nat (a_ret a')) with 0 by lia. cbn [firstn]. rewrite app_nil_r. auto.
             ++ destruct Lg as [Lg|Lg]; [subst fd; exfalso; pose proof (fd_nonneg dbg B strerror v0 lim0 m0 S0 _ _ (-1)%Z R0) as X; rewrite Ex in X; specialize (X ltac:(discriminate)); lia|].
                destruct (Own _ Lg) as (Ef & y & Ey & Ei). assert (y = x) by congruence. subst y. subst fd i. destruct (Kw _ (E3 _ Lg Ex) eq_refl) as (D1 & D2 & y & Ey' & D3 & D4 & D5).
                split; [rewrite D1, E1, app_assoc; reflexivity|]. split; [lia|]. intros z _ Ez. right. rewrite Ey' in Ez. injection Ez as <-. rewrite D1. exact D5.
          -- assert (Tk : took c a' = []) by (destruct c; try discriminate Iw; reflexivity). rewrite Tk, app_nil_r.
             assert (Nc : ~ changes (now v0 (later ++ base)) c a' i) by (intros X; destruct c; try discriminate Iw; try exact X; subst; exact X).
             destruct (k_data _ _ _ _ _ K Nc E2) as (D1 & _). split; [congruence|]. split; [lia|]. intros y O Ey. destruct (Own' _ O) as (O' & Fn & Cl). rewrite D1. apply E3; [exact O'|]. rewrite <- Ey. symmetry.
             assert (Dc : is_close c = true \/ is_close c = false) by (destruct (is_close c); auto). destruct Dc as [Dc|Dc].
             ++ destruct c; try discriminate Dc. apply (k_fd _ _ _ _ K); [cbn [uses_fd]; intros E; injection E as E; exact (Cl _ eq_refl E)|reflexivity].
             ++ apply (k_fd_same _ _ _ _ _ K); [|exact Fn]. destruct c; try discriminate Iw; try discriminate Dc; try contradiction Lg; exact Logic.I.
        * cbn [sent]. rewrite Oo, app_nil_r. assert (Nc : ~ changes (now v0 (later ++ base)) c a' i) by (intros X; specialize (Sole X); congruence).
          destruct (k_data _ _ _ _ _ K Nc E2) as (D1 & _). split; [congruence|]. split; [lia|]. intros y O Ey. destruct (Own' _ O) as (O' & Fn & Cl). rewrite D1. apply E3; [exact O'|]. rewrite <- Ey. symmetry.
          apply (k_fd _ _ _ _ K); [|exact Fn]. intros U. specialize (Used _ U O'). congruence.
      + subst w. cbn [sent owner]. auto.
  Qed.
  End Writer.
End Files.
