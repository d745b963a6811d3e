(** PosixConcWrites.v -- what the calls on one WritableFile have written, along all
    executions of PosixConc.v. *)
From Coq Require Import List Arith NArith ZArith Lia Bool Permutation.
From Verif Require Import Outcome Status MemEnv PosixOs PosixWritable PosixWritableSpec PosixWritableProofs PosixRead PosixEnv PosixFs PosixEnvSpec PosixConc PosixConcSpec PosixConcSafe PosixConcHeld PosixConcInv PosixConcProofs PosixConcTrace PosixConcFacts PosixConcReads PosixConcWriteSpec PosixConcWr.
Import ListNotations.

(** An fsync() on the descriptor of [h] succeeded when [s] had been written. *)
Definition was_forced (tr : trace) (h : nat) (s : list N) : Prop :=
  exists later n fd a v earlier, tr = later ++ (Act n (CFsync fd) a, v) :: earlier /\ owner earlier fd = Some h /\ a_ret a = 0%Z /\ sent earlier h = s.
Lemma forced_cons e tr h s : was_forced tr h s -> was_forced (e :: tr) h s.
Proof. intros (l & n & fd & a & v & l2 & -> & X). exists (e :: l), n, fd, a, v, l2. auto. Qed.
(** The call on [h] that began last. *)
Fixpoint last_on (tr : trace) (h : nat) : option pcall :=
  match tr with
  | [] => None
  | (Beg _ x, _) :: tr' => match on x with Some h' => if h' =? h then Some x else last_on tr' h | None => last_on tr' h end
  | _ :: tr' => last_on tr' h
  end.

Lemma all_ok_beg n x v tr h : call_no tr n = None -> all_ok ((Beg n x, v) :: tr) h -> all_ok tr h.
Proof. intros C A m y r Cm Oy Em. apply (A m y r); [|exact Oy|exact Em]. cbn [call_no]. destruct (Nat.eqb_spec n m) as [->|]; [congruence|exact Cm]. Qed.
Lemma all_ok_end n r v tr h : ended tr n = None -> all_ok ((End n r, v) :: tr) h -> all_ok tr h.
Proof. intros C A m y r' Cm Oy Em. apply (A m y r' Cm Oy). cbn [ended]. destruct (Nat.eqb_spec n m) as [->|]; [congruence|exact Em]. Qed.
Lemma all_ok_last n x r v tr h : call_no tr n = Some x -> on x = Some h -> all_ok ((End n r, v) :: tr) h -> r = RStat SOk.
Proof. intros C O A. apply (A n x r C O). cbn [ended]. now rewrite Nat.eqb_refl. Qed.
Lemma never_closed_beg n x v tr h : call_no tr n = None -> never_closed ((Beg n x, v) :: tr) h -> never_closed tr h /\ x <> PWClose h.
Proof.
  intros C A. split.
  - intros m Cm. apply (A m). cbn [call_no]. destruct (Nat.eqb_spec n m) as [->|]; [congruence|exact Cm].
  - intros ->. apply (A n). cbn [call_no]. now rewrite Nat.eqb_refl.
Qed.
Lemma begins_app {A} (l d r : list A) : begins l d -> begins (l ++ r) d.
Proof. intros (s & ->). exists (s ++ r). apply app_assoc_reverse. Qed.
Lemma sub_more {A} (l d r : list A) : subseq l d -> subseq l (d ++ r).
Proof. intros H. rewrite <- (app_nil_r l). apply subseq_app; [exact H|apply subseq_nil]. Qed.
Lemma on_obj_call tr n x h : call_no tr n = Some x -> on_obj tr n h = true <-> on x = Some h.
Proof. intros C. unfold on_obj. rewrite C. destruct (on x) as [h'|]; [|split; discriminate]. rewrite Nat.eqb_eq. split; congruence. Qed.

Section Writes.
  Variable dbg : bool.
  Variable B : nat.
  Variable strerror : Z -> str.
  Variables (v0 : view) (lim0 : limits) (m0 : nat).
  Hypothesis S0 : forall fd, v_fd v0 fd <> None -> (0 <= fd)%Z.
  Notation cstep := (cstep dbg B strerror).
  Notation cruns := (cruns dbg B strerror v0 lim0 m0).
  Notation inv := (inv B v0 lim0).
  Notation inv_runs := (inv_runs dbg B strerror v0 lim0 m0 S0).
  Notation did_runs := (did_runs dbg B strerror v0 lim0 m0 S0).

  Variable h : nat.

  (** What a call on [h] leaves, [H] being all that was given. *)
  Definition Q (tr : trace) (H : list N) (A0 NC : Prop) (x : pcall) (r : option pobj * presult) (g : ghost) : Prop :=
    match x with
    | PDelete _ => fst r = None /\ (NC -> A0 -> g_err g = false -> g_acc g = H)
    | _ => exists f st b, r = (Some (ObW f), QStat st) /\ brep B f b /\ (NC -> (0 <= f_fd f)%Z) /\ subseq (g_acc g ++ b) H /\
             (A0 -> st = SOk -> g_acc g ++ b = H /\ (flushing x = true -> b = []) /\ (syncing x = true -> g_safe g = Some H))
    end.
  Definition J (H : list N) (A0 : Prop) (l : list N) : Prop := subseq l H /\ (A0 -> begins H l).
  Definition call_ok (tr : trace) (n : nat) (x : pcall) (p : prog (option pobj * presult)) : Prop :=
    shared x = false /\ last_on tr h = Some x /\
    exists fd g (A0 NC : Prop), (all_ok tr h -> A0) /\ (never_closed tr h -> NC) /\
      wr fd (J (handed tr h) A0) (Q tr (handed tr h) A0 NC x) g p /\ g_acc g = sent tr h /\
      (g_open g = true -> owner tr fd = Some h) /\
      (g_err g = true -> exists fd' d a, In (CWrite fd' d, a) (acts tr n) /\ failed a = true) /\
      (forall s, g_safe g = Some s -> was_forced tr h s).
  Record winv (tr : trace) (cf : conf) : Prop := mk_winv {
    w_all : subseq (sent tr h) (handed tr h) /\ (all_ok tr h -> begins (handed tr h) (sent tr h));
    w_new : ended tr h = None -> sent tr h = [] /\ handed tr h = [] /\ last_on tr h = None;
    w_obj : forall ob, In (h, ob) (c_objs cf) -> exists f b, ob = ObW f /\ brep B f b /\ (never_closed tr h -> (0 <= f_fd f)%Z) /\ subseq (sent tr h ++ b) (handed tr h) /\
      (all_ok tr h -> sent tr h ++ b = handed tr h /\
         forall x, last_on tr h = Some x -> (flushing x = true -> b = []) /\ (syncing x = true -> was_forced tr h (handed tr h)));
    w_thr : forall t n x p, nth_error (c_thr cf) t = Some (TIn n x p) -> on x = Some h -> call_ok tr n x p;
    w_del : forall n, call_no tr n = Some (PDelete h) -> ended tr n <> None -> never_closed tr h -> all_ok tr h ->
      (forall fd d a, In (CWrite fd d, a) (acts tr n) -> failed a = false) -> sent tr h = handed tr h
  }.

  Lemma new_writer_path fuel x l o q : writer x = true -> path (prog_of dbg B strerror fuel x None) l (PDone (o, q)) ->
    (exists p fl a, l = [(COpen p fl, a)] /\ ((a_ret a < 0)%Z /\ o = None /\ q <> QStat SOk \/
       (0 <= a_ret a)%Z /\ q = QStat SOk /\ exists f, o = Some (ObW f) /\ f_fd f = a_ret a /\ brep B f [])).
  Proof.
    intros W P.
    assert (G : forall name fl, path (pnew_writable dbg B strerror name fl) l (PDone (o, q)) ->
      (exists p fl a, l = [(COpen p fl, a)] /\ ((a_ret a < 0)%Z /\ o = None /\ q <> QStat SOk \/
       (0 <= a_ret a)%Z /\ q = QStat SOk /\ exists f, o = Some (ObW f) /\ f_fd f = a_ret a /\ brep B f []))).
    { intros name fl X. unfold pnew_writable, psys in X. cbn [pbind] in X. apply path_psys in X. destruct X as [(-> & X)|(a & l' & -> & X)]; [discriminate|]. exists name, fl, a.
      destruct (Z.ltb_spec (a_ret a) 0) as [L|L].
      - apply path_done in X. destruct X as (-> & X). injection X as -> ->. split; [reflexivity|]. left. split; [exact L|]. split; [reflexivity|]. intros E. injection E as E. contradiction (posix_error strerror _ _ E).
      - destruct (new_wfile_ok dbg B name (a_ret a)) as (m & d & E & _). rewrite E in X. cbn [plift pbind] in X. apply path_done in X. destruct X as (-> & X). injection X as -> ->.
        split; [reflexivity|]. right. split; [exact L|]. split; [reflexivity|]. eexists. split; [reflexivity|]. split; [reflexivity|]. repeat split; cbn; try lia. apply repeat_length. }
    destruct x; try discriminate W; cbn [prog_of] in P; eapply G; exact P.
  Qed.

  (** ** Steps *)
  Lemma fresh tr cf Rs : inv tr cf Rs -> call_no tr (c_next cf) = None /\ ended tr (c_next cf) = None.
  Proof.
    intros H. split.
    - destruct (call_no tr (c_next cf)) eqn:E; [|reflexivity]. exfalso. assert (c_next cf < c_next cf) by (apply (i_next _ _ _ _ _ _ H); congruence). lia.
    - destruct (ended tr (c_next cf)) eqn:E; [|reflexivity]. exfalso. assert (c_next cf < c_next cf) by (apply (i_ended _ _ _ _ _ _ H); congruence). lia.
  Qed.
  Lemma handed_other n x v tr : on x <> Some h -> handed ((Beg n x, v) :: tr) h = handed tr h /\ last_on ((Beg n x, v) :: tr) h = last_on tr h.
  Proof.
    intros N. split.
    - cbn [handed]. destruct x; try reflexivity. destruct (Nat.eqb_spec h0 h) as [->|]; [elim N; reflexivity|apply app_nil_r].
    - cbn [last_on]. destruct (on x) as [h'|]; [|reflexivity]. destruct (Nat.eqb_spec h' h) as [->|]; [elim N; reflexivity|reflexivity].
  Qed.
  Lemma owned tr cf Rs fd n : inv tr cf Rs -> owner tr fd = Some n -> (0 <= fd)%Z /\ v_fd (c_view cf) fd <> None.
  Proof. intros H O. apply (h_own _ _ _ _ _ _ (i_held _ _ _ _ _ _ H)) in O. apply (h_fd _ _ _ _ _ _ (i_held _ _ _ _ _ _ H)) in O. tauto. Qed.
  Lemma call_ok_other l v tr n x p : call_ok tr n x p ->
    handed ((l, v) :: tr) h = handed tr h -> sent ((l, v) :: tr) h = sent tr h -> last_on ((l, v) :: tr) h = last_on tr h -> acts ((l, v) :: tr) n = acts tr n ->
    (all_ok ((l, v) :: tr) h -> all_ok tr h) -> (never_closed ((l, v) :: tr) h -> never_closed tr h) ->
    (forall fd, owner tr fd = Some h -> owner ((l, v) :: tr) fd = Some h) -> call_ok ((l, v) :: tr) n x p.
  Proof.
    intros (C1 & C2 & fd & g & A0 & NC & CA & CN & CW & CS & CO & CE & CF) E1 E2 E3 E4 E5 E6 E7.
    split; [exact C1|]. split; [congruence|]. exists fd, g, A0, NC. rewrite E1, E2, E4. split; [auto|]. split; [auto|]. split; [exact CW|]. split; [exact CS|]. split; [auto|]. split; [exact CE|].
    intros s Es. apply forced_cons. auto.
  Qed.
  (** The object of a running call is alive and is not in the table. *)
  Lemma running_alive tr cf Rs t n x p : inv tr cf Rs -> nth_error (c_thr cf) t = Some (TIn n x p) -> on x = Some h -> shared x = false ->
    ~ In h (map fst (c_objs cf)) /\ (exists k f, alive tr h k f) /\ call_no tr n = Some x /\ ended tr n = None.
  Proof.
    intros H ET Ox Sx. destruct (thr_at _ _ _ _ (i_len _ _ _ _ _ _ H) ET) as (R & ER). destruct (i_thr _ _ _ _ _ _ H _ _ _ _ _ ET ER) as [Cn En (o & _ & _ & IO)].
    unfold its_object in IO. rewrite Ox in IO. destruct IO as (ob & _ & A & IO). rewrite Sx in IO. eauto 8.
  Qed.
  Lemma not_deleted tr k f n : alive tr h k f -> call_no tr n = Some (PDelete h) -> ended tr n <> None -> False.
  Proof. intros (_ & G) C E. apply G. exists n. auto. Qed.
  Lemma view_runs tr cf : cruns tr cf -> now v0 tr = c_view cf.
  Proof. intros R. destruct (inv_runs _ _ R) as (Rs & H). exact (i_now _ _ _ _ _ _ H). Qed.
  Lemma no_minus_one tr cf : cruns tr cf -> v_fd (c_view cf) (-1) = None.
  Proof. intros R. destruct (v_fd (c_view cf) (-1)) eqn:E; [|reflexivity]. exfalso. assert (0 <= -1)%Z; [|lia]. eapply (fd_nonneg dbg B strerror v0 lim0 m0 S0); [exact R|]. rewrite (view_runs _ _ R). congruence. Qed.

  Lemma kept_owner tr cf Rs t n x c k a v fd : cruns tr cf -> inv tr cf Rs -> nth_error (c_thr cf) t = Some (TIn n x (PSys c k)) -> kstep (c_view cf) (c, a) v ->
    n <> h -> on x <> Some h -> owner tr fd = Some h -> owner ((Act n c a, v) :: tr) fd = Some h.
  Proof.
    intros R H Et K Nn Nx O. destruct (running _ _ _ _ _ _ _ _ _ _ H Et) as (_ & Cn). destruct (owned _ _ _ _ _ H O) as (Fd & Vf).
    destruct c; cbn [owner]; try exact O.
    - destruct (Z.eqb_spec (a_ret a) fd) as [E|]; [|exact O]. exfalso. destruct (k_new _ _ _ _ _ K) as (X & _); [lia|]. congruence.
    - match goal with |- context [(?z =? fd)%Z] => destruct (Z.eqb_spec z fd) as [->|] end; [|exact O]. exfalso.
      assert (R' : cruns ([] ++ (Act n (CClose fd) a, v) :: tr) (mk_conf v (c_lim cf) (c_objs cf) (c_next cf) (set_thr t (TIn n x (k a)) (c_thr cf)))).
      { cbn [app]. exact (cr_step _ _ _ _ _ _ _ _ _ _ _ R (s_sys _ _ _ _ _ _ _ _ _ _ _ Et K)). }
      destruct (use_fd dbg B strerror v0 lim0 m0 S0 _ _ _ _ _ _ _ fd R' eq_refl) as [E|(m & Om & En & _)]; [lia|]. rewrite O in Om. injection Om as <-.
      destruct En as [E|(y & Cy & Oy)]; [congruence|]. rewrite Cn in Cy. injection Cy as <-. contradiction.
  Qed.
  Lemma answers_ok tr cf Rs fd g c a v : cruns tr cf -> inv tr cf Rs -> kstep (c_view cf) (c, a) v -> legal fd g c -> (g_open g = true -> owner tr fd = Some h) -> answers_to fd g c a.
  Proof.
    intros R H K L O. pose proof (no_minus_one _ _ R) as M1. destruct c; cbn [answers_to legal] in *; try exact Logic.I.
    - intros E. destruct (owned _ _ _ _ _ H (O E)) as (Fd & Vf). intros <-. destruct (k_new _ _ _ _ _ K) as (X & _); [lia|]. congruence.
    - destruct L as (-> & L). split.
      + inversion K; subst; try discriminate; lia.
      + intros E. destruct L as [L|L]; [congruence|]. subst fd. inversion K; subst; try discriminate; try lia. congruence.
    - intros E ->. destruct (L eq_refl) as [X|X]; [exact X|]. subst fd. exfalso. inversion K; subst; try discriminate; try lia. congruence.
  Qed.

  Lemma alive_made tr k f : alive tr h k f -> ended tr h <> None.
  Proof. intros A. rewrite (alive_ended _ _ _ _ A). discriminate. Qed.
  Lemma winv_start : winv [] (mk_conf v0 lim0 [] 0 (repeat TIdle m0)).
  Proof.
    constructor; cbn [c_objs c_thr].
    - split; [apply subseq_nil|]. intros _. exists []. reflexivity.
    - auto.
    - intros ob [].
    - intros t n x p E. apply nth_error_In, repeat_spec in E. discriminate.
    - discriminate.
  Qed.
  Lemma winv_beg tr cf Rs t x fuel : cruns tr cf -> inv tr cf Rs -> winv tr cf -> nth_error (c_thr cf) t = Some TIdle -> may_begin cf x ->
    winv ((Beg (c_next cf) x, c_view cf) :: tr)
      (mk_conf (c_view cf) (c_lim cf) (taken cf x) (S (c_next cf)) (set_thr t (TIn (c_next cf) x (prog_of dbg B strerror fuel x (object cf x))) (c_thr cf))).
  Proof.
    intros R H [W1 W2 W3 W4 W5] Et M. destruct (fresh _ _ _ H) as (Fc & Fe). set (n := c_next cf) in *.
    (* a call on h finds the object *)
    assert (OnH : on x = Some h -> exists f b, oget (c_objs cf) h = Some (ObW f) /\ In (h, ObW f) (c_objs cf) /\ fits x (ObW f) /\ shared x = false /\ good B (ObW f) /\ (exists k nm, alive tr h k nm) /\
              (forall u m y p, nth_error (c_thr cf) u = Some (TIn m y p) -> on y <> Some h) /\ brep B f b /\ (never_closed tr h -> (0 <= f_fd f)%Z) /\ subseq (sent tr h ++ b) (handed tr h) /\ (all_ok tr h -> sent tr h ++ b = handed tr h)).
    { intros Ox. unfold may_begin in M. rewrite Ox in M. destruct M as ((o & M1 & M2) & M3). pose proof (oget_in _ _ _ M1) as I0. destruct (W3 _ I0) as (f & b & -> & Rb & Cl & Sb & Al).
      assert (Sx : shared x = false) by (destruct x; try reflexivity; contradiction M2). destruct (i_objs _ _ _ _ _ _ H _ _ I0) as (Gd & Av).
      exists f, b. repeat (split; [solve [auto]|]). split; [eauto|]. split; [exact (M3 Sx)|]. split; [exact Rb|]. split; [exact Cl|]. split; [exact Sb|]. intros A. apply (Al A). }
    constructor; cbn [c_objs c_thr].
    - cbn [sent]. assert (E : exists r, handed ((Beg n x, c_view cf) :: tr) h = handed tr h ++ r) by (cbn [handed]; destruct x; try (exists []; now rewrite app_nil_r); eauto).
      destruct E as (r & ->). destruct W1 as (W1 & W1'). split; [apply sub_more; exact W1|]. intros A. apply begins_app, W1'. exact (all_ok_beg _ _ _ _ _ Fc A).
    - cbn [ended sent]. intros E. destruct (W2 E) as (X1 & X2 & X3). destruct (handed_other n x (c_view cf) tr) as (Y1 & Y2).
      { intros Ox. destruct (OnH Ox) as (f & b & _ & _ & _ & _ & _ & (k & nm & Av) & _). apply (alive_made _ _ _ Av). exact E. }
      rewrite Y1, Y2. auto.
    - intros ob I0. assert (X : In (h, ob) (c_objs cf) /\ on x <> Some h).
      { unfold taken in I0. split.
        - destruct (on x) as [h'|]; [|exact I0]. destruct (shared x); [exact I0|]. apply odel_in in I0. tauto.
        - intros Ox. destruct (OnH Ox) as (f & b & _ & _ & _ & Sx & _). rewrite Ox, Sx in I0. apply odel_in in I0. tauto. }
      destruct X as (I1 & Nx). destruct (W3 _ I1) as (f & b & -> & Rb & Cl & Sb & Al). destruct (handed_other n x (c_view cf) tr Nx) as (Y1 & Y2). rewrite Y1, Y2. cbn [sent]. exists f, b.
      split; [reflexivity|]. split; [exact Rb|]. split; [intros N; apply Cl; exact (proj1 (never_closed_beg _ _ _ _ _ Fc N))|]. split; [exact Sb|].
      intros A. destruct (Al (all_ok_beg _ _ _ _ _ Fc A)) as (Z1 & Z2). split; [exact Z1|]. intros y Ey. destruct (Z2 y Ey) as (Z3 & Z4). split; [exact Z3|]. intros E. apply forced_cons. auto.
    - intros u m y p E Oy. rewrite set_thr_setr in E. destruct (Nat.eq_dec t u) as [<-|N].
      + rewrite (setr_same _ _ _ _ Et) in E. injection E as <- <- <-. destruct (OnH Oy) as (f & b & Og & I0 & Fi & Sx & Gd & _ & _ & Rb & Cl & Sb & Al).
        assert (Ob : object cf x = Some (ObW f)) by (unfold object; rewrite Oy; exact Og). rewrite Ob.
        set (d := match x with PWAppend _ d => d | _ => [] end).
        assert (Hd : handed ((Beg n x, c_view cf) :: tr) h = handed tr h ++ d).
        { cbn [handed]. unfold d. destruct x; try (now rewrite app_nil_r). cbn [on] in Oy. injection Oy as ->. now rewrite Nat.eqb_refl. }
        assert (Hsb : forall k, subseq (sent tr h ++ firstn k (b ++ d)) (handed tr h ++ d)).
        { intros k. eapply subseq_trans; [|apply subseq_app; [exact Sb|apply subseq_refl]]. rewrite <- app_assoc. apply subseq_app; [apply subseq_refl|apply subseq_firstn]. }
        split; [exact Sx|]. split; [cbn [last_on]; rewrite Oy, Nat.eqb_refl; reflexivity|].
        exists (f_fd f), (mk_ghost (sent tr h) (0 <=? f_fd f)%Z false None), (all_ok tr h), (never_closed tr h /\ x <> PWClose h).
        split; [apply all_ok_beg; exact Fc|]. split; [apply never_closed_beg; exact Fc|]. rewrite Hd. cbn [sent g_acc g_open g_err g_safe]. split; [|split; [reflexivity|]; split; [|split; discriminate]].
        * eapply wr_impl; [|apply (wr_all dbg B strerror (f_fd f) _ fuel x f b); [exact Rb|reflexivity| | |exact Fi|exact Sx]].
          -- intros r g'. cbn beta. unfold Q, left_over. cbn [g_acc]. fold d.
             assert (G : (exists f' st, r = (Some (ObW f'), QStat st) /\ f_fd f' = (match x with PWClose _ => -1 | _ => f_fd f end)%Z /\ (syncing x = true -> st = SOk -> g_safe g' = Some (g_acc g')) /\
                       exists b', brep B f' b' /\ subseq (g_acc g' ++ b') (sent tr h ++ b ++ d) /\ (st = SOk -> g_acc g' ++ b' = sent tr h ++ b ++ d /\ (flushing x = true -> b' = []))) ->
                     exists f0 st b0, r = (Some (ObW f0), QStat st) /\ brep B f0 b0 /\ (never_closed tr h /\ x <> PWClose h -> (0 <= f_fd f0)%Z) /\ subseq (g_acc g' ++ b0) (handed tr h ++ d) /\
                       (all_ok tr h -> st = SOk -> g_acc g' ++ b0 = handed tr h ++ d /\ (flushing x = true -> b0 = []) /\ (syncing x = true -> g_safe g' = Some (handed tr h ++ d)))).
             { intros (f' & st & -> & Ef & Sy & b' & Rb' & Sb' & Al'). exists f', st, b'. split; [reflexivity|]. split; [exact Rb'|]. split.
               - intros (Nc & Nx). specialize (Cl Nc). rewrite Ef. destruct x; try exact Cl. cbn [on] in Oy. congruence.
               - split.
                 + eapply subseq_trans; [exact Sb'|]. rewrite app_assoc. apply subseq_app; [exact Sb|apply subseq_refl].
                 + intros A0 ->. specialize (Al A0). destruct (Al' eq_refl) as (E1 & E2). rewrite app_assoc, Al in E1. split; [exact E1|]. split; [exact E2|]. intros Ey. rewrite (Sy Ey eq_refl). f_equal.
                   assert (Fl : flushing x = true) by (destruct x; try discriminate Ey; reflexivity). rewrite (E2 Fl), app_nil_r in E1. exact E1. }
             destruct x; try exact G. intros (E1 & E2). split; [exact E1|].
                intros (Nc & _) A0 Er. rewrite app_nil_r. specialize (Cl Nc). rewrite E2 by assumption. exact (Al A0).
          -- cbn [g_open]. destruct Gd as (_ & [Fd|Fd]); [right; exact Fd|left; apply Z.leb_le; exact Fd].
          -- fold d. cbn [g_acc]. intros k. split; [apply Hsb|]. intros A0. specialize (Al A0). rewrite <- Al, <- app_assoc. exists (skipn k (b ++ d)). rewrite <- app_assoc, firstn_skipn. reflexivity.
        * intros Fo. apply Z.leb_le in Fo. cbn [owner]. apply (h_fd _ _ _ _ _ _ (i_held _ _ _ _ _ _ H)). apply in_or_app. left. eapply obj_items_in; [exact I0|]. cbn [items].
          replace (0 <=? f_fd f)%Z with true by (symmetry; apply Z.leb_le; exact Fo). left. reflexivity.
      + rewrite setr_other in E by exact N. assert (Nx : on x <> Some h) by (intros Ox; destruct (OnH Ox) as (f & b & _ & _ & _ & _ & _ & _ & Nr & _); exact (Nr _ _ _ _ E Oy)).
        destruct (handed_other n x (c_view cf) tr Nx) as (Y1 & Y2). apply call_ok_other; auto.
        * apply (W4 _ _ _ _ E Oy).
        * apply all_ok_beg. exact Fc.
        * intros Nc. exact (proj1 (never_closed_beg _ _ _ _ _ Fc Nc)).
    - intros m Cm Em Nc A Fa. cbn [ended sent acts call_no] in *. destruct (Nat.eqb_spec n m) as [Ey|Nm]; [exfalso; apply Em; rewrite <- Ey; exact Fe|].
      assert (Nx : on x <> Some h). { intros Ox. destruct (OnH Ox) as (f & b & _ & _ & _ & _ & _ & (k & nm & Av) & _). exact (not_deleted _ _ _ _ Av Cm Em). }
      destruct (handed_other n x (c_view cf) tr Nx) as (Y1 & Y2). rewrite Y1. apply (W5 m Cm Em); auto.
      + exact (proj1 (never_closed_beg _ _ _ _ _ Fc Nc)).
      + exact (all_ok_beg _ _ _ _ _ Fc A).
  Qed.

  Lemma winv_act tr cf Rs t n x c k a v : cruns tr cf -> inv tr cf Rs -> winv tr cf -> nth_error (c_thr cf) t = Some (TIn n x (PSys c k)) -> kstep (c_view cf) (c, a) v ->
    winv ((Act n c a, v) :: tr) (mk_conf v (c_lim cf) (c_objs cf) (c_next cf) (set_thr t (TIn n x (k a)) (c_thr cf))).
  Proof.
    intros R H [W1 W2 W3 W4 W5] Et K. destruct (running _ _ _ _ _ _ _ _ _ _ H Et) as ((_ & En) & Cn).
    assert (Dec : on x = Some h \/ on x <> Some h) by (destruct (on x) as [h'|]; [destruct (Nat.eq_dec h' h); [left|right]; congruence|right; discriminate]).
    destruct Dec as [Ox|Nx].
    - (* a call on h *)
      destruct (W4 _ _ _ _ Et Ox) as (Sx & La & fd & g & A0 & NC & CA & CN & CW & CS & CO & CE & CF).
      destruct (running_alive _ _ _ _ _ _ _ H Et Ox Sx) as (Nin & (kd & nm & Av) & _ & _).
      cbn [wr] in CW. destruct CW as (Lg & CW). pose proof (answers_ok _ _ _ _ _ _ _ _ R H K Lg CO) as An. destruct (CW a An) as (CJ & CW').
      assert (Oo : on_obj tr n h = true) by (apply (on_obj_call _ _ _ _ Cn); exact Ox).
      assert (Es : sent ((Act n c a, v) :: tr) h = g_acc (gstep fd g c a)).
      { cbn [sent]. rewrite Oo, <- CS. destruct c; cbn [gstep took g_acc]; try apply app_nil_r; try reflexivity. rewrite app_nil_r. destruct ((fd0 =? fd)%Z && g_open g && (a_ret a =? 0)%Z); reflexivity. }
      constructor; cbn [c_objs c_thr].
      + rewrite Es. cbn [handed]. destruct (is_write c) eqn:Ew.
        * destruct (CJ eq_refl) as (J1 & J2). split; [exact J1|]. intros A. apply J2, CA. exact A.
        * assert (E : g_acc (gstep fd g c a) = sent tr h). { rewrite <- CS. destruct c; try discriminate Ew; cbn [gstep]; try reflexivity. destruct ((fd0 =? fd)%Z && g_open g && (a_ret a =? 0)%Z); reflexivity. }
          rewrite E. exact W1.
      + cbn [ended]. intros E. exfalso. exact (alive_made _ _ _ Av E).
      + intros ob I0. exfalso. apply Nin. apply (in_map fst) in I0. exact I0.
      + intros u m y p E Oy. rewrite set_thr_setr in E. destruct (Nat.eq_dec t u) as [<-|N].
        * rewrite (setr_same _ _ _ _ Et) in E. injection E as <- <- <-. split; [exact Sx|]. split; [exact La|]. exists fd, (gstep fd g c a), A0, NC.
          split; [exact CA|]. split; [exact CN|]. split; [exact CW'|]. split; [symmetry; exact Es|]. split; [|split].
          -- destruct c; cbn [gstep g_open owner]; try exact CO.
             ++ intros E. specialize (An E). destruct (Z.eqb_spec (a_ret a) fd); [contradiction|]. exact (CO E).
             ++ intros E. apply andb_true_iff in E. destruct E as (E1 & E2). destruct (Z.eqb_spec fd0 fd); [discriminate|]. exact (CO E1).
             ++ destruct ((fd0 =? fd)%Z && g_open g && (a_ret a =? 0)%Z); exact CO.
          -- cbn [acts]. rewrite Nat.eqb_refl. intros E.
             assert (Ec : g_err g = true \/ exists fd' d, c = CWrite fd' d /\ failed a = true).
             { destruct c; cbn [gstep g_err] in E; try (left; exact E).
               - apply orb_true_iff in E. destruct E as [E|E]; [left; exact E|right; eauto].
               - left. destruct ((fd0 =? fd)%Z && g_open g && (a_ret a =? 0)%Z); exact E. }
             destruct Ec as [Ec|(fd' & d & -> & Ef)].
             ++ destruct (CE Ec) as (fd' & d & a' & I0 & Fa). exists fd', d, a'. split; [apply in_or_app; left; exact I0|exact Fa].
             ++ exists fd', d, a. split; [apply in_or_app; right; left; reflexivity|exact Ef].
          -- intros s Eg. assert (X : g_safe g = Some s \/ exists fd', c = CFsync fd' /\ fd' = fd /\ g_open g = true /\ a_ret a = 0%Z /\ s = g_acc g).
             { destruct c; cbn [gstep g_safe] in Eg; try (left; exact Eg). destruct ((fd0 =? fd)%Z && g_open g && (a_ret a =? 0)%Z) eqn:Eb; [|left; exact Eg]. right.
               apply andb_true_iff in Eb. destruct Eb as (Eb & E3). apply andb_true_iff in Eb. destruct Eb as (E1 & E2). apply Z.eqb_eq in E1, E3. cbn [g_safe] in Eg. injection Eg as <-. eauto 8. }
             destruct X as [X|(fd' & -> & -> & X1 & X2 & ->)]; [apply forced_cons, CF; exact X|].
             exists [], n, fd, a, v, tr. split; [reflexivity|]. split; [exact (CO X1)|]. split; [exact X2|]. symmetry. exact CS.
        * rewrite setr_other in E by exact N. exfalso. pose proof (i_excl _ _ _ _ _ _ H _ _ _ _ _ _ _ _ _ N Et E Ox Oy). congruence.
      + intros m Cm Em. exfalso. exact (not_deleted _ _ _ _ Av Cm Em).
    - (* another call *)
      assert (Oo : on_obj tr n h = false). { destruct (on_obj tr n h) eqn:E; [|reflexivity]. apply (on_obj_call _ _ _ _ Cn) in E. contradiction. }
      assert (Es : sent ((Act n c a, v) :: tr) h = sent tr h) by (cbn [sent]; rewrite Oo; apply app_nil_r).
      constructor; cbn [c_objs c_thr]; rewrite ?Es.
      + exact W1.
      + exact W2.
      + intros ob I0. destruct (W3 _ I0) as (f & b & -> & Rb & Cl & Sb & Al). exists f, b. split; [reflexivity|]. split; [exact Rb|]. split; [exact Cl|]. split; [exact Sb|]. intros A. destruct (Al A) as (Z1 & Z2).
        split; [exact Z1|]. intros y Ey. destruct (Z2 y Ey) as (Z3 & Z4). split; [exact Z3|]. intros E. apply forced_cons. auto.
      + intros u m y p E Oy. rewrite set_thr_setr in E. destruct (Nat.eq_dec t u) as [<-|N].
        * rewrite (setr_same _ _ _ _ Et) in E. injection E as <- <- <-. contradiction.
        * rewrite setr_other in E by exact N. apply call_ok_other; auto.
          -- exact (W4 _ _ _ _ E Oy).
          -- cbn [acts]. destruct (Nat.eqb_spec n m) as [->|]; [|reflexivity]. exfalso. apply N. eapply (i_uniq _ _ _ _ _ _ H); eassumption.
          -- intros fd O. apply (kept_owner tr cf Rs t n x c k a v fd R H Et K); [|exact Nx|exact O].
             intros ->. assert (X : ended tr h <> None); [|contradiction]. destruct (running _ _ _ _ _ _ _ _ _ _ H E) as (_ & Cm). exact (i_on _ _ _ _ _ _ H _ _ _ Cm Oy).
      + intros m Cm Em Nc A Fa. cbn [ended call_no handed] in *. apply (W5 m Cm Em Nc A). intros fd d a' I0. apply (Fa fd d a'). cbn [acts]. destruct (n =? m); [apply in_or_app; left|]; exact I0.
  Qed.
  Lemma winv_silent tr cf Rs t n x p p' : inv tr cf Rs -> winv tr cf -> nth_error (c_thr cf) t = Some (TIn n x p) ->
    (forall fd J (Q : _ -> ghost -> Prop) g, wr fd J Q g p -> wr fd J Q g p') -> forall lim,
    winv tr (mk_conf (c_view cf) lim (c_objs cf) (c_next cf) (set_thr t (TIn n x p') (c_thr cf))).
  Proof.
    intros H [W1 W2 W3 W4 W5] Et I0 lim. constructor; cbn [c_objs c_thr]; auto. intros u m y q E Oy. rewrite set_thr_setr in E. destruct (Nat.eq_dec t u) as [<-|N].
    - rewrite (setr_same _ _ _ _ Et) in E. injection E as <- <- <-. destruct (W4 _ _ _ _ Et Oy) as (Sx & La & fd & g & A0 & NC & CA & CN & CW & C). split; [exact Sx|]. split; [exact La|].
      exists fd, g, A0, NC. split; [exact CA|]. split; [exact CN|]. split; [apply I0; exact CW|exact C].
    - rewrite setr_other in E by exact N. exact (W4 _ _ _ _ E Oy).
  Qed.
  Lemma winv_end tr cf Rs t n x o q : cruns tr cf -> inv tr cf Rs -> winv tr cf -> (forall y, call_no tr h = Some y -> writer y = true) ->
    nth_error (c_thr cf) t = Some (TIn n x (PDone (o, q))) ->
    winv ((End n (observe (c_view cf) q), c_view cf) :: tr) (mk_conf (c_view cf) (c_lim cf) (given cf n x o) (c_next cf) (set_thr t TIdle (c_thr cf))).
  Proof.
    intros R H [W1 W2 W3 W4 W5] Wh Et. destruct (running _ _ _ _ _ _ _ _ _ _ H Et) as ((_ & En) & Cn).
    assert (Dec : on x = Some h \/ on x <> Some h) by (destruct (on x) as [h'|]; [destruct (Nat.eq_dec h' h); [left|right]; congruence|right; discriminate]).
    assert (A1 : all_ok ((End n (observe (c_view cf) q), c_view cf) :: tr) h -> all_ok tr h) by (apply all_ok_end; exact En).
    assert (W1' : subseq (sent tr h) (handed tr h) /\ (all_ok ((End n (observe (c_view cf) q), c_view cf) :: tr) h -> begins (handed tr h) (sent tr h))) by (destruct W1 as (X1 & X2); auto).
    destruct Dec as [Ox|Nx].
    - destruct (W4 _ _ _ _ Et Ox) as (Sx & La & fd & g & A0 & NC & CA & CN & CW & CS & CO & CE & CF).
      destruct (running_alive _ _ _ _ _ _ _ H Et Ox Sx) as (Nin & (kd & nm & Av) & _ & _). cbn [wr] in CW.
      assert (Nh : n <> h) by (intros ->; exact (alive_made _ _ _ Av En)).
      constructor; cbn [c_objs c_thr sent handed last_on].
      + exact W1'.
      + cbn [ended]. destruct (Nat.eqb_spec n h); [contradiction|]. intros E. exfalso. exact (alive_made _ _ _ Av E).
      + intros ob I0. unfold given in I0. rewrite Sx, Ox in I0.
        assert (Q1 : exists f st b, (o, q) = (Some (ObW f), QStat st) /\ brep B f b /\ (NC -> (0 <= f_fd f)%Z) /\ subseq (g_acc g ++ b) (handed tr h) /\
             (A0 -> st = SOk -> g_acc g ++ b = handed tr h /\ (flushing x = true -> b = []) /\ (syncing x = true -> g_safe g = Some (handed tr h)))).
        { unfold Q in CW. destruct x; try exact CW. cbn [fst] in CW. destruct CW as (-> & _). exfalso. apply Nin. apply (in_map fst) in I0. exact I0. }
        destruct Q1 as (f & st & b & Eq & Rb & Cl & Sb & Al). injection Eq as -> ->. destruct I0 as [I0|I0]; [|exfalso; apply Nin; apply (in_map fst) in I0; exact I0]. injection I0 as <-.
        rewrite CS in *. exists f, b. split; [reflexivity|]. split; [exact Rb|]. split; [intros X; apply Cl, CN; exact X|]. split; [exact Sb|]. intros A.
        assert (Est : st = SOk) by (pose proof (all_ok_last _ _ _ _ _ _ Cn Ox A) as X; cbn [observe] in X; injection X as X; exact X).
        destruct (Al (CA (A1 A)) Est) as (Z1 & Z2 & Z3). split; [exact Z1|]. intros y Ey. rewrite La in Ey. injection Ey as <-. split; [exact Z2|]. intros E. apply forced_cons. apply CF. exact (Z3 E).
      + intros u m y p E Oy. rewrite set_thr_setr in E. destruct (Nat.eq_dec t u) as [<-|N].
        * rewrite (setr_same _ _ _ _ Et) in E. discriminate.
        * rewrite setr_other in E by exact N. exfalso. pose proof (i_excl _ _ _ _ _ _ H _ _ _ _ _ _ _ _ _ N Et E Ox Oy). congruence.
      + intros m Cm Em Nc A Fa. cbn [call_no ended acts] in *. destruct (Nat.eqb_spec n m) as [<-|Nm]; [|exfalso; exact (not_deleted _ _ _ _ Av Cm Em)].
        rewrite Cn in Cm. injection Cm as ->. cbn [Q] in CW. destruct CW as (_ & CW). rewrite CS in CW. apply CW; [apply CN; exact Nc|apply CA, A1; exact A|].
        destruct (g_err g) eqn:Eg; [|reflexivity]. destruct (CE eq_refl) as (fd' & d & a & I0 & Fb). rewrite (Fa _ _ _ I0) in Fb. discriminate.
    - assert (Thr : forall u m y p, nth_error (set_thr t TIdle (c_thr cf)) u = Some (TIn m y p) -> on y = Some h -> n <> h /\ call_ok ((End n (observe (c_view cf) q), c_view cf) :: tr) m y p).
      { intros u m y p E Oy. rewrite set_thr_setr in E. destruct (Nat.eq_dec t u) as [<-|N]; [rewrite (setr_same _ _ _ _ Et) in E; discriminate|]. rewrite setr_other in E by exact N.
        split.
        - intros ->. assert (X : ended tr h <> None); [|contradiction]. destruct (running _ _ _ _ _ _ _ _ _ _ H E) as (_ & Cm). exact (i_on _ _ _ _ _ _ H _ _ _ Cm Oy).
        - apply call_ok_other; auto. exact (W4 _ _ _ _ E Oy). }
      assert (Del : forall m, call_no tr m = Some (PDelete h) -> ended ((End n (observe (c_view cf) q), c_view cf) :: tr) m <> None -> ended tr m <> None).
      { intros m Cm. cbn [ended]. destruct (Nat.eqb_spec n m) as [<-|]; [|auto]. rewrite Cn in Cm. injection Cm as ->. cbn [on] in Nx. congruence. }
      destruct (Nat.eq_dec n h) as [->|Nh].
      + (* the call that makes h *)
        destruct (W2 En) as (E1 & E2 & E3). assert (Hx : writer x = true) by exact (Wh _ Cn). assert (Onx : on x = None) by (destruct x; try discriminate Hx; reflexivity). assert (Sx : shared x = false) by (destruct x; try discriminate Hx; reflexivity).
        destruct (did_runs _ _ R _ _ _ _ Et) as (fuel & ob0 & P & O1 & _). rewrite (O1 Onx) in P. destruct (new_writer_path _ _ _ _ _ Hx P) as (p & fl & a & _ & Nw).
        constructor; cbn [c_objs c_thr sent handed last_on].
        * exact W1'.
        * auto.
        * intros ob I0. unfold given in I0. rewrite Sx, Onx in I0. assert (I1 : In (h, ob) (c_objs cf) -> False).
          { intros X. destruct (i_objs _ _ _ _ _ _ H _ _ X) as (_ & Av). exact (alive_made _ _ _ Av En). }
          destruct Nw as [(_ & -> & _)|(La & -> & f & -> & Ef & Rb)]; [contradiction|]. destruct I0 as [I0|I0]; [|contradiction]. injection I0 as <-.
          exists f, []. rewrite E1, E2, E3. split; [reflexivity|]. split; [exact Rb|]. split; [intros _; rewrite Ef; exact La|]. split; [apply sub_nil|]. intros _. split; [reflexivity|discriminate].
        * intros u m y p' E Oy. apply (Thr u m y p' E Oy).
        * intros m Cm Em Nc A Fa. cbn [call_no acts] in *. exact (W5 m Cm (Del m Cm Em) Nc (A1 A) Fa).
      + constructor; cbn [c_objs c_thr sent handed last_on].
        * exact W1'.
        * cbn [ended]. destruct (Nat.eqb_spec n h); [contradiction|exact W2].
        * intros ob I0. assert (I1 : In (h, ob) (c_objs cf)).
          { unfold given in I0. destruct (shared x); [exact I0|]. destruct o as [o1|]; [|exact I0]. destruct I0 as [I0|I0]; [|exact I0]. exfalso. injection I0 as I0 _. destruct (on x) as [h'|]; congruence. }
          destruct (W3 _ I1) as (f & b & -> & Rb & Cl & Sb & Al). exists f, b. split; [reflexivity|]. split; [exact Rb|]. split; [exact Cl|]. split; [exact Sb|]. intros A. destruct (Al (A1 A)) as (Z1 & Z2).
          split; [exact Z1|]. intros y Ey. destruct (Z2 y Ey) as (Z3 & Z4). split; [exact Z3|]. intros E. apply forced_cons. auto.
        * intros u m y p' E Oy. apply (Thr u m y p' E Oy).
        * intros m Cm Em Nc A Fa. cbn [call_no acts] in *. exact (W5 m Cm (Del m Cm Em) Nc (A1 A) Fa).
  Qed.
  Theorem winv_runs tr cf : cruns tr cf -> (forall y, call_no tr h = Some y -> writer y = true) -> winv tr cf.
  Proof.
    induction 1 as [|tr cf t o cf' R IH St]; intros Wh; [apply winv_start|]. destruct (inv_runs _ _ R) as (Rs & H).
    assert (Wh0 : forall y, call_no tr h = Some y -> writer y = true).
    { intros y C. apply Wh. destruct o as [l|]; cbn [add_lab]; [|exact C]. change ((l, c_view cf') :: tr) with ([(l, c_view cf')] ++ tr). eapply (call_later dbg B strerror v0 lim0 m0 S0); [|exact C].
      exact (cr_step _ _ _ _ _ _ _ _ _ _ _ R St). }
    specialize (IH Wh0). inversion St; subst; cbn [add_lab c_view].
    - eapply winv_beg; eassumption.
    - eapply winv_act; eassumption.
    - eapply winv_silent; [exact H|exact IH|eassumption|]. intros fd J' Q' g X. apply X.
    - eapply winv_silent; [exact H|exact IH|eassumption|]. intros fd J' Q' g X. exact X.
    - eapply winv_end; eassumption.
  Qed.
End Writes.
