(** PosixConcProofs.v -- the invariant of PosixConcInv.v holds in all executions. *)
From Coq Require Import List Arith NArith ZArith Lia Bool Permutation.
From Verif Require Import Outcome Status MemEnv PosixOs PosixWritable PosixRead PosixEnv PosixFs PosixEnvSpec PosixConc PosixConcSpec PosixConcSafe PosixConcHeld PosixConcInv.
Import ListNotations.

(** ** Traces *)
Lemma alive_beg n x v tr h k f : call_no tr n = None -> ended tr n = None -> (alive ((Beg n x, v) :: tr) h k f <-> alive tr h k f).
Proof.
  intros C E. unfold alive, made, gone. cbn [call_no ended]. split; intros ((y & A1 & A2 & A3) & G).
  - destruct (Nat.eqb_spec n h) as [->|N]; [congruence|]. split; [eauto|]. intros (m & B1 & B2). apply G. exists m. destruct (Nat.eqb_spec n m) as [->|]; [congruence|]. auto.
  - split.
    + exists y. destruct (Nat.eqb_spec n h) as [->|N]; [congruence|]. auto.
    + intros (m & B1 & B2). apply G. exists m. destruct (Nat.eqb_spec n m) as [->|]; [congruence|]. auto.
Qed.
Lemma alive_end_other n x r v tr h k f : call_no tr n = Some x -> ended tr n = None -> h <> n ->
  (alive ((End n r, v) :: tr) h k f <-> alive tr h k f /\ x <> PDelete h).
Proof.
  intros C E N. unfold alive, made, gone. cbn [call_no ended]. split; intros H.
  - destruct H as ((y & A1 & A2 & A3) & G). destruct (Nat.eqb_spec n h); [congruence|]. split; [split; [eauto|]|].
    + intros (m & B1 & B2). apply G. exists m. destruct (n =? m); [split; [exact B1|discriminate]|auto].
    + intros ->. apply G. exists n. rewrite Nat.eqb_refl. split; [exact C|discriminate].
  - destruct H as (((y & A1 & A2 & A3) & G) & D). split.
    + exists y. destruct (Nat.eqb_spec n h); [congruence|]. auto.
    + intros (m & B1 & B2). destruct (Nat.eqb_spec n m) as [<-|]; [|apply G; eauto]. congruence.
Qed.
Lemma alive_end_self n x r v tr k f : call_no tr n = Some x -> ended tr n = None -> (forall m, call_no tr m <> Some (PDelete n)) ->
  (alive ((End n r, v) :: tr) n k f <-> opens x = Some (k, f) /\ r = RStat SOk).
Proof.
  intros C E D. unfold alive, made, gone. cbn [call_no ended]. rewrite Nat.eqb_refl. split; intros H.
  - destruct H as ((y & A1 & A2 & A3) & G). split; congruence.
  - destruct H as (A1 & ->). split; [eauto|]. intros (m & B1 & B2). apply (D m). exact B1.
Qed.
Lemma alive_ended tr h k f : alive tr h k f -> ended tr h = Some (RStat SOk).
Proof. intros ((x & _ & _ & E) & _). exact E. Qed.
Lemma in_progress_end n r v tr m : in_progress ((End n r, v) :: tr) m -> in_progress tr m /\ m <> n.
Proof. unfold in_progress. cbn [call_no ended]. destruct (Nat.eqb_spec n m) as [->|N]; [intros (_ & X); discriminate|]. intros H. split; [exact H|congruence]. Qed.

(** ** The table of objects *)
Lemma oget_in objs h (o : pobj) : oget objs h = Some o -> In (h, o) objs.
Proof. induction objs as [|[k y] objs IH]; cbn [oget]; [discriminate|]. destruct (Nat.eqb_spec k h) as [->|]; [intros E; injection E as ->; left; reflexivity|right; auto]. Qed.
Lemma obj_items_in h (o : pobj) i objs : In (h, o) objs -> In i (items o) -> In (h, i) (obj_items objs).
Proof. intros H1 H2. apply in_flat_map. exists (h, o). split; [exact H1|]. apply in_map. exact H2. Qed.
Lemma in_obj_items h i objs : In (h, i) (obj_items objs) -> exists o, In (h, o) objs /\ In i (items o).
Proof. intros H. apply in_flat_map in H. destruct H as ([k o] & H1 & H2). cbn [fst snd] in H2. apply in_map_iff in H2. destruct H2 as (j & E & H2). injection E as -> ->. eauto. Qed.
Lemma odel_in objs h p (o : pobj) : In (p, o) (odel objs h) <-> In (p, o) objs /\ p <> h.
Proof. unfold odel. rewrite filter_In. cbn [fst]. destruct (Nat.eqb_spec p h); cbn [negb]; split; intros (A1 & A2); split; auto; congruence. Qed.
Lemma odel_keys objs h (p : nat) : In p (map fst (odel objs h)) -> In p (map (@fst nat pobj) objs) /\ p <> h.
Proof. intros H. apply in_map_iff in H. destruct H as ([q o] & E & H). cbn in E. subst q. apply odel_in in H. destruct H as (H & N). split; [|exact N]. apply (in_map fst) in H. exact H. Qed.
Lemma odel_nodup objs h : NoDup (map (@fst nat pobj) objs) -> NoDup (map fst (odel objs h)).
Proof.
  induction objs as [|[k y] objs IH]; cbn [map odel filter fst]; intros H; [exact H|]. inversion H as [|? ? N H']; subst. specialize (IH H').
  destruct (negb (k =? h)); cbn [map fst]; [|exact IH]. constructor; [|exact IH]. intros X. apply odel_keys in X. tauto.
Qed.
Lemma odel_id objs h : ~ In h (map (@fst nat pobj) objs) -> odel objs h = objs.
Proof.
  induction objs as [|[k y] objs IH]; cbn [map odel filter fst]; intros H; [reflexivity|]. destruct (Nat.eqb_spec k h) as [->|]; [elim H; left; reflexivity|]. cbn [negb].
  unfold odel in IH. rewrite IH; [reflexivity|]. intros X. apply H. right. exact X.
Qed.
Lemma odel_items objs h o : NoDup (map fst objs) -> oget objs h = Some o -> Permutation (obj_items objs) (map (pair h) (items o) ++ obj_items (odel objs h)).
Proof.
  induction objs as [|[k y] objs IH]; cbn [map oget fst]; [discriminate|]. intros H E. inversion H as [|? ? N H']; subst. unfold obj_items, odel. cbn [flat_map filter fst snd].
  destruct (Nat.eqb_spec k h) as [->|X].
  - injection E as ->. cbn [negb]. apply Permutation_app_head. fold (odel objs h). rewrite odel_id by exact N. reflexivity.
  - cbn [negb flat_map fst snd]. rewrite (IH H' E : Permutation (flat_map _ objs) _). rewrite !app_assoc. apply Permutation_app_tail, Permutation_app_comm.
Qed.
Lemma tag_false n x l : tag n x (map (pair false) l) = map (pair n) l.
Proof. unfold tag. rewrite map_map. reflexivity. Qed.
Lemma tag_true n x h l : on x = Some h -> tag n x (map (pair true) l) = map (pair h) l.
Proof. intros E. unfold tag. rewrite map_map. apply map_ext. intros i. cbn [fst snd who]. now rewrite E. Qed.
Lemma wf_items o : wf (Some (kind_of o)) (map (pair true) (items o)).
Proof.
  constructor.
  - discriminate.
  - intros n x. destruct o as [f|f|[fd f|f|b l f]]; cbn [items]; try (cbn; lia). destruct (0 <=? f_fd f)%Z; cbn; lia.
  - intros E fd X. destruct o as [f|f|[fd' f|f|b l f]]; try discriminate E; cbn in *; auto; repeat destruct X as [X|X]; try discriminate; try contradiction; auto.
  - intros fd fd' X Y. destruct o as [f|f|[fd1 f|f|b l f]]; cbn [items] in X, Y.
    + destruct (0 <=? f_fd f)%Z; cbn in X, Y; [|contradiction]. destruct X as [X|[]], Y as [Y|[]]. congruence.
    + cbn in X, Y. destruct X as [X|[]], Y as [Y|[]]. congruence.
    + cbn in X, Y. destruct X as [X|[X|[]]], Y as [Y|[Y|[]]]; congruence.
    + destruct X.
    + cbn in X. destruct X as [X|[X|[]]]; discriminate.
Qed.

Lemma sh_dec x : shared x = true \/ shared x = false.
Proof. destruct (shared x); auto. Qed.

(** ** The invariant *)
Section Inv.
  Variable dbg : bool.
  Variable B : nat.
  Variable strerror : Z -> str.
  Variables (v0 : view) (lim0 : limits) (m0 : nat).
  Hypothesis S0 : forall fd, v_fd v0 fd <> None -> (0 <= fd)%Z.

  Definition okind (x : pcall) (o : option pobj) : option kind := if shared x then None else option_map kind_of o.
  Definition its_object (tr : trace) (objs : list (nat * pobj)) (x : pcall) (o : option pobj) : Prop :=
    match on x with
    | None => o = None
    | Some h => exists ob, o = Some ob /\ alive tr h (kind_of ob) (oname ob) /\ if shared x then In (h, ob) objs else ~ In h (map fst objs)
    end.
  Record tgood (tr : trace) (objs : list (nat * pobj)) (n : nat) (x : pcall) (p : prog (option pobj * presult)) (R : list titem) : Prop := mk_tgood {
    t_call : call_no tr n = Some x;
    t_run : ended tr n = None;
    t_safe : exists o, safe (borrow x o) (post B x o) R p /\ wf (okind x o) R /\ its_object tr objs x o
  }.
  Record inv (tr : trace) (cf : conf) (Rs : list (list titem)) : Prop := mk_inv {
    i_next : forall n, call_no tr n <> None -> n < c_next cf;
    i_ended : forall n, ended tr n <> None -> n < c_next cf;
    i_on : forall m y h, call_no tr m = Some y -> on y = Some h -> ended tr h <> None;
    i_len : length Rs = length (c_thr cf);
    i_thr : forall t n x p R, nth_error (c_thr cf) t = Some (TIn n x p) -> nth_error Rs t = Some R -> tgood tr (c_objs cf) n x p R;
    i_uniq : forall t u n x p y q, nth_error (c_thr cf) t = Some (TIn n x p) -> nth_error (c_thr cf) u = Some (TIn n y q) -> t = u;
    i_excl : forall t u n x p m y q h, t <> u -> nth_error (c_thr cf) t = Some (TIn n x p) -> nth_error (c_thr cf) u = Some (TIn m y q) ->
       on x = Some h -> on y = Some h -> shared x = true;
    i_prog : forall n, in_progress tr n -> exists t x p, nth_error (c_thr cf) t = Some (TIn n x p);
    i_keys : NoDup (map fst (c_objs cf));
    i_objs : forall h o, In (h, o) (c_objs cf) -> good B o /\ alive tr h (kind_of o) (oname o);
    i_alive : forall h k f, alive tr h k f -> (exists o, In (h, o) (c_objs cf) /\ kind_of o = k) \/
       exists t n x p, nth_error (c_thr cf) t = Some (TIn n x p) /\ on x = Some h /\ shared x = false;
    i_held : held v0 lim0 tr (c_view cf) (c_lim cf) (obj_items (c_objs cf) ++ all_thr (c_thr cf) Rs);
    i_now : now v0 tr = c_view cf
  }.
  Notation cstep := (cstep dbg B strerror).
  Notation cruns := (cruns dbg B strerror).

  Lemma nth_repeat {A} (y : A) k t z : nth_error (repeat y k) t = Some z -> z = y.
  Proof. intros H. apply nth_error_In in H. eapply repeat_spec; eassumption. Qed.
  Lemma inv_start : inv [] (mk_conf v0 lim0 [] 0 (repeat TIdle m0)) (repeat [] m0).
  Proof.
    assert (Al : forall Rs k, all_thr (repeat TIdle k) Rs = []) by (intros Rs k; revert Rs; induction k; intros [|R Rs]; cbn; auto).
    constructor; cbn [c_next c_thr c_objs c_view c_lim].
    - intros n E. elim E. reflexivity.
    - intros n E. elim E. reflexivity.
    - discriminate.
    - now rewrite !repeat_length.
    - intros t n x p R E. apply nth_repeat in E. discriminate.
    - intros t u n x p y q E. apply nth_repeat in E. discriminate.
    - intros t u n x p m y q h _ E. apply nth_repeat in E. discriminate.
    - intros n (E & _). elim E. reflexivity.
    - constructor.
    - intros h o [].
    - intros h k f ((x & E & _) & _). discriminate.
    - rewrite Al. cbn. constructor; cbn; try (intros; contradiction); try constructor; auto; try discriminate.
      + intros l. unfold zlen. cbn. lia.
      + intros l. unfold zlen. cbn. lia.
    - reflexivity.
  Qed.

  (** Thread [t] among the others. *)
  Lemma at_thread tr cf Rs t n x p R : inv tr cf Rs -> nth_error (c_thr cf) t = Some (TIn n x p) -> nth_error Rs t = Some R ->
    exists rest, Permutation (obj_items (c_objs cf) ++ all_thr (c_thr cf) Rs) (tag n x R ++ obj_items (c_objs cf) ++ rest) /\
      (forall T' R', Permutation (all_thr (setr t T' (c_thr cf)) (setr t R' Rs)) (thr_items T' R' ++ rest)).
  Proof.
    intros H E1 E2. destruct (all_thr_at _ _ _ _ _ E1 E2) as (rest & P1 & P2 & _). exists rest. split; [|exact P2].
    rewrite P1. cbn [thr_items]. rewrite !app_assoc. apply Permutation_app_tail, Permutation_app_comm.
  Qed.
  Lemma its_bor tr objs x o rest : its_object tr objs x o -> forall i, In i (borrow x o) -> exists m, In (m, i) (obj_items objs ++ rest).
  Proof.
    unfold its_object, borrow. intros H i. destruct (shared x) eqn:Sx; [|intros []]. destruct (on x) as [h|]; [|rewrite H; intros []].
    destruct H as (ob & -> & _ & X). intros Y. exists h. apply in_or_app. left. eapply obj_items_in; eassumption.
  Qed.
  Lemma thr_at cf Rs t T : length Rs = length (c_thr cf) -> nth_error (c_thr cf) t = Some T -> exists R : list titem, nth_error Rs t = Some R.
  Proof.
    intros L E. destruct (nth_error Rs t) as [R|] eqn:X; [eauto|]. apply nth_error_None in X. assert (t < length (c_thr cf)) by (apply nth_error_Some; congruence). lia.
  Qed.

  (** A step of a thread inside a call. *)
  Lemma inv_inside tr tr' cf Rs t n x p p' R R' v' lim' :
    inv tr cf Rs -> nth_error (c_thr cf) t = Some (TIn n x p) -> nth_error Rs t = Some R ->
    (forall k, call_no tr' k = call_no tr k) -> (forall k, ended tr' k = ended tr k) -> now v0 tr' = v' ->
    (exists o, safe (borrow x o) (post B x o) R' p' /\ wf (okind x o) R' /\ its_object tr (c_objs cf) x o) ->
    (forall rest, Permutation (obj_items (c_objs cf) ++ all_thr (c_thr cf) Rs) (tag n x R ++ rest) -> held v0 lim0 tr' v' lim' (tag n x R' ++ rest)) ->
    inv tr' (mk_conf v' lim' (c_objs cf) (c_next cf) (set_thr t (TIn n x p') (c_thr cf))) (setr t R' Rs).
  Proof.
    intros H Et ER Cn En Nw Sf Hd. rewrite set_thr_setr.
    assert (Al : forall h k f, alive tr' h k f <-> alive tr h k f).
    { intros h k f. unfold alive, made, gone. split; intros ((y & A1 & A2 & A3) & G).
      - split; [exists y; rewrite <- Cn, <- En; auto|]. intros (m & B1 & B2). apply G. exists m. rewrite Cn, En. auto.
      - split; [exists y; rewrite Cn, En; auto|]. intros (m & B1 & B2). apply G. exists m. rewrite <- Cn, <- En. auto. }
    assert (IO : forall y o, its_object tr (c_objs cf) y o -> its_object tr' (c_objs cf) y o).
    { intros y o. unfold its_object. destruct (on y); [|auto]. intros (ob & A1 & A2 & A3). exists ob. rewrite Al. auto. }
    assert (Nth : forall u n' x' q, nth_error (setr t (TIn n x p') (c_thr cf)) u = Some (TIn n' x' q) -> exists q', nth_error (c_thr cf) u = Some (TIn n' x' q')).
    { intros u n' x' q. destruct (Nat.eq_dec t u) as [<-|N]; [rewrite (setr_same _ _ _ _ Et)|rewrite setr_other by exact N]; [intros E; injection E as <- <- <-; eauto|eauto]. }
    constructor; cbn [c_next c_thr c_objs c_view c_lim].
    - intros k. rewrite Cn. apply (i_next _ _ _ H).
    - intros k. rewrite En. apply (i_ended _ _ _ H).
    - intros m y h. rewrite Cn, En. apply (i_on _ _ _ H).
    - rewrite !setr_length. apply (i_len _ _ _ H).
    - intros u n' x' q Ru. destruct (Nat.eq_dec t u) as [<-|N].
      + rewrite (setr_same _ _ _ _ Et), (setr_same _ _ _ _ ER). intros E1 E2. injection E1 as <- <- <-. injection E2 as <-.
        destruct (i_thr _ _ _ H t n x p R Et ER) as [T1 T2 _]. constructor; [now rewrite Cn|now rewrite En|]. destruct Sf as (o & A1 & A2 & A3). exists o. auto.
      + rewrite !setr_other by exact N. intros E1 E2. destruct (i_thr _ _ _ H u n' x' q Ru E1 E2) as [T1 T2 (o & A1 & A2 & A3)]. constructor; [now rewrite Cn|now rewrite En|]. exists o. auto.
    - intros u w n' x' q y q' E1 E2. apply Nth in E1, E2. destruct E1 as (q1 & E1), E2 as (q2 & E2). eapply (i_uniq _ _ _ H); eassumption.
    - intros u w n' x' q m y q' h N E1 E2. apply Nth in E1, E2. destruct E1 as (q1 & E1), E2 as (q2 & E2). eapply (i_excl _ _ _ H); eassumption.
    - intros k (K1 & K2). rewrite Cn in K1. rewrite En in K2. destruct (i_prog _ _ _ H k (conj K1 K2)) as (u & y & q & E). destruct (Nat.eq_dec t u) as [<-|N].
      + rewrite Et in E. injection E as <- <- <-. exists t, x, p'. apply (setr_same _ _ _ _ Et).
      + exists u, y, q. now rewrite setr_other.
    - apply (i_keys _ _ _ H).
    - intros h o I0. destruct (i_objs _ _ _ H h o I0) as (G & A). split; [exact G|]. now rewrite Al.
    - intros h k f A. rewrite Al in A. destruct (i_alive _ _ _ H h k f A) as [L|(u & n' & y & q & E1 & E2 & E3)]; [left; exact L|right]. destruct (Nat.eq_dec t u) as [<-|N].
      + rewrite Et in E1. injection E1 as <- <- <-. exists t, n, x, p'. split; [apply (setr_same _ _ _ _ Et)|auto].
      + exists u, n', y, q. now rewrite setr_other.
    - destruct (at_thread _ _ _ _ _ _ _ _ H Et ER) as (rest & P1 & P2). eapply held_perm; [|apply (Hd _ P1)].
      rewrite P2. cbn [thr_items]. rewrite !app_assoc. apply Permutation_app_tail, Permutation_app_comm.
    - exact Nw.
  Qed.

  Lemma inv_begin tr cf Rs t x fuel : inv tr cf Rs -> nth_error (c_thr cf) t = Some TIdle -> may_begin cf x ->
    inv ((Beg (c_next cf) x, c_view cf) :: tr)
      (mk_conf (c_view cf) (c_lim cf) (taken cf x) (S (c_next cf)) (set_thr t (TIn (c_next cf) x (prog_of dbg B strerror fuel x (object cf x))) (c_thr cf)))
      (setr t (start_with x (object cf x)) Rs).
  Proof.
    intros H Et M. rewrite set_thr_setr. set (n := c_next cf) in *. set (o := object cf x). set (p := prog_of dbg B strerror fuel x o).
    set (tr' := (Beg n x, c_view cf) :: tr). destruct (thr_at _ _ _ _ (i_len _ _ _ H) Et) as (R0 & ER).
    assert (Cn0 : call_no tr n = None) by (destruct (call_no tr n) eqn:E; [|reflexivity]; assert (n < c_next cf) by (apply (i_next _ _ _ H); congruence); unfold n in *; lia).
    assert (En0 : ended tr n = None) by (destruct (ended tr n) eqn:E; [|reflexivity]; assert (n < c_next cf) by (apply (i_ended _ _ _ H); congruence); unfold n in *; lia).
    assert (Al : forall h k f, alive tr' h k f <-> alive tr h k f) by (intros; apply alive_beg; assumption).
    assert (Cn : forall k, k <> n -> call_no tr' k = call_no tr k) by (intros k N; unfold tr'; cbn [call_no]; destruct (Nat.eqb_spec n k); congruence).
    assert (Cn1 : call_no tr' n = Some x) by (unfold tr'; cbn [call_no]; now rewrite Nat.eqb_refl).
    assert (Nt : forall u n' y q, nth_error (c_thr cf) u = Some (TIn n' y q) -> n' <> n).
    { intros u n' y q E ->. destruct (thr_at _ _ _ _ (i_len _ _ _ H) E) as (Ru & EU). destruct (i_thr _ _ _ H _ _ _ _ _ E EU) as [T1 _ _]. congruence. }
    (* the object *)
    assert (Ob : forall h, on x = Some h -> exists ob, o = Some ob /\ oget (c_objs cf) h = Some ob /\ fits x ob /\ In (h, ob) (c_objs cf)).
    { intros h E. unfold may_begin in M. rewrite E in M. destruct M as ((ob & M1 & M2) & _). exists ob. unfold o, object. rewrite E. repeat split; auto. apply oget_in. exact M1. }
    assert (Ex : forall h, on x = Some h -> shared x = false -> forall u m y q, nth_error (c_thr cf) u = Some (TIn m y q) -> on y <> Some h).
    { intros h E Sx. unfold may_begin in M. rewrite E in M. destruct M as (_ & M). apply M. exact Sx. }
    assert (Tk1 : forall h ob, In (h, ob) (taken cf x) -> In (h, ob) (c_objs cf)).
    { intros h ob. unfold taken. destruct (on x) as [h'|]; [|auto]. destruct (shared x); [auto|]. rewrite odel_in. tauto. }
    assert (Tk2 : forall h ob, In (h, ob) (c_objs cf) -> (shared x = true \/ on x <> Some h) -> In (h, ob) (taken cf x)).
    { intros h ob I0 D. unfold taken. destruct (on x) as [h'|]; [|auto]. destruct (shared x); [auto|]. rewrite odel_in. split; [exact I0|]. destruct D as [D|D]; congruence. }
    assert (Tk3 : forall h, In h (map fst (taken cf x)) -> In h (map fst (c_objs cf))).
    { intros h X. apply in_map_iff in X. destruct X as ([h' ob] & E & X). cbn in E. subst h'. apply Tk1 in X. apply (in_map fst) in X. exact X. }
    assert (IO : forall u m y q oy, nth_error (c_thr cf) u = Some (TIn m y q) -> its_object tr (c_objs cf) y oy -> its_object tr' (taken cf x) y oy).
    { intros u m y q oy E. unfold its_object. destruct (on y) as [h'|] eqn:Ey; [|auto]. intros (ob & A1 & A2 & A3). exists ob. rewrite Al. split; [exact A1|]. split; [exact A2|].
      destruct (shared y) eqn:Sy.
      - apply Tk2; [exact A3|]. destruct (sh_dec x) as [Sx|Sx]; [left; exact Sx|right]. intros X. apply (Ex h' X Sx _ _ _ _ E). exact Ey.
      - intros X. apply A3, Tk3, X. }
    assert (Self : its_object tr' (taken cf x) x o /\ match on x with Some _ => exists ob, o = Some ob /\ good B ob /\ fits x ob | None => o = None end).
    { unfold its_object. destruct (on x) as [h|] eqn:Ox.
      - destruct (Ob h eq_refl) as (ob & E1 & E2 & E3 & E4). destruct (i_objs _ _ _ H h ob E4) as (G & A). split; [|eauto]. exists ob. rewrite Al. split; [exact E1|]. split; [exact A|].
        destruct (shared x) eqn:Sx; [apply Tk2; auto|]. unfold taken. rewrite Ox, Sx. intros X. apply odel_keys in X. tauto.
      - unfold o, object. rewrite Ox. auto. }
    destruct Self as (Self & Gd).
    assert (Wf : wf (okind x o) (start_with x o)).
    { unfold start_with, okind. destruct (shared x); [apply wf_nil|]. destruct o as [ob|]; [apply wf_items|apply wf_nil]. }
    assert (Nth : forall u n' x' q, nth_error (setr t (TIn n x p) (c_thr cf)) u = Some (TIn n' x' q) ->
              (u = t /\ n' = n /\ x' = x /\ q = p) \/ (u <> t /\ nth_error (c_thr cf) u = Some (TIn n' x' q))).
    { intros u n' x' q. destruct (Nat.eq_dec t u) as [<-|N]; [rewrite (setr_same _ _ _ _ Et)|rewrite setr_other by exact N]; [intros E; injection E as <- <- <-; auto|right; split; congruence]. }
    constructor; cbn [c_next c_thr c_objs c_view c_lim].
    - intros k. destruct (Nat.eq_dec k n) as [->|N]; [unfold n; lia|]. rewrite Cn by exact N. intros X. apply (i_next _ _ _ H) in X. unfold n. lia.
    - intros k X. assert (k < c_next cf) by (apply (i_ended _ _ _ H); exact X). unfold n. lia.
    - intros m y h E O. change (ended tr' h) with (ended tr h). destruct (Nat.eq_dec m n) as [->|N].
      + rewrite Cn1 in E. injection E as <-. destruct (Ob h O) as (ob & _ & _ & _ & E4). destruct (i_objs _ _ _ H h ob E4) as (_ & A). rewrite (alive_ended _ _ _ _ A). discriminate.
      + rewrite Cn in E by exact N. eapply (i_on _ _ _ H); eassumption.
    - rewrite !setr_length. apply (i_len _ _ _ H).
    - intros u n' x' q Ru E1 E2. destruct (Nth _ _ _ _ E1) as [(-> & -> & -> & ->)|(N & E3)].
      + rewrite (setr_same _ _ _ _ ER) in E2. injection E2 as <-. constructor; [exact Cn1|exact En0|]. exists o. split; [apply safe_prog_of; exact Gd|]. auto.
      + rewrite setr_other in E2 by congruence. destruct (i_thr _ _ _ H u n' x' q Ru E3 E2) as [T1 T2 (oy & A1 & A2 & A3)].
        constructor; [rewrite Cn; [exact T1|eapply Nt; exact E3]|exact T2|]. exists oy. split; [exact A1|]. split; [exact A2|]. eapply IO; eassumption.
    - intros u w n' x' q y q' E1 E2. apply Nth in E1, E2. destruct E1 as [(-> & -> & -> & ->)|(N1 & E1)], E2 as [(-> & E & -> & ->)|(N2 & E2)]; auto.
      + elim (Nt _ _ _ _ E2). reflexivity.
      + elim (Nt _ _ _ _ E1). exact E.
      + eapply (i_uniq _ _ _ H); eassumption.
    - intros u w n' x' q m y q' h N E1 E2 O1 O2. apply Nth in E1, E2. destruct E1 as [(-> & -> & -> & ->)|(N1 & E1)], E2 as [(-> & E & -> & ->)|(N2 & E2)].
      + congruence.
      + destruct (sh_dec x) as [Sx|Sx]; [exact Sx|]. elim (Ex h O1 Sx _ _ _ _ E2). exact O2.
      + destruct (thr_at _ _ _ _ (i_len _ _ _ H) E1) as (Ru & EU). destruct (i_thr _ _ _ H _ _ _ _ _ E1 EU) as [_ _ (oy & _ & _ & A3)]. unfold its_object in A3. rewrite O1 in A3.
        destruct A3 as (ob & _ & _ & A3). destruct (shared x'); [reflexivity|]. elim A3. destruct (Ob h O2) as (ob' & _ & _ & _ & E4). apply (in_map fst) in E4. exact E4.
      + eapply (i_excl _ _ _ H); [exact N|exact E1|exact E2|exact O1|exact O2].
    - intros k (K1 & K2). destruct (Nat.eq_dec k n) as [->|N]; [exists t, x, p; apply (setr_same _ _ _ _ Et)|]. rewrite Cn in K1 by exact N.
      destruct (i_prog _ _ _ H k (conj K1 K2)) as (u & y & q & E). exists u, y, q. rewrite setr_other; [exact E|]. intros <-. congruence.
    - unfold taken. destruct (on x); [destruct (shared x)|]; try apply (i_keys _ _ _ H). apply odel_nodup, (i_keys _ _ _ H).
    - intros h ob I0. destruct (i_objs _ _ _ H h ob (Tk1 _ _ I0)) as (G & A). split; [exact G|]. now rewrite Al.
    - intros h k f A. rewrite Al in A. destruct (i_alive _ _ _ H h k f A) as [(ob & I0 & K)|(u & n' & y & q & E1 & E2 & E3)].
      + destruct (sh_dec x) as [Sx|Sx]; [left; exists ob; split; [apply Tk2; auto|exact K]|]. destruct (on x) as [h'|] eqn:Ox; [|left; exists ob; split; [apply Tk2; [exact I0|right; congruence]|exact K]].
        destruct (Nat.eq_dec h' h) as [->|N]; [right; exists t, n, x, p; split; [apply (setr_same _ _ _ _ Et)|auto]|left; exists ob; split; [apply Tk2; [exact I0|right; congruence]|exact K]].
      + right. exists u, n', y, q. rewrite setr_other; [auto|]. intros <-. congruence.
    - apply held_label; [discriminate|]. eapply held_perm; [|exact (i_held _ _ _ H)]. destruct (all_thr_at _ _ _ _ _ Et ER) as (rest & P1 & P2 & _).
      rewrite P1, P2. cbn [thr_items app]. unfold start_with, taken. destruct (on x) as [h|] eqn:Ox.
      + destruct (Ob h eq_refl) as (ob & E1 & E2 & E3 & E4). destruct (shared x) eqn:Sx; [reflexivity|]. rewrite E1. rewrite (tag_true n x h _ Ox).
        rewrite (odel_items _ _ _ (i_keys _ _ _ H) E2). rewrite !app_assoc. apply Permutation_app_tail, Permutation_app_comm.
      + assert (E : o = None) by (unfold o, object; now rewrite Ox). rewrite E. destruct (shared x); reflexivity.
    - reflexivity.
  Qed.
  Lemma on_shared x : on x = None -> shared x = false.
  Proof. destruct x; try discriminate; reflexivity. Qed.
  Lemma inv_end tr cf Rs t n x o' q : inv tr cf Rs -> nth_error (c_thr cf) t = Some (TIn n x (PDone (o', q))) ->
    inv ((End n (observe (c_view cf) q), c_view cf) :: tr) (mk_conf (c_view cf) (c_lim cf) (given cf n x o') (c_next cf) (set_thr t TIdle (c_thr cf))) (setr t [] Rs).
  Proof.
    intros H Et. rewrite set_thr_setr. set (r := observe (c_view cf) q). set (tr' := (End n r, c_view cf) :: tr).
    destruct (thr_at _ _ _ _ (i_len _ _ _ H) Et) as (R & ER). destruct (i_thr _ _ _ H _ _ _ _ _ Et ER) as [Cn En (o & Sf & Wf & IO)].
    cbn [safe] in Sf.
    assert (EnO : forall k, k <> n -> ended tr' k = ended tr k) by (intros k N; unfold tr'; cbn [ended]; destruct (Nat.eqb_spec n k); congruence).
    assert (EnS : ended tr' n = Some r) by (unfold tr'; cbn [ended]; now rewrite Nat.eqb_refl).
    assert (Nd : forall m, call_no tr m <> Some (PDelete n)) by (intros m X; apply (i_on _ _ _ H m _ n X); [reflexivity|exact En]).
    assert (AlO : forall h k f, alive tr h k f -> h <> n) by (intros h k f A ->; apply alive_ended in A; congruence).
    assert (Keyn : ~ In n (map fst (c_objs cf))).
    { intros X. apply in_map_iff in X. destruct X as ([n' ob] & E & X). cbn in E. subst n'. destruct (i_objs _ _ _ H _ _ X) as (_ & A). elim (AlO _ _ _ A). reflexivity. }
    (* another thread's object is not the one deleted *)
    assert (NDel : forall u m y p h, u <> t -> nth_error (c_thr cf) u = Some (TIn m y p) -> on y = Some h -> x <> PDelete h).
    { intros u m y p h N E O ->. assert (X : shared (PDelete h) = true) by (eapply (i_excl _ _ _ H t u); try eassumption; [congruence|reflexivity]). discriminate. }
    assert (Key : forall h, on x = Some h -> shared x = false -> ~ In h (map fst (c_objs cf)) /\ exists ob, o = Some ob /\ alive tr h (kind_of ob) (oname ob)).
    { intros h O Sx. unfold its_object in IO. rewrite O, Sx in IO. destruct IO as (ob & A1 & A2 & A3). split; [exact A3|eauto]. }
    (* what [given] does *)
    assert (Gv : (given cf n x o' = c_objs cf /\ R = [] /\ (on x = None -> forall k f, ~ alive tr' n k f) /\ (forall h, on x = Some h -> shared x = false -> x = PDelete h)) \/
                 (exists h ob, given cf n x o' = (h, ob) :: c_objs cf /\ good B ob /\ Permutation (tag n x R) (map (pair h) (items ob)) /\ ~ In h (map fst (c_objs cf)) /\
                    alive tr' h (kind_of ob) (oname ob) /\ shared x = false /\ (on x = Some h \/ on x = None /\ h = n) /\ (forall h', x <> PDelete h'))).
    { unfold post in Sf. unfold given. destruct (on x) as [h|] eqn:Ox.
      - destruct (shared x) eqn:Sx.
        + left. destruct o as [ob|]; [|contradiction]. split; [reflexivity|]. split; [exact Sf|]. split; [discriminate|discriminate].
        + destruct (Key h eq_refl eq_refl) as (K1 & ob & -> & A).
          assert (Dd : (exists h', x = PDelete h') \/ (forall h', x <> PDelete h')) by (destruct x; try (right; intros; discriminate); left; eauto).
          destruct Dd as [(h' & ->)|Dd].
          * cbn [on] in Ox. injection Ox as <-. cbn [fst snd] in Sf. destruct Sf as (-> & -> & _). left. split; [reflexivity|]. split; [reflexivity|]. split; [discriminate|]. intros h0 X _. congruence.
          * assert (Sf' : exists o1, o' = Some o1 /\ good B o1 /\ (kind_of o1 = kind_of ob /\ oname o1 = oname ob) /\ Permutation R (map (pair true) (items o1))) by (destruct x; try exact Sf; exfalso; eapply Dd; reflexivity).
            destruct Sf' as (o1 & -> & G & Kk & P). right. exists h, o1. split; [reflexivity|]. split; [exact G|]. split; [rewrite <- (tag_true n x h (items o1) Ox); apply tag_perm; exact P|]. split; [exact K1|].
            split; [|split; [reflexivity|split; [left; reflexivity|exact Dd]]]. rewrite (proj1 Kk), (proj2 Kk). unfold tr'. apply (alive_end_other n x r _ tr h _ _ Cn En (AlO _ _ _ A)). split; [exact A|apply Dd].
      - rewrite (on_shared x Ox). destruct o' as [ob|]; cbn [fst snd] in Sf.
        + destruct Sf as (G & P & -> & Of). right. exists n, ob. split; [reflexivity|]. split; [exact G|]. split; [rewrite <- (tag_false n x (items ob)); apply tag_perm; exact P|]. split; [exact Keyn|].
          split; [apply (alive_end_self n x r _ tr _ _ Cn En Nd); split; [exact Of|reflexivity]|]. split; [reflexivity|]. split; [right; auto|]. intros h' ->. discriminate Ox.
        + destruct Sf as (-> & Q). left. split; [reflexivity|]. split; [reflexivity|]. split; [|discriminate]. intros _ k f A. apply (alive_end_self n x r _ tr _ f Cn En Nd) in A. destruct A as (A1 & A2).
          assert (X : opens x = None); [|congruence]. apply Q. unfold r, observe in A2. destruct q as [s| | | |s [| |]]; try discriminate A2; [congruence|]. destruct (v_map _ _) as [[? ?]|]; [|discriminate]. destruct (_ <=? _)%N; discriminate. }
    assert (Gin : forall h ob, In (h, ob) (c_objs cf) -> In (h, ob) (given cf n x o')) by (intros h ob X; destruct Gv as [(-> & _)|(h' & ob' & -> & _)]; [exact X|right; exact X]).
    assert (AlT : forall h k f, alive tr h k f -> x <> PDelete h -> alive tr' h k f) by (intros h k f A D; apply (alive_end_other n x r _ tr h k f Cn En (AlO _ _ _ A)); auto).
    assert (Nth : forall u n' x' p, nth_error (setr t TIdle (c_thr cf)) u = Some (TIn n' x' p) -> u <> t /\ nth_error (c_thr cf) u = Some (TIn n' x' p)).
    { intros u n' x' p. destruct (Nat.eq_dec t u) as [<-|N]; [rewrite (setr_same _ _ _ _ Et); discriminate|rewrite setr_other by exact N]. split; congruence. }
    constructor; cbn [c_next c_thr c_objs c_view c_lim].
    - intros k X. apply (i_next _ _ _ H). exact X.
    - intros k X. destruct (Nat.eq_dec k n) as [->|N]; [apply (i_next _ _ _ H); congruence|]. rewrite EnO in X by exact N. apply (i_ended _ _ _ H). exact X.
    - intros m y h E O. destruct (Nat.eq_dec h n) as [->|N]; [congruence|]. rewrite EnO by exact N. apply (i_on _ _ _ H m y h E O).
    - rewrite !setr_length. apply (i_len _ _ _ H).
    - intros u n' x' p Ru E1 E2. destruct (Nth _ _ _ _ E1) as (N & E3). rewrite setr_other in E2 by congruence. destruct (i_thr _ _ _ H u n' x' p Ru E3 E2) as [T1 T2 (oy & A1 & A2 & A3)].
      assert (Nn : n' <> n) by (intros ->; apply N; eapply (i_uniq _ _ _ H); eassumption).
      constructor; [exact T1|rewrite EnO by exact Nn; exact T2|]. exists oy. split; [exact A1|]. split; [exact A2|]. unfold its_object in *. destruct (on x') as [h|] eqn:Ox'; [|exact A3].
      destruct A3 as (ob & B1 & B2 & B3). exists ob. split; [exact B1|]. split; [apply AlT; [exact B2|eapply NDel; eassumption]|].
      destruct (shared x') eqn:Sx'; [apply Gin; exact B3|]. intros X. destruct Gv as [(Gg & _)|(h' & ob' & Gg & _ & _ & _ & _ & Sx & Oh & _)]; rewrite Gg in X; [contradiction|]. destruct X as [X|X]; [|contradiction].
      cbn [fst] in X. subst h'. destruct Oh as [Oh|(_ & ->)]; [|elim (AlO _ _ _ B2); reflexivity]. assert (Y : shared x = true) by (eapply (i_excl _ _ _ H t u); try eassumption; congruence). congruence.
    - intros u w n' x' p y p' E1 E2. apply Nth in E1, E2. eapply (i_uniq _ _ _ H); [apply E1|apply E2].
    - intros u w n' x' p m y p' h N E1 E2. apply Nth in E1, E2. eapply (i_excl _ _ _ H u w); [exact N|apply E1|apply E2].
    - intros k K. apply in_progress_end in K. destruct K as (K & N). destruct (i_prog _ _ _ H k K) as (u & y & p & E). exists u, y, p. rewrite setr_other; [exact E|]. intros <-. rewrite Et in E. congruence.
    - destruct Gv as [(-> & _)|(h' & ob' & -> & _ & _ & K & _)]; [apply (i_keys _ _ _ H)|]. cbn [map fst]. constructor; [exact K|apply (i_keys _ _ _ H)].
    - intros h ob I0. destruct Gv as [(Gg & _ & _ & Dl)|(h' & ob' & Gg & G & _ & K & A & _ & _ & ND)]; rewrite Gg in I0.
      + destruct (i_objs _ _ _ H h ob I0) as (G & A). split; [exact G|]. apply AlT; [exact A|]. intros X. assert (Oh : on x = Some h) by (rewrite X; reflexivity).
        assert (Sh : shared x = false) by (rewrite X; reflexivity). destruct (Key h Oh Sh) as (K & _). apply K. apply (in_map fst) in I0. exact I0.
      + destruct I0 as [I0|I0]; [injection I0 as <- <-; auto|]. destruct (i_objs _ _ _ H h ob I0) as (G' & A'). split; [exact G'|]. apply AlT; [exact A'|apply ND].
    - intros h k f A. destruct (Nat.eq_dec h n) as [->|N].
      + pose proof A as A'. apply (alive_end_self n x r _ tr k f Cn En Nd) in A'. destruct A' as (A1 & A2). destruct Gv as [(_ & _ & X & _)|(h' & ob' & Gg & _ & _ & _ & Al & _ & Oh & _)].
        * destruct (on x) eqn:Ox; [destruct x; discriminate|]. elim (X eq_refl k f A).
        * assert (Ox : on x = None) by (destruct x; try discriminate A1; reflexivity). destruct Oh as [Oh|(_ & ->)]; [congruence|]. left. exists ob'. split; [rewrite Gg; left; reflexivity|].
          destruct A as ((y & B1 & B2 & _) & _), Al as ((z & D1 & D2 & _) & _). congruence.
      + apply (alive_end_other n x r _ tr h k f Cn En N) in A. destruct A as (A & D). destruct (i_alive _ _ _ H h k f A) as [(ob & I0 & K)|(u & n' & y & p & E1 & E2 & E3)]; [left; exists ob; split; [apply Gin; exact I0|exact K]|].
        destruct (Nat.eq_dec t u) as [<-|Nu].
        * rewrite Et in E1. injection E1 as <- <- <-. destruct Gv as [(_ & _ & _ & Dl)|(h' & ob' & Gg & _ & _ & _ & Al & _ & Oh & _)]; [elim D; apply Dl; assumption|].
          destruct Oh as [Oh|(Oh & _)]; [|congruence]. assert (h' = h) by congruence. subst h'. left. exists ob'. split; [rewrite Gg; left; reflexivity|].
          destruct Al as ((z & D1 & D2 & _) & _), A as ((y & B1 & B2 & _) & _). change (call_no tr' h) with (call_no tr h) in D1. congruence.
        * right. exists u, n', y, p. rewrite setr_other by exact Nu. auto.
    - apply held_label; [discriminate|]. eapply held_perm; [|exact (i_held _ _ _ H)]. destruct (all_thr_at _ _ _ _ _ Et ER) as (rest & P1 & P2 & _). rewrite P1, P2. cbn [thr_items app].
      destruct Gv as [(-> & -> & _)|(h' & ob' & -> & _ & P & _)]; [reflexivity|]. unfold obj_items at 2. cbn [flat_map fst snd]. rewrite P. fold (obj_items (c_objs cf)). rewrite !app_assoc. apply Permutation_app_tail, Permutation_app_comm.
    - reflexivity.
  Qed.

  Lemma inv_step tr cf Rs t l cf' : inv tr cf Rs -> cstep t cf l cf' -> exists Rs', inv (add_lab l (c_view cf') tr) cf' Rs'.
  Proof.
    intros H St. destruct St as [x fuel Et M|n x c k a v' Et K|n x l k Et|n x l k Et|n x o q Et].
    - eexists. apply (inv_begin tr cf Rs); assumption.
    - destruct (thr_at _ _ _ _ (i_len _ _ _ H) Et) as (R & ER). destruct (i_thr _ _ _ H _ _ _ _ _ Et ER) as [Cn En (o & Sf & Wf & IO)].
      destruct (at_thread _ _ _ _ _ _ _ _ H Et ER) as (rest & P1 & P2).
      destruct (sys_step v0 lim0 S0 _ (borrow x o) (post B x o) (okind x o) n x (obj_items (c_objs cf) ++ rest) (its_bor _ _ _ _ rest IO) R c k a tr _ v' (c_lim cf) Sf Wf K) as (R' & Sf' & Wf' & Hd).
      { eapply held_perm; [exact P1|exact (i_held _ _ _ H)]. }
      exists (setr t R' Rs). cbn [add_lab c_view]. eapply (inv_inside tr); try eassumption; try reflexivity; [eauto|].
      intros rest' P3. eapply held_perm; [|exact Hd]. apply Permutation_app_head. apply (Permutation_app_inv_l (tag n x R)). rewrite <- P1. exact P3.
    - destruct (thr_at _ _ _ _ (i_len _ _ _ H) Et) as (R & ER). destruct (i_thr _ _ _ H _ _ _ _ _ Et ER) as [Cn En (o & Sf & Wf & IO)].
      destruct (at_thread _ _ _ _ _ _ _ _ H Et ER) as (rest & P1 & P2).
      destruct (sub_step v0 lim0 _ (borrow x o) (post B x o) (okind x o) n x (obj_items (c_objs cf) ++ rest) R l k tr (c_view cf) (c_lim cf) Sf Wf) as (R' & Sf' & Wf' & Hd).
      { eapply held_perm; [exact P1|exact (i_held _ _ _ H)]. }
      exists (setr t R' Rs). cbn [add_lab c_view]. eapply (inv_inside tr); try eassumption; try reflexivity; [apply (i_now _ _ _ H)|eauto|].
      intros rest' P3. eapply held_perm; [|exact Hd]. apply Permutation_app_head. apply (Permutation_app_inv_l (tag n x R)). rewrite <- P1. exact P3.
    - destruct (thr_at _ _ _ _ (i_len _ _ _ H) Et) as (R & ER). destruct (i_thr _ _ _ H _ _ _ _ _ Et ER) as [Cn En (o & Sf & Wf & IO)].
      destruct (at_thread _ _ _ _ _ _ _ _ H Et ER) as (rest & P1 & P2).
      destruct (add_step v0 lim0 _ (borrow x o) (post B x o) (okind x o) n x (obj_items (c_objs cf) ++ rest) R l k tr (c_view cf) (c_lim cf) Sf Wf) as (R' & Sf' & Wf' & Hd).
      { eapply held_perm; [exact P1|exact (i_held _ _ _ H)]. }
      exists (setr t R' Rs). cbn [add_lab c_view]. eapply (inv_inside tr); try eassumption; try reflexivity; [apply (i_now _ _ _ H)|eauto|].
      intros rest' P3. eapply held_perm; [|exact Hd]. apply Permutation_app_head. apply (Permutation_app_inv_l (tag n x R)). rewrite <- P1. exact P3.
    - eexists. apply (inv_end tr cf Rs t n x o q H Et).
  Qed.
  Theorem inv_runs tr cf : cruns v0 lim0 m0 tr cf -> exists Rs, inv tr cf Rs.
  Proof.
    induction 1 as [|tr cf t l cf' R (Rs & IH) St]; [eexists; apply inv_start|]. eapply inv_step; eassumption.
  Qed.
End Inv.
