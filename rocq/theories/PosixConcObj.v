(** PosixConcObj.v -- which object a running call works on, along all executions of
    PosixConc.v. *)
From Coq Require Import List Arith NArith ZArith Lia Bool Permutation.
From Verif Require Import Outcome Status MemEnv PosixOs PosixWritable PosixWritableSpec PosixWritableProofs PosixRead PosixEnv PosixFs PosixEnvSpec PosixConc PosixConcSpec PosixConcSafe PosixConcHeld PosixConcInv PosixConcProofs PosixConcTrace PosixConcFacts PosixConcReads PosixConcWriteSpec PosixConcWr PosixConcWrites.
Import ListNotations.

(** Every result a program can have. *)
Fixpoint leaves {A} (Q : A -> Prop) (p : prog A) : Prop :=
  match p with
  | PDone a => Q a
  | PBad _ => True
  | PSys _ k => forall a, leaves Q (k a)
  | PSub _ k => forall z, leaves Q (k z)
  | PAdd _ k => leaves Q k
  end.
Lemma leaves_path {A} (Q : A -> Prop) p l q : path p l q -> leaves Q p -> leaves Q q.
Proof. induction 1; cbn [leaves]; auto. Qed.
Lemma leaves_impl {A} (Q Q' : A -> Prop) p : (forall a, Q a -> Q' a) -> leaves Q p -> leaves Q' p.
Proof. intros H. induction p; cbn [leaves]; auto. Qed.
Lemma leaves_bind {A C} (Q : C -> Prop) (f : A -> prog C) p : leaves (fun a => leaves Q (f a)) p -> leaves Q (pbind p f).
Proof. induction p; cbn [leaves pbind]; auto. Qed.
Lemma leaves_any {A} (p : prog A) : leaves (fun _ => True) p.
Proof. induction p; cbn [leaves]; auto. Qed.

Section Obj.
  Variable dbg : bool.
  Variable B : nat.
  Variable strerror : Z -> str.

  (** What never changes in a WritableFile is what its name says. *)
  Definition fine (o : pobj) : Prop :=
    match o with
    | ObW f => IsManifest dbg (f_name f) = Ret (f_manifest f) /\ Dirname dbg (f_name f) = Ret (f_dir f)
    | _ => True
    end.
  Definition like (f f' : wfile) : Prop := f_name f' = f_name f /\ f_manifest f' = f_manifest f /\ f_dir f' = f_dir f.
  Lemma fine_like f f' : fine (ObW f) -> like f f' -> fine (ObW f').
  Proof. intros (F1 & F2) (E1 & E2 & E3). cbn [fine]. rewrite E1, E2, E3. split; assumption. Qed.
  Lemma like_flush fuel f : leaves (fun r => like f (fst r)) (pflush_buffer strerror fuel f).
  Proof. unfold pflush_buffer. apply leaves_bind. eapply leaves_impl; [|apply leaves_any]. intros d _. apply leaves_bind. eapply leaves_impl; [|apply leaves_any]. intros st _. cbn. repeat split. Qed.
  Lemma like_append fuel f d : leaves (fun r => like f (fst r)) (pappend B strerror fuel f d).
  Proof.
    unfold pappend. destruct (B <? f_pos f); [exact Logic.I|]. apply leaves_bind. eapply leaves_impl; [|apply leaves_any]. intros buf _.
    destruct (skipn _ d) as [|b rest]; [cbn; repeat split|]. apply leaves_bind. eapply leaves_impl; [|apply like_flush]. intros [f1 st] (L1 & L2 & L3). cbn [fst set_buf f_name f_manifest f_dir] in *.
    destruct st; [|cbn; repeat split; assumption]. destruct (length (b :: rest) <? B).
    - apply leaves_bind. eapply leaves_impl; [|apply leaves_any]. intros buf2 _. cbn. repeat split; assumption.
    - apply leaves_bind. eapply leaves_impl; [|apply leaves_any]. intros st _. cbn. repeat split; assumption.
  Qed.
  Lemma like_close fuel f : leaves (fun r => like f (fst r)) (pclose strerror fuel f).
  Proof.
    unfold pclose. apply leaves_bind. eapply leaves_impl; [|apply like_flush]. intros [f1 st] L. apply leaves_bind. eapply leaves_impl; [|apply leaves_any]. intros a _. exact L.
  Qed.
  Lemma like_sync fuel f : leaves (fun r => like f (fst r)) (psync strerror fuel f).
  Proof.
    unfold psync. apply leaves_bind. eapply leaves_impl; [|apply leaves_any]. intros st _. destruct st; [|cbn; repeat split]. apply leaves_bind. eapply leaves_impl; [|apply like_flush]. intros [f1 st] L.
    destruct st; [|exact L]. apply leaves_bind. eapply leaves_impl; [|apply leaves_any]. intros st _. exact L.
  Qed.
  Definition res_fine (r : option pobj * presult) : Prop := forall o, fst r = Some o -> fine o.
  Lemma fine_pw p f : fine (ObW f) -> leaves (fun r : wfile * status => like f (fst r)) p -> leaves res_fine (pw p).
  Proof. intros F H. unfold pw. apply leaves_bind. eapply leaves_impl; [|exact H]. intros [f' st] L o E. cbn [fst] in E. injection E as <-. exact (fine_like _ _ F L). Qed.
  Lemma fine_new name fl : leaves res_fine (pnew_writable dbg B strerror name fl).
  Proof.
    unfold pnew_writable. apply leaves_bind. eapply leaves_impl; [|apply leaves_any]. intros a _. destruct (a_ret a <? 0)%Z; [intros o E; discriminate E|].
    unfold new_wfile. destruct (IsManifest dbg name) as [b| | |] eqn:E1; cbn [bind plift pbind]; try exact Logic.I. destruct (Dirname dbg name) as [d| | |] eqn:E2; cbn [bind plift pbind]; try exact Logic.I.
    intros o E. injection E as <-. cbn [fine f_name f_manifest f_dir]. auto.
  Qed.
  Lemma fine_random name : leaves res_fine (pnew_random strerror name).
  Proof.
    eapply leaves_impl with (Q := fun r => match fst r with Some (ObW _) => False | _ => True end); [intros r H o E; destruct o; [|exact Logic.I..]; rewrite E in H; contradiction|].
    unfold pnew_random. apply leaves_bind. eapply leaves_impl; [|apply leaves_any]. intros a _. cbn zeta. destruct (a_ret a <? 0)%Z; [exact Logic.I|]. apply leaves_bind. eapply leaves_impl; [|apply leaves_any]. intros got _.
    destruct (negb got).
    - apply leaves_bind. eapply leaves_impl; [|apply leaves_any]. intros f _. exact Logic.I.
    - apply leaves_bind. eapply leaves_impl; [|apply leaves_any]. intros [size st] _. apply leaves_bind.
      eapply leaves_impl with (Q := fun r => match fst r with Some (ObW _) => False | _ => True end).
      + intros [res st1] X. apply leaves_bind. eapply leaves_impl; [|apply leaves_any]. intros a1 _. destruct st1; exact X.
      + destruct st; [|exact Logic.I]. apply leaves_bind. eapply leaves_impl; [|apply leaves_any]. intros m _. destruct (negb (a_ret m =? -1)%Z); exact Logic.I.
  Qed.
  Lemma fine_prog fuel x o : (forall ob, o = Some ob -> fine ob) -> leaves res_fine (prog_of dbg B strerror fuel x o).
  Proof.
    intros F.
    assert (N : forall A (p : prog A) (q : A -> presult), leaves res_fine (pbind p (fun a => PDone (None, q a)))).
    { intros A p q. apply leaves_bind. eapply leaves_impl; [|apply leaves_any]. intros a _ ob E. discriminate E. }
    assert (N2 : forall A C (p : prog (A * C)) (q : A -> C -> presult), leaves res_fine (pbind p (fun ac => let (a, c) := ac in PDone (None, q a c)))).
    { intros A C p q. apply leaves_bind. eapply leaves_impl; [|apply leaves_any]. intros [a c] _ ob E. discriminate E. }
    assert (K2 : forall A C (p : prog (A * C)) (q : A -> C -> presult) ob, fine ob -> leaves res_fine (pbind p (fun ac => let (a, c) := ac in PDone (Some ob, q a c)))).
    { intros A C p q ob Fo. apply leaves_bind. eapply leaves_impl; [|apply leaves_any]. intros [a c] _ ob' E. injection E as <-. exact Fo. }
    assert (K : forall A (p : prog A) (q : A -> presult) ob, fine ob -> leaves res_fine (pbind p (fun a => PDone (Some ob, q a)))).
    { intros A p q ob Fo. apply leaves_bind. eapply leaves_impl; [|apply leaves_any]. intros a _ ob' E. injection E as <-. exact Fo. }
    destruct x; cbn [prog_of]; try apply N; try apply N2; try apply fine_new; try apply fine_random.
    - unfold pnew_sequential. apply leaves_bind. eapply leaves_impl; [|apply leaves_any]. intros a _. destruct (a_ret a <? 0)%Z; intros ob E; [discriminate E|]. injection E as <-. exact Logic.I.
    - destruct o as [[f|f|f]|]; cbn [prog_of]; try exact Logic.I. apply K2. exact Logic.I.
    - destruct o as [[f|f|f]|]; cbn [prog_of]; try exact Logic.I. apply K. exact Logic.I.
    - destruct o as [[f|f|f]|]; cbn [prog_of]; try exact Logic.I. apply K2. exact Logic.I.
    - destruct o as [[f|f|f]|]; cbn [prog_of]; try exact Logic.I. apply fine_pw with (f := f); [exact (F _ eq_refl)|apply like_append].
    - destruct o as [[f|f|f]|]; cbn [prog_of]; try exact Logic.I. apply fine_pw with (f := f); [exact (F _ eq_refl)|apply like_close].
    - destruct o as [[f|f|f]|]; cbn [prog_of]; try exact Logic.I. apply fine_pw with (f := f); [exact (F _ eq_refl)|apply like_flush].
    - destruct o as [[f|f|f]|]; cbn [prog_of]; try exact Logic.I. apply fine_pw with (f := f); [exact (F _ eq_refl)|apply like_sync].
    - destruct o as [[f|f|f]|]; cbn [prog_of]; try exact Logic.I; apply N.
  Qed.

  Variables (v0 : view) (lim0 : limits) (m0 : nat).
  Hypothesis S0 : forall fd, v_fd v0 fd <> None -> (0 <= fd)%Z.
  Notation cstep := (cstep dbg B strerror).
  Notation cruns := (cruns dbg B strerror v0 lim0 m0).
  Notation inv := (inv B v0 lim0).
  Notation inv_runs := (inv_runs dbg B strerror v0 lim0 m0 S0).

  Definition made_as (tr : trace) (h : nat) (ob : pobj) : Prop := exists y, call_no tr h = Some y /\ opens y = Some (kind_of ob, oname ob).
  Lemma made_as_cons l v tr h ob : (forall x, l = Beg h x -> False) -> made_as tr h ob -> made_as ((l, v) :: tr) h ob.
  Proof. intros N (y & C & O). exists y. split; [|exact O]. cbn [call_no]. destruct l as [n x|n c a|n r]; auto. destruct (Nat.eqb_spec n h) as [->|]; [exfalso; eapply N; reflexivity|exact C]. Qed.
  (** The object call [n] on [h] works on, as it was when the call began. *)
  Definition works (tr : trace) (n h : nat) (x : pcall) (p : prog (option pobj * presult)) : Prop :=
    exists fuel ob, path (prog_of dbg B strerror fuel x (Some ob)) (acts tr n) p /\ fine ob /\ made_as tr h ob /\ fits x ob.
  Record oinv (tr : trace) (cf : conf) : Prop := mk_oinv {
    o_objs : forall h ob, In (h, ob) (c_objs cf) -> fine ob;
    o_thr : forall t n x p, nth_error (c_thr cf) t = Some (TIn n x p) -> leaves res_fine p;
    o_on : forall t n x p h, nth_error (c_thr cf) t = Some (TIn n x p) -> on x = Some h -> works tr n h x p
  }.
  Lemma works_cons e tr n h x p : (forall c a v, e = (Act n c a, v) -> False) -> (forall y v, e = (Beg h y, v) -> False) -> works tr n h x p -> works (e :: tr) n h x p.
  Proof.
    destruct e as [l v]. intros N1 N2 (fuel & ob & P & F & M & Fi). exists fuel, ob. split; [|split; [exact F|]; split; [|exact Fi]].
    - cbn [acts]. destruct l as [m y|m c a|m r]; auto. destruct (Nat.eqb_spec m n) as [->|]; [exfalso; eapply N1; reflexivity|exact P].
    - apply made_as_cons; [|exact M]. intros y ->. eapply N2. reflexivity.
  Qed.
  Lemma oinv_runs tr cf : cruns tr cf -> oinv tr cf.
  Proof.
    induction 1 as [|tr cf t o cf' R IH St].
    { constructor; cbn [c_objs c_thr]; [intros h ob []|intros t n x p E|intros t n x p h E]; try (apply nth_error_In, repeat_spec in E; discriminate). }
    destruct (inv_runs _ _ R) as (Rs & H). destruct IH as [O1 O2 O3].
    destruct St as [x fuel Et M|n x c k a v' Et K|n x l k Et|n x l k Et|n x o q Et]; cbn [add_lab c_view].
    - destruct (fresh B v0 lim0 _ _ _ H) as (Fc & _). constructor; cbn [c_objs c_thr].
      + intros h ob I0. apply (O1 h). unfold taken in I0. destruct (on x) as [h'|]; [|exact I0]. destruct (shared x); [exact I0|]. apply odel_in in I0. tauto.
      + intros u n' x' p E. rewrite set_thr_setr in E. destruct (Nat.eq_dec t u) as [<-|N].
        * rewrite (setr_same _ _ _ _ Et) in E. injection E as <- <- <-. apply fine_prog. intros ob Eo. unfold object in Eo. destruct (on x) as [h|]; [|discriminate]. apply (O1 h). apply oget_in. exact Eo.
        * rewrite setr_other in E by exact N. exact (O2 _ _ _ _ E).
      + intros u n' x' p h E Ox. rewrite set_thr_setr in E. destruct (Nat.eq_dec t u) as [<-|N].
        * rewrite (setr_same _ _ _ _ Et) in E. injection E as <- <- <-. unfold may_begin in M. rewrite Ox in M. destruct M as ((ob & M1 & M2) & _).
          pose proof (oget_in _ _ _ M1) as I0. destruct (i_objs _ _ _ _ _ _ H _ _ I0) as (_ & ((y & A1 & A2 & _) & _)).
          exists fuel, ob. unfold object. rewrite Ox, M1. cbn [acts]. rewrite (acts_new dbg B strerror v0 lim0 m0 S0 _ _ R). split; [constructor|]. split; [exact (O1 _ _ I0)|]. split; [|exact M2].
          apply made_as_cons; [|exists y; auto]. intros z Ez. injection Ez as Ez _. congruence.
        * rewrite setr_other in E by exact N. apply works_cons; [discriminate| |exact (O3 _ _ _ _ _ E Ox)]. intros y v Ez. injection Ez as Ez _ _.
          destruct (running _ _ _ _ _ _ _ _ _ _ H E) as (_ & Cn). apply (i_on _ _ _ _ _ _ H _ _ _ Cn Ox). destruct (fresh B v0 lim0 _ _ _ H) as (_ & Fe). congruence.
    - constructor; cbn [c_objs c_thr]; auto.
      + intros u n' x' p E. rewrite set_thr_setr in E. destruct (Nat.eq_dec t u) as [<-|N].
        * rewrite (setr_same _ _ _ _ Et) in E. injection E as <- <- <-. exact (O2 _ _ _ _ Et a).
        * rewrite setr_other in E by exact N. exact (O2 _ _ _ _ E).
      + intros u n' x' p h E Ox. rewrite set_thr_setr in E. destruct (Nat.eq_dec t u) as [<-|N].
        * rewrite (setr_same _ _ _ _ Et) in E. injection E as <- <- <-. destruct (O3 _ _ _ _ _ Et Ox) as (fuel & ob & P & F & Mk & Fi). exists fuel, ob. split; [|split; [exact F|]; split; [|exact Fi]].
          -- cbn [acts]. rewrite Nat.eqb_refl. apply path_sys. exact P.
          -- apply made_as_cons; [discriminate|exact Mk].
        * rewrite setr_other in E by exact N. apply works_cons; [|discriminate|exact (O3 _ _ _ _ _ E Ox)]. intros c1 a1 v1 Ez. injection Ez as -> _ _ _. apply N. eapply (i_uniq _ _ _ _ _ _ H); eassumption.
    - constructor; cbn [c_objs c_thr]; auto.
      + intros u n' x' p E. rewrite set_thr_setr in E. destruct (Nat.eq_dec t u) as [<-|N].
        * rewrite (setr_same _ _ _ _ Et) in E. injection E as <- <- <-. exact (O2 _ _ _ _ Et _).
        * rewrite setr_other in E by exact N. exact (O2 _ _ _ _ E).
      + intros u n' x' p h E Ox. rewrite set_thr_setr in E. destruct (Nat.eq_dec t u) as [<-|N].
        * rewrite (setr_same _ _ _ _ Et) in E. injection E as <- <- <-. destruct (O3 _ _ _ _ _ Et Ox) as (fuel & ob & P & X). exists fuel, ob. split; [|exact X]. eapply path_sub. exact P.
        * rewrite setr_other in E by exact N. exact (O3 _ _ _ _ _ E Ox).
    - constructor; cbn [c_objs c_thr]; auto.
      + intros u n' x' p E. rewrite set_thr_setr in E. destruct (Nat.eq_dec t u) as [<-|N].
        * rewrite (setr_same _ _ _ _ Et) in E. injection E as <- <- <-. exact (O2 _ _ _ _ Et).
        * rewrite setr_other in E by exact N. exact (O2 _ _ _ _ E).
      + intros u n' x' p h E Ox. rewrite set_thr_setr in E. destruct (Nat.eq_dec t u) as [<-|N].
        * rewrite (setr_same _ _ _ _ Et) in E. injection E as <- <- <-. destruct (O3 _ _ _ _ _ Et Ox) as (fuel & ob & P & X). exists fuel, ob. split; [|exact X]. eapply path_add. exact P.
        * rewrite setr_other in E by exact N. exact (O3 _ _ _ _ _ E Ox).
    - constructor; cbn [c_objs c_thr].
      + intros h ob I0. unfold given in I0. destruct (shared x); [exact (O1 _ _ I0)|]. destruct o as [ob'|]; [|exact (O1 _ _ I0)]. destruct I0 as [I0|I0]; [|exact (O1 _ _ I0)]. injection I0 as _ <-. exact (O2 _ _ _ _ Et _ eq_refl).
      + intros u n' x' p E. rewrite set_thr_setr in E. destruct (Nat.eq_dec t u) as [<-|N]; [rewrite (setr_same _ _ _ _ Et) in E; discriminate|]. rewrite setr_other in E by exact N. exact (O2 _ _ _ _ E).
      + intros u n' x' p h E Ox. rewrite set_thr_setr in E. destruct (Nat.eq_dec t u) as [<-|N]; [rewrite (setr_same _ _ _ _ Et) in E; discriminate|]. rewrite setr_other in E by exact N.
        apply works_cons; [discriminate|discriminate|exact (O3 _ _ _ _ _ E Ox)].
  Qed.
  Lemma acts_nth tr n l c a r : acts tr n = l ++ (c, a) :: r -> exists later v earlier, tr = later ++ (Act n c a, v) :: earlier /\ acts earlier n = l.
  Proof.
    revert r. induction tr as [|[lb v] tr IH]; intros r; cbn [acts]; [destruct l; discriminate|].
    assert (X : forall r', acts tr n = l ++ (c, a) :: r' -> exists later v' earlier, (lb, v) :: tr = later ++ (Act n c a, v') :: earlier /\ acts earlier n = l).
    { intros r' E. destruct (IH _ E) as (l1 & v1 & l2 & -> & Y). exists ((lb, v) :: l1), v1, l2. auto. }
    destruct lb as [m x|m c' a'|m r']; try apply X. destruct (Nat.eqb_spec m n) as [->|]; [|apply X].
    intros E. destruct r as [|e r _] using rev_ind.
    - apply app_inj_tail in E. destruct E as (E1 & E2). injection E2 as -> ->. exists [], v, tr. auto.
    - change (l ++ (c, a) :: r ++ [e]) with (l ++ ((c, a) :: r) ++ [e]) in E. rewrite app_assoc in E. apply app_inj_tail in E. destruct E as (E1 & _). exact (X _ E1).
  Qed.
  Lemma runs_prefix l : forall l1 cf, cruns (l ++ l1) cf -> exists cf1, cruns l1 cf1.
  Proof. induction l as [|e l IH]; intros l1 cf R; [eauto|]. cbn [app] in R. destruct (runs_split dbg B strerror v0 lim0 m0 [] _ _ _ R) as (cf2 & _ & _ & R2 & _). eauto. Qed.
  Lemma owner_called tr cf fd n : cruns tr cf -> owner tr fd = Some n -> exists z, call_no tr n = Some z.
  Proof.
    intros R O. destruct (fd_held dbg B strerror v0 lim0 m0 S0 _ _ fd R) as [(_ & X)|(m & X & _ & _ & _ & Z)]; [congruence|]. assert (m = n) by congruence. subst m.
    destruct Z as [(Z & _)|(k & f & ((z & Z & _) & _))]; [destruct (call_no tr n); [eauto|congruence]|eauto].
  Qed.
  (** A descriptor that a running call opened and has not closed is still its own. *)
  Lemma still_own n fd : forall l2 l1 cf, cruns (l2 ++ l1) cf -> acts (l2 ++ l1) n = acts l1 n -> in_progress (l2 ++ l1) n -> owner l1 fd = Some n -> owner (l2 ++ l1) fd = Some n.
  Proof.
    induction l2 as [|[lb v] l2 IH]; intros l1 cf R Ea Ip O; [exact O|]. cbn [app] in *. destruct (runs_split dbg B strerror v0 lim0 m0 [] _ _ _ R) as (cf0 & t & cf1 & R0 & St & Ev & _). cbn [fst snd] in St, Ev.
    destruct (inv_runs _ _ R0) as (Rs & H). inversion St; subst; cbn [c_view].
    - cbn [acts owner] in *. assert (Ip0 : in_progress (l2 ++ l1) n).
      { destruct Ip as (I1 & I2). cbn [call_no ended] in *. split; [|exact I2]. destruct (Nat.eqb_spec (c_next cf0) n) as [<-|]; [|exact I1]. exfalso.
        destruct (runs_prefix _ _ _ R0) as (cf2 & R2). destruct (owner_called _ _ _ _ R2 O) as (z & Ez). destruct (fresh B v0 lim0 _ _ _ H) as (Fc & _).
        pose proof (call_later dbg B strerror v0 lim0 m0 S0 l2 l1 cf0 _ _ R0 Ez). congruence. }
      exact (IH l1 cf0 R0 Ea Ip0 O).
    - assert (Ip0 : in_progress (l2 ++ l1) n) by exact Ip.
      match goal with E : nth_error (c_thr cf0) t = Some (TIn ?m ?y (PSys ?c ?k)) |- _ => rename m into n'; rename y into x'; pose proof E as Et end.
      cbn [acts] in Ea. destruct (Nat.eqb_spec n' n) as [->|Nn].
      + exfalso. assert (X : exists l, acts (l2 ++ l1) n = acts l1 n ++ l). { clear. induction l2 as [|[lb v] l2 IH]; [exists []; now rewrite app_nil_r|]. cbn [app acts]. destruct IH as (l & IH). destruct lb as [m y|m c0 a0|m r]; eauto. destruct (m =? n); eauto. rewrite IH. eexists. rewrite <- app_assoc. reflexivity. }
        destruct X as (l & X). rewrite X in Ea. rewrite <- app_assoc in Ea. apply (f_equal (@length _)) in Ea. rewrite !app_length in Ea. cbn [length] in Ea. lia.
      + specialize (IH l1 cf0 R0 Ea Ip0 O). eapply (kept_owner dbg B strerror v0 lim0 m0 S0 n); [exact R0|exact H|exact Et|eassumption|exact Nn| |exact IH].
        intros Ox. destruct (running _ _ _ _ _ _ _ _ _ _ H Et) as (_ & Cn). apply (i_on _ _ _ _ _ _ H _ _ _ Cn Ox). apply Ip0.
    - cbn [acts owner] in *. apply (IH l1 cf0 R0 Ea); [|exact O]. destruct Ip as (I1 & I2). split; [exact I1|]. cbn [ended] in I2. match type of I2 with (if ?b then _ else _) = _ => destruct b end; [discriminate|exact I2].
  Qed.
End Obj.
