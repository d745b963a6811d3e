(** PosixConcPub.v -- proofs about publishing a file. *)
From Coq Require Import List Arith NArith ZArith Lia Bool Permutation.
From Verif Require Import Outcome Status MemEnv PosixOs PosixWritable PosixWritableSpec PosixWritableProofs PosixRead PosixEnv PosixFs PosixEnvSpec EnvUtil PosixIoSpec PosixConc PosixConcSpec PosixConcSafe PosixConcHeld PosixConcInv PosixConcProofs PosixConcTrace PosixConcFacts PosixConcReads PosixConcWriteSpec PosixConcWr PosixConcWrites PosixConcFiles PosixConcSaved PosixConcObj PosixConcStreamSpec PosixConcStream PosixConcDir PosixConcCrashSpec PosixConcCrash PosixConcProps PosixConcWriteProps PosixConcCrashProps PosixConcPubSpec PosixConcNames.
Import ListNotations.

Section Pub.
  Variable dbg : bool.
  Variable B : nat.
  Variable strerror : Z -> str.
  Variables (v0 : view) (lim0 : limits) (m0 : nat).
  Hypothesis S0 : forall fd, v_fd v0 fd <> None -> (0 <= fd)%Z.
  Hypothesis N0 : forall p i, v_name v0 p = Some i -> i < v_next v0.
  Hypothesis D0 : forall i, begins (v_data v0 i) (v_safe v0 i).
  Hypothesis I0 : distinct v0.
  Notation cruns := (cruns dbg B strerror v0 lim0 m0).
  Notation back := (back dbg B strerror v0 lim0 m0 S0).
  Notation act_step := (act_step dbg B strerror v0 lim0 m0 S0).
  Notation inv_runs := (inv_runs dbg B strerror v0 lim0 m0 S0).
  Notation did_runs := (did_runs dbg B strerror v0 lim0 m0 S0).
  Notation call_later := (call_later dbg B strerror v0 lim0 m0 S0).
  Notation names_ok := (names_ok dbg B strerror v0 lim0 m0 S0 N0).
  Notation runs_prefix := (runs_prefix dbg B strerror v0 lim0 m0).

  Variables (tr : trace) (cf : conf) (h r : nat) (tmp f : str) (D : list N) (j : nat).
  Hypothesis R : cruns tr cf.
  Hypothesis Pub : publishing tr h r tmp f D.
  Hypothesis tf : tmp <> f.
  Hypothesis Fj : v_name v0 f = Some j.

  (** the open() of call [h] is in [t] and got file [i] *)
  Definition new (t : trace) (i : nat) : Prop :=
    exists l2 a w l1, t = l2 ++ (Act h (COpen tmp WrTrunc) a, w) :: l1 /\ (0 <= a_ret a)%Z /\ v_name w tmp = Some i.
  Lemma new_more l t i : new t i -> new (l ++ t) i.
  Proof. intros (l2 & a & w & l1 & -> & X). exists (l ++ l2), a, w, l1. rewrite app_assoc. auto. Qed.
  Lemma new_less e t i : new (e :: t) i -> (forall a w, e <> (Act h (COpen tmp WrTrunc) a, w)) -> new t i.
  Proof. intros (l2 & a & w & l1 & E & X) N. destruct l2 as [|e' l2]; cbn [app] in E; [elim (N a w); congruence|]. exists l2, a, w, l1. split; [congruence|exact X]. Qed.
  Lemma runs_at l t : tr = l ++ t -> exists cf1, cruns t cf1.
  Proof. intros E. pose proof R as R'. rewrite E in R'. exact (runs_prefix _ _ _ R'). Qed.
  Lemma call_at l t n x : tr = l ++ t -> call_no t n = Some x -> call_no tr n = Some x.
  Proof. intros E C. pose proof R as R'. rewrite E in R' |- *. exact (call_later _ _ _ _ _ R' C). Qed.
  Lemma new_call l t i : tr = l ++ t -> new t i -> call_no t h = Some (PNewWrite tmp).
  Proof.
    intros E (l2 & a & w & l1 & E1 & _). destruct (runs_at _ _ E) as (cf1 & R1). rewrite E1 in R1. destruct (act_names dbg B strerror v0 lim0 m0 S0 _ _ _ _ _ _ _ tmp R1) as (x & Cx & Tx); [split; [discriminate|reflexivity]|].
    rewrite E1. change ((Act h (COpen tmp WrTrunc) a, w) :: l1) with ([(Act h (COpen tmp WrTrunc) a, w)] ++ l1) in *. rewrite app_assoc in *. pose proof (call_later _ _ _ _ _ R1 Cx) as Cx'. rewrite <- E1 in Cx'.
    destruct (proj1 Pub h x (call_at _ _ _ _ E Cx') (or_introl Tx)) as [(_ & ->)|(_ & ->)]; [rewrite <- E1; exact Cx'|].
    exfalso. rewrite <- app_assoc in R1. cbn [app] in R1. destruct (act_step _ _ _ _ _ _ _ R1) as (cf0 & t0 & y & k & R0 & Et & _). destruct (inv_runs _ _ R0) as (Rs & H). destruct (running _ _ _ _ _ _ _ _ _ _ H Et) as (_ & Cn).
    assert (y = PRename tmp f) by congruence. subst y. destruct (did_runs _ _ R0 _ _ _ _ Et) as (fuel & o & P & _ & _). apply rename_next in P. destruct P as (_ & P). discriminate.
  Qed.

  (** The system calls that can change the two names. *)
  Lemma who_acts l n c a v t : tr = l ++ (Act n c a, v) :: t -> names c tmp \/ names c f ->
    n = h /\ call_no t h = Some (PNewWrite tmp) /\ c = COpen tmp WrTrunc /\ acts t h = [] \/
    n = r /\ call_no t r = Some (PRename tmp f) /\ c = CRename tmp f /\ acts t r = [].
  Proof.
    intros E N. pose proof R as R'. rewrite E in R'.
    assert (X : exists x, call_no t n = Some x /\ (touches x tmp \/ touches x f)) by (destruct N as [N|N]; destruct (act_names dbg B strerror v0 lim0 m0 S0 _ _ _ _ _ _ _ _ R' N) as (x & Cx & Tx); eauto).
    destruct X as (x & Cx & Tx). assert (Ct : call_no tr n = Some x) by (apply (call_at (l ++ [(Act n c a, v)]) t); [rewrite <- app_assoc; exact E|exact Cx]).
    destruct (act_step _ _ _ _ _ _ _ R') as (cf0 & t0 & y & k & R0 & Et & _). destruct (inv_runs _ _ R0) as (Rs & H). destruct (running _ _ _ _ _ _ _ _ _ _ H Et) as (_ & Cn). assert (y = x) by congruence. subst y.
    destruct (did_runs _ _ R0 _ _ _ _ Et) as (fuel & o & P & On & _).
    destruct (proj1 Pub _ _ Ct Tx) as [(-> & ->)|(-> & ->)]; [left|right].
    - destruct (makes dbg B strerror v0 lim0 m0 S0 h (PNewWrite tmp) eq_refl _ _ _ _ _ _ R' Cx) as (A & _). rewrite A in P. cbn [prog_of pnew_writable psys pbind] in P. apply path_psys in P.
      destruct P as [(_ & P)|(b & l' & P & _)]; [|discriminate]. injection P as -> _. auto.
    - apply rename_next in P. destruct P as (P & ->). auto.
  Qed.
  Lemma new_one l t i i' : tr = l ++ t -> new t i -> new t i' -> i = i'.
  Proof.
    intros E N (l2 & a & w & l1 & E1 & La & Nm). pose proof (new_call _ _ _ E N) as C. destruct N as (l2' & a' & w' & l1' & E2 & _ & Nm'). destruct (runs_at _ _ E) as (cf1 & R1).
    assert (Ca : forall k q e, t = k ++ e :: q -> (exists a w, e = (Act h (COpen tmp WrTrunc) a, w)) -> call_no q h = Some (PNewWrite tmp)).
    { intros k q e Et (b & u & ->). rewrite Et in R1, C. destruct (act_in_progress dbg B strerror v0 lim0 m0 S0 _ _ _ _ _ _ _ R1) as (X & _). destruct (call_no q h) as [y|] eqn:Ey; [|congruence].
      change ((Act h (COpen tmp WrTrunc) b, u) :: q) with ([(Act h (COpen tmp WrTrunc) b, u)] ++ q) in *. rewrite app_assoc in *. pose proof (call_later _ _ _ _ _ R1 Ey). congruence. }
    assert (E3 := E2). rewrite E1 in E3. destruct (split_unique _ _ _ _ _ _ E3) as [(_ & X & _)|[(q & _ & X)|(q & _ & X)]]; [congruence| |]; exfalso.
    - rewrite E2 in R1. rewrite X in R1. eapply (one_act dbg B strerror v0 lim0 m0 S0 h (PNewWrite tmp) eq_refl); [exact R1|]. eapply Ca; [exact E1|eauto].
    - rewrite E1 in R1. rewrite X in R1. eapply (one_act dbg B strerror v0 lim0 m0 S0 h (PNewWrite tmp) eq_refl); [exact R1|]. eapply Ca; [exact E2|eauto].
  Qed.
  Lemma acts_old l t i : tr = l ++ t -> new t i -> acts t h <> [].
  Proof. intros E (l2 & a & w & l1 & -> & _) X. pose proof (act_acts l2 h (COpen tmp WrTrunc) a w l1) as Y. rewrite X in Y. exact Y. Qed.

  Lemma beg_split t n x : call_no t n = Some x -> exists l1 w l2, t = l1 ++ (Beg n x, w) :: l2.
  Proof.
    clear. intros C. induction t as [|[lb v] t IH]; [discriminate|]. cbn [call_no] in C. destruct lb as [k y|k c a|k y]; try (destruct (IH C) as (l1 & w & l2 & ->); exists ((Act k c a, v) :: l1), w, l2; reflexivity);
      try (destruct (IH C) as (l1 & w & l2 & ->); exists ((End k y, v) :: l1), w, l2; reflexivity).
    destruct (Nat.eqb_spec k n) as [->|]; [injection C as ->; exists [], v, t; reflexivity|]. destruct (IH C) as (l1 & w & l2 & ->). exists ((Beg k y, v) :: l1), w, l2. reflexivity.
  Qed.
  (** When RenameFile has begun: the moments before. *)
  Lemma rename_begun l t : tr = l ++ t -> call_no t r = Some (PRename tmp f) ->
    exists l1 w k1 n v k2, t = l1 ++ (Beg r (PRename tmp f), w) :: k1 ++ (End n (RStat SOk), v) :: k2 /\
      call_no k2 h = Some (PNewWrite tmp) /\ call_no k2 n = Some (PWSync h) /\ all_ok ((End n (RStat SOk), v) :: k2) h /\ handed k2 h = D /\ handed tr h = D /\
      call_no (k1 ++ (End n (RStat SOk), v) :: k2) r = None /\ exists i, new k2 i.
  Proof.
    intros E C. destruct (beg_split _ _ _ C) as (l1 & w & l2 & Et). destruct (proj2 Pub (l ++ l1) w l2) as (k1 & n & v & k2 & E2 & Ch & Er & Cn & Ok & H1 & H2); [rewrite <- app_assoc, <- Et; exact E|].
    exists l1, w, k1, n, v, k2. rewrite <- E2. repeat (split; [solve [auto]|]). split.
    - destruct (runs_at _ _ E) as (cft & Rt). rewrite Et in Rt. destruct (runs_split dbg B strerror v0 lim0 m0 _ _ _ _ Rt) as (cfe & tb & cf1 & Re & Stb & _). destruct (call_no l2 r) as [y|] eqn:Ey; [exfalso|reflexivity].
      cbn [fst] in Stb. inversion Stb; subst. destruct (inv_runs _ _ Re) as (Rs & H). assert (c_next cfe < c_next cfe) by (apply (i_next _ _ _ _ _ _ H); congruence). lia.
    - assert (Ek : exists q, tr = q ++ k2) by (exists (l ++ l1 ++ (Beg r (PRename tmp f), w) :: k1 ++ [(End n (RStat SOk), v)]); rewrite E, Et, E2; rewrite <- !app_assoc; cbn [app]; rewrite <- !app_assoc; reflexivity).
      destruct Ek as (q & Ek). destruct (runs_at _ _ Ek) as (cf2 & R2).
      destruct (C96_every_writer_has_an_opening dbg B strerror v0 lim0 m0 S0 k2 cf2 h _ tmp R2 Ch eq_refl Er) as (la & e & ea & i & Ee & fl & a & u & -> & Cu & Ou & La & Nm).
      exists i, la, a, u, ea. split; [|auto]. rewrite Ee in R2. destruct (makes dbg B strerror v0 lim0 m0 S0 h (PNewWrite tmp) eq_refl _ _ _ _ _ _ R2 Cu) as (_ & _ & _ & p' & fl' & E' & Fl). injection E' as <- <-.
      destruct (who_acts (q ++ la) h (COpen tmp fl) a u ea) as [(_ & _ & X & _)|(_ & _ & X & _)]; [rewrite <- app_assoc, <- Ee; exact Ek|left; split; [destruct Fl as [-> | ->]; discriminate|reflexivity]|injection X as ->; exact Ee|discriminate].
  Qed.

  (** ** The two names *)
  Lemma names_at t cf1 : cruns t cf1 -> forall p i, v_name (now v0 t) p = Some i -> i < v_next (now v0 t).
  Proof. apply names_ok. Qed.
  Lemma j_old l t : tr = l ++ t -> j < v_next (now v0 t).
  Proof. intros E. destruct (runs_at _ _ E) as (cf1 & R1). pose proof (next_mono dbg B strerror v0 lim0 m0 S0 t []) as X. rewrite app_nil_r in X. specialize (X _ R1). cbn [now] in X. specialize (N0 _ _ Fj). lia. Qed.
  Lemma k_only v c a v' k p : kstep v (c, a) v' -> k < v_next v -> (forall q, v_name v q = Some k -> q = p) -> (forall b, c <> CRename p b) -> forall q, v_name v' q = Some k -> q = p.
  Proof.
    intros K L H Nr q. inversion K; subst; cbn [v_name with_fd with_map with_dir with_name with_data create synced]; try (apply H); unfold upd; try (destruct (eqs q p0); [intros X; exfalso; congruence || (injection X; lia)|apply H]).
    destruct (eqs q p0); [discriminate|]. destruct (eqs q q0) as [->|]; [|apply H]. intros X. exfalso. assert (p0 = p) by (apply H; congruence). subst p0. exact (Nr _ eq_refl).
  Qed.
  Lemma only_f l t : tr = l ++ t -> forall q, v_name (now v0 t) q = Some j -> q = f.
  Proof.
    revert l. induction t as [|[lb v] t IH]; intros l E; [intros q X; exact (I0 _ _ _ X Fj)|]. assert (E' : tr = (l ++ [(lb, v)]) ++ t) by (rewrite <- app_assoc; exact E). specialize (IH _ E'). destruct (runs_at _ _ E) as (cf1 & R1). destruct (back _ _ _ _ R1) as (cf2 & R2 & K). cbn [now].
    destruct lb as [n x|n c a|n y]; try (rewrite K; exact IH). apply (k_only _ _ _ _ _ _ K (j_old _ _ E') IH). intros b ->.
    destruct (who_acts _ _ _ _ _ _ E) as [(_ & _ & X & _)|(_ & _ & X & _)]; [right; left; reflexivity|discriminate|]. injection X as X _. apply tf. symmetry. exact X.
  Qed.

  Lemma names_dec c p : names c p \/ ~ names c p.
  Proof.
    destruct c; cbn [names]; try (right; intros X; exact X); try (match goal with |- ?a = ?b \/ _ => destruct (eqs a b); auto end).
    - destruct (eqs path p) as [->|N]; [|right; intros (_ & X); exact (N X)]. destruct fl; try (left; split; [discriminate|reflexivity]). right. intros (X & _). exact (X eq_refl).
    - destruct (eqs from p); [auto|]. destruct (eqs to p); [auto|]. right. intros [X|X]; contradiction.
  Qed.
  Lemma phase l t : tr = l ++ t ->
    (forall i, ~ new t i) /\ v_name (now v0 t) tmp = v_name v0 tmp /\ v_name (now v0 t) f = Some j \/
    (exists i, new t i /\ v_name (now v0 t) tmp = Some i /\ v_name (now v0 t) f = Some j) \/
    (exists i, new t i /\ v_name (now v0 t) f = Some i /\ i <> j /\ call_no t r = Some (PRename tmp f) /\ acts t r <> [] /\ v_name (now v0 t) tmp = None).
  Proof.
    revert l. induction t as [|[lb v] t IH]; intros l E.
    - left. split; [intros i (l2 & a & w & l1 & X & _); destruct l2; discriminate|]. split; [reflexivity|exact Fj].
    - assert (E' : tr = (l ++ [(lb, v)]) ++ t) by (rewrite <- app_assoc; exact E). specialize (IH _ E'). destruct (runs_at _ _ E) as (cf1 & R1). destruct (back _ _ _ _ R1) as (cf2 & R2 & K). cbn [now].
      pose proof (fun n x => call_later [(lb, v)] t cf1 n x R1) as CL.
      assert (AM : acts t r <> [] -> acts ((lb, v) :: t) r <> []) by (change ((lb, v) :: t) with ([(lb, v)] ++ t); rewrite acts_more; intros X Y; apply app_eq_nil in Y; tauto).
      assert (Same : v_name v tmp = v_name (now v0 t) tmp -> v_name v f = v_name (now v0 t) f -> (forall a w, (lb, v) <> (Act h (COpen tmp WrTrunc) a, w) \/ (a_ret a < 0)%Z) ->
        (forall i, ~ new ((lb, v) :: t) i) /\ v_name v tmp = v_name v0 tmp /\ v_name v f = Some j \/
        (exists i, new ((lb, v) :: t) i /\ v_name v tmp = Some i /\ v_name v f = Some j) \/
        (exists i, new ((lb, v) :: t) i /\ v_name v f = Some i /\ i <> j /\ call_no ((lb, v) :: t) r = Some (PRename tmp f) /\ acts ((lb, v) :: t) r <> [] /\ v_name v tmp = None)).
      { intros -> -> Nn. destruct IH as [(I1 & I2)|[(i & I1 & I2)|(i & I1 & I2 & I3 & I4 & I5 & I6)]].
        - left. split; [|exact I2]. intros i (l2 & a & w & l1 & X & La & Nm). destruct l2 as [|e l2]; cbn [app] in X; [destruct (Nn a w) as [Y|Y]; [apply Y; congruence|lia]|]. apply (I1 i). exists l2, a, w, l1. split; [congruence|auto].
        - right. left. exists i. split; [exact (new_more [(lb, v)] _ _ I1)|exact I2].
        - right. right. exists i. split; [exact (new_more [(lb, v)] _ _ I1)|]. repeat (split; [solve [auto]|]). exact I6. }
      destruct lb as [n x|n c a|n y]; try (apply Same; [now rewrite K|now rewrite K|intros; left; discriminate]).
      destruct (names_dec c tmp) as [Nt|Nt]; [|destruct (names_dec c f) as [Nf|Nf]].
      3: { apply Same; [exact (proj1 (k_name _ _ _ _ _ K Nt))|exact (proj1 (k_name _ _ _ _ _ K Nf))|]. intros b w. left. intros X. apply Nt. injection X. intros. subst. split; [discriminate|reflexivity]. }
      all: (destruct (who_acts _ _ _ _ _ _ E) as [(-> & Ch & -> & Ah)|(-> & Cr & -> & Ar)]; [tauto| |]).
      3: { exfalso. destruct Nf as (_ & X). exact (tf X). }
      2: { assert (X : exists i, new t i) by (destruct (rename_begun _ _ E' Cr) as (l1 & w & k1 & n & u & k2 & Et & _ & _ & _ & _ & _ & _ & i & X); exists i; rewrite Et; change (l1 ++ (Beg r (PRename tmp f), w) :: k1 ++ (End n (RStat SOk), u) :: k2) with (l1 ++ [(Beg r (PRename tmp f), w)] ++ k1 ++ [(End n (RStat SOk), u)] ++ k2); repeat apply new_more; exact X).
      destruct X as (i0 & X). destruct IH as [(I1 & _)|[(i & I1 & I2 & I3)|(i & _ & _ & _ & _ & I5 & _)]]; [elim (I1 _ X)| |contradiction].
      assert (ij : i <> j) by (intros ->; apply tf; exact (distinct_runs dbg B strerror v0 lim0 m0 S0 N0 _ _ I0 R2 _ _ _ I2 I3)).
      assert (Kr : v = now v0 t \/ v_name v f = Some i /\ v_name v tmp = None).
      { inversion K; subst; try discriminate; [left; reflexivity|exfalso; congruence|]. right. cbn [with_name v_name]. unfold upd. destruct (eqs f tmp) as [Y|_]; [elim tf; auto|]. destruct (eqs f f) as [_|Y]; [|contradiction]. destruct (eqs tmp tmp) as [_|Y]; [|contradiction]. split; [congruence|reflexivity]. }
      destruct Kr as [->|(Kf & Kt)]; [apply Same; auto; intros; left; discriminate|].
      right. right. exists i. split; [exact (new_more [_] _ _ I1)|]. repeat (split; [solve [auto]|]). split; [|exact Kt]. cbn [acts]. rewrite Nat.eqb_refl. intros Y. apply app_eq_nil in Y. destruct Y. discriminate. }
      2: { assert (X : exists i, new t i) by (destruct (rename_begun _ _ E' Cr) as (l1 & w & k1 & n & u & k2 & Et & _ & _ & _ & _ & _ & _ & i & X); exists i; rewrite Et; change (l1 ++ (Beg r (PRename tmp f), w) :: k1 ++ (End n (RStat SOk), u) :: k2) with (l1 ++ [(Beg r (PRename tmp f), w)] ++ k1 ++ [(End n (RStat SOk), u)] ++ k2); repeat apply new_more; exact X).
      destruct X as (i0 & X). destruct IH as [(I1 & _)|[(i & I1 & I2 & I3)|(i & _ & _ & _ & _ & I5 & _)]]; [elim (I1 _ X)| |contradiction].
      assert (ij : i <> j) by (intros ->; apply tf; exact (distinct_runs dbg B strerror v0 lim0 m0 S0 N0 _ _ I0 R2 _ _ _ I2 I3)).
      assert (Kr : v = now v0 t \/ v_name v f = Some i /\ v_name v tmp = None).
      { inversion K; subst; try discriminate; [left; reflexivity|exfalso; congruence|]. right. cbn [with_name v_name]. unfold upd. destruct (eqs f tmp) as [Y|_]; [elim tf; auto|]. destruct (eqs f f) as [_|Y]; [|contradiction]. destruct (eqs tmp tmp) as [_|Y]; [|contradiction]. split; [congruence|reflexivity]. }
      destruct Kr as [->|(Kf & Kt)]; [apply Same; auto; intros; left; discriminate|].
      right. right. exists i. split; [exact (new_more [_] _ _ I1)|]. repeat (split; [solve [auto]|]). split; [|exact Kt]. cbn [acts]. rewrite Nat.eqb_refl. intros Y. apply app_eq_nil in Y. destruct Y. discriminate. }
      (* the open *)
      destruct (Z_lt_le_dec (a_ret a) 0) as [La|La].
      + assert (v = now v0 t) by (inversion K; subst; try discriminate; try lia; reflexivity). subst v. apply Same; auto. intros b w. destruct (Z_lt_le_dec (a_ret b) 0); [right; lia|]. left. intros X. injection X. intros. subst. lia.
      + destruct IH as [(I1 & I2 & I3)|[(i & I1 & _)|(i & I1 & _)]]; [|exfalso; exact (acts_old _ _ _ E' I1 Ah)..].
        assert (X : exists i, v_name v tmp = Some i) by (inversion K; subst; try discriminate; try lia; cbn [v_name with_fd with_data create with_name]; rewrite ?upd_same; eauto). destruct X as (i & X).
        right. left. exists i. split; [exists [], a, v, t; auto|]. split; [exact X|]. rewrite (proj1 (k_name _ _ _ _ f K ltac:(intros (_ & Y); exact (tf Y)))). exact I3.
  Qed.

  (** ** The two files *)
  Lemma split2 {A} (l t k1 : list A) e k2 : l ++ t = k1 ++ e :: k2 -> (exists q, t = q ++ e :: k2) \/ exists q, k2 = q ++ t.
  Proof.
    revert k1. induction l as [|x l IH]; intros k1 E; cbn [app] in E; [left; eauto|]. destruct k1 as [|y k1]; cbn [app] in E.
    - right. exists l. congruence.
    - apply (IH k1). congruence.
  Qed.
  (** The new file has no names but the two. *)
  Lemma new_name l t i g : tr = l ++ t -> new tr i -> v_name (now v0 t) g = Some i -> g = tmp \/ g = f.
  Proof.
    intros E N G. destruct (runs_at _ _ E) as (cf1 & R1). pose proof (distinct_runs dbg B strerror v0 lim0 m0 S0 N0 _ _ I0 R1) as Ds.
    assert (One : forall i', new t i' -> i' = i) by (intros i' X; apply (new_one [] tr); [reflexivity|rewrite E; apply new_more; exact X|exact N]).
    destruct (phase _ _ E) as [(P1 & P2 & P3)|[(i' & P1 & P2 & P3)|(i' & P1 & P2 & _)]].
    2: { assert (i' = i) by auto. subst i'. left. exact (Ds _ _ _ G P2). }
    2: { assert (i' = i) by auto. subst i'. right. exact (Ds _ _ _ G P2). }
    destruct N as (k1 & a & w & k2 & Ek & La & Nm). assert (Ek0 := Ek). rewrite E in Ek0. destruct (split2 l t k1 _ k2 Ek0) as [(q & X)|(q & X)]; [exfalso; apply (P1 i); rewrite X; exists q, a, w, k2; auto|].
    assert (Ek' : tr = (k1 ++ [(Act h (COpen tmp WrTrunc) a, w)]) ++ k2) by (rewrite <- app_assoc; exact Ek).
    destruct (who_acts _ _ _ _ _ _ Ek) as [(_ & _ & _ & Ah)|(_ & _ & Y & _)]; [left; split; [discriminate|reflexivity]| |discriminate].
    destruct (phase _ _ Ek') as [(Q1 & Q2 & _)|[(i' & Q1 & _)|(i' & Q1 & _)]]; [|exfalso; exact (acts_old _ _ _ Ek' Q1 Ah)..].
    pose proof R as R'. rewrite Ek in R'. destruct (act_step _ _ _ _ _ _ _ R') as (cf0 & t0 & y & k & R0 & _ & K).
    assert (C : v_name (now v0 k2) tmp = Some i \/ i = v_next (now v0 k2)).
    { inversion K; subst; try discriminate; try lia; cbn [v_name with_fd with_data create with_name] in Nm; rewrite ?upd_same in Nm; [left|right]; congruence. }
    destruct C as [C|C].
    - left. apply (Ds _ _ _ G). congruence.
    - exfalso. pose proof (names_at _ _ R1 _ _ G) as L. rewrite X in R0. pose proof (next_mono dbg B strerror v0 lim0 m0 S0 q t _ R0) as M. rewrite <- X in M. lia.
  Qed.
  (** Who opened a name of the new file or the old one for writing. *)
  Lemma opener l m g fl b w l1 x : tr = l ++ (Act m (COpen g fl) b, w) :: l1 -> call_no l1 m = Some x \/ call_no tr m = Some x -> touches x g -> writer x = true -> g = tmp \/ g = f -> m = h /\ g = tmp.
  Proof.
    intros E C T W G. assert (Ct : call_no tr m = Some x) by (destruct C as [C|C]; [apply (call_at (l ++ [(Act m (COpen g fl) b, w)]) l1); [rewrite <- app_assoc; exact E|exact C]|exact C]).
    destruct (proj1 Pub _ _ Ct) as [(-> & ->)|(-> & ->)]; [destruct G as [<-|<-]; auto| |discriminate]. split; [reflexivity|]. symmetry. exact T.
  Qed.
  Lemma old_kept l n c a v t : tr = l ++ (Act n c a, v) :: t -> ~ changes (now v0 t) c a j.
  Proof.
    intros E Ch. assert (E' : tr = (l ++ [(Act n c a, v)]) ++ t) by (rewrite <- app_assoc; exact E). destruct c as [p fl| |fd d| | | | | | | | | | | | | | | | | | | |]; try contradiction; cbn [changes] in Ch.
    - destruct fl; try contradiction. destruct Ch as (_ & Nm). apply (only_f _ _ E') in Nm. subst p.
      destruct (who_acts _ _ _ _ _ _ E) as [(_ & _ & X & _)|(_ & _ & X & _)]; [right; split; [discriminate|reflexivity]| |discriminate]. injection X as X. apply tf. auto.
    - destruct Ch as (_ & y & F & Ei). pose proof R as R'. rewrite E in R'. destruct (writes_from dbg B strerror v0 lim0 m0 S0 _ _ _ _ _ _ _ _ _ R' F) as (m & l2 & g & fl & b & w & l1 & x & El & Nm & _ & Cm & Tx & Wx & _).
      rewrite Ei in Nm. assert (Ew : tr = (l ++ (Act n (CWrite fd d) a, v) :: l2) ++ (Act m (COpen g fl) b, w) :: l1) by (rewrite E, El, <- app_assoc; reflexivity).
      assert (g = f) by (apply (only_f _ _ Ew); exact Nm). subst g. destruct (opener _ _ _ _ _ _ _ _ Ew (or_intror (call_at _ _ _ _ E' Cm)) Tx Wx (or_intror eq_refl)) as (_ & X). apply tf. auto.
  Qed.
  Lemma new_kept l n c a v t i : tr = l ++ (Act n c a, v) :: t -> new tr i -> changes (now v0 t) c a i -> on_obj t n h = true \/ n = h /\ c = COpen tmp WrTrunc.
  Proof.
    intros E N Ch. assert (E' : tr = (l ++ [(Act n c a, v)]) ++ t) by (rewrite <- app_assoc; exact E). destruct c as [p fl| |fd d| | | | | | | | | | | | | | | | | | | |]; try contradiction; cbn [changes] in Ch.
    - destruct fl; try contradiction. destruct Ch as (_ & Nm). apply (new_name _ _ _ _ E' N) in Nm. right.
      destruct (who_acts _ _ _ _ _ _ E) as [(X1 & _ & X & _)|(_ & _ & X & _)]; [destruct Nm as [-> | ->]; [left|right]; (split; [discriminate|reflexivity])|auto|discriminate].
    - destruct Ch as (_ & y & F & Ei). left. pose proof R as R'. rewrite E in R'. destruct (writes_from dbg B strerror v0 lim0 m0 S0 _ _ _ _ _ _ _ _ _ R' F) as (m & l2 & g & fl & b & w & l1 & x & El & Nm & Oo & Cm & Tx & Wx & _).
      rewrite Ei in Nm. assert (Ew : tr = (l ++ (Act n (CWrite fd d) a, v) :: l2) ++ (Act m (COpen g fl) b, w) :: l1) by (rewrite E, El, <- app_assoc; reflexivity).
      destruct (opener _ _ _ _ _ _ _ _ Ew (or_intror (call_at _ _ _ _ E' Cm)) Tx Wx (new_name _ _ _ _ Ew N Nm)) as (-> & _). exact Oo.
  Qed.
  (** What the new file holds once RenameFile has begun. *)
  Lemma new_opening l t i : tr = l ++ t -> new t i -> exists before e earlier, t = before ++ e :: earlier /\ opening h (PNewWrite tmp) tmp i e earlier /\
    forall q, tr = q ++ t -> only_writer v0 (q ++ before) (e :: earlier) h i.
  Proof.
    intros E N. pose proof N as (l2 & a & w & l1 & Et & La & Nm). exists l2, (Act h (COpen tmp WrTrunc) a, w), l1. split; [exact Et|].
    assert (Ek : tr = (l ++ l2) ++ (Act h (COpen tmp WrTrunc) a, w) :: l1) by (rewrite E, Et, <- app_assoc; reflexivity).
    destruct (who_acts _ _ _ _ _ _ Ek) as [(_ & Ch & _ & _)|(_ & _ & Y & _)]; [left; split; [discriminate|reflexivity]| |discriminate].
    split; [exists WrTrunc, a, w; repeat split; assumption|].
    intros q Eq k2 n c b v k1 X C. rewrite Et in Eq.
    assert (En : tr = k2 ++ (Act n c b, v) :: k1 ++ (Act h (COpen tmp WrTrunc) a, w) :: l1) by (rewrite Eq; change (k2 ++ (Act n c b, v) :: k1 ++ (Act h (COpen tmp WrTrunc) a, w) :: l1) with (k2 ++ ((Act n c b, v) :: k1) ++ (Act h (COpen tmp WrTrunc) a, w) :: l1); rewrite (app_assoc k2), <- X, <- app_assoc; reflexivity).
    destruct (new_kept _ _ _ _ _ _ i En) as [Y|(-> & ->)]; [rewrite E; apply new_more; exact N|exact C|exact Y|exfalso].
    pose proof R as R'. rewrite En in R'. exact (one_act dbg B strerror v0 lim0 m0 S0 h (PNewWrite tmp) eq_refl _ _ _ _ _ _ _ _ _ _ R' Ch).
  Qed.

  Lemma writer_less q b e i : only_writer v0 (q ++ b) e h i -> only_writer v0 b e h i.
  Proof. intros W l2 n c a v l1 ->. apply (W (q ++ l2) n c a v l1). now rewrite <- app_assoc. Qed.
  Lemma handed_len l t : length (handed t h) <= length (handed (l ++ t) h).
  Proof.
    induction l as [|[lb v] l IH]; [apply le_n|]. cbn [app]. destruct lb as [n x|n c a|n y]; try exact IH. destruct x; try exact IH. cbn [handed]. rewrite app_length. lia.
  Qed.
  Lemma new_data l t i : tr = l ++ t -> call_no t r = Some (PRename tmp f) -> new t i -> v_data (now v0 t) i = D.
  Proof.
    intros E C N. destruct (rename_begun _ _ E C) as (l1 & w & k1 & n & v & k2 & Et & Ch & Cn & Ok & H1 & H2 & _ & i' & N').
    set (q := l1 ++ (Beg r (PRename tmp f), w) :: k1 ++ [(End n (RStat SOk), v)]) in *.
    assert (Eq : t = q ++ k2) by (unfold q; rewrite Et, <- app_assoc; cbn [app]; rewrite <- app_assoc; reflexivity).
    assert (i' = i) by (apply (new_one l t); [exact E|rewrite Eq; apply new_more; exact N'|exact N]). subst i'.
    assert (Ek : tr = (l ++ q) ++ k2) by (rewrite <- app_assoc, <- Eq; exact E).
    destruct (new_opening _ _ _ Ek N') as (before & e & earlier & E2 & Op & OW). specialize (OW _ Ek). rewrite <- app_assoc in OW. apply writer_less in OW.
    destruct (runs_at _ _ E) as (cft & Rt). assert (Rt' := Rt). rewrite Eq, E2, app_assoc in Rt'.
    pose proof (C96_contents dbg B strerror v0 lim0 m0 S0 N0 _ _ _ _ _ _ _ _ Rt' Op OW) as X. rewrite <- app_assoc, <- E2, <- Eq in X. rewrite X.
    rewrite (proj1 (C96_start dbg B strerror v0 lim0 m0 S0 _ _ _ _ _ _ _ _ Rt' Op) eq_refl). cbn [app].
    assert (Rs : exists cfs, cruns ((End n (RStat SOk), v) :: k2) cfs) by (apply (runs_at (l ++ l1 ++ (Beg r (PRename tmp f), w) :: k1)); rewrite E, Et, <- !app_assoc; reflexivity). destruct Rs as (cfs & Rs).
    assert (Fl : sent k2 h = handed k2 h) by (eapply (C95_flushed dbg B strerror v0 lim0 m0 S0 k2 cfs h (PNewWrite tmp) tmp n (PWSync h)); try eassumption; reflexivity).
    rewrite <- H1, <- Fl. apply begins_same; [rewrite Eq; apply sent_later|]. rewrite Fl, H1, <- H2.
    transitivity (length (handed t h)); [|rewrite E; apply handed_len].
    assert (Ct : call_no t h = Some (PNewWrite tmp)) by exact (new_call _ _ _ E N).
    apply subseq_len. exact (proj1 (in_order dbg B strerror v0 lim0 m0 S0 h (PNewWrite tmp) eq_refl t cft Rt Ct)).
  Qed.
  Lemma sure_kept l t : tr = l ++ t -> v_sure v0 f = true -> call_no t r = None -> v_sure (now v0 t) f = true.
  Proof.
    intros E Su. revert l E. induction t as [|[lb v] t IH]; intros l E C; [exact Su|]. assert (E' : tr = (l ++ [(lb, v)]) ++ t) by (rewrite <- app_assoc; exact E). destruct (runs_at _ _ E) as (cf1 & R1). destruct (back _ _ _ _ R1) as (cf2 & R2 & K).
    assert (C' : call_no t r = None) by (destruct (call_no t r) as [y|] eqn:Ey; [|reflexivity]; pose proof (call_later [(lb, v)] t cf1 _ _ R1 Ey) as X; cbn [app] in X; congruence).
    specialize (IH _ E' C'). cbn [now]. destruct lb as [n x|n c a|n y]; try (rewrite K; exact IH).
    destruct (names_dec c f) as [Nf|Nf]; [|exact (proj2 (k_name _ _ _ _ _ K Nf) IH)]. exfalso. destruct (who_acts _ _ _ _ _ _ E) as [(_ & _ & -> & _)|(_ & X & _)]; [right; exact Nf| |congruence]. destruct Nf as (_ & X). exact (tf X).
  Qed.
  Lemma data_kept l t : tr = l ++ t -> v_data (now v0 t) j = v_data v0 j.
  Proof.
    intros E. destruct (runs_at _ _ E) as (cft & Rt). pose proof (stays_safe dbg B strerror v0 lim0 m0 S0 D0 t [] cft j) as X. rewrite app_nil_r in X. apply X; [exact Rt|exact (N0 _ _ Fj)|].
    intros l2 n c a v l1 El. rewrite app_nil_r. apply (old_kept (l ++ l2) n c a v l1). rewrite E, El, <- app_assoc. reflexivity.
  Qed.
  (** Nobody but RenameFile changes the names after it has begun. *)
  Lemma only_rename l1 w base p : tr = l1 ++ (Beg r (PRename tmp f), w) :: base -> (exists i, new base i) -> p = tmp \/ p = f -> only_call v0 l1 ((Beg r (PRename tmp f), w) :: base) r p.
  Proof.
    intros E (i & N) Pp l2 n c a v k El Ne. assert (En : tr = l2 ++ (Act n c a, v) :: k ++ (Beg r (PRename tmp f), w) :: base) by (rewrite E, El, <- app_assoc; reflexivity).
    assert (E' : tr = (l2 ++ [(Act n c a, v)]) ++ k ++ (Beg r (PRename tmp f), w) :: base) by (rewrite <- app_assoc; exact En).
    pose proof R as R'. rewrite En in R'. destruct (act_step _ _ _ _ _ _ _ R') as (cf0 & t0 & y & kk & R0 & _ & K).
    destruct (names_dec c p) as [Np|Np]; [|exact (proj1 (k_name _ _ _ _ _ K Np))]. exfalso.
    destruct (who_acts _ _ _ _ _ _ En) as [(_ & _ & _ & Ah)|(X & _)]; [destruct Pp as [-> | ->]; auto| |exact (Ne X)].
    apply (acts_old _ _ i E'); [|exact Ah]. change (k ++ (Beg r (PRename tmp f), w) :: base) with (k ++ [(Beg r (PRename tmp f), w)] ++ base). do 2 apply new_more. exact N.
  Qed.
  Lemma at_rename l1 w base : tr = l1 ++ (Beg r (PRename tmp f), w) :: base -> exists i, new base i /\ v_name w tmp = Some i /\ v_name w f = Some j.
  Proof.
    intros E. destruct (runs_at l1 _ E) as (cf1 & R1). destruct (back _ _ _ _ R1) as (cf2 & R2 & K). rewrite K.
    assert (C : call_no ((Beg r (PRename tmp f), w) :: base) r = Some (PRename tmp f)) by (cbn [call_no]; now rewrite Nat.eqb_refl).
    assert (Cb : call_no base r = None).
    { destruct (call_no base r) as [y|] eqn:Ey; [exfalso|reflexivity]. pose proof R as R'. rewrite E in R'. destruct (runs_split dbg B strerror v0 lim0 m0 _ _ _ _ R') as (cfe & tb & cf3 & Re & Stb & _). cbn [fst] in Stb. inversion Stb; subst. destruct (inv_runs _ _ Re) as (Rs & H). assert (c_next cfe < c_next cfe) by (apply (i_next _ _ _ _ _ _ H); congruence). lia. }
    assert (X : exists i, new base i).
    { destruct (rename_begun _ _ E C) as (k & u & k1 & n & v & k2 & Et & _ & _ & _ & _ & _ & _ & i & N). exists i. destruct k as [|e k]; cbn [app] in Et.
      - assert (base = k1 ++ (End n (RStat SOk), v) :: k2) as -> by congruence. change (k1 ++ (End n (RStat SOk), v) :: k2) with (k1 ++ [(End n (RStat SOk), v)] ++ k2). do 2 apply new_more. exact N.
      - exfalso. assert (Eb : base = k ++ (Beg r (PRename tmp f), u) :: k1 ++ (End n (RStat SOk), v) :: k2) by congruence. destruct (call_no base r) eqn:Z; [discriminate|]. clear -Eb Z. subst base. induction k as [|[lb x] k IH]; cbn [app call_no] in Z; [rewrite Nat.eqb_refl in Z; discriminate|]. destruct lb as [m y| |]; auto. destruct (m =? r); [discriminate|auto]. }
    destruct X as (i & N). assert (Eb : tr = (l1 ++ [(Beg r (PRename tmp f), w)]) ++ base) by (rewrite <- app_assoc; exact E). destruct (phase _ _ Eb) as [(P1 & _)|[(i' & P)|(i' & _ & _ & _ & P & _)]]; [elim (P1 _ N)|exists i'; exact P|congruence].
  Qed.
End Pub.
