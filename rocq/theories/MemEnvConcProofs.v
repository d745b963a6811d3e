(** MemEnvConcProofs.v -- the invariant of the many-threads model. *)
From Coq Require Import List Arith NArith ZArith Lia Bool.
From Verif Require Import Outcome Heap Status MemEnv MemEnvSpec MemEnvMem MemEnvMap MemEnvProofs MemEnvConc.
Import ListNotations.
Local Open Scope outcome_scope.

(** ** Threads *)
Lemma nth_set t p l : forall q u, nth_error l t = Some q ->
  nth_error (set_thr t p l) u = if u =? t then Some p else nth_error l u.
Proof.
  revert t. induction l as [|y l IH]; intros t q u E.
  - destruct t; discriminate.
  - destruct t as [|t]; cbn [set_thr].
    + destruct u; reflexivity.
    + destruct u as [|u]; cbn [nth_error Nat.eqb]; [reflexivity|]. eapply IH. exact E.
Qed.
Lemma nth_set_eq t p l q : nth_error l t = Some q -> nth_error (set_thr t p l) t = Some p.
Proof. intros E. rewrite (nth_set t p l q t E). now rewrite Nat.eqb_refl. Qed.
Lemma nth_set_ne t p l q u : nth_error l t = Some q -> u <> t -> nth_error (set_thr t p l) u = nth_error l u.
Proof. intros E N. rewrite (nth_set t p l q u E). apply Nat.eqb_neq in N. now rewrite N. Qed.

Definition holds (p : pst) : bool :=
  match p with
  | Inside _ | Constr _ _ _ | Leaving _ _ => true
  | Dying x _ _ => locked x
  | _ => false
  end.
Definition pok (p : pst) : Prop :=
  match p with
  | Inside x | Leaving x _ => locked x = true
  | Dying x _ _ => handle_of x = None -> locked x = true
  | _ => True
  end.
Definition zset (tp : list pst) : nat -> Prop := fun a => exists t x r, nth_error tp t = Some (Dying x a r).

Record CInv (H : history) (cf : cconf) (I : nat -> nat) (P : option (nat * nat)) : Prop := {
  ci_h : HInv (zset (ct cf)) P H (ce cf) I;
  ci_p : forall h a, P = Some (h, a) <-> exists t f, nth_error (ct cf) t = Some (Constr f h a);
  ci_mu : forall t, cmu cf = Some t <-> exists p, nth_error (ct cf) t = Some p /\ holds p = true;
  ci_ok : forall t p, nth_error (ct cf) t = Some p -> pok p;
  ci_use : forall t p x h, nth_error (ct cf) t = Some p -> call_of p = Some x -> handle_of x = Some h ->
     may_use H x /\ ~ pending P h;
  ci_excl : forall t t' p p' x x' h, nth_error (ct cf) t = Some p -> nth_error (ct cf) t' = Some p' -> t <> t' ->
     call_of p = Some x -> call_of p' = Some x' -> handle_of x = Some h -> handle_of x' = Some h ->
     excl x = false /\ excl x' = false;
  ci_dying : forall t t' x x' a r r', nth_error (ct cf) t = Some (Dying x a r) -> nth_error (ct cf) t' = Some (Dying x' a r') -> t = t';
  ci_room : (N.of_nat (length (plist P) + length (e_open (ce cf))) <= 2 ^ 31 - 2)%N }.

Definition is_constr (p : pst) : bool := match p with Constr _ _ _ => true | _ => false end.
Definition is_dying (p : pst) : bool := match p with Dying _ _ _ => true | _ => false end.

Lemma zset_same tp t p p' : nth_error tp t = Some p -> is_dying p = false -> is_dying p' = false ->
  forall a, zset (set_thr t p' tp) a <-> zset tp a.
Proof.
  intros E Dp Dp' a. unfold zset. split.
  - intros (u & x & r & Eu). rewrite (nth_set t p' tp p u E) in Eu. destruct (u =? t); [inversion Eu; subst; discriminate|eauto].
  - intros (u & x & r & Eu). exists u, x, r. rewrite (nth_set t p' tp p u E). destruct (u =? t) eqn:Q; [|auto].
    apply Nat.eqb_eq in Q. subst u. rewrite E in Eu. inversion Eu; subst. discriminate.
Qed.
Lemma zset_add tp t p x a r : nth_error tp t = Some p -> is_dying p = false ->
  forall b, zset (set_thr t (Dying x a r) tp) b <-> Zadd (zset tp) a true b.
Proof.
  intros E Dp b. unfold zset, Zadd. split.
  - intros (u & y & s & Eu). rewrite (nth_set t _ tp p u E) in Eu. destruct (u =? t) eqn:Q.
    + inversion Eu; subst. auto.
    + left. eauto.
  - intros [(u & y & s & Eu)|(_ & ->)].
    + exists u, y, s. rewrite (nth_set t _ tp p u E). destruct (u =? t) eqn:Q; [|auto].
      apply Nat.eqb_eq in Q. subst u. rewrite E in Eu. inversion Eu; subst. discriminate.
    + exists t, x, r. now apply nth_set_eq with (q := p).
Qed.
Lemma zset_del tp t x a r p' : nth_error tp t = Some (Dying x a r) -> is_dying p' = false ->
  (forall t1 t2 x1 x2 a r1 r2, nth_error tp t1 = Some (Dying x1 a r1) -> nth_error tp t2 = Some (Dying x2 a r2) -> t1 = t2) ->
  forall b, zset (set_thr t p' tp) b <-> zset tp b /\ b <> a.
Proof.
  intros E Dp U b. unfold zset. split.
  - intros (u & y & s & Eu). rewrite (nth_set t p' tp _ u E) in Eu. destruct (u =? t) eqn:Q; [inversion Eu; subst; discriminate|].
    apply Nat.eqb_neq in Q. split; [eauto|]. intros ->. apply Q. eapply U; eauto.
  - intros ((u & y & s & Eu) & Hb). exists u, y, s. rewrite (nth_set t p' tp _ u E). destruct (u =? t) eqn:Q; [|auto].
    apply Nat.eqb_eq in Q. subst u. rewrite E in Eu. inversion Eu; subst. contradiction.
Qed.

(** A call in progress stays permitted. *)
Lemma live_next ev H h k i : live H h k i -> ev_call ev <> Delete h -> live (ev :: H) h k i.
Proof.
  intros (L1 & L2) N. split.
  - destruct (opened_lt _ _ _ _ L1). rewrite opened_old by lia. exact L1.
  - cbn [deleted]. rewrite L2. destruct (ev_call ev); auto. destruct (h0 =? h) eqn:Q; auto. apply Nat.eqb_eq in Q. now subst.
Qed.
Lemma may_use_next ev H x h : may_use H x -> handle_of x = Some h -> ev_call ev <> Delete h -> may_use (ev :: H) x.
Proof.
  intros M Eh N. destruct x; try discriminate; injection Eh as ->; cbn [may_use] in *.
  - destruct M as (M1 & i & L). eauto using live_next.
  - destruct M as (M1 & i & L). eauto using live_next.
  - destruct M as (M1 & M2 & i & L). eauto 6 using live_next.
  - destruct M as (i & L). eauto using live_next.
  - destruct M as (i & L). eauto using live_next.
  - destruct M as (i & L). eauto using live_next.
  - destruct M as (i & L). eauto using live_next.
  - destruct M as (k & i & L). eauto using live_next.
Qed.
Lemma may_use_lt H x h : may_use H x -> handle_of x = Some h -> h < length H.
Proof.
  intros M Eh. assert (K : exists k i, live H h k i).
  { destruct x; try discriminate; injection Eh as ->; cbn [may_use] in M;
      first [destruct M as (_ & _ & i & L); eauto; fail | destruct M as (_ & i & L); eauto; fail
            | destruct M as (k & i & L); eauto; fail | destruct M as (i & L); eauto]. }
  destruct K as (k & i & (L & _)). now apply opened_lt in L.
Qed.

(** ** One step that keeps the history *)
Lemma CInv_silent H cf I P t p p' e' mu' P' :
  CInv H cf I P -> nth_error (ct cf) t = Some p ->
  HInv (zset (set_thr t p' (ct cf))) P' H e' I ->
  (forall h a, P' = Some (h, a) <-> (exists f, p' = Constr f h a) \/ exists u f, u <> t /\ nth_error (ct cf) u = Some (Constr f h a)) ->
  (mu' = Some t <-> holds p' = true) -> (forall u, u <> t -> (mu' = Some u <-> cmu cf = Some u)) ->
  pok p' ->
  (forall x, call_of p' = Some x -> call_of p = Some x) ->
  (forall h, pending P' h -> pending P h) ->
  (forall x a r u y s, p' = Dying x a r -> u <> t -> nth_error (ct cf) u <> Some (Dying y a s)) ->
  (N.of_nat (length (plist P') + length (e_open e')) <= 2 ^ 31 - 2)%N ->
  CInv H (mk_cconf e' mu' (set_thr t p' (ct cf))) I P'.
Proof.
  intros V Et Vh Vp Vm1 Vm2 Vo Vc Vpd Vd Vr. constructor; cbn [ce cmu ct].
  - exact Vh.
  - intros h a. rewrite Vp. split.
    + intros [(f & ->)|(u & f & Hu & Eu)].
      * exists t, f. now apply nth_set_eq with (q := p).
      * exists u, f. now rewrite (nth_set_ne t p' (ct cf) p u Et Hu).
    + intros (u & f & Eu). rewrite (nth_set t p' _ p u Et) in Eu. destruct (u =? t) eqn:Q.
      * inversion Eu. eauto.
      * apply Nat.eqb_neq in Q. eauto.
  - intros u. destruct (Nat.eq_dec u t) as [->|Hu].
    + rewrite Vm1. rewrite (nth_set_eq t p' _ p Et). split; [eauto|]. intros (q & Eq & Hq). now inversion Eq; subst.
    + rewrite (Vm2 u Hu), (ci_mu _ _ _ _ V u). now rewrite (nth_set_ne t p' (ct cf) p u Et Hu).
  - intros u q Eu. rewrite (nth_set t p' _ p u Et) in Eu. destruct (u =? t); [inversion Eu; subst; exact Vo|]. now apply (ci_ok _ _ _ _ V u).
  - intros u q x h Eu Cq Hh. assert (K : exists q0, nth_error (ct cf) u = Some q0 /\ call_of q0 = Some x).
    { rewrite (nth_set t p' _ p u Et) in Eu. destruct (u =? t) eqn:Q; [|eauto]. apply Nat.eqb_eq in Q. subst u. inversion Eu; subst q. eauto. }
    destruct K as (q0 & E0 & C0). destruct (ci_use _ _ _ _ V u q0 x h E0 C0 Hh) as (M & N). split; [exact M|]. auto.
  - intros u u' q q' x x' h Eu Eu' Hne Cq Cq' Hh Hh'.
    assert (K : forall u q x, nth_error (set_thr t p' (ct cf)) u = Some q -> call_of q = Some x -> exists q0, nth_error (ct cf) u = Some q0 /\ call_of q0 = Some x).
    { intros v q1 x1 E1 C1. rewrite (nth_set t p' _ p v Et) in E1. destruct (v =? t) eqn:Q; [|eauto]. apply Nat.eqb_eq in Q. subst v. inversion E1; subst q1. eauto. }
    destruct (K u q x Eu Cq) as (q0 & E0 & C0). destruct (K u' q' x' Eu' Cq') as (q0' & E0' & C0').
    exact (ci_excl _ _ _ _ V u u' q0 q0' x x' h E0 E0' Hne C0 C0' Hh Hh').
  - intros u u' x x' a r r' Eu Eu'. rewrite (nth_set t p' _ p u Et) in Eu. rewrite (nth_set t p' _ p u' Et) in Eu'.
    destruct (u =? t) eqn:Q, (u' =? t) eqn:Q'.
    + apply Nat.eqb_eq in Q, Q'. congruence.
    + apply Nat.eqb_neq in Q'. exfalso. inversion Eu as [Ep]. eapply Vd; [exact Ep|exact Q'|exact Eu'].
    + apply Nat.eqb_neq in Q. exfalso. inversion Eu' as [Ep]. eapply Vd; [exact Ep|exact Q|exact Eu].
    + eapply (ci_dying _ _ _ _ V); eauto.
  - exact Vr.
Qed.

(** ** One step that adds an event *)
Lemma CInv_event H cf I P t p p' e' ev P' I' :
  CInv H cf I P -> nth_error (ct cf) t = Some p ->
  HInv (zset (set_thr t p' (ct cf))) P' (ev :: H) e' I' ->
  (forall h a, P' = Some (h, a) <-> (exists f, p' = Constr f h a) \/ exists u f, u <> t /\ nth_error (ct cf) u = Some (Constr f h a)) ->
  holds p' = holds p ->
  pok p' -> call_of p' = None ->
  (forall h, pending P' h -> pending P h \/ h = length H) ->
  (forall h, ev_call ev = Delete h -> call_of p = Some (Delete h)) ->
  (forall x a r u y s, p' = Dying x a r -> u <> t -> nth_error (ct cf) u <> Some (Dying y a s)) ->
  (N.of_nat (length (plist P') + length (e_open e')) <= 2 ^ 31 - 2)%N ->
  CInv (ev :: H) (mk_cconf e' (cmu cf) (set_thr t p' (ct cf))) I' P'.
Proof.
  intros V Et Vh Vp Vm Vo Vc Vpd Vdl Vd Vr. constructor; cbn [ce cmu ct].
  - exact Vh.
  - intros h a. rewrite Vp. split.
    + intros [(f & ->)|(u & f & Hu & Eu)].
      * exists t, f. now apply nth_set_eq with (q := p).
      * exists u, f. now rewrite (nth_set_ne t p' (ct cf) p u Et Hu).
    + intros (u & f & Eu). rewrite (nth_set t p' _ p u Et) in Eu. destruct (u =? t) eqn:Q.
      * inversion Eu. eauto.
      * apply Nat.eqb_neq in Q. eauto.
  - intros u. rewrite (ci_mu _ _ _ _ V u). destruct (Nat.eq_dec u t) as [->|Hu].
    + rewrite (nth_set_eq t p' _ p Et). split; intros (q & Eq & Hq).
      * exists p'. split; [auto|]. congruence.
      * exists p. split; [auto|]. congruence.
    + now rewrite (nth_set_ne t p' (ct cf) p u Et Hu).
  - intros u q Eu. rewrite (nth_set t p' _ p u Et) in Eu. destruct (u =? t); [inversion Eu; subst; exact Vo|]. now apply (ci_ok _ _ _ _ V u).
  - intros u q x h Eu Cq Hh. rewrite (nth_set t p' _ p u Et) in Eu. destruct (u =? t) eqn:Q; [inversion Eu; subst; congruence|].
    apply Nat.eqb_neq in Q. destruct (ci_use _ _ _ _ V u q x h Eu Cq Hh) as (M & N). split.
    + eapply may_use_next; [exact M|exact Hh|]. intros Ed. apply Vdl in Ed.
      destruct (ci_excl _ _ _ _ V t u p q (Delete h) x h Et Eu ltac:(auto) Ed Cq eq_refl Hh) as (K & _). discriminate.
    + intros K. apply Vpd in K as [K|K]; [contradiction|]. apply (may_use_lt _ _ _ M) in Hh. lia.
  - intros u u' q q' x x' h Eu Eu' Hne Cq Cq' Hh Hh'.
    rewrite (nth_set t p' _ p u Et) in Eu. rewrite (nth_set t p' _ p u' Et) in Eu'.
    destruct (u =? t); [inversion Eu; subst; congruence|]. destruct (u' =? t); [inversion Eu'; subst; congruence|].
    exact (ci_excl _ _ _ _ V u u' q q' x x' h Eu Eu' Hne Cq Cq' Hh Hh').
  - intros u u' x x' a r r' Eu Eu'. rewrite (nth_set t p' _ p u Et) in Eu. rewrite (nth_set t p' _ p u' Et) in Eu'.
    destruct (u =? t) eqn:Q, (u' =? t) eqn:Q'.
    + apply Nat.eqb_eq in Q, Q'. congruence.
    + apply Nat.eqb_neq in Q'. exfalso. inversion Eu as [Ep]. eapply Vd; [exact Ep|exact Q'|exact Eu'].
    + apply Nat.eqb_neq in Q. exfalso. inversion Eu' as [Ep]. eapply Vd; [exact Ep|exact Q|exact Eu].
    + eapply (ci_dying _ _ _ _ V); eauto.
  - exact Vr.
Qed.

(** No construction is going on while another thread holds mutex_. *)
Lemma constr_same H cf I P t p p' : CInv H cf I P -> nth_error (ct cf) t = Some p -> is_constr p = false -> is_constr p' = false ->
  forall h a, P = Some (h, a) <-> (exists f, p' = Constr f h a) \/ exists u f, u <> t /\ nth_error (ct cf) u = Some (Constr f h a).
Proof.
  intros V Et Cp Cp' h a. rewrite (ci_p _ _ _ _ V). split.
  - intros (u & f & Eu). right. exists u, f. split; [|auto]. intros ->. rewrite Et in Eu. inversion Eu; subst. discriminate.
  - intros [(f & ->)|(u & f & _ & Eu)]; [discriminate|eauto].
Qed.
Lemma holder_none H cf I P t p : CInv H cf I P -> nth_error (ct cf) t = Some p -> holds p = true -> is_constr p = false -> P = None.
Proof.
  intros V Et Hp Cp. destruct P as [[h a]|] eqn:EP; [|reflexivity]. exfalso.
  destruct (proj1 (ci_p _ _ _ _ V h a) eq_refl) as (u & f & Eu).
  assert (K1 : cmu cf = Some t) by (apply (ci_mu _ _ _ _ V); eauto).
  assert (K2 : cmu cf = Some u) by (apply (ci_mu _ _ _ _ V); eauto).
  assert (u = t) by congruence. subst u. rewrite Et in Eu. inversion Eu; subst. discriminate.
Qed.
Lemma holder_only H cf I P t p u q : CInv H cf I P -> nth_error (ct cf) t = Some p -> holds p = true ->
  nth_error (ct cf) u = Some q -> holds q = true -> u = t.
Proof.
  intros V Et Hp Eu Hq. assert (K1 : cmu cf = Some t) by (apply (ci_mu _ _ _ _ V); eauto).
  assert (K2 : cmu cf = Some u) by (apply (ci_mu _ _ _ _ V); eauto). congruence.
Qed.

(** ** Counting the file objects *)
Lemma live_b_old ev H h : h < length H -> live_b (ev :: H) h = true -> live_b H h = true.
Proof.
  intros Hl. unfold live_b. rewrite opened_old by lia. destruct (opened H h); [|discriminate].
  cbn [deleted]. rewrite !negb_true_iff, orb_false_iff. tauto.
Qed.
Lemma filter_impl_len {A} (f g : A -> bool) l : (forall x, In x l -> f x = true -> g x = true) -> length (filter f l) <= length (filter g l).
Proof.
  induction l as [|x l IH]; intros F; cbn [filter]; [lia|].
  assert (IH' : length (filter f l) <= length (filter g l)) by (apply IH; intros y Hy; apply F; cbn; auto).
  destruct (f x) eqn:Ef; [rewrite (F x) by (cbn; auto)|]; [cbn [length]; lia|]. destruct (g x); cbn [length]; lia.
Qed.
Lemma live_count_next ev H : live_count (ev :: H) <= live_count H + (if opens (ev_call ev) then 1 else 0).
Proof.
  unfold live_count. cbn [length]. rewrite seq_S, filter_app, app_length. cbn [Nat.add].
  apply Nat.add_le_mono.
  - apply filter_impl_len. intros h Hh. apply in_seq in Hh. apply live_b_old. lia.
  - cbn [filter]. unfold live_b. cbn [opened]. rewrite Nat.eqb_refl. destruct (opens (ev_call ev)) as [[k f]|].
    + destruct (bound (ev :: H) f); [destruct (negb _)|]; cbn [length]; lia.
    + cbn [length]. lia.
Qed.
Lemma room_next Z P Z' P' H e I ev e' I' : HInv Z P H e I -> HInv Z' P' (ev :: H) e' I' ->
  (N.of_nat (length (plist P) + length (e_open e)) <= 2 ^ 31 - 2)%N ->
  (opens (ev_call ev) = None \/ (N.of_nat (live_count H) < 2 ^ 31 - 2)%N) ->
  (N.of_nat (length (plist P') + length (e_open e')) <= 2 ^ 31 - 2)%N.
Proof.
  intros V V' R O. rewrite <- (hi_count _ _ _ _ _ V) in R. rewrite <- (hi_count _ _ _ _ _ V'). pose proof (live_count_next ev H) as L.
  destruct O as [O|O]; [rewrite O in L|destruct (opens (ev_call ev))]; lia.
Qed.

(** ** The pieces *)
Lemma may_range_legal H x : may_use H x -> in_range H x -> legal H x.
Proof.
  intros M R. destruct x; cbn [legal may_use in_range] in *; auto.
  destruct M as (i & L). exists i. auto.
Qed.

Section Pieces.
  Variables (alc alb : allocator) (dbg : bool).
  Hypothesis Halc : allocator_ok alc.
  Hypothesis Halb : allocator_ok alb.

  Lemma piece_trunc Z H e I f a : HInv Z None H e I -> map_find f (e_map e) = Some a ->
    exists m, truncate (e_mem e) a = Ret m /\
      HInv Z (Some (length H, a)) (mk_event (NewWrite f) (RStat SOk) :: H) (mk_env m (e_map e) (e_open e)) I.
  Proof.
    intros V Ef. set (ev := mk_event (NewWrite f) (RStat SOk)).
    pose proof (bound_map _ _ _ _ _ f V) as Bf. rewrite Ef in Bf. cbn [option_map] in Bf.
    assert (Hh : hget (e_open e) (length H) = None).
    { destruct (hget (e_open e) (length H)) eqn:Q; auto. apply (hi_lt _ _ _ _ _ _ _ V) in Q. lia. }
    assert (Ha := Core_find _ _ _ _ _ _ _ _ (hi_core _ _ _ _ _ V) Ef).
    destruct (Core_truncate _ _ _ _ _ _ a (hi_core _ _ _ _ _ V) Ha) as (m1 & E1 & K1 & A1).
    exists m1. split; [exact E1|].
    assert (Bn : forall g, bound (ev :: H) g = bound H g).
    { intros g. unfold ev. cbn [bound ev_call]. destruct (str_eqb g f) eqn:Eg; [|reflexivity]. apply str_eqb_eq in Eg. subst g. now rewrite Bf. }
    assert (Cn : forall x, contents (ev :: H) x = upn (contents H) (I a) [] x).
    { intros x. unfold ev, upn. cbn [contents ev_call]. rewrite Bf, Nat.eqb_sym. reflexivity. }
    assert (On : opened (ev :: H) (length H) = Some (KWrite, I a)).
    { rewrite (opened_some _ _ KWrite f) by reflexivity. now rewrite Bn, Bf. }
    eapply HInv_next; [exact V| | | | | |]; cbn [e_mem e_map e_open].
    - eapply Core_ext; [exact K1|apply Bn|intros; apply Cn|lia].
    - intros x Hx. apply A1 in Hx. unfold fsize. rewrite Cn. unfold upn.
      destruct (_ =? _); [reflexivity|now apply (hi_size _ _ _ _ _ V)].
    - intros h Hn. destruct (hget (e_open e) h) as [o|] eqn:Eh.
      + split; [auto|]. split; [auto|]. destruct (hi_obj _ _ _ _ _ V h o Eh) as (_ & P2 & P3). split; [exact P2|exact P3].
      + left. apply (hi_none _ _ _ _ _ V) in Eh as [Eh|Eh]; [|now apply not_pending in Eh]. unfold live_b in *. now rewrite opened_old by auto.
    - rewrite Hh. right. exists a. reflexivity.
    - intros h b E. injection E as <- <-. split; [exact Hh|]. split; [exact On|]. split; [|eapply find_in; exact Ef].
      cbn [deleted ev ev_call orb]. now apply (hi_fresh _ _ _ _ _ V).
    - intros h Hl. apply (hi_fresh _ _ _ _ _ V h Hl).
  Qed.

  Lemma piece_constr Z H e I h a : HInv Z (Some (h, a)) H e I ->
    (N.of_nat (length (plist (Some (h, a))) + length (e_open e)) <= 2 ^ 31 - 2)%N ->
    exists e', open_obj e (e_mem e) (e_map e) h (OWrite a) = Ret e' /\ HInv Z None H e' I /\
      length (e_open e') = S (length (e_open e)).
  Proof.
    intros V R. destruct (hi_pend _ _ _ _ _ V h a eq_refl) as (Q1 & Q2 & Q3 & Q4).
    pose proof (hi_core _ _ _ _ _ V) as K.
    assert (Hp : 0 < nrefs (e_map e) (e_open e) a) by now apply nrefs_map.
    destruct (Core_open _ _ _ _ _ _ h (OWrite a) K) as (m & E & K' & A).
    - apply (co_alive _ _ _ _ _ _ K). auto.
    - cbn [ofile_state]. intros Q. apply (co_dead _ _ _ _ _ _ K) in Q. lia.
    - exact Q1.
    - cbn [plist length] in R. lia.
    - cbn [ofile_state] in *. unfold open_obj. cbn [ofile_state]. rewrite E. cbn [bind]. eexists. split; [reflexivity|].
      cbn [e_open]. split; [|unfold hput; rewrite hdel_notin by exact Q1; reflexivity].
      constructor; cbn [e_mem e_map e_open].
      + exact K'.
      + intros x Hx. apply A in Hx. now apply (hi_size _ _ _ _ _ V).
      + intros g o Eg. rewrite hget_hput in Eg. destruct (g =? h) eqn:Egh; [|now apply (hi_obj _ _ _ _ _ V)].
        apply Nat.eqb_eq in Egh. subst g. inversion Eg; subst o. cbn [okind ofile_state opos]. auto.
      + intros g Eg. rewrite hget_hput in Eg. destruct (g =? h) eqn:Egh; [discriminate|]. apply Nat.eqb_neq in Egh.
        apply (hi_none _ _ _ _ _ V) in Eg as [Eg|(b & Eb)]; [auto|]. injection Eb as Eb _. congruence.
      + discriminate.
      + apply (hi_fresh _ _ _ _ _ V).
  Qed.

  Lemma piece_destroy Z P H e I a : HInv Z P H e I -> Z a ->
    exists m, destroy (e_mem e) a = Ret m /\ HInv (fun x => Z x /\ x <> a) P H (mk_env m (e_map e) (e_open e)) I.
  Proof.
    intros V Za. destruct (Core_destroy _ _ _ _ _ _ a (hi_core _ _ _ _ _ V) Za) as (m & E & K & A).
    exists m. split; [exact E|]. constructor; cbn [e_mem e_map e_open]; try apply V.
    - exact K.
    - intros x Hx. apply A in Hx as (Hx & _). now apply (hi_size _ _ _ _ _ V).
  Qed.

  Definition Zopt (Z : nat -> Prop) (d : option nat) : nat -> Prop :=
    match d with Some a => Zadd Z a true | None => Z end.
  Lemma Zopt_dec Z a (d : bool) : forall x, Zopt Z (if d then Some a else None) x <-> Zadd Z a d x.
  Proof.
    intros x. destruct d; cbn [Zopt]; [tauto|]. unfold Zadd. split; [auto|]. intros [K|(K & _)]; [auto|discriminate].
  Qed.

  Lemma piece_delete Z P H e I h : HInv Z P H e I -> (exists k i, live H h k i) -> ~ pending P h ->
    exists e' d, delete_dec dbg e h = Ret (e', d) /\ (forall a, d = Some a -> ~ Z a) /\
      HInv (Zopt Z d) P (mk_event (Delete h) (RStat SOk) :: H) e' I.
  Proof.
    intros V (k & i & L) NP. destruct (hi_live _ _ _ _ _ _ _ _ V L NP) as (o & Eo & Ek & Ei).
    destruct (Core_delete_dec dbg _ _ _ _ _ _ h o (hi_core _ _ _ _ _ V) Eo) as (m' & d & E & K & A & NZ).
    unfold delete_dec. rewrite Eo, E. cbn [bind fst snd]. do 2 eexists. split; [reflexivity|].
    split; [intros a Ea; destruct d; [injection Ea as <-; exact NZ|discriminate]|].
    pose proof (hi_lt _ _ _ _ _ _ _ V Eo) as Hl.
    eapply HInv_next; [exact V| | | | | |]; cbn [e_mem e_map e_open].
    + eapply Core_extZ; [|apply Zopt_dec]. eapply Core_ext; [exact K|reflexivity|reflexivity|lia].
    + intros x Hx. apply A in Hx. now apply (hi_size _ _ _ _ _ V).
    + intros g Hg. rewrite hget_hdel. destruct (g =? h) eqn:Egh.
      * left. unfold live_b. cbn [deleted ev_call]. rewrite Nat.eqb_sym, Egh. cbn [orb negb]. now destruct (opened _ _).
      * assert (Eghs : h =? g = false) by now rewrite Nat.eqb_sym.
        destruct (hget (e_open e) g) as [o'|] eqn:Eg.
        -- destruct (hi_obj _ _ _ _ _ V g o' Eg) as (_ & Q2 & Q3). cbn [deleted ev_call]. rewrite Eghs. cbn [orb]. auto.
        -- apply (hi_none _ _ _ _ _ V) in Eg. unfold live_b in *. rewrite opened_old by auto. cbn [deleted ev_call]. now rewrite Eghs.
    + rewrite hget_hdel_ne by lia. destruct (hget (e_open e) (length H)) as [o'|] eqn:Eh; [apply (hi_lt _ _ _ _ _ _ _ V) in Eh; lia|].
      left. now apply opened_none.
    + eapply (pend_keep _ _ _ _ _ _ (mk_env m' (e_map e) (hdel (e_open e) h)) V); [reflexivity| |].
      * intros g Eg _. cbn [e_open]. rewrite hget_hdel. now destruct (g =? h).
      * intros g Hg. cbn [deleted ev_call]. assert (Eg : h =? g = false) by (apply Nat.eqb_neq; intros <-; contradiction). now rewrite Eg.
    + intros g Hg. cbn [pos ev_call deleted]. assert (Eg : h =? g = false) by (apply Nat.eqb_neq; lia). rewrite Eg. cbn [orb].
      now apply (hi_fresh _ _ _ _ _ V).
  Qed.

  (** RemoveFileInternal *)
  Lemma piece_remove_dec Z e B C I n f : Core Z e B C I n ->
    exists m fm d, remove_dec dbg (e_mem e) (e_map e) f = Ret (m, fm, d) /\ (forall a, d = Some a -> ~ Z a) /\
      fm = map_erase f (e_map e) /\ map_find f fm = None /\
      Core (Zopt Z d) (mk_env m fm (e_open e)) (fun g => if str_eqb g f then None else B g) C I n /\
      (forall x, alive m x <-> alive (e_mem e) x).
  Proof.
    intros K. unfold remove_dec.
    assert (Fe : map_find f (map_erase f (e_map e)) = None).
    { rewrite find_erase by apply K. now rewrite str_eqb_refl. }
    destruct (map_find f (e_map e)) as [a|] eqn:Ef.
    - rewrite (index_find _ _ _ Ef). destruct (Core_remove_dec dbg _ _ _ _ _ _ f a K Ef) as (m & d & E & K' & A & NZ).
      rewrite E. cbn [bind fst snd]. do 3 eexists. split; [reflexivity|].
      split; [intros b Eb; destruct d; [injection Eb as <-; exact NZ|discriminate]|].
      split; [reflexivity|]. split; [exact Fe|]. split; [|exact A]. eapply Core_extZ; [exact K'|apply Zopt_dec].
    - assert (Ee : map_erase f (e_map e) = e_map e).
      { clear - Ef. induction (e_map e) as [|[k v] l IH]; [reflexivity|]. cbn [map_find map_erase] in *.
        destruct (str_eqb f k); [discriminate|]. now rewrite IH. }
      do 3 eexists. split; [reflexivity|]. split; [discriminate|]. split; [now rewrite Ee|]. split; [exact Ef|]. split; [|tauto].
      cbn [Zopt]. destruct K as [K1 K2 K2d K3 K4 K5 K6 K7 K8]. constructor; cbn [e_mem e_map e_open]; auto.
      intros g. destruct (str_eqb g f) eqn:Eg; [|auto]. apply str_eqb_eq in Eg. subst g. now rewrite Ef.
  Qed.

  Lemma piece_remove Z H e I x : HInv Z None H e I -> (exists f, x = Remove f) \/ (exists s t, x = Rename s t) ->
    exists e' r d, remove_sect dbg e x = Ret (e', r, d) /\ Expect H x r /\ (forall a, d = Some a -> ~ Z a) /\
      HInv (Zopt Z d) None (mk_event x r :: H) e' I.
  Proof.
    intros V Hx. pose proof (hi_core _ _ _ _ _ V) as K. destruct Hx as [(f & ->)|(s & t & ->)]; cbn [remove_sect].
    - pose proof (bound_map _ _ _ _ _ f V) as Bf.
      destruct (piece_remove_dec _ _ _ _ _ _ f K) as (m & fm & d & E & NZ & Efm & Ff & K' & A).
      destruct (map_find f (e_map e)) as [a|] eqn:Ef; cbn [option_map] in Bf.
      + rewrite E. cbn [bind fst snd]. do 3 eexists. split; [reflexivity|]. split; [cbn [Expect]; now rewrite Bf|]. split; [exact NZ|].
        apply (HInv_same Z _ _ H e I); try reflexivity; auto.
        * eapply Core_ext; [exact K'|reflexivity|reflexivity|lia].
        * intros y Hy. cbn [e_mem] in Hy. apply A in Hy. now apply (hi_size _ _ _ _ _ V).
        * now apply opened_none.
      + do 3 eexists. split; [reflexivity|]. split; [cbn [Expect]; now rewrite Bf|]. split; [discriminate|]. cbn [Zopt].
        apply HInv_frame; auto; try reflexivity.
        * intros g. cbn [bound ev_call]. destruct (str_eqb g f) eqn:Eg; [|reflexivity]. apply str_eqb_eq in Eg. now subst g.
        * now apply opened_none.
    - pose proof (bound_map _ _ _ _ _ s V) as Bs.
      destruct (map_find s (e_map e)) as [a|] eqn:Es; cbn [option_map] in Bs.
      2:{ do 3 eexists. split; [reflexivity|]. split; [cbn [Expect]; now rewrite Bs|]. split; [discriminate|]. cbn [Zopt].
          apply HInv_frame; auto; try reflexivity.
          - intros g. cbn [bound ev_call]. now rewrite Bs.
          - now apply opened_none. }
      destruct (piece_remove_dec _ _ _ _ _ _ t K) as (m & fm & d & E & NZ & Efm & Ff & K' & A).
      rewrite E. cbn [bind fst snd].
      assert (X : Expect H (Rename s t) (RStat SOk)) by (cbn [Expect]; now rewrite Bs).
      destruct (str_eqb s t) eqn:Est.
      + apply str_eqb_eq in Est. subst t. unfold map_index. rewrite Ff. rewrite set_set by exact Ff. rewrite erase_set by exact Ff.
        do 3 eexists. split; [reflexivity|]. split; [exact X|]. split; [exact NZ|].
        apply (HInv_same Z _ _ H e I); try reflexivity; auto.
        * eapply Core_ext; [exact K'| |reflexivity|lia]. intros g. cbn [bound ev_call]. rewrite Bs. now destruct (str_eqb g s).
        * intros y Hy. cbn [e_mem] in Hy. apply A in Hy. now apply (hi_size _ _ _ _ _ V).
        * now apply opened_none.
      + assert (Hst : s <> t) by now apply str_eqb_neq.
        assert (Fs : map_find s fm = Some a) by (rewrite Efm, find_erase, Est by apply K; exact Es).
        rewrite (index_find _ _ _ Fs).
        pose proof (Core_move _ _ _ _ _ _ s t a K' Fs Hst Ff) as K2. cbn [e_mem e_map e_open] in K2.
        do 3 eexists. split; [reflexivity|]. split; [exact X|]. split; [exact NZ|].
        apply (HInv_same Z _ _ H e I); try reflexivity; auto.
        * eapply Core_ext; [exact K2| |reflexivity|lia]. intros g. cbn [bound ev_call]. rewrite Bs.
          destruct (str_eqb g s); [reflexivity|]. now destruct (str_eqb g t).
        * intros y Hy. cbn [e_mem] in Hy. apply A in Hy. now apply (hi_size _ _ _ _ _ V).
        * now apply opened_none.
  Qed.

  (** Skip *)
  Lemma piece_skip_first Z P H e I h i : HInv Z P H e I -> live H h KSeq i -> ~ pending P h ->
    skip_first e h = Ret (fsize H i <? pos H h)%N.
  Proof.
    intros V L NP. destruct (hi_live _ _ _ _ _ _ _ _ V L NP) as (o & Eo & Ek & Ei).
    destruct o as [a p| |]; try discriminate. cbn [ofile_state] in Ei. subst i.
    pose proof (Core_obj _ _ _ _ _ _ _ _ (hi_core _ _ _ _ _ V) Eo) as Ha. cbn [ofile_state] in Ha.
    destruct (hi_obj _ _ _ _ _ V h _ Eo) as (Q1 & Q2 & Q3 & Q4).
    unfold skip_first. rewrite Eo. rewrite (size_ok _ _ _ a (co_mem _ _ _ _ _ _ (hi_core _ _ _ _ _ V)) Ha). cbn [bind]. now rewrite Q3.
  Qed.
  Lemma skip_arith p n s : (p < 2 ^ 64)%N -> (s < 2 ^ 64)%N -> (n < 2 ^ 64)%N ->
    u64 (p + (if (u64 (s + 2 ^ 64 - p) <? n)%N then u64 (s + 2 ^ 64 - p) else n)) = skipped p n s /\ (skipped p n s < 2 ^ 64)%N.
  Proof.
    intros Hp Hs Hn. unfold skipped. destruct (N.leb_spec p s) as [Hle|Hlt].
    - assert (Ea : u64 (s + 2 ^ 64 - p) = (s - p)%N).
      { replace (s + 2 ^ 64 - p)%N with ((s - p) + 1 * 2 ^ 64)%N by lia.
        unfold u64. rewrite N.mod_add by discriminate. apply N.mod_small. lia. }
      rewrite Ea. assert (Em : (if (s - p <? n)%N then (s - p)%N else n) = N.min n (s - p)).
      { destruct (s - p <? n)%N eqn:Q; [apply N.ltb_lt in Q|apply N.ltb_ge in Q]; lia. }
      rewrite Em. split; [apply u64_small; lia|lia].
    - assert (Ea : u64 (s + 2 ^ 64 - p) = (s + 2 ^ 64 - p)%N) by (apply N.mod_small; lia).
      rewrite Ea. destruct (N.leb_spec n (s + 2 ^ 64 - p)) as [H1|H1].
      + assert (Q : (s + 2 ^ 64 - p <? n)%N = false) by (apply N.ltb_ge; lia). rewrite Q. split; [reflexivity|].
        apply N.mod_lt. discriminate.
      + assert (Q : (s + 2 ^ 64 - p <? n)%N = true) by (apply N.ltb_lt; lia). rewrite Q.
        replace (p + (s + 2 ^ 64 - p))%N with (s + 1 * 2 ^ 64)%N by lia. unfold u64. rewrite N.mod_add by discriminate.
        rewrite N.mod_small by lia. auto.
  Qed.
  Lemma piece_skip_second Z P H e I h i n : HInv Z P H e I -> live H h KSeq i -> ~ pending P h -> (n < 2 ^ 64)%N ->
    exists e', skip_second e h n = Ret e' /\ HInv Z P (mk_event (SSkip h n) (RStat SOk) :: H) e' I.
  Proof.
    intros V L NP Hn. destruct (hi_live _ _ _ _ _ _ _ _ V L NP) as (o & Eo & Ek & Ei).
    destruct o as [a p| |]; try discriminate. cbn [ofile_state] in Ei. subst i.
    pose proof (Core_obj _ _ _ _ _ _ _ _ (hi_core _ _ _ _ _ V) Eo) as Ha. cbn [ofile_state] in Ha.
    destruct (hi_obj _ _ _ _ _ V h _ Eo) as (Q1 & Q2 & Q3 & Q4). cbn [okind ofile_state] in Q1.
    pose proof (hi_size _ _ _ _ _ V a Ha) as Hs.
    unfold skip_second. rewrite Eo. rewrite (size_ok _ _ _ a (co_mem _ _ _ _ _ _ (hi_core _ _ _ _ _ V)) Ha). cbn [bind].
    change (N.of_nat (length (contents H (I a)))) with (fsize H (I a)).
    destruct (skip_arith p n (fsize H (I a)) Q4 Hs Hn) as (E & Hq). rewrite E.
    eexists. split; [reflexivity|]. eapply step_pos; [exact V|exact Eo| | | | | | |exact Hq]; try reflexivity.
    - intros k Hk. cbn [pos ev_call ev_res]. apply not_eq_sym, Nat.eqb_neq in Hk. now rewrite Hk.
    - cbn [pos ev_call ev_res]. now rewrite Nat.eqb_refl, Q1, Q3.
  Qed.
  Lemma piece_skip_err Z P H e I h n : HInv Z P H e I ->
    HInv Z P (mk_event (SSkip h n) (RStat (SErr IOError msg_pos [])) :: H) e I.
  Proof. intros V. apply HInv_frame; auto; try reflexivity. now apply opened_none. Qed.
End Pieces.

(** ** Calling *)
Lemma CInv_call H cf I P t x : CInv H cf I P -> nth_error (ct cf) t = Some Idle -> may_call H (ct cf) x ->
  CInv H (mk_cconf (ce cf) (cmu cf) (set_thr t (Called x) (ct cf))) I P.
Proof.
  intros V Et (M & MC).
  assert (NP : forall h, handle_of x = Some h -> ~ pending P h).
  { intros h Hh (a & Ea). destruct (MC h Hh) as (K & _). apply (ci_p _ _ _ _ V) in Ea as (u & f & Eu). exact (K u f a Eu). }
  assert (XC : forall u q y h, u <> t -> nth_error (ct cf) u = Some q -> call_of q = Some y -> handle_of x = Some h ->
     handle_of y = Some h -> excl x = false /\ excl y = false).
  { intros u q y h _ Eu Cq Hh Hy. destruct (MC h Hh) as (_ & K). exact (K u q y Eu Cq Hy). }
  constructor; cbn [ce cmu ct].
  - eapply HInv_extZ; [apply V|]. now apply zset_same with (p := Idle).
  - intros h a. rewrite (constr_same H cf I P t Idle (Called x) V Et eq_refl eq_refl h a). split.
    + intros [(f & Ef)|(u & f & Hu & Eu)]; [discriminate|]. exists u, f. now rewrite (nth_set_ne t _ (ct cf) Idle u Et Hu).
    + intros (u & f & Eu). rewrite (nth_set t _ _ Idle u Et) in Eu. destruct (u =? t) eqn:Q; [discriminate|].
      apply Nat.eqb_neq in Q. right. eauto.
  - intros u. rewrite (ci_mu _ _ _ _ V u). destruct (Nat.eq_dec u t) as [->|Hu].
    + rewrite (nth_set_eq t _ _ Idle Et), Et. split; intros (q & Eq & Hq); inversion Eq; subst q; discriminate.
    + now rewrite (nth_set_ne t _ (ct cf) Idle u Et Hu).
  - intros u q Eu. rewrite (nth_set t _ _ Idle u Et) in Eu. destruct (u =? t); [inversion Eu; exact Logic.I|]. now apply (ci_ok _ _ _ _ V u).
  - intros u q y h Eu Cq Hh. rewrite (nth_set t _ _ Idle u Et) in Eu. destruct (u =? t).
    + inversion Eu; subst q. cbn [call_of] in Cq. inversion Cq; subst y. auto.
    + exact (ci_use _ _ _ _ V u q y h Eu Cq Hh).
  - intros u u' q q' y y' h Eu Eu' Hne Cq Cq' Hh Hh'.
    rewrite (nth_set t _ _ Idle u Et) in Eu. rewrite (nth_set t _ _ Idle u' Et) in Eu'.
    destruct (u =? t) eqn:Q, (u' =? t) eqn:Q'.
    + apply Nat.eqb_eq in Q, Q'. congruence.
    + apply Nat.eqb_neq in Q'. inversion Eu; subst q. cbn [call_of] in Cq. inversion Cq; subst y.
      exact (XC u' q' y' h Q' Eu' Cq' Hh Hh').
    + apply Nat.eqb_neq in Q. inversion Eu'; subst q'. cbn [call_of] in Cq'. inversion Cq'; subst y'.
      destruct (XC u q y h Q Eu Cq Hh' Hh). auto.
    + exact (ci_excl _ _ _ _ V u u' q q' y y' h Eu Eu' Hne Cq Cq' Hh Hh').
  - intros u u' y y' a r r' Eu Eu'. rewrite (nth_set t _ _ Idle u Et) in Eu. rewrite (nth_set t _ _ Idle u' Et) in Eu'.
    destruct (u =? t); [discriminate|]. destruct (u' =? t); [discriminate|]. eapply (ci_dying _ _ _ _ V); eauto.
  - apply V.
Qed.

(** ** Every step *)
Definition hist (o : option lab) (H : history) : history := match o with Some (Sec ev) => ev :: H | _ => H end.
Lemma sections_add t o tr : sections (add_lab t o tr) = hist o (sections tr).
Proof. destruct o as [[]|]; reflexivity. Qed.

Definition fine (H : history) (cf : cconf) (t : nat) (ev : event) : Prop :=
  Expect H (ev_call ev) (ev_res ev) \/
  exists h n i, ev = mk_event (SSkip h n) (RStat SOk) /\ live H h KSeq i /\ (fsize H i < pos H h)%N /\ nth_error (ct cf) t = Some (Skip2 h n).

Lemma after_facts x r d : is_constr (after x r d) = false /\ call_of (after x r d) = None /\
  holds (after x r d) = locked x /\ (locked x = true \/ handle_of x <> None -> pok (after x r d)).
Proof.
  unfold after. destruct d; cbn [is_constr call_of holds pok].
  - repeat split; auto. intros [K|K]; [auto|intros; contradiction].
  - destruct (locked x) eqn:E; cbn [is_constr call_of holds pok]; auto.
Qed.
Lemma zset_after tp t p x r d : nth_error tp t = Some p -> is_dying p = false ->
  forall b, zset (set_thr t (after x r d) tp) b <-> Zopt (zset tp) d b.
Proof.
  intros E Dp b. unfold after. destruct d; cbn [Zopt].
  - now apply zset_add with (p := p).
  - apply zset_same with (p := p); auto. now destruct (locked x).
Qed.
Lemma after_dying x r d y a s : after x r d = Dying y a s -> d = Some a.
Proof. unfold after. destruct d; [intros E; now inversion E|]. destruct (locked x); discriminate. Qed.

Section Step.
  Variables (alc alb : allocator) (dbg : bool).
  Hypothesis Halc : allocator_ok alc.
  Hypothesis Halb : allocator_ok alb.

  Lemma step_inv H cf I P t o cf' : CInv H cf I P -> cstep alc alb dbg H t cf o cf' ->
    exists I' P', CInv (hist o H) cf' I' P' /\ forall ev, o = Some (Sec ev) -> fine H cf t ev.
  Proof.
    intros V S. destruct S as [x Et M|x Et Lx Mu|x e' ev Et Px R E|f a m Et Ef R E|f h a e' Et E|x e' r d Et E|x a r m Et E
      |x r Et Mu|x e' ev Et Lx N1 N2 R E|h e' d Et E|h n Et E|h n Et E|h n e' Et E|x r Et]; cbn [hist].
    - exists I, P. split; [now apply CInv_call|discriminate].
    - exists I, P. split; [|discriminate]. eapply CInv_silent; [exact V|exact Et| | | | | | | | |].
      + eapply HInv_extZ; [apply V|]. now apply zset_same with (p := Called x).
      + now apply constr_same with (p := Called x) (H := H) (I := I).
      + cbn [holds]. tauto.
      + intros u Hu. rewrite Mu. split; [intros K; inversion K; congruence|discriminate].
      + exact Lx.
      + discriminate.
      + auto.
      + discriminate.
      + apply V.
    - assert (Lx : locked x = true) by exact (ci_ok _ _ _ _ V t _ Et).
      assert (HP : P = None) by (eapply holder_none; [exact V|exact Et|reflexivity|reflexivity]). subst P.
      assert (L : legal H x).
      { apply may_range_legal; [|exact R]. destruct x; try discriminate; exact Logic.I. }
      destruct (step_all alc alb dbg Halc Halb _ H _ I x (ci_h _ _ _ _ V) L) as (e1 & r & I' & E1 & X & V').
      rewrite E in E1. inversion E1; subst e1 ev. cbn [ev_res].
      exists I', None. split; [|intros ev Q; inversion Q; left; exact X].
      eapply CInv_event; [exact V|exact Et| | | | | | | | |].
      + eapply HInv_extZ; [apply V'|]. now apply zset_same with (p := Inside x).
      + now apply constr_same with (p := Inside x) (H := H) (I := I).
      + reflexivity.
      + exact Lx.
      + reflexivity.
      + auto.
      + intros h Q. cbn [ev_call] in Q. subst x. discriminate.
      + discriminate.
      + eapply room_next; [apply V|exact V'|apply V|]. cbn [ev_call]. destruct (opens x) as [[k f]|] eqn:O; [right|auto].
        destruct x; try discriminate; try exact R; apply R.
    - assert (HP : P = None) by (eapply holder_none; [exact V|exact Et|reflexivity|reflexivity]). subst P.
      destruct (piece_trunc _ H _ I f a (ci_h _ _ _ _ V) Ef) as (m' & E' & V').
      rewrite E in E'. inversion E'; subst m'.
      exists I, (Some (length H, a)). split; [|intros ev Q; inversion Q; left; reflexivity].
      eapply CInv_event; [exact V|exact Et| | | | | | | | |].
      + eapply HInv_extZ; [apply V'|]. now apply zset_same with (p := Inside (NewWrite f)).
      + intros h b. split.
        * intros Q. inversion Q; subst. left. eauto.
        * intros [(g & Q)|(u & g & Hu & Eu)]; [now inversion Q|]. exfalso. apply Hu.
          eapply holder_only; [exact V|exact Et|reflexivity|exact Eu|reflexivity].
      + reflexivity.
      + exact Logic.I.
      + reflexivity.
      + intros h (b & Q). inversion Q. auto.
      + discriminate.
      + discriminate.
      + eapply room_next; [apply V|exact V'|apply V|]. right. exact R.
    - assert (EP : P = Some (h, a)) by (apply (ci_p _ _ _ _ V); eauto). subst P.
      destruct (piece_constr _ H _ I h a (ci_h _ _ _ _ V) (ci_room _ _ _ _ V)) as (e1 & E1 & V' & Le).
      rewrite E in E1. inversion E1; subst e1.
      exists I, None. split; [|discriminate].
      eapply CInv_silent; [exact V|exact Et| | | | | | | | |].
      + eapply HInv_extZ; [apply V'|]. now apply zset_same with (p := Constr f h a).
      + intros g b. split; [discriminate|]. intros [(k & Q)|(u & k & Hu & Eu)]; [discriminate|]. exfalso. apply Hu.
        eapply holder_only; [exact V|exact Et|reflexivity|exact Eu|reflexivity].
      + cbn [holds]. split; [auto|]. intros _. apply (ci_mu _ _ _ _ V). exists (Constr f h a). auto.
      + tauto.
      + reflexivity.
      + discriminate.
      + intros g Q. now apply not_pending in Q.
      + discriminate.
      + pose proof (ci_room _ _ _ _ V) as Q. cbn [plist length] in *. rewrite Le. exact Q.
    - assert (HP : P = None) by (eapply holder_none; [exact V|exact Et|reflexivity|reflexivity]). subst P.
      assert (Hx : (exists f, x = Remove f) \/ (exists s u, x = Rename s u)).
      { destruct x; cbn [remove_sect] in E; try discriminate; eauto. }
      assert (Lx : locked x = true) by (destruct Hx as [(f & ->)|(s & u & ->)]; reflexivity).
      destruct (piece_remove dbg _ H _ I x (ci_h _ _ _ _ V) Hx) as (e1 & r1 & d1 & E1 & X & NZ & V').
      rewrite E in E1. inversion E1; subst e1 r1 d1.
      destruct (after_facts x r d) as (A1 & A2 & A3 & A4).
      exists I, None. split; [|intros ev Q; inversion Q; left; exact X].
      eapply CInv_event; [exact V|exact Et| | | | | | | | |].
      + eapply HInv_extZ; [apply V'|]. now apply zset_after with (p := Inside x).
      + now apply constr_same with (p := Inside x) (H := H) (I := I).
      + cbn [holds]. congruence.
      + apply A4. auto.
      + exact A2.
      + auto.
      + intros h Q. cbn [ev_call] in Q. destruct Hx as [(f & ->)|(s & u & ->)]; discriminate.
      + intros y b s u z q Q Hu Eu. apply after_dying in Q. apply (NZ b Q). exists u, z, q. exact Eu.
      + eapply room_next; [apply V|exact V'|apply V|]. left. cbn [ev_call]. destruct Hx as [(f & ->)|(s & u & ->)]; reflexivity.
    - assert (Za : zset (ct cf) a) by (exists t, x, r; exact Et).
      destruct (piece_destroy _ P H _ I a (ci_h _ _ _ _ V) Za) as (m' & E' & V').
      rewrite E in E'. inversion E'; subst m'.
      destruct (after_facts x r None) as (A1 & A2 & A3 & A4).
      exists I, P. split; [|discriminate].
      eapply CInv_silent; [exact V|exact Et| | | | | | | | |].
      + eapply HInv_extZ; [apply V'|]. apply zset_del with (x := x) (r := r); [exact Et| |].
        * unfold after. now destruct (locked x).
        * intros. eapply (ci_dying _ _ _ _ V); eauto.
      + now apply constr_same with (p := Dying x a r) (H := H) (I := I).
      + rewrite A3. rewrite (ci_mu _ _ _ _ V t). rewrite Et. split.
        * intros (q & Eq & Hq). inversion Eq; subst q. exact Hq.
        * intros Lx. exists (Dying x a r). auto.
      + tauto.
      + unfold after. destruct (locked x) eqn:Lx; [exact Lx|exact Logic.I].
      + rewrite A2. discriminate.
      + auto.
      + intros y b s u z q Q. apply after_dying in Q. discriminate.
      + apply V.
    - exists I, P. split; [|discriminate]. eapply CInv_silent; [exact V|exact Et| | | | | | | | |].
      + eapply HInv_extZ; [apply V|]. now apply zset_same with (p := Leaving x r).
      + now apply constr_same with (p := Leaving x r) (H := H) (I := I).
      + cbn [holds]. split; discriminate.
      + intros u Hu. rewrite Mu. split; [discriminate|intros K; inversion K; congruence].
      + exact Logic.I.
      + discriminate.
      + auto.
      + discriminate.
      + apply V.
    - assert (K : exists r I', ev = mk_event x r /\ Expect H x r /\ HInv (zset (ct cf)) P (mk_event x r :: H) e' I').
      { destruct (handle_of x) as [h|] eqn:Hh.
        - destruct (ci_use _ _ _ _ V t _ x h Et eq_refl Hh) as (M & NP).
          destruct (step_handle alc alb dbg Halb _ P H _ I x h (ci_h _ _ _ _ V) Hh (may_range_legal _ _ M R) NP) as (e1 & r & I' & E1 & X & V').
          rewrite E in E1. inversion E1; subst. eauto.
        - assert (Hx : exists d, x = MkDir d \/ x = RmDir d) by (destruct x; try discriminate; eauto).
          destruct Hx as (d & Hx).
          destruct (step_dir alc alb dbg _ P H _ I x d (ci_h _ _ _ _ V) Hx) as (e1 & r & I' & E1 & X & V').
          rewrite E in E1. inversion E1; subst. eauto. }
      destruct K as (r & I' & -> & X & V'). cbn [ev_res].
      exists I', P. split; [|intros ev Q; inversion Q; left; exact X].
      eapply CInv_event; [exact V|exact Et| | | | | | | | |].
      + eapply HInv_extZ; [apply V'|]. now apply zset_same with (p := Called x).
      + now apply constr_same with (p := Called x) (H := H) (I := I).
      + reflexivity.
      + exact Logic.I.
      + reflexivity.
      + auto.
      + intros h Q. cbn [ev_call] in Q. exfalso. exact (N2 h Q).
      + discriminate.
      + eapply room_next; [apply V|exact V'|apply V|]. left. cbn [ev_call]. destruct x; try discriminate; reflexivity.
    - destruct (ci_use _ _ _ _ V t _ (Delete h) h Et eq_refl eq_refl) as (M & NP). cbn [may_use] in M.
      destruct (piece_delete dbg _ P H _ I h (ci_h _ _ _ _ V) M NP) as (e1 & d1 & E1 & NZ & V').
      rewrite E in E1. inversion E1; subst e1 d1.
      destruct (after_facts (Delete h) (RStat SOk) d) as (A1 & A2 & A3 & A4).
      exists I, P. split; [|intros ev Q; inversion Q; left; reflexivity].
      eapply CInv_event; [exact V|exact Et| | | | | | | | |].
      + eapply HInv_extZ; [apply V'|]. now apply zset_after with (p := Called (Delete h)).
      + now apply constr_same with (p := Called (Delete h)) (H := H) (I := I).
      + rewrite A3. reflexivity.
      + apply A4. right. discriminate.
      + exact A2.
      + auto.
      + intros g Q. cbn [ev_call] in Q. inversion Q. reflexivity.
      + intros y b s u z q Q Hu Eu. apply after_dying in Q. apply (NZ b Q). exists u, z, q. exact Eu.
      + eapply room_next; [apply V|exact V'|apply V|]. left. reflexivity.
    - destruct (ci_use _ _ _ _ V t _ (SSkip h n) h Et eq_refl eq_refl) as ((Hn & i & L) & NP).
      pose proof (piece_skip_first _ P H _ I h i (ci_h _ _ _ _ V) L NP) as E1. rewrite E in E1. injection E1 as E1.
      pose proof (piece_skip_err _ P H _ I h n (ci_h _ _ _ _ V)) as V'.
      exists I, P. split.
      + eapply CInv_event; [exact V|exact Et| | | | | | | | |].
        * eapply HInv_extZ; [apply V'|]. now apply zset_same with (p := Called (SSkip h n)).
        * now apply constr_same with (p := Called (SSkip h n)) (H := H) (I := I).
        * reflexivity.
        * exact Logic.I.
        * reflexivity.
        * auto.
        * discriminate.
        * discriminate.
        * apply V.
      + intros ev Q. inversion Q. left. cbn [ev_call ev_res Expect]. exists i. split; [exact L|]. now rewrite <- E1.
    - exists I, P. split; [|discriminate]. eapply CInv_silent; [exact V|exact Et| | | | | | | | |].
      + eapply HInv_extZ; [apply V|]. now apply zset_same with (p := Called (SSkip h n)).
      + now apply constr_same with (p := Called (SSkip h n)) (H := H) (I := I).
      + cbn [holds]. split; [|discriminate]. intros Q. apply (ci_mu _ _ _ _ V) in Q as (q & Eq & Hq). rewrite Et in Eq. inversion Eq; subst q. discriminate.
      + tauto.
      + exact Logic.I.
      + auto.
      + auto.
      + discriminate.
      + apply V.
    - destruct (ci_use _ _ _ _ V t _ (SSkip h n) h Et eq_refl eq_refl) as ((Hn & i & L) & NP).
      destruct (piece_skip_second _ P H _ I h i n (ci_h _ _ _ _ V) L NP Hn) as (e1 & E1 & V').
      rewrite E in E1. inversion E1; subst e1.
      exists I, P. split.
      + eapply CInv_event; [exact V|exact Et| | | | | | | | |].
        * eapply HInv_extZ; [apply V'|]. now apply zset_same with (p := Skip2 h n).
        * now apply constr_same with (p := Skip2 h n) (H := H) (I := I).
        * reflexivity.
        * exact Logic.I.
        * reflexivity.
        * auto.
        * discriminate.
        * discriminate.
        * eapply room_next; [apply V|exact V'|apply V|]. left. reflexivity.
      + intros ev Q. inversion Q. unfold fine. cbn [ev_call ev_res Expect].
        destruct (N.ltb_spec (fsize H i) (pos H h)) as [Hlt|Hge].
        * right. exists h, n, i. auto.
        * left. exists i. split; [exact L|]. apply N.ltb_ge in Hge. now rewrite Hge.
    - exists I, P. split; [|discriminate]. eapply CInv_silent; [exact V|exact Et| | | | | | | | |].
      + eapply HInv_extZ; [apply V|]. now apply zset_same with (p := Done x r).
      + now apply constr_same with (p := Done x r) (H := H) (I := I).
      + cbn [holds]. split; [|discriminate]. intros Q. apply (ci_mu _ _ _ _ V) in Q as (q & Eq & Hq). rewrite Et in Eq. inversion Eq; subst q. discriminate.
      + tauto.
      + exact Logic.I.
      + discriminate.
      + auto.
      + discriminate.
      + apply V.
  Qed.
End Step.

(** ** Runs *)
Lemma set_thr_length t p l : length (set_thr t p l) = length l.
Proof. revert t. induction l as [|q l IH]; intros [|t]; cbn [set_thr length]; auto. Qed.
Lemma nth_repeat {A} (x : A) n t q : nth_error (repeat x n) t = Some q -> q = x.
Proof. intros E. apply nth_error_In in E. now apply repeat_spec in E. Qed.
Lemma CInv_init n : CInv [] (mk_cconf env_new None (repeat Idle n)) (fun _ => 0) None.
Proof.
  constructor; cbn [ce cmu ct].
  - eapply HInv_extZ; [apply HInv_init|]. intros a. unfold zset, nobody. split; [|easy]. intros (t & x & r & E). apply nth_repeat in E. discriminate.
  - intros h a. split; [discriminate|]. intros (t & f & E). apply nth_repeat in E. discriminate.
  - intros t. split; [discriminate|]. intros (p & E & Hp). apply nth_repeat in E. now subst p.
  - intros t p E. apply nth_repeat in E. subst p. exact Logic.I.
  - intros t p x h E C. apply nth_repeat in E. subst p. discriminate.
  - intros t t' p p' x x' h E E' N C. apply nth_repeat in E. subst p. discriminate.
  - intros t t' x x' a r r' E. apply nth_repeat in E. discriminate.
  - cbn. lia.
Qed.

(** An event on a file object is made by a thread that is in such a call. *)
Lemma exec_event alc alb dbg H e x e' ev : exec alc alb dbg H e x = Ret (e', ev) -> ev_call ev = x.
Proof. unfold exec. destruct (dispatch _ _ _ e (length H) x); cbn [bind]; try discriminate. intros E. injection E as _ <-. reflexivity. Qed.
Lemma step_who alc alb dbg H cf I P t o cf' : CInv H cf I P -> cstep alc alb dbg H t cf o cf' ->
  forall ev h, o = Some (Sec ev) -> handle_of (ev_call ev) = Some h ->
  exists p, nth_error (ct cf) t = Some p /\ call_of p = Some (ev_call ev).
Proof.
  intros V S ev h Eo Hh. destruct S as [x Et M|x Et Lx Mu|x e' ev0 Et Px R E|f a m Et Ef R E|f h0 a e' Et E|x e' r d Et E|x a r m Et E
      |x r Et Mu|x e' ev0 Et Lx N1 N2 R E|h0 e' d Et E|h0 n Et E|h0 n Et E|h0 n e' Et E|x r Et]; inversion Eo; subst ev; clear Eo.
  - rewrite (exec_event _ _ _ _ _ _ _ _ E) in Hh. pose proof (ci_ok _ _ _ _ V t _ Et) as K. cbn [pok] in K. destruct x; discriminate.
  - discriminate.
  - cbn [ev_call] in Hh. pose proof (ci_ok _ _ _ _ V t _ Et) as K. cbn [pok] in K. destruct x; discriminate.
  - rewrite (exec_event _ _ _ _ _ _ _ _ E). eauto.
  - eauto.
  - eauto.
  - eauto.
Qed.

(** A file gets shorter only by a NewWritableFile. *)
Lemma fsize_next ev H i : (fsize H i <= fsize (ev :: H) i)%N \/ exists f, ev_call ev = NewWrite f /\ bound H f = Some i.
Proof.
  unfold fsize. cbn [contents]. destruct (ev_call ev) as [f|f|f|f|f|d|f|f|a b|d|d|h n|h n|h off n|h d|h|h|h|h]; try (left; lia).
  - destruct (bound H f) as [j|] eqn:Ef; [|left; lia]. destruct (j =? i) eqn:Q; [|left; lia].
    apply Nat.eqb_eq in Q. subst j. right. exists f. auto.
  - left. destruct (opened H h) as [[k j]|]; [|lia]. destruct (j =? i); [|lia]. rewrite app_length. lia.
Qed.

Definition skip_shape (t : nat) (tr : trace) (h : nat) : Prop :=
  exists i, live (sections tr) h KSeq i /\
    ((pos (sections tr) h <= fsize (sections tr) i)%N \/
     exists new old, tr = new ++ old /\ no_lab t new /\ truncated_in new old i).
Definition skip_inv (tr : trace) (cf : cconf) : Prop :=
  forall t h n, nth_error (ct cf) t = Some (Skip2 h n) -> skip_shape t tr h.

Lemma live_fun H h k i k' i' : live H h k i -> live H h k' i' -> k = k' /\ i = i'.
Proof. intros (L1 & _) (L2 & _). rewrite L1 in L2. now inversion L2. Qed.
Lemma pos_next ev H h : handle_of (ev_call ev) <> Some h -> pos (ev :: H) h = pos H h.
Proof.
  intros N. cbn [pos]. destruct (ev_call ev) as [f|f|f|f|f|d|f|f|a b|d|d|h' n|h' n|h' off n|h' d|h'|h'|h'|h']; try reflexivity.
  - cbn [handle_of] in N. assert (Q : h' =? h = false) by (apply Nat.eqb_neq; intros ->; auto). rewrite Q. destruct (ev_res ev) as [| | | |s]; auto. now destruct s.
  - cbn [handle_of] in N. assert (Q : h' =? h = false) by (apply Nat.eqb_neq; intros ->; auto). rewrite Q. destruct (ev_res ev) as [s| | | |]; auto. now destruct s.
Qed.

Section Runs.
  Variables (alc alb : allocator) (dbg : bool).
  Hypothesis Halc : allocator_ok alc.
  Hypothesis Halb : allocator_ok alb.

  Lemma run_inv n tr cf : cruns alc alb dbg n tr cf -> exists I P, CInv (sections tr) cf I P.
  Proof.
    induction 1 as [|tr cf t o cf' R (I & P & V) S].
    - exists (fun _ => 0), None. apply CInv_init.
    - destruct (step_inv alc alb dbg Halc Halb _ _ I P t o cf' V S) as (I' & P' & V' & _). exists I', P'. now rewrite sections_add.
  Qed.

  (** Threads other than the one that moves keep their state. *)
  Lemma step_other H cf t o cf' u : cstep alc alb dbg H t cf o cf' -> u <> t -> nth_error (ct cf') u = nth_error (ct cf) u.
  Proof. intros S N. destruct S; cbn [ct]; eapply nth_set_ne; eauto. Qed.

  Lemma run_skip n tr cf : cruns alc alb dbg n tr cf -> skip_inv tr cf.
  Proof.
    induction 1 as [|tr cf u o cf' R IH S].
    - intros t h k E. cbn [ct] in E. apply nth_repeat in E. discriminate.
    - destruct (run_inv n tr cf R) as (I & P & V). intros t h k Et.
      destruct (Nat.eq_dec u t) as [->|Hu].
      + (* its own first Size() *)
        destruct S as [x E0 M|x E0 Lx Mu|x e' ev E0 Px Rg E|f a m E0 Ef Rg E|f h0 a e' E0 E|x e' r d E0 E|x a r m E0 E
          |x r E0 Mu|x e' ev E0 Lx N1 N2 Rg E|h0 e' d E0 E|h0 n0 E0 E|h0 n0 E0 E|h0 n0 e' E0 E|x r E0];
          cbn [ct] in Et; rewrite (nth_set_eq _ _ _ _ E0) in Et; try discriminate.
        * injection Et as Et. unfold after in Et. destruct d; [discriminate|]. destruct (locked x); discriminate.
        * injection Et as Et. unfold after in Et. destruct (locked x); discriminate.
        * injection Et as Et. unfold after in Et. destruct d; discriminate.
        * inversion Et; subst h0 n0. cbn [add_lab].
          destruct (ci_use _ _ _ _ V t _ (SSkip h k) h E0 eq_refl eq_refl) as ((Hn & i & L) & NP).
          pose proof (piece_skip_first _ P _ _ I h i (ci_h _ _ _ _ V) L NP) as E1. rewrite E in E1. injection E1 as E1.
          exists i. split; [exact L|]. left. symmetry in E1. now apply N.ltb_ge in E1.
      + rewrite (step_other _ _ _ _ _ t S (not_eq_sym Hu)) in Et. destruct (IH t h k Et) as (i & L & K).
        destruct o as [[x|ev|r]|]; cbn [add_lab].
        * exists i. split; [exact L|]. destruct K as [K|(new & old & Etr & NL & T)]; [left; exact K|].
          right. exists ((u, Beg x) :: new), old. split; [now rewrite Etr|]. split.
          -- intros l0 [Q|Q]; [inversion Q; contradiction|exact (NL l0 Q)].
          -- destruct T as (k1 & t1 & f & r & k2 & -> & B). exists ((u, Beg x) :: k1), t1, f, r, k2. auto.
        * assert (Nh : handle_of (ev_call ev) <> Some h).
          { intros Hh. destruct (step_who _ _ _ _ _ _ _ _ _ _ V S ev h eq_refl Hh) as (p & Ep & Cp).
            destruct (ci_excl _ _ _ _ V u t p (Skip2 h k) (ev_call ev) (SSkip h k) h Ep Et Hu Cp eq_refl Hh eq_refl) as (_ & Q). discriminate. }
          assert (L' : live (sections ((u, Sec ev) :: tr)) h KSeq i).
          { cbn [sections flat_map snd app]. apply live_next; [exact L|]. intros Q. rewrite Q in Nh. now apply Nh. }
          exists i. split; [exact L'|].
          destruct K as [K|(new & old & Etr & NL & T)].
          -- change (sections ((u, Sec ev) :: tr)) with (ev :: sections tr). rewrite pos_next by exact Nh.
             destruct (fsize_next ev (sections tr) i) as [F|(f & Ef & Bf)]; [left; lia|].
             right. exists [(u, Sec ev)], tr. split; [reflexivity|]. split.
             ++ intros l0 [Q|[]]. inversion Q. contradiction.
             ++ exists [], u, f, (ev_res ev), []. cbn [app]. split; [|exact Bf]. rewrite <- Ef. now destruct ev.
          -- right. exists ((u, Sec ev) :: new), old. split; [now rewrite Etr|]. split.
             ++ intros l0 [Q|Q]; [inversion Q; contradiction|exact (NL l0 Q)].
             ++ destruct T as (k1 & t1 & f & r & k2 & -> & B). exists ((u, Sec ev) :: k1), t1, f, r, k2. auto.
        * exists i. split; [exact L|]. destruct K as [K|(new & old & Etr & NL & T)]; [left; exact K|].
          right. exists ((u, Rtn r) :: new), old. split; [now rewrite Etr|]. split.
          -- intros l0 [Q|Q]; [inversion Q; contradiction|exact (NL l0 Q)].
          -- destruct T as (k1 & t1 & f & r1 & k2 & -> & B). exists ((u, Rtn r) :: k1), t1, f, r1, k2. auto.
        * exists i. auto.
  Qed.

  Lemma run_events n tr cf : cruns alc alb dbg n tr cf ->
    forall new t ev old, tr = new ++ (t, Sec ev) :: old -> Expect (sections old) (ev_call ev) (ev_res ev) \/ raced t old ev.
  Proof.
    induction 1 as [|tr cf u o cf' R IH S]; intros new t ev old E.
    - destruct new; discriminate.
    - destruct o as [l|]; cbn [add_lab] in E; [|eauto].
      destruct new as [|y new]; cbn [app] in E; [|injection E as _ E; eauto].
      injection E as -> -> ->. destruct (run_inv n old cf R) as (I & P & V).
      destruct (step_inv alc alb dbg Halc Halb _ _ I P t _ cf' V S) as (_ & _ & _ & F).
      destruct (F ev eq_refl) as [F'|(h & k & i & Ev & L & Hlt & Et)]; [auto|]. right.
      exists h, k, i. split; [exact Ev|]. split; [exact L|]. split; [exact Hlt|].
      destruct (run_skip n old cf R t h k Et) as (j & L' & K). destruct (live_fun _ _ _ _ _ _ L L') as (_ & <-).
      destruct K as [K|K]; [lia|exact K].
  Qed.

  (** *** The calls of one thread *)
  Definition shape (p : pst) (l : list lab) : Prop :=
    match p with
    | Idle => calls_done l
    | Called x | Inside x => exists l0, calls_done l0 /\ l = l0 ++ [Beg x]
    | Skip2 h n => exists l0, calls_done l0 /\ l = l0 ++ [Beg (SSkip h n)]
    | Constr f _ _ => exists l0, calls_done l0 /\ l = l0 ++ [Beg (NewWrite f); Sec (mk_event (NewWrite f) (RStat SOk))]
    | Dying x _ r | Leaving x r | Done x r => exists l0, calls_done l0 /\ l = l0 ++ [Beg x; Sec (mk_event x r)]
    end.
  Lemma proj_add t u o tr : proj t (add_lab u o tr) = proj t tr ++ match o with Some l => if u =? t then [l] else [] | None => [] end.
  Proof.
    unfold proj. destruct o as [l|]; cbn [add_lab]; [|now rewrite app_nil_r].
    cbn [rev]. rewrite filter_app, map_app. f_equal. cbn [filter fst]. destruct (u =? t); reflexivity.
  Qed.
  Lemma shape_sec x r d l l0 : calls_done l0 -> l = l0 ++ [Beg x; Sec (mk_event x r)] -> shape (after x r d) l.
  Proof. intros C E. unfold after. destruct d; [|destruct (locked x)]; cbn [shape]; eauto. Qed.
  Lemma exec_mk H e x e' ev : exec alc alb dbg H e x = Ret (e', ev) -> ev = mk_event x (ev_res ev).
  Proof. intros E. rewrite <- (exec_event _ _ _ _ _ _ _ _ E). now destruct ev. Qed.

  Lemma run_shape n tr cf : cruns alc alb dbg n tr cf ->
    forall t, match nth_error (ct cf) t with Some p => shape p (proj t tr) | None => proj t tr = [] end.
  Proof.
    induction 1 as [|tr cf u o cf' R IH S]; intros t.
    - cbn [ct]. destruct (nth_error _ t) eqn:E; [|reflexivity]. apply nth_repeat in E. subst. constructor.
    - rewrite proj_add. destruct (Nat.eq_dec u t) as [->|Hu].
      + specialize (IH t).
        assert (Q : t =? t = true) by apply Nat.eqb_refl.
        destruct S as [x E0 M|x E0 Lx Mu|x e' ev E0 Px Rg E|f a m E0 Ef Rg E|f h0 a e' E0 E|x e' r d E0 E|x a r m E0 E
          |x r E0 Mu|x e' ev E0 Lx N1 N2 Rg E|h0 e' d E0 E|h0 n0 E0 E|h0 n0 E0 E|h0 n0 e' E0 E|x r E0];
          cbn [ct]; rewrite (nth_set_eq _ _ _ _ E0); rewrite E0 in IH; cbn [shape] in IH; rewrite ?Q, ?app_nil_r.
        * cbn [shape]. eauto.
        * exact IH.
        * destruct IH as (l0 & C & El). cbn [shape]. exists l0. split; [exact C|]. rewrite (exec_mk _ _ _ _ _ E), El, <- app_assoc. reflexivity.
        * destruct IH as (l0 & C & El). cbn [shape]. exists l0. split; [exact C|]. rewrite El, <- app_assoc. reflexivity.
        * exact IH.
        * destruct IH as (l0 & C & El). eapply shape_sec; [exact C|]. rewrite El, <- app_assoc. reflexivity.
        * destruct IH as (l0 & C & El). eapply shape_sec; [exact C|exact El].
        * exact IH.
        * destruct IH as (l0 & C & El). cbn [shape]. exists l0. split; [exact C|]. rewrite (exec_mk _ _ _ _ _ E), El, <- app_assoc. reflexivity.
        * destruct IH as (l0 & C & El). eapply shape_sec; [exact C|]. rewrite El, <- app_assoc. reflexivity.
        * destruct IH as (l0 & C & El). cbn [shape]. exists l0. split; [exact C|]. rewrite El, <- app_assoc. reflexivity.
        * exact IH.
        * destruct IH as (l0 & C & El). cbn [shape]. exists l0. split; [exact C|]. rewrite El, <- app_assoc. reflexivity.
        * destruct IH as (l0 & C & El). cbn [shape]. rewrite El, <- app_assoc. now constructor.
      + rewrite (step_other _ _ _ _ _ t S (not_eq_sym Hu)). apply Nat.eqb_neq in Hu. rewrite Hu.
        destruct o; rewrite app_nil_r; apply IH.
  Qed.
  Lemma run_thread_ok n tr cf t : cruns alc alb dbg n tr cf -> thread_ok (proj t tr).
  Proof.
    intros R. pose proof (run_shape n tr cf R t) as K. unfold thread_ok.
    destruct (nth_error (ct cf) t) as [p|]; [|rewrite K; left; constructor].
    destruct p; cbn [shape] in K; [auto| | | | | | | ]; destruct K as (l0 & C & E); right; exists l0; eexists; split; eauto.
  Qed.

  (** *** Nobody gets stuck *)
  Lemma in_range_dec H x : may_use H x -> in_range H x \/ ~ in_range H x.
  Proof.
    intros M. assert (D : forall a b, (a < b)%N \/ ~ (a < b)%N) by (intros a b; destruct (N.ltb_spec a b); [auto|right; lia]).
    destruct x; cbn [in_range]; auto.
    - destruct (bound H f) as [i|]; [|right; intros (K & _); now apply K]. destruct (D (N.of_nat (live_count H)) (2 ^ 31 - 2)%N) as [K|K]; [left|right; tauto].
      split; [discriminate|exact K].
    - destruct M as (i & L). destruct (D (fsize H i + N.of_nat (length d))%N (2 ^ 64)%N) as [K|K].
      + left. intros j L'. destruct (live_fun _ _ _ _ _ _ L L') as (_ & <-). exact K.
      + right. intros Q. apply K. now apply Q.
  Qed.
  Lemma can_step n tr cf t p : cruns alc alb dbg n tr cf -> nth_error (ct cf) t = Some p -> p <> Idle ->
    (exists o cf', cstep alc alb dbg (sections tr) t cf o cf') \/
    (exists x, (p = Called x \/ p = Inside x) /\ ~ in_range (sections tr) x) \/
    (exists x u q, p = Called x /\ locked x = true /\ cmu cf = Some u /\ nth_error (ct cf) u = Some q /\ holds q = true).
  Proof.
    intros R Et Np. destruct (run_inv n tr cf R) as (I & P & V). set (H := sections tr) in *.
    destruct p as [|x|x|f h a|x a r|x r|h k|x r].
    - contradiction.
    - destruct (locked x) eqn:Lx.
      + destruct (cmu cf) as [u|] eqn:Mu.
        * right. right. destruct (proj1 (ci_mu _ _ _ _ V u) Mu) as (q & Eq & Hq). exists x, u, q. auto.
        * left. do 2 eexists. eapply c_lock; eauto.
      + assert (M : may_use H x).
        { destruct (handle_of x) as [h|] eqn:Hh; [exact (proj1 (ci_use _ _ _ _ V t _ x h Et eq_refl Hh))|]. destruct x; try discriminate; exact Logic.I. }
        destruct (in_range_dec H x M) as [Rg|Rg]; [|right; left; eauto]. left.
        assert (Q : (exists h n0, x = SSkip h n0) \/ (exists h, x = Delete h) \/ ((forall h n0, x <> SSkip h n0) /\ forall h, x <> Delete h)).
        { destruct x; eauto; right; right; split; discriminate. }
        destruct Q as [(h & k & ->)|[(h & ->)|(N1 & N2)]].
        * destruct (ci_use _ _ _ _ V t _ (SSkip h k) h Et eq_refl eq_refl) as ((_ & i & L) & NP).
          pose proof (piece_skip_first _ P H _ I h i (ci_h _ _ _ _ V) L NP) as E1.
          destruct (fsize H i <? pos H h)%N; do 2 eexists; [eapply c_skip_err|eapply c_skip1]; eauto.
        * destruct (ci_use _ _ _ _ V t _ (Delete h) h Et eq_refl eq_refl) as (_ & NP).
          destruct (piece_delete dbg _ P H _ I h (ci_h _ _ _ _ V) M NP) as (e1 & d1 & E1 & _). do 2 eexists. eapply c_delete; eauto.
        * assert (K : exists e' ev, exec alc alb dbg H (ce cf) x = Ret (e', ev)).
          { destruct (handle_of x) as [h|] eqn:Hh.
            - destruct (ci_use _ _ _ _ V t _ x h Et eq_refl Hh) as (_ & NP).
              destruct (step_handle alc alb dbg Halb _ P H _ I x h (ci_h _ _ _ _ V) Hh (may_range_legal _ _ M Rg) NP) as (e1 & r & I' & E1 & _). eauto.
            - assert (Hx : exists d, x = MkDir d \/ x = RmDir d) by (destruct x; try discriminate; eauto). destruct Hx as (d & Hx).
              destruct (step_dir alc alb dbg _ P H _ I x d (ci_h _ _ _ _ V) Hx) as (e1 & r & I' & E1 & _). eauto. }
          destruct K as (e' & ev & E). do 2 eexists. eapply c_free; eauto.
    - assert (Lx : locked x = true) by exact (ci_ok _ _ _ _ V t _ Et).
      assert (HP : P = None) by (eapply holder_none; [exact V|exact Et|reflexivity|reflexivity]). subst P.
      assert (M : may_use H x) by (destruct x; try discriminate; exact Logic.I).
      destruct (in_range_dec H x M) as [Rg|Rg]; [|right; left; eauto]. left.
      destruct (plain (ce cf) x) eqn:Px.
      + destruct (step_all alc alb dbg Halc Halb _ H _ I x (ci_h _ _ _ _ V) (may_range_legal _ _ M Rg)) as (e1 & r & I' & E1 & _).
        do 2 eexists. eapply c_plain; eauto.
      + assert (Q : (exists f a, x = NewWrite f /\ map_find f (e_map (ce cf)) = Some a) \/ ((exists f, x = Remove f) \/ (exists s u, x = Rename s u))).
        { destruct x; cbn [plain] in Px; try discriminate; eauto. destruct (map_find f (e_map (ce cf))) eqn:Ef; [eauto|discriminate]. }
        destruct Q as [(f & a & -> & Ef)|Hx].
        * destruct (piece_trunc _ H _ I f a (ci_h _ _ _ _ V) Ef) as (m' & E' & _). do 2 eexists. eapply c_trunc; eauto.
        * destruct (piece_remove dbg _ H _ I x (ci_h _ _ _ _ V) Hx) as (e1 & r1 & d1 & E1 & _). do 2 eexists. eapply c_remove; eauto.
    - assert (EP : P = Some (h, a)) by (apply (ci_p _ _ _ _ V); eauto). subst P.
      destruct (piece_constr _ H _ I h a (ci_h _ _ _ _ V) (ci_room _ _ _ _ V)) as (e1 & E1 & _).
      left. do 2 eexists. eapply c_constr; eauto.
    - assert (Za : zset (ct cf) a) by (exists t, x, r; exact Et).
      destruct (piece_destroy _ P H _ I a (ci_h _ _ _ _ V) Za) as (m' & E' & _). left. do 2 eexists. eapply c_destroy; eauto.
    - left. do 2 eexists. eapply c_unlock; [exact Et|]. apply (ci_mu _ _ _ _ V). exists (Leaving x r). auto.
    - destruct (ci_use _ _ _ _ V t _ (SSkip h k) h Et eq_refl eq_refl) as ((Hn & i & L) & NP).
      destruct (piece_skip_second _ P H _ I h i k (ci_h _ _ _ _ V) L NP Hn) as (e1 & E1 & _). left. do 2 eexists. eapply c_skip2; eauto.
    - left. do 2 eexists. eapply c_return; eauto.
  Qed.

  (** *** Memory when nobody is inside a call *)
  Lemma run_quiet n tr cf : cruns alc alb dbg n tr cf -> (forall t p, nth_error (ct cf) t = Some p -> p = Idle) ->
    exists I, HInv nobody None (sections tr) (ce cf) I.
  Proof.
    intros R Q. destruct (run_inv n tr cf R) as (I & P & V). exists I.
    assert (HP : P = None).
    { destruct P as [[h a]|]; [|reflexivity]. destruct (proj1 (ci_p _ _ _ _ V h a) eq_refl) as (t & f & E). apply Q in E. discriminate. }
    subst P. eapply HInv_extZ; [apply V|]. intros a. unfold nobody, zset. split; [easy|]. intros (t & x & r & E). apply Q in E. discriminate.
  Qed.
End Runs.
