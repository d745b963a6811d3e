(** Mutex.v -- why a section of code that runs under a mutex may be taken as one
    step.  Threads are arbitrary state machines whose steps are: take a mutex,
    one memory access to the data guarded by a mutex, give a mutex back, or a
    step that touches no shared data.  port/port_stdcxx.h:48-60 (Mutex) and
    util/mutexlock.h:24-33 (MutexLock: lock in the constructor, unlock in the
    destructor) are what the project uses; a mutex is modelled as std::mutex is
    specified: lock() proceeds only when nobody has it. *)
From Coq Require Import List Arith Lia Bool.
Import ListNotations.

Section Mutex.
  Variable G : Type.                 (* the data guarded by one mutex *)
  Variable L : Type.                 (* what belongs to one thread, program counter included *)

  Inductive op :=
  | OLock (l : nat) (k : L)
  | OUnlock (l : nat) (k : L)
  | OStep (l : nat) (f : G -> G * L)
  | OLocal (k : L)
  | OStop.
  Variable next : L -> op.

  Definition upd {B} (f : nat -> B) (i : nat) (x : B) : nat -> B := fun j => if j =? i then x else f j.
  Lemma upd_eq {B} (f : nat -> B) i x : upd f i x i = x.
  Proof. unfold upd. now rewrite Nat.eqb_refl. Qed.
  Lemma upd_ne {B} (f : nat -> B) i j x : j <> i -> upd f i x j = f j.
  Proof. intros H. unfold upd. apply Nat.eqb_neq in H. now rewrite H. Qed.

  (** ** The machine *)
  Record conf := mk_conf { data : nat -> G; lock : nat -> option nat; thr : nat -> L }.

  Inductive step (t : nat) (c : conf) : conf -> Prop :=
  | s_lock l k : next (thr c t) = OLock l k -> lock c l = None ->
      step t c (mk_conf (data c) (upd (lock c) l (Some t)) (upd (thr c) t k))
  | s_unlock l k : next (thr c t) = OUnlock l k -> lock c l = Some t ->
      step t c (mk_conf (data c) (upd (lock c) l None) (upd (thr c) t k))
  | s_step l f g k : next (thr c t) = OStep l f -> f (data c l) = (g, k) ->
      step t c (mk_conf (upd (data c) l g) (lock c) (upd (thr c) t k))
  | s_local k : next (thr c t) = OLocal k -> step t c (mk_conf (data c) (lock c) (upd (thr c) t k)).

  (** Note that [s_step] does not check the mutex: nothing but the program text
      keeps a thread from touching data whose mutex it does not hold. *)

  Inductive steps (c : conf) : conf -> Prop :=
  | steps_refl : steps c c
  | steps_more c1 c2 t : steps c c1 -> step t c1 c2 -> steps c c2.

  (** ** The machine with atomic sections *)
  Record aconf := mk_aconf { adata : nat -> G; athr : nat -> L }.

  (** From inside the section on [l], run to just after its unlock. *)
  Inductive sect (l : nat) : L -> G -> L -> G -> Prop :=
  | sect_end k g k' : next k = OUnlock l k' -> sect l k g k' g
  | sect_step k g f g1 k1 k' g' : next k = OStep l f -> f g = (g1, k1) -> sect l k1 g1 k' g' -> sect l k g k' g'
  | sect_local k g k1 k' g' : next k = OLocal k1 -> sect l k1 g k' g' -> sect l k g k' g'.

  Inductive astep (t : nat) (a : aconf) : aconf -> Prop :=
  | a_section l k k' g' : next (athr a t) = OLock l k -> sect l k (adata a l) k' g' ->
      astep t a (mk_aconf (upd (adata a) l g') (upd (athr a) t k'))
  | a_local k : next (athr a t) = OLocal k -> astep t a (mk_aconf (adata a) (upd (athr a) t k)).

  Inductive asteps (a : aconf) : aconf -> Prop :=
  | asteps_refl : asteps a a
  | asteps_more a1 a2 t : asteps a a1 -> astep t a1 a2 -> asteps a a2.

  (** ** The discipline: guarded data is touched only inside the section, and
      sections do not nest.  [inside k] is the mutex held in state [k]; this is
      what the thread-safety annotations (GUARDED_BY etc.) express. *)
  Definition disciplined (inside : L -> option nat) : Prop :=
    forall k, match next k with
              | OLock l k' => inside k = None /\ inside k' = Some l
              | OUnlock l k' => inside k = Some l /\ inside k' = None
              | OStep l f => inside k = Some l /\ forall g, inside (snd (f g)) = Some l
              | OLocal k' => inside k' = inside k
              | OStop => True
              end.

  (** A part of a section that has not reached its unlock. *)
  Inductive part (l : nat) : L -> G -> L -> G -> Prop :=
  | part_refl k g : part l k g k g
  | part_step k0 g0 k g f g1 k1 : part l k0 g0 k g -> next k = OStep l f -> f g = (g1, k1) -> part l k0 g0 k1 g1
  | part_local k0 g0 k g k1 : part l k0 g0 k g -> next k = OLocal k1 -> part l k0 g0 k1 g.

  Lemma part_sect l k0 g0 k g k' g' : part l k0 g0 k g -> sect l k g k' g' -> sect l k0 g0 k' g'.
  Proof.
    intros P. revert k' g'. induction P; intros k' g' S; auto.
    - apply IHP. eapply sect_step; eauto.
    - apply IHP. eapply sect_local; eauto.
  Qed.

  Variable inside : L -> option nat.
  Hypothesis D : disciplined inside.

  (** The atomic machine is at the last point where each thread was outside. *)
  Record sim (c : conf) (a : aconf) : Prop := {
    sim_lock : forall t l, lock c l = Some t <-> inside (thr c t) = Some l;
    sim_data : forall l, lock c l = None -> adata a l = data c l;
    sim_out : forall t, inside (thr c t) = None -> athr a t = thr c t;
    sim_in : forall t l, inside (thr c t) = Some l ->
               exists k, next (athr a t) = OLock l k /\ part l k (adata a l) (thr c t) (data c l) }.

  Theorem sim_step c a t c' : sim c a -> step t c c' -> exists a', (a' = a \/ astep t a a') /\ sim c' a'.
  Proof.
    intros S St. pose proof (D (thr c t)) as Dt. destruct St as [l k E El|l k E El|l f g k E Ef|k E]; rewrite E in Dt.
    - (* lock *) destruct Dt as [D1 D2]. exists a. split; [auto|]. constructor; cbn [lock data thr].
      + intros t' l'. destruct (Nat.eq_dec t' t) as [->|Ht].
        * rewrite upd_eq, D2. destruct (Nat.eq_dec l' l) as [->|Hl].
          -- rewrite upd_eq. tauto.
          -- rewrite upd_ne by auto. rewrite (sim_lock _ _ S), D1. split; congruence.
        * rewrite (upd_ne (thr c)) by auto. destruct (Nat.eq_dec l' l) as [->|Hl].
          -- rewrite upd_eq. rewrite <- (sim_lock _ _ S), El. split; congruence.
          -- rewrite upd_ne by auto. apply (sim_lock _ _ S).
      + intros l' H. destruct (Nat.eq_dec l' l) as [->|Hl]; [rewrite upd_eq in H; discriminate|].
        rewrite upd_ne in H by auto. now apply (sim_data _ _ S).
      + intros t' H. destruct (Nat.eq_dec t' t) as [->|Ht]; [rewrite upd_eq in H; congruence|].
        rewrite upd_ne in H |- * by auto. now apply (sim_out _ _ S).
      + intros t' l' H. destruct (Nat.eq_dec t' t) as [->|Ht].
        * rewrite upd_eq in H |- *. assert (l' = l) by congruence. subst l'. exists k.
          rewrite (sim_out _ _ S t D1). split; [auto|]. rewrite (sim_data _ _ S l El). constructor.
        * rewrite upd_ne in H |- * by auto. now apply (sim_in _ _ S).
    - (* unlock *) destruct Dt as [D1 D2].
      destruct (sim_in _ _ S t l D1) as (k0 & E0 & P).
      assert (Sc : sect l k0 (adata a l) k (data c l)).
      { eapply part_sect; [exact P|]. now apply sect_end. }
      exists (mk_aconf (upd (adata a) l (data c l)) (upd (athr a) t k)).
      split; [right; eapply a_section; eauto|]. constructor; cbn [lock data thr adata athr].
      + intros t' l'. destruct (Nat.eq_dec t' t) as [->|Ht].
        * rewrite upd_eq, D2. destruct (Nat.eq_dec l' l) as [->|Hl]; [rewrite upd_eq; split; congruence|].
          rewrite upd_ne by auto. rewrite (sim_lock _ _ S), D1. split; congruence.
        * rewrite (upd_ne (thr c)) by auto. destruct (Nat.eq_dec l' l) as [->|Hl].
          -- rewrite upd_eq. split; [discriminate|]. intros H. apply (sim_lock _ _ S) in H. congruence.
          -- rewrite upd_ne by auto. apply (sim_lock _ _ S).
      + intros l' H. destruct (Nat.eq_dec l' l) as [->|Hl]; [now rewrite upd_eq|].
        rewrite upd_ne in H by auto. rewrite upd_ne by auto. now apply (sim_data _ _ S).
      + intros t' H. destruct (Nat.eq_dec t' t) as [->|Ht]; [now rewrite !upd_eq|].
        rewrite upd_ne in H by auto. rewrite !upd_ne by auto. now apply (sim_out _ _ S).
      + intros t' l' H. destruct (Nat.eq_dec t' t) as [->|Ht]; [rewrite upd_eq in H; congruence|].
        rewrite !(upd_ne _ t) in * by auto.
        assert (Hl : l' <> l).
        { intros ->. apply (sim_lock _ _ S) in H. congruence. }
        rewrite upd_ne by auto. now apply (sim_in _ _ S).
    - (* access *) destruct Dt as [D1 D2]. exists a. split; [auto|].
      assert (Ek : inside k = Some l) by (specialize (D2 (data c l)); rewrite Ef in D2; exact D2).
      constructor; cbn [lock data thr].
      + intros t' l'. destruct (Nat.eq_dec t' t) as [->|Ht].
        * rewrite upd_eq, Ek, <- D1. apply (sim_lock _ _ S).
        * rewrite upd_ne by auto. apply (sim_lock _ _ S).
      + intros l' H. destruct (Nat.eq_dec l' l) as [->|Hl].
        * apply (sim_lock _ _ S) in D1. congruence.
        * rewrite upd_ne by auto. now apply (sim_data _ _ S).
      + intros t' H. destruct (Nat.eq_dec t' t) as [->|Ht]; [rewrite upd_eq in H; congruence|].
        rewrite upd_ne in H |- * by auto. now apply (sim_out _ _ S).
      + intros t' l' H. destruct (Nat.eq_dec t' t) as [->|Ht].
        * rewrite upd_eq in H |- *. assert (l' = l) by congruence. subst l'. rewrite upd_eq.
          destruct (sim_in _ _ S t l D1) as (k0 & E0 & P). exists k0. split; [auto|]. eapply part_step; eauto.
        * rewrite (upd_ne (thr c)) in H |- * by auto.
          assert (Hl : l' <> l).
          { intros ->. apply (sim_lock _ _ S) in H, D1. congruence. }
          rewrite upd_ne by auto. now apply (sim_in _ _ S).
    - (* local *)
      destruct (inside (thr c t)) as [l|] eqn:Ein.
      + exists a. split; [auto|]. constructor; cbn [lock data thr].
        * intros t' l'. destruct (Nat.eq_dec t' t) as [->|Ht].
          -- rewrite upd_eq, Dt, <- Ein. apply (sim_lock _ _ S).
          -- rewrite upd_ne by auto. apply (sim_lock _ _ S).
        * apply (sim_data _ _ S).
        * intros t' H. destruct (Nat.eq_dec t' t) as [->|Ht]; [rewrite upd_eq in H; congruence|].
          rewrite upd_ne in H |- * by auto. now apply (sim_out _ _ S).
        * intros t' l' H. destruct (Nat.eq_dec t' t) as [->|Ht].
          -- rewrite upd_eq in H |- *. assert (l' = l) by congruence. subst l'.
             destruct (sim_in _ _ S t l Ein) as (k0 & E0 & P). exists k0. split; [auto|]. eapply part_local; eauto.
          -- rewrite upd_ne in H |- * by auto. now apply (sim_in _ _ S).
      + exists (mk_aconf (adata a) (upd (athr a) t k)). split.
        * right. apply a_local. rewrite (sim_out _ _ S t Ein). exact E.
        * constructor; cbn [lock data thr adata athr].
          -- intros t' l'. destruct (Nat.eq_dec t' t) as [->|Ht].
             ++ rewrite upd_eq, Dt, <- Ein. apply (sim_lock _ _ S).
             ++ rewrite upd_ne by auto. apply (sim_lock _ _ S).
          -- apply (sim_data _ _ S).
          -- intros t' H. destruct (Nat.eq_dec t' t) as [->|Ht]; [now rewrite !upd_eq|].
             rewrite upd_ne in H by auto. rewrite !upd_ne by auto. now apply (sim_out _ _ S).
          -- intros t' l' H. destruct (Nat.eq_dec t' t) as [->|Ht]; [rewrite upd_eq in H; congruence|].
             rewrite upd_ne in H by auto. rewrite !upd_ne by auto. now apply (sim_in _ _ S).
  Qed.

  (** Every execution is explained by one with atomic sections, step by step. *)
  Theorem atomic_sections d th c :
    (forall t, inside (th t) = None) ->
    steps (mk_conf d (fun _ => None) th) c -> exists a, asteps (mk_aconf d th) a /\ sim c a.
  Proof.
    intros H0 St. induction St as [|c1 c2 t St IH Sx].
    - exists (mk_aconf d th). split; [constructor|]. constructor; cbn [lock data thr adata athr]; auto.
      + intros t l. rewrite H0. split; discriminate.
      + intros t l H. rewrite H0 in H. discriminate.
    - destruct IH as (a & As & S). destruct (sim_step _ _ _ _ S Sx) as (a' & [->|Aa] & S').
      + eauto.
      + exists a'. split; [econstructor; eauto|auto].
  Qed.

  (** No two threads are ever at guarded data of the same mutex: no data race. *)
  Theorem no_data_race d th c t t' l f f' :
    (forall t, inside (th t) = None) -> steps (mk_conf d (fun _ => None) th) c ->
    next (thr c t) = OStep l f -> next (thr c t') = OStep l f' -> t = t'.
  Proof.
    intros H0 St E E'. destruct (atomic_sections d th c H0 St) as (a & _ & S).
    pose proof (D (thr c t)) as Dt. pose proof (D (thr c t')) as Dt'. rewrite E in Dt. rewrite E' in Dt'.
    destruct Dt as [Dt _], Dt' as [Dt' _]. apply (sim_lock _ _ S) in Dt, Dt'. congruence.
  Qed.
End Mutex.
