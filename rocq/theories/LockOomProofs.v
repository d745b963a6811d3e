(** LockOomProofs.v -- invariants for LockOomProps.v. *)
From Coq Require Import List Arith NArith ZArith Lia Bool Permutation.
From Verif Require Import Outcome Status MemEnv PosixOs FileLock FileLockSpec FileLockProofs LockOom LockOomSpec.
Import ListNotations.

Lemma memb_in i l : memb i l = true <-> In i l.
Proof. unfold memb. rewrite existsb_exists. split; [intros (x & H & E); apply Nat.eqb_eq in E; now subst|intros H; exists i; split; [exact H|apply Nat.eqb_refl]]. Qed.
Lemma memb_out i l : memb i l = false <-> ~ In i l.
Proof. rewrite <- memb_in. destruct (memb i l); split; congruence. Qed.

Lemma aget_adel_ne {A} (l : list (nat * A)) k j : k <> j -> aget (adel l j) k = aget l k.
Proof.
  intros H. unfold adel. induction l as [|[i x] l IH]; cbn [filter fst aget]; [reflexivity|].
  destruct (Nat.eqb_spec i j) as [->|Hn]; cbn [negb aget]; [destruct (Nat.eqb_spec j k); [congruence|exact IH]|].
  destruct (i =? k); [reflexivity|exact IH].
Qed.
Lemma in_adel {A} (l : list (nat * A)) k x j : In (k, x) l -> k <> j -> In (k, x) (adel l j).
Proof. intros H Hn. unfold adel. apply filter_In. split; [exact H|]. cbn [fst]. destruct (Nat.eqb_spec k j); [congruence|reflexivity]. Qed.

Section Proofs.
  Variable ino : str -> nat.
  Variable strerror : Z -> str.
  Notation gstep := (gstep ino strerror).
  Notation lstep := (lstep ino strerror).
  Notation lsteps := (lsteps ino strerror).
  Notation lreach := (lreach ino strerror).

  (** A lock object goes away only through UnlockFile. *)
  Lemma live_keep g a g' r id o : gstep g a = Some (g', r) -> In (id, o) (g_live g) -> a <> AUnlock id -> In (id, o) (g_live g').
  Proof.
    intros E H Hn. destruct a as [p n w|lid|jd ans]; cbn [FileLock.gstep] in E.
    - destruct w as [f|err]; cbn [start_lock] in E; [destruct (_ || _); [discriminate|]|]; injection E as <- _; exact H.
    - unfold start_unlock in E. destruct (aget (g_live g) lid); [|discriminate]. injection E as <- _. cbn [g_live]. apply in_adel; [exact H|congruence].
    - destruct (aget (g_ops g) jd) as [c|]; [|discriminate].
      destruct c; cbn [op_step] in E;
        repeat match type of E with
        | context [t_has ?x ?y] => destruct (t_has x y)
        | context [k_close ?x ?y ?z] => destruct (k_close x y z)
        | context [file_of ?x ?y ?z] => destruct (file_of x y z)
        | context [match g_lock ?x ?y with _ => _ end] => destruct (g_lock x y)
        | context [Z.eqb ?x ?y] => destruct (Z.eqb x y)
        | context [if negb ?b then _ else _] => destruct b; cbn [negb] in E
        end; try discriminate; injection E as <- _; cbn [g_live set_ops]; try exact H; right; exact H.
  Qed.
  (** A call goes on only by its own steps. *)
  Lemma op_keep g a g' r id c : gstep g a = Some (g', r) -> aget (g_ops g) id = Some c -> id < g_next g -> (forall ans, a <> AStep id ans) -> aget (g_ops g') id = Some c.
  Proof.
    intros E H Hid Hn. destruct a as [p n w|lid|jd ans]; cbn [FileLock.gstep] in E.
    - destruct w as [f|err]; cbn [start_lock] in E; [destruct (_ || _); [discriminate|]|]; injection E as <- _; cbn [g_ops]; [|exact H].
      cbn [aget]. destruct (Nat.eqb_spec (g_next g) id); [lia|exact H].
    - unfold start_unlock in E. destruct (aget (g_live g) lid); [|discriminate]. injection E as <- _. cbn [g_ops aget].
      destruct (Nat.eqb_spec (g_next g) id); [lia|exact H].
    - assert (Hj : jd <> id) by (intros ->; now apply (Hn ans)).
      destruct (aget (g_ops g) jd) as [d|]; [|discriminate].
      assert (K : aget (adel (g_ops g) jd) id = Some c) by (rewrite aget_adel_ne by congruence; exact H).
      destruct d; cbn [op_step] in E;
        repeat match type of E with
        | context [t_has ?x ?y] => destruct (t_has x y)
        | context [k_close ?x ?y ?z] => destruct (k_close x y z)
        | context [file_of ?x ?y ?z] => destruct (file_of x y z)
        | context [match g_lock ?x ?y with _ => _ end] => destruct (g_lock x y)
        | context [Z.eqb ?x ?y] => destruct (Z.eqb x y)
        | context [if negb ?b then _ else _] => destruct b; cbn [negb] in E
        end; try discriminate; injection E as <- _; cbn [g_ops set_ops aget]; try exact K;
        (destruct (Nat.eqb_spec jd id); [congruence|exact K]).
  Qed.

  Lemma lsteps_snoc allowed l acts l1 a l2 r : lsteps allowed l acts l1 -> lallow allowed l1 a -> lstep l1 a = Some (l2, r) -> lsteps allowed l (acts ++ [a]) l2.
  Proof.
    intros H. revert a l2 r. induction H as [l|l b l1 r1 acts l' A E H IH]; intros a l2 r Aa Ea; [econstructor; [exact Aa|exact Ea|constructor]|].
    cbn [app]. econstructor; [exact A|exact E|]. eapply IH; eauto.
  Qed.
  Lemma lreach_step allowed l a l' r : lreach allowed l -> lallow allowed l a -> lstep l a = Some (l', r) -> lreach allowed l'.
  Proof. intros (acts & H) A E. exists (acts ++ [a]). eapply lsteps_snoc; eauto. Qed.
  Lemma lsteps_ind' allowed (P : lstate -> Prop) l : lreach allowed l -> P l -> (forall l a l' r, lreach allowed l -> P l -> lallow allowed l a -> lstep l a = Some (l', r) -> P l') ->
    forall acts l', lsteps allowed l acts l' -> P l'.
  Proof.
    intros R H0 Hs acts l' H. revert R H0. induction H as [l|l a l1 r acts l' A E H IH]; intros R Q; [exact Q|].
    apply IH; [eapply lreach_step; eauto|eapply Hs; eauto].
  Qed.
  Lemma lreach_ind' allowed (P : lstate -> Prop) : P l0 -> (forall l a l' r, lreach allowed l -> P l -> lallow allowed l a -> lstep l a = Some (l', r) -> P l') -> forall l, lreach allowed l -> P l.
  Proof. intros H0 Hs l (acts & H). eapply lsteps_ind'; [exists []; constructor|exact H0|exact Hs|exact H]. Qed.

  (** Underneath, the runs are FileLock.v's. *)
  Lemma lstep_g l a l' r : lstep l a = Some (l', r) ->
    (exists b q, gstep (l_g l) b = Some (l_g l', q) /\ (a = LStep b \/ exists id, a = LThrowNew id /\ b = AStep id 0)) \/ (exists id, a = LThrowInsert id /\ l_g l' = l_g l).
  Proof.
    intros E. destruct a as [b|id|id]; cbn [LockOom.lstep] in E.
    - destruct (match b with ALock _ _ _ => _ | _ => _ end); [discriminate|]. destruct (gstep (l_g l) b) as [[g' q]|] eqn:Eg; [|discriminate]. injection E as <- _. left. exists b, q. auto.
    - right. destruct (memb id (l_over l)); [discriminate|]. destruct (aget (g_ops (l_g l)) id) as [[]|]; try discriminate. destruct (_ || _); [discriminate|]. injection E as <- _. eauto.
    - left. destruct (aget (g_ops (l_g l)) id) as [[]|]; try discriminate. destruct (gstep (l_g l) (AStep id 0)) as [[g' [[]|]]|] eqn:Eg; try discriminate. injection E as <- _. exists (AStep id 0), (Some SOk). eauto.
  Qed.
  Lemma lreach_g allowed l : lreach allowed l -> greach ino strerror allowed (l_g l).
  Proof.
    apply (lreach_ind' allowed (fun l => greach ino strerror allowed (l_g l))); [constructor|]. intros l1 a l2 r _ R A E. destruct (lstep_g _ _ _ _ E) as [(b & q & Eg & [->|(id & -> & ->)])|(id & -> & ->)]; [| |exact R].
    - eapply gr_step; eauto.
    - eapply gr_step; eauto.
  Qed.

  (** Lost locks and failed calls stay. *)
  Lemma lost_keep l a l' r id o : lstep l a = Some (l', r) -> In (id, o) (g_live (l_g l)) -> In id (l_lost l) -> In (id, o) (g_live (l_g l')) /\ In id (l_lost l').
  Proof.
    intros E H L. destruct a as [b|jd|jd]; cbn [LockOom.lstep] in E.
    - destruct (match b with ALock _ _ _ => _ | _ => _ end) eqn:Eb; [discriminate|]. destruct (gstep (l_g l) b) as [[g' q]|] eqn:Eg; [|discriminate]. injection E as <- _. cbn [l_g l_lost].
      split; [|exact L]. eapply live_keep; [exact Eg|exact H|]. intros ->. apply memb_in in L. congruence.
    - destruct (memb jd (l_over l)); [discriminate|]. destruct (aget (g_ops (l_g l)) jd) as [[]|]; try discriminate. destruct (_ || _); [discriminate|]. injection E as <- _. auto.
    - destruct (aget (g_ops (l_g l)) jd) as [[]|]; try discriminate. destruct (gstep (l_g l) (AStep jd 0)) as [[g' [[]|]]|] eqn:Eg; try discriminate. injection E as <- _. cbn [l_g l_lost In].
      split; [|now right]. eapply live_keep; [exact Eg|exact H|discriminate].
  Qed.
  Lemma stuck_keep l a l' r p : lstep l a = Some (l', r) -> l_stuck l p = true -> l_stuck l' p = true.
  Proof.
    intros E H. destruct a as [b|jd|jd]; cbn [LockOom.lstep] in E.
    - destruct (match b with ALock _ _ _ => _ | _ => _ end); [discriminate|]. destruct (gstep (l_g l) b) as [[g' q]|]; [|discriminate]. injection E as <- _. exact H.
    - destruct (memb jd (l_over l)); [discriminate|]. destruct (aget (g_ops (l_g l)) jd) as [[q n f|q n f|q n f|q n f e|q n e|i o|o|o]|]; try discriminate. destruct (_ || _); [discriminate|]. injection E as <- _. cbn [l_stuck].
      unfold fupd. destruct (p =? q); [reflexivity|exact H].
    - destruct (aget (g_ops (l_g l)) jd) as [[]|]; try discriminate. destruct (gstep (l_g l) (AStep jd 0)) as [[g' [[]|]]|]; try discriminate. injection E as <- _. exact H.
  Qed.
  (** A call that is over holds its descriptor, and its process's table is stuck. *)
  Definition LInv (l : lstate) : Prop :=
    (forall id, In id (l_over l) -> exists p n fd, aget (g_ops (l_g l)) id = Some (PInsert p n fd) /\ l_stuck l p = true) /\
    (forall p, l_stuck l p = true -> exists id n fd, In id (l_over l) /\ aget (g_ops (l_g l)) id = Some (PInsert p n fd)) /\
    (forall id, In id (l_lost l) -> exists o, In (id, o) (g_live (l_g l))).
  Lemma op_next g id c : GInv ino g -> aget (g_ops g) id = Some c -> id < g_next g.
  Proof. intros I H. apply (gi_new _ g I). unfold ids. apply in_or_app. left. apply aget_in in H. apply in_map_iff. exists (id, c). auto. Qed.
  Lemma over_keep allowed l a l' r id c : lreach allowed l -> lstep l a = Some (l', r) -> In id (l_over l) -> aget (g_ops (l_g l)) id = Some c ->
    (exists p n fd, c = PInsert p n fd) -> aget (g_ops (l_g l')) id = Some c /\ In id (l_over l').
  Proof.
    intros R E L H (p & n & fd & Ec). pose proof (ginv _ _ _ _ (lreach_g _ _ R)) as I. pose proof (op_next _ _ _ I H) as Hn.
    destruct a as [b|jd|jd]; cbn [LockOom.lstep] in E.
    - destruct (match b with ALock _ _ _ => _ | _ => _ end) eqn:Eb; [discriminate|]. destruct (gstep (l_g l) b) as [[g' q]|] eqn:Eg; [|discriminate]. injection E as <- _. cbn [l_g l_over].
      split; [|exact L]. eapply op_keep; [exact Eg|exact H|exact Hn|]. intros ans ->. apply orb_false_iff in Eb as (Eb & _). apply memb_in in L. congruence.
    - destruct (memb jd (l_over l)); [discriminate|]. destruct (aget (g_ops (l_g l)) jd) as [[]|]; try discriminate. destruct (_ || _); [discriminate|]. injection E as <- _. cbn [l_g l_over In]. auto.
    - destruct (aget (g_ops (l_g l)) jd) as [[q m f|q m f|q m f|q m f e|q m e|i o|o|o]|] eqn:Ej; try discriminate. destruct (gstep (l_g l) (AStep jd 0)) as [[g' [[]|]]|] eqn:Eg; try discriminate. injection E as <- _. cbn [l_g l_over].
      split; [|exact L]. eapply op_keep; [exact Eg|exact H|exact Hn|]. intros ans X. injection X as -> _. congruence.
  Qed.
  Lemma linv_step allowed l a l' r : lreach allowed l -> LInv l -> lstep l a = Some (l', r) -> LInv l'.
  Proof.
    intros R (A & B & C) E. split; [|split].
    - intros id Hid. assert (Q : In id (l_over l) \/ (a = LThrowInsert id /\ exists p n fd, aget (g_ops (l_g l)) id = Some (PInsert p n fd) /\ l_g l' = l_g l /\ l_stuck l' p = true)).
      { destruct a as [b|jd|jd]; cbn [LockOom.lstep] in E.
        - destruct (match b with ALock _ _ _ => _ | _ => _ end); [discriminate|]. destruct (gstep (l_g l) b) as [[g' q]|]; [|discriminate]. injection E as <- _. left. exact Hid.
        - destruct (memb jd (l_over l)); [discriminate|]. destruct (aget (g_ops (l_g l)) jd) as [[q n f|q n f|q n f|q n f e|q n e|i o|o|o]|] eqn:Ej; try discriminate. destruct (_ || _); [discriminate|]. injection E as <- _. cbn [l_over In] in Hid. cbn [l_g l_stuck].
          destruct Hid as [->|Hid]; [|left; exact Hid]. right. split; [reflexivity|]. exists q, n, f. repeat split; auto. unfold fupd. now rewrite Nat.eqb_refl.
        - destruct (aget (g_ops (l_g l)) jd) as [[]|]; try discriminate. destruct (gstep (l_g l) (AStep jd 0)) as [[g' [[]|]]|]; try discriminate. injection E as <- _. left. exact Hid. }
      destruct Q as [Q|(_ & p & n & fd & H & Hg & Hs)].
      + destruct (A id Q) as (p & n & fd & H & Hs). destruct (over_keep _ _ _ _ _ _ _ R E Q H ltac:(eauto)) as (K & _). exists p, n, fd. split; [exact K|]. eapply stuck_keep; eauto.
      + exists p, n, fd. rewrite Hg. auto.
    - intros p Hp. assert (Q : l_stuck l p = true \/ exists id n fd, In id (l_over l') /\ aget (g_ops (l_g l')) id = Some (PInsert p n fd)).
      { destruct a as [b|jd|jd]; cbn [LockOom.lstep] in E.
        - destruct (match b with ALock _ _ _ => _ | _ => _ end); [discriminate|]. destruct (gstep (l_g l) b) as [[g' q]|]; [|discriminate]. injection E as <- _. left. exact Hp.
        - destruct (memb jd (l_over l)); [discriminate|]. destruct (aget (g_ops (l_g l)) jd) as [[q n f|q n f|q n f|q n f e|q n e|i o|o|o]|] eqn:Ej; try discriminate. destruct (_ || _); [discriminate|]. injection E as <- _. cbn [l_stuck] in Hp. cbn [l_g l_over].
          unfold fupd in Hp. destruct (Nat.eqb_spec p q) as [Hq|Hq]; [|left; exact Hp]. right. exists jd, n, f. split; [now left|rewrite Hq; exact Ej].
        - destruct (aget (g_ops (l_g l)) jd) as [[]|]; try discriminate. destruct (gstep (l_g l) (AStep jd 0)) as [[g' [[]|]]|]; try discriminate. injection E as <- _. left. exact Hp. }
      destruct Q as [Q|Q]; [|exact Q]. destruct (B p Q) as (id & n & fd & H1 & H2). destruct (over_keep _ _ _ _ _ _ _ R E H1 H2 ltac:(eauto)) as (K1 & K2). eauto.
    - intros id Hid. assert (Q : In id (l_lost l) \/ exists o, In (id, o) (g_live (l_g l'))).
      { destruct a as [b|jd|jd]; cbn [LockOom.lstep] in E.
        - destruct (match b with ALock _ _ _ => _ | _ => _ end); [discriminate|]. destruct (gstep (l_g l) b) as [[g' q]|]; [|discriminate]. injection E as <- _. left. exact Hid.
        - destruct (memb jd (l_over l)); [discriminate|]. destruct (aget (g_ops (l_g l)) jd) as [[]|]; try discriminate. destruct (_ || _); [discriminate|]. injection E as <- _. left. exact Hid.
        - destruct (aget (g_ops (l_g l)) jd) as [[q m f|q m f|q m f|q m f e|q m e|i o|o|o]|] eqn:Ej; try discriminate. destruct (gstep (l_g l) (AStep jd 0)) as [[g' [[]|]]|] eqn:Eg; try discriminate. injection E as <- _. cbn [l_lost In] in Hid.
          destruct Hid as [->|Hid]; [|left; exact Hid]. right. cbn [l_g]. cbn [FileLock.gstep] in Eg. rewrite Ej in Eg. cbn [op_step] in Eg.
          destruct (file_of (g_fds (l_g l)) q f); [|discriminate]. destruct (match g_lock (l_g l) n with Some x => negb (x =? q) | None => false end); cbn [Z.eqb] in Eg; [discriminate|].
          injection Eg as <-. eexists. left. reflexivity. }
      destruct Q as [Q|Q]; [|exact Q]. destruct (C id Q) as (o & Ho). destruct (lost_keep _ _ _ _ _ _ E Ho Q). eauto.
  Qed.
  Lemma linv allowed l : lreach allowed l -> LInv l.
  Proof.
    apply (lreach_ind' allowed LInv).
    - split; [|split]; [intros ? []|intros ? X; discriminate X|intros ? []].
    - intros l1 a l2 r R I _ E. eapply linv_step; eauto.
  Qed.

  (** The table of a stuck process does not change any more. *)
  Lemma stuck_table l a l' r p : lstep l a = Some (l', r) -> l_stuck l p = true -> g_table (l_g l') p = g_table (l_g l) p.
  Proof.
    intros E H. destruct a as [b|jd|jd]; cbn [LockOom.lstep] in E.
    - destruct (match b with ALock _ _ _ => _ | _ => _ end) eqn:Eb; [discriminate|]. destruct (gstep (l_g l) b) as [[g' q]|] eqn:Eg; [|discriminate]. injection E as <- _. cbn [l_g].
      destruct b as [q' n w|lid|jd ans]; cbn [FileLock.gstep] in Eg.
      + destruct w as [f|err]; cbn [start_lock] in Eg; [destruct (_ || _); [discriminate|]|]; injection Eg as <- _; reflexivity.
      + unfold start_unlock in Eg. destruct (aget (g_live (l_g l)) lid); [|discriminate]. injection Eg as <- _. reflexivity.
      + apply orb_false_iff in Eb as (_ & Eb). destruct (aget (g_ops (l_g l)) jd) as [d|]; [|discriminate].
        assert (Hu : forall x, table_user d = Some x -> x <> p) by (intros x Hx ->; rewrite Hx in Eb; congruence).
        destruct d; cbn [op_step table_user] in Eg, Hu;
          repeat match type of Eg with
          | context [t_has ?x ?y] => destruct (t_has x y)
          | context [k_close ?x ?y ?z] => destruct (k_close x y z)
          | context [file_of ?x ?y ?z] => destruct (file_of x y z)
          | context [match g_lock ?x ?y with _ => _ end] => destruct (g_lock x y)
          | context [Z.eqb ?x ?y] => destruct (Z.eqb x y)
          | context [if negb ?b then _ else _] => destruct b; cbn [negb] in Eg
          end; try discriminate; injection Eg as <- _; cbn [g_table set_ops]; try reflexivity;
          specialize (Hu _ eq_refl); unfold fupd; match goal with |- context [?a =? ?b] => destruct (Nat.eqb_spec a b); [congruence|reflexivity] end.
    - destruct (memb jd (l_over l)); [discriminate|]. destruct (aget (g_ops (l_g l)) jd) as [[]|]; try discriminate. destruct (_ || _); [discriminate|]. injection E as <- _. reflexivity.
    - destruct (aget (g_ops (l_g l)) jd) as [[q m f|q m f|q m f|q m f e|q m e|i o|o|o]|] eqn:Ej; try discriminate. destruct (gstep (l_g l) (AStep jd 0)) as [[g' [[]|]]|] eqn:Eg; try discriminate. injection E as <- _. cbn [l_g].
      cbn [FileLock.gstep] in Eg. rewrite Ej in Eg. cbn [op_step] in Eg. destruct (file_of (g_fds (l_g l)) q f); [|discriminate].
      destruct (match g_lock (l_g l) n with Some x => negb (x =? q) | None => false end); cbn [Z.eqb] in Eg; [discriminate|]. injection Eg as <-. reflexivity.
  Qed.
End Proofs.
