(** Heap.v -- a small library of finite heaps.

    A heap maps live addresses to contents.  It is an association list with at
    most one entry per address ([hput] removes an old entry), so the list of
    live addresses is explicit.  An allocator is any function choosing a
    non-live, non-null address from the list of live addresses: operator new
    may reuse freed addresses. *)
From Coq Require Import List Arith Lia Bool Permutation.
Import ListNotations.

Definition heap (A : Type) := list (nat * A).

Section Heap.
  Context {A : Type}.
  Implicit Types (h : heap A) (a b : nat) (x y : A).

  Fixpoint hget h a : option A :=
    match h with
    | [] => None
    | (b, x) :: t => if a =? b then Some x else hget t a
    end.

  Fixpoint hdel h a : heap A :=
    match h with
    | [] => []
    | (b, x) :: t => if a =? b then hdel t a else (b, x) :: hdel t a
    end.

  Definition hput h a x : heap A := (a, x) :: hdel h a.

  Definition dom h : list nat := map fst h.

  Lemma hget_hdel_eq h a : hget (hdel h a) a = None.
  Proof.
    induction h as [|[b x] t IH]; cbn; auto.
    destruct (a =? b) eqn:E; auto. cbn. now rewrite E.
  Qed.

  Lemma hget_hdel_ne h a b : a <> b -> hget (hdel h a) b = hget h b.
  Proof.
    intros Hn. induction h as [|[c x] t IH]; cbn; auto.
    destruct (a =? c) eqn:E; cbn.
    - apply Nat.eqb_eq in E; subst c.
      destruct (b =? a) eqn:E2; auto. apply Nat.eqb_eq in E2; congruence.
    - now rewrite IH.
  Qed.

  Lemma hget_hdel h a b : hget (hdel h a) b = if b =? a then None else hget h b.
  Proof.
    destruct (b =? a) eqn:E.
    - apply Nat.eqb_eq in E; subst; apply hget_hdel_eq.
    - apply Nat.eqb_neq in E. apply hget_hdel_ne; congruence.
  Qed.

  Lemma hget_hput_eq h a x : hget (hput h a x) a = Some x.
  Proof. cbn. now rewrite Nat.eqb_refl. Qed.

  Lemma hget_hput_ne h a b x : a <> b -> hget (hput h a x) b = hget h b.
  Proof.
    intros Hn. cbn. destruct (b =? a) eqn:E.
    - apply Nat.eqb_eq in E; congruence.
    - now apply hget_hdel_ne.
  Qed.

  Lemma hget_hput h a b x : hget (hput h a x) b = if b =? a then Some x else hget h b.
  Proof.
    destruct (b =? a) eqn:E.
    - apply Nat.eqb_eq in E; subst; apply hget_hput_eq.
    - apply Nat.eqb_neq in E. apply hget_hput_ne; congruence.
  Qed.

  Lemma dom_hget h a : In a (dom h) <-> exists x, hget h a = Some x.
  Proof.
    induction h as [|[b x] t IH]; cbn.
    - split; [tauto | intros [y Hy]; discriminate].
    - destruct (a =? b) eqn:E.
      + apply Nat.eqb_eq in E; subst. split; eauto.
      + apply Nat.eqb_neq in E. rewrite IH. split; [intros [|]; [congruence|auto] | auto].
  Qed.

  Lemma not_dom_hget h a : ~ In a (dom h) <-> hget h a = None.
  Proof.
    rewrite dom_hget. destruct (hget h a); split; intros H; try discriminate; auto.
    - exfalso; apply H; eauto.
    - intros [y Hy]; discriminate.
  Qed.

  Lemma dom_hdel h a b : In b (dom (hdel h a)) <-> In b (dom h) /\ b <> a.
  Proof.
    rewrite !dom_hget. rewrite hget_hdel. destruct (b =? a) eqn:E.
    - apply Nat.eqb_eq in E; subst. split; [intros [? ?]; discriminate | tauto].
    - apply Nat.eqb_neq in E. tauto.
  Qed.

  Definition hwf h : Prop := NoDup (dom h).

  Lemma hwf_nil : hwf [].
  Proof. constructor. Qed.

  Lemma hwf_hdel h a : hwf h -> hwf (hdel h a).
  Proof.
    unfold hwf. induction h as [|[b x] t IH]; cbn; auto.
    intros H; inversion H; subst. destruct (a =? b); auto.
    cbn. constructor; auto. rewrite dom_hdel. tauto.
  Qed.

  Lemma hwf_hput h a x : hwf h -> hwf (hput h a x).
  Proof.
    intros H. unfold hwf. cbn. constructor.
    - rewrite dom_hdel. tauto.
    - now apply hwf_hdel.
  Qed.

  Lemma hdel_notin h a : hget h a = None -> hdel h a = h.
  Proof.
    induction h as [|[b x] t IH]; cbn; auto.
    destruct (a =? b) eqn:E; [discriminate|]. intros H. now rewrite IH.
  Qed.

  Lemma heap_empty h : (forall a, hget h a = None) -> h = [].
  Proof.
    destruct h as [|[b x] t]; auto. intros H. specialize (H b). cbn in H.
    rewrite Nat.eqb_refl in H. discriminate.
  Qed.
End Heap.

(** operator new: the chosen address is not live and not null. *)
Definition allocator := list nat -> nat.
Definition allocator_ok (alc : allocator) : Prop :=
  forall live, ~ In (alc live) live /\ alc live <> 0.

(** Two concrete allocators meeting the contract: one never reuses an address
    while anything above it is live, the other reuses the lowest free one. *)
Definition alc_bump : allocator := fun live => S (list_max live).

Lemma alc_bump_ok : allocator_ok alc_bump.
Proof.
  intros live. unfold alc_bump. split; [|lia].
  intros H. assert (Hm : Forall (fun k => k <= list_max live) live)
    by (apply list_max_le; lia).
  rewrite Forall_forall in Hm. specialize (Hm _ H). lia.
Qed.

Fixpoint first_free (live : list nat) (n k : nat) : nat :=
  match n with
  | O => k
  | S n' => if existsb (Nat.eqb k) live then first_free live n' (S k) else k
  end.
Definition alc_reuse : allocator := fun live => first_free live (S (list_max live)) 1.

Lemma alc_reuse_ok : allocator_ok alc_reuse.
Proof.
  intros live. unfold alc_reuse.
  assert (H : forall n k, 1 <= k -> S (list_max live) <= n + k ->
             ~ In (first_free live n k) live /\ first_free live n k <> 0).
  { induction n as [|n IH]; intros k Hk Hn; cbn.
    - split; [|lia]. intros Hin.
      assert (Hm : Forall (fun j => j <= list_max live) live)
        by (apply list_max_le; lia).
      rewrite Forall_forall in Hm. specialize (Hm _ Hin). lia.
    - destruct (existsb (Nat.eqb k) live) eqn:E.
      + apply IH; lia.
      + split; [|lia]. intros Hin.
        assert (existsb (Nat.eqb k) live = true); [|congruence].
        apply existsb_exists. exists k. split; auto. apply Nat.eqb_refl. }
  apply H; lia.
Qed.
