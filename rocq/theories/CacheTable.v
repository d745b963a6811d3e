(** CacheTable.v -- the hash table of the cache holds exactly the entries put
    into it: lemmas about FindPointer, Lookup, Insert, Remove and Resize. *)
From Coq Require Import List Arith NArith Lia Bool Permutation.
From Verif Require Import Outcome Heap Cache CacheHeap.
Import ListNotations.
Local Open Scope outcome_scope.

Lemma bytes_eqb_eq a : forall b, bytes_eqb a b = true <-> a = b.
Proof.
  induction a as [|x a IH]; intros [|y b]; cbn; split; intros H; try discriminate; auto.
  - apply andb_true_iff in H as [H1 H2]. apply N.eqb_eq in H1. apply IH in H2. congruence.
  - inversion H; subst. rewrite N.eqb_refl. cbn. now apply IH.
Qed.

(** ** set_nth *)
Lemma set_nth_length {A} (x : A) l : forall i, length (set_nth i x l) = length l.
Proof. induction l as [|y l IH]; intros [|i]; cbn; auto. Qed.

Lemma nth_error_set_nth {A} (x : A) l : forall i j,
  nth_error (set_nth i x l) j =
  if j =? i then (if i <? length l then Some x else None) else nth_error l j.
Proof.
  induction l as [|y l IH]; intros i j.
  - cbn. destruct (j =? i) eqn:E; [|destruct i, j; reflexivity].
    destruct i; cbn; destruct j; reflexivity.
  - destruct i as [|i]; destruct j as [|j]; cbn; auto.
    rewrite IH. destruct (j =? i); auto.
Qed.

Lemma set_nth_same {A} (x : A) l : forall i, nth_error l i = Some x -> set_nth i x l = l.
Proof.
  induction l as [|y l IH]; intros [|i]; cbn; intros H; try discriminate; auto.
  - congruence.
  - now rewrite IH.
Qed.

Lemma Forall2_set_nth {A B} (R : A -> B -> Prop) l l' : forall i x y,
  Forall2 R l l' -> R x y -> Forall2 R (set_nth i x l) (set_nth i y l').
Proof.
  intros i x y F H. revert i. induction F as [|a b l l' R1 F IH]; intros [|i]; cbn; constructor; auto.
Qed.

Lemma Forall2_nth_l {A B} (R : A -> B -> Prop) l l' : forall i x,
  Forall2 R l l' -> nth_error l i = Some x -> exists y, nth_error l' i = Some y /\ R x y.
Proof.
  intros i x F. revert i x. induction F as [|a b l l' R1 F IH]; intros [|i] x H; cbn in *; try discriminate.
  - inversion H; subst; eauto.
  - eauto.
Qed.

Lemma concat_set_nth {A} (cs : list (list A)) : forall i c c',
  nth_error cs i = Some c ->
  exists r, Permutation (concat cs) (c ++ r) /\ Permutation (concat (set_nth i c' cs)) (c' ++ r).
Proof.
  induction cs as [|x cs IH]; intros [|i] c c' H; cbn in *; try discriminate.
  - inversion H; subst. exists (concat cs). split; reflexivity.
  - destruct (IH i c c' H) as (r & P1 & P2). exists (x ++ r). split.
    + rewrite P1. rewrite !app_assoc. apply Permutation_app_tail. apply Permutation_app_comm.
    + rewrite P2. rewrite !app_assoc. apply Permutation_app_tail. apply Permutation_app_comm.
Qed.

(** ** Bucket chains *)
Fixpoint hchain (h : heap node) (p : nat) (l : list nat) : Prop :=
  match l with
  | [] => p = 0
  | a :: l' => p = a /\ a <> 0 /\ exists q, fld n_next_hash h a = Some q /\ hchain h q l'
  end.

Lemma hchain_frame h h' l : forall p,
  (forall a, In a l -> fld n_next_hash h' a = fld n_next_hash h a) ->
  hchain h p l -> hchain h' p l.
Proof.
  induction l as [|a l IH]; intros p F; cbn; auto.
  intros (E & N & q & Q & C). split; [auto|]. split; [auto|].
  exists q. split; [rewrite F by (cbn; auto); auto|]. apply IH; auto.
  intros b Hb. apply F. cbn; auto.
Qed.

Lemma hchain_hd h p l : hchain h p l -> p = hd 0 l.
Proof. destruct l; cbn; tauto. Qed.

Lemma hchain_live h l : forall p a, hchain h p l -> In a l -> live h a /\ a <> 0.
Proof.
  induction l as [|b l IH]; intros p a; cbn; [tauto|].
  intros (E & N & q & Q & C) [->|H]; [|eauto]. split; auto. eapply fld_live; eauto.
Qed.

(** The pointer after a non-empty prefix is the next_hash of its last node. *)
Lemma hchain_last h l1 : forall p rest,
  l1 <> [] -> hchain h p (l1 ++ rest) ->
  exists q, fld n_next_hash h (last l1 0) = Some q /\ hchain h q rest.
Proof.
  induction l1 as [|a l1 IH]; intros p rest Hn; [congruence|].
  intros (E & N & q & Q & C). destruct l1 as [|b l1]; [cbn; eauto|].
  change (last (a :: b :: l1) 0) with (last (b :: l1) 0). eapply IH; [discriminate|exact C].
Qed.

Lemma hchain_replace h h' l1 : forall p rest r' x,
  l1 <> [] -> NoDup l1 -> hchain h p (l1 ++ rest) ->
  fld n_next_hash h' (last l1 0) = Some x ->
  (forall a, In a l1 -> a <> last l1 0 -> fld n_next_hash h' a = fld n_next_hash h a) ->
  hchain h' x r' -> hchain h' p (l1 ++ r').
Proof.
  induction l1 as [|a l1 IH]; intros p rest r' x Hn ND H L F C; [congruence|].
  destruct H as (E & N & q & Q & C1). cbn. split; [auto|]. split; [auto|].
  destruct l1 as [|b l1].
  - cbn in L. exists x. split; auto.
  - change (last (a :: b :: l1) 0) with (last (b :: l1) 0) in *.
    inversion ND; subst.
    exists q. split.
    + rewrite F; auto; [cbn; auto|]. intros ->. apply H1. apply last_in. discriminate.
    + eapply IH; eauto; [discriminate|]. intros c Hc. apply F. right; auto.
Qed.

Definition matches (h : heap node) (key : bytes) (hash : N) (a : nat) : Prop :=
  fld (fun n => (n_hash n, n_key n)) h a = Some (hash, key).

Definition loc_of (l0 : loc) (l1 : list nat) : loc :=
  match l1 with [] => l0 | _ => NextHash (last l1 0) end.

Lemma loc_of_cons a l1 : loc_of (NextHash a) l1 = loc_of (Bucket 0) (a :: l1).
Proof. destruct l1; reflexivity. Qed.

Lemma load_NextHash h lg tab a q :
  fld n_next_hash h a = Some q -> load_loc (mk_mem h lg) tab (NextHash a) = Ret q.
Proof.
  intros H. apply fld_Some in H as (n & Hn & Hq). cbn [load_loc].
  rewrite (get_live _ _ _ _ Hn). cbn [bind]. now rewrite Hq.
Qed.

Lemma find_loop_spec dbg h lg tab key hash l : forall fuel l0 p,
  load_loc (mk_mem h lg) tab l0 = Ret p -> hchain h p l -> length l < fuel ->
  (forall a, In a l -> fld n_next h a <> Some a) ->
  exists l1 rest, l = l1 ++ rest /\
    find_loop fuel dbg (mk_mem h lg) tab key hash l0 = Ret (loc_of l0 l1) /\
    (forall a, In a l1 -> ~ matches h key hash a) /\
    match rest with [] => True | a :: _ => matches h key hash a end.
Proof.
  induction l as [|a l IH]; intros fuel l0 p Hl Hc Hf Hs; destruct fuel as [|fuel]; cbn in Hf; try lia.
  - cbn in Hc. subst p. exists [], []. cbn [find_loop]. rewrite Hl. cbn. tauto.
  - destruct Hc as (-> & Na & q & Q & C).
    cbn [find_loop]. rewrite Hl. cbn [bind].
    apply Nat.eqb_neq in Na. rewrite Na. apply Nat.eqb_neq in Na.
    pose proof Q as Q'. apply fld_Some in Q' as (n & Hn & Hq).
    rewrite (get_live _ _ _ _ Hn). cbn [bind].
    assert (Hm : matches h key hash a <-> n_hash n = hash /\ n_key n = key).
    { unfold matches, fld. rewrite Hn. cbn. split; [intros E; inversion E; auto|intros [-> ->]; auto]. }
    assert (Hrec : ~ matches h key hash a ->
      exists l1 rest, a :: l = l1 ++ rest /\
        find_loop fuel dbg (mk_mem h lg) tab key hash (NextHash a) = Ret (loc_of l0 l1) /\
        (forall b, In b l1 -> ~ matches h key hash b) /\
        match rest with [] => True | b :: _ => matches h key hash b end).
    { intros Hna.
      destruct (IH fuel (NextHash a) q) as (l1 & rest & E1 & E2 & E3 & E4); auto.
      - now apply load_NextHash.
      - lia.
      - intros b Hb. apply Hs. right; auto.
      - exists (a :: l1), rest. split; [cbn; congruence|]. split; [|split; [|exact E4]].
        + rewrite E2. f_equal. rewrite loc_of_cons. reflexivity.
        + intros b [->|Hb]; auto. }
    destruct (N.eqb (n_hash n) hash) eqn:E1; cbn [negb].
    + apply N.eqb_eq in E1. unfold key_of. rewrite (get_live _ _ _ _ Hn). cbn [bind].
      assert (Hself : (n_next n =? a) = false).
      { apply Nat.eqb_neq. intros E. apply (Hs a); [cbn; auto|]. apply fld_Some. eauto. }
      rewrite Hself. cbn [negb]. unfold assert_. rewrite andb_false_r. cbn [bind].
      destruct (bytes_eqb key (n_key n)) eqn:E2; cbn [negb].
      * apply bytes_eqb_eq in E2. exists [], (a :: l). cbn. repeat split; auto.
        apply Hm; auto.
      * apply Hrec. rewrite Hm. intros [_ E]. assert (bytes_eqb key (n_key n) = true) by now apply bytes_eqb_eq.
        congruence.
    + apply N.eqb_neq in E1. apply Hrec. rewrite Hm. tauto.
Qed.

(** Writing through the pointer that FindPointer returned. *)
Lemma store_chain h lg tab i p l1 rest r' x :
  nth_error tab i = Some p -> hchain h p (l1 ++ rest) -> NoDup l1 ->
  hchain h x r' -> (forall a, In a l1 -> ~ In a r') ->
  exists h' p', store_loc (mk_mem h lg) tab (loc_of (Bucket i) l1) x = Ret (mk_mem h' lg, set_nth i p' tab) /\
    hchain h' p' (l1 ++ r') /\ sim strip_nh h h' /\
    (forall a, ~ In a l1 -> hget h' a = hget h a).
Proof.
  intros Hi Hc ND Hx Hd. destruct l1 as [|a l1].
  - exists h, x. cbn [loc_of store_loc app]. assert (i < length tab) by (apply nth_error_Some; congruence).
    apply Nat.ltb_lt in H. rewrite H. split; [auto|]. split; [auto|]. split; [apply sim_refl|auto].
  - pose proof (hchain_last _ (a :: l1) _ _ ltac:(discriminate) Hc) as (q & Q & C).
    assert (Hin : In (last (a :: l1) 0) (a :: l1)) by (apply last_in; discriminate).
    exists (hupd h (last (a :: l1) 0) (set_next_hash x)), p.
    cbn [loc_of store_loc]. rewrite upd_live by (eapply fld_live; eauto). cbn [bind].
    rewrite set_nth_same by auto. split; [reflexivity|]. split; [|split].
    + eapply hchain_replace with (x := x); eauto; [discriminate| | |].
      * apply fld_hupd_eq; [reflexivity|]. congruence.
      * intros b _ Hb. apply fld_hupd_ne; auto.
      * eapply hchain_frame; [|exact Hx]. intros b Hb. apply fld_hupd_ne.
        intros ->. apply (Hd _ Hin Hb).
    + apply sim_hupd. reflexivity.
    + intros b Hb. apply hget_hupd_ne. intros ->. tauto.
Qed.

(** ** The table invariant: [S] is the list of entries in the table. *)
Record TInv (h : heap node) (t : htable) (S : list nat) : Prop := {
  t_chains : exists cs,
    Forall2 (hchain h) (t_table t) cs /\
    (forall i c a, nth_error cs i = Some c -> In a c ->
       exists hs, fld n_hash h a = Some hs /\ bucket hs (t_length t) = i) /\
    Permutation (concat cs) S;
  t_nodup : NoDup S;
  t_el : t_elems t = N.of_nat (length S);
  t_len : length (t_table t) = N.to_nat (t_length t);
  t_pow : exists k, t_length t = (2 ^ k)%N /\ (2 <= k <= 31)%N }.

Lemma bucket_mod hs k : (k <= 31)%N -> bucket hs (2 ^ k) = N.to_nat (hs mod 2 ^ k).
Proof.
  intros H. unfold bucket, u32.
  assert (P : (0 < 2 ^ k)%N) by (apply N.neq_0_lt_0, N.pow_nonzero; lia).
  assert (Q : (2 ^ k <= 2 ^ 31)%N) by (apply N.pow_le_mono_r; lia).
  replace ((2 ^ k + (2 ^ 32 - 1)) mod 2 ^ 32)%N with (N.ones k).
  - now rewrite N.land_ones.
  - rewrite N.ones_equiv. apply (N.mod_unique _ _ 1).
    + apply N.lt_le_trans with (2 ^ 31)%N; [lia|]. vm_compute; discriminate.
    + change (2 ^ 32)%N with 4294967296%N. lia.
Qed.

Lemma bucket_lt hs k : (k <= 31)%N -> bucket hs (2 ^ k) < N.to_nat (2 ^ k).
Proof.
  intros H. rewrite bucket_mod by auto.
  assert (hs mod 2 ^ k < 2 ^ k)%N by (apply N.mod_lt, N.pow_nonzero; lia). lia.
Qed.

Lemma TInv_frame h h' t S :
  (forall a, In a S -> fld n_next_hash h' a = fld n_next_hash h a /\ fld n_hash h' a = fld n_hash h a) ->
  TInv h t S -> TInv h' t S.
Proof.
  intros F [ (cs & C1 & C2 & C3) N E L P]. constructor; auto.
  assert (Hin : forall i c a, nth_error cs i = Some c -> In a c -> In a S).
  { intros i c a Hi Ha. eapply Permutation_in; [exact C3|]. apply in_concat. exists c.
    split; auto. eapply nth_error_In; eauto. }
  exists cs. split; [|split; [|exact C3]].
  - assert (G : Forall (fun c => forall a, In a c -> In a S) cs).
    { apply Forall_forall. intros c Hc a Ha. apply In_nth_error in Hc as [i Hi]. eauto. }
    clear - F C1 G. induction C1; constructor; inversion G; subst; auto.
    eapply hchain_frame; [|eassumption]. intros a Ha. apply F; auto.
  - intros i c a Hi Ha. destruct (C2 i c a Hi Ha) as (hs & Hh & Hb). exists hs. split; auto.
    rewrite (proj2 (F a (Hin _ _ _ Hi Ha))). auto.
Qed.

Lemma TInv_perm h t S S' : Permutation S S' -> TInv h t S -> TInv h t S'.
Proof.
  intros P [ (cs & C1 & C2 & C3) N E L Q]. constructor; auto.
  - exists cs. split; [auto|]. split; [auto|]. now rewrite C3.
  - eapply Permutation_NoDup; eauto.
  - rewrite E. f_equal. now apply Permutation_length.
Qed.

Lemma TInv_live h t S a : TInv h t S -> In a S -> live h a /\ a <> 0.
Proof.
  intros [ (cs & C1 & C2 & C3) _ _ _ _] Ha.
  eapply Permutation_in in Ha; [|symmetry; exact C3]. apply in_concat in Ha as (c & Hc & Ha).
  clear - C1 Hc Ha. induction C1; cbn in Hc; [tauto|]. destruct Hc as [->|Hc]; auto.
  eapply hchain_live; eauto.
Qed.

Lemma nodup_live_le (l : list nat) (h : heap node) :
  NoDup l -> (forall a, In a l -> live h a) -> length l <= length h.
Proof.
  intros N H. transitivity (length (dom h)); [|unfold dom; now rewrite map_length].
  apply NoDup_incl_length; auto. intros a Ha. specialize (H a Ha). unfold live in H.
  apply dom_hget. destruct (hget h a); [eauto|congruence].
Qed.

Lemma NoDup_app_l {A} (a b : list A) : NoDup (a ++ b) -> NoDup a.
Proof.
  induction a; cbn; intros H; [constructor|]. inversion H; subst. constructor; auto.
  rewrite in_app_iff in H2. tauto.
Qed.
Lemma NoDup_app_r {A} (a b : list A) : NoDup (a ++ b) -> NoDup b.
Proof. induction a; cbn; intros H; auto. inversion H; auto. Qed.

(** What FindPointer finds. *)
Lemma find_pointer_spec dbg h lg t S key hash cs :
  TInv h t S -> (forall a, In a S -> fld n_next h a <> Some a) ->
  Forall2 (hchain h) (t_table t) cs ->
  (forall i c a, nth_error cs i = Some c -> In a c ->
     exists hs, fld n_hash h a = Some hs /\ bucket hs (t_length t) = i) ->
  Permutation (concat cs) S ->
  exists p l1 rest r,
    nth_error (t_table t) (bucket hash (t_length t)) = Some p /\
    nth_error cs (bucket hash (t_length t)) = Some (l1 ++ rest) /\
    hchain h p (l1 ++ rest) /\
    Permutation S (l1 ++ rest ++ r) /\
    find_pointer dbg (mk_mem h lg) t key hash = Ret (loc_of (Bucket (bucket hash (t_length t))) l1) /\
    load_loc (mk_mem h lg) (t_table t) (loc_of (Bucket (bucket hash (t_length t))) l1) = Ret (hd 0 rest) /\
    match rest with
    | [] => forall a, In a S -> ~ matches h key hash a
    | a :: _ => matches h key hash a /\ In a S
    end.
Proof.
  intros T Hs C1 C2 C3. pose proof T as [_ N E L (k & Hk & Hkb)].
  set (i := bucket hash (t_length t)).
  assert (Hi : i < length (t_table t)).
  { unfold i. rewrite L, Hk. apply bucket_lt. lia. }
  destruct (nth_error (t_table t) i) as [p|] eqn:Ep; [|apply nth_error_None in Ep; lia].
  destruct (Forall2_nth_l _ _ _ _ _ C1 Ep) as (c & Ec & Hc).
  destruct (concat_set_nth cs i c [] Ec) as (r & P1 & _).
  assert (Pr : Permutation S (c ++ r)) by (rewrite <- C3; exact P1).
  assert (Hcs : forall a, In a c -> In a S).
  { intros a Ha. eapply Permutation_in; [symmetry; exact Pr|]. apply in_app_iff; auto. }
  assert (NDc : NoDup c).
  { eapply NoDup_app_l. eapply Permutation_NoDup; [exact Pr|exact N]. }
  destruct (find_loop_spec dbg h lg (t_table t) key hash c (1 + length h) (Bucket i) p)
    as (l1 & rest & E1 & E2 & E3 & E4).
  - cbn. now rewrite Ep.
  - exact Hc.
  - assert (length c <= length h); [|lia]. apply nodup_live_le; auto.
    intros a Ha. eapply hchain_live; eauto.
  - auto.
  - subst c. exists p, l1, rest, r. split; [auto|]. split; [auto|]. split; [auto|].
    split; [rewrite app_assoc; exact Pr|]. split; [exact E2|]. split.
    + destruct l1 as [|a l1].
      * cbn [loc_of load_loc]. rewrite Ep. f_equal. now apply hchain_hd in Hc.
      * destruct (hchain_last _ (a :: l1) _ _ ltac:(discriminate) Hc) as (q & Q & C).
        cbn [loc_of]. erewrite load_NextHash by exact Q. f_equal. now apply hchain_hd in C.
    + destruct rest as [|a rest].
      * intros a Ha Hm. rewrite app_nil_r in *.
        eapply Permutation_in in Ha; [|symmetry; exact C3].
        apply in_concat in Ha as (c & Hc1 & Hc2). apply In_nth_error in Hc1 as [j Hj].
        destruct (C2 j c a Hj Hc2) as (hs & Hh & Hb).
        assert (hs = hash).
        { unfold matches, fld in *. destruct (hget h a); cbn in *; congruence. }
        subst hs. fold i in Hb. subst j. rewrite Ec in Hj. inversion Hj; subst c. exact (E3 a Hc2 Hm).
      * split; [exact E4|]. apply Hcs. apply in_app_iff. cbn; auto.
Qed.

Lemma matches_sim h h' key hash a : sim strip_nh h h' -> matches h' key hash a <-> matches h key hash a.
Proof. intros Hs. unfold matches. now rewrite (sim_fld _ strip_nh h h') by (auto; reflexivity). Qed.

Lemma sim_nh_hash h h' a : sim strip_nh h h' -> fld n_hash h' a = fld n_hash h a.
Proof. intros Hs. apply (sim_fld n_hash strip_nh h h' a); auto. Qed.

Lemma table_lookup_spec dbg h lg t S key hash :
  TInv h t S -> (forall a, In a S -> fld n_next h a <> Some a) ->
  exists p, table_lookup dbg (mk_mem h lg) t key hash = Ret p /\
    ((p = 0 /\ forall a, In a S -> ~ matches h key hash a) \/
     (p <> 0 /\ In p S /\ matches h key hash p)).
Proof.
  intros T Hs. destruct (t_chains _ _ _ T) as (cs & C1 & C2 & C3).
  destruct (find_pointer_spec dbg h lg t S key hash cs T Hs C1 C2 C3)
    as (p & l1 & rest & r & E1 & E2 & E3 & E4 & E5 & E6 & E7).
  unfold table_lookup. rewrite E5. cbn [bind]. rewrite E6. eexists. split; [reflexivity|].
  destruct rest as [|a rest]; [left; auto|]. right. destruct E7 as [M I]. cbn.
  split; [|auto]. eapply TInv_live; eauto.
Qed.

(** Replacing the part of one bucket after the prefix [l1]. *)
Lemma TInv_replace h h' t i p p' l1 rest r' S S' cs tab' elems :
  TInv h t S ->
  Forall2 (hchain h) (t_table t) cs ->
  (forall i c a, nth_error cs i = Some c -> In a c ->
     exists hs, fld n_hash h a = Some hs /\ bucket hs (t_length t) = i) ->
  nth_error (t_table t) i = Some p ->
  nth_error cs i = Some (l1 ++ rest) ->
  tab' = set_nth i p' (t_table t) ->
  hchain h' p' (l1 ++ r') ->
  (forall a, In a r' -> exists hs, fld n_hash h' a = Some hs /\ bucket hs (t_length t) = i) ->
  (forall a, fld n_hash h a <> None -> fld n_hash h' a = fld n_hash h a) ->
  (forall j c a, j <> i -> nth_error cs j = Some c -> In a c -> fld n_next_hash h' a = fld n_next_hash h a) ->
  (forall r, Permutation (concat cs) ((l1 ++ rest) ++ r) -> Permutation S' ((l1 ++ r') ++ r)) ->
  NoDup S' -> elems = N.of_nat (length S') ->
  TInv h' (mk_htable (t_length t) elems tab') S'.
Proof.
  intros T C1 C2 Ep Ec -> Hc Hr Hh Hf HP ND El.
  destruct T as [_ _ _ L Q]. constructor; cbn; auto; [|now rewrite set_nth_length].
  exists (set_nth i (l1 ++ r') cs). split; [|split].
  - assert (G : forall j c q, j <> i -> nth_error (t_table t) j = Some q -> nth_error cs j = Some c -> hchain h' q c).
    { intros j c q Hj Hq Hc'. destruct (Forall2_nth_l _ _ _ _ _ C1 Hq) as (c0 & Hc0 & Hch).
      rewrite Hc' in Hc0; inversion Hc0; subst c0.
      eapply hchain_frame; [|exact Hch]. intros a Ha. eapply Hf; eauto. }
    assert (Lcs : length (t_table t) = length cs) by (clear - C1; induction C1; cbn; auto).
    revert G Hc Lcs. generalize (t_table t) as tab. clear. revert i.
    induction cs as [|c cs IH]; intros i tab G Hc Lcs.
    + destruct tab; [|discriminate]. destruct i; constructor.
    + destruct tab as [|q tab]; [discriminate|]. cbn in Lcs. destruct i as [|i]; cbn.
      * constructor; auto. assert (forall j c q, nth_error tab j = Some q -> nth_error cs j = Some c -> hchain h' q c).
        { intros j c0 q0 Hq Hc0. apply (G (S j)); auto. }
        clear - H Lcs. revert tab H Lcs. induction cs as [|c cs IH]; intros [|q tab] H Lcs; try discriminate; constructor.
        -- apply (H 0); auto.
        -- apply IH; auto. intros j; apply (H (S j)).
      * constructor; [apply (G 0); auto|]. apply IH; auto. intros j c0 q0 Hj; apply (G (S j)); auto.
  - intros j c a Hj Ha. rewrite nth_error_set_nth in Hj.
    destruct (j =? i) eqn:E.
    + apply Nat.eqb_eq in E; subst j. destruct (i <? length cs); [|discriminate].
      inversion Hj; subst c. apply in_app_iff in Ha as [Ha|Ha]; [|auto].
      destruct (C2 i (l1 ++ rest) a Ec) as (hs & H1 & H2); [apply in_app_iff; auto|].
      exists hs. split; auto. rewrite Hh; auto. congruence.
    + destruct (C2 j c a Hj Ha) as (hs & H1 & H2). exists hs. split; auto. rewrite Hh; auto. congruence.
  - destruct (concat_set_nth cs i (l1 ++ rest) (l1 ++ r') Ec) as (r & P1 & P2).
    rewrite P2. symmetry. auto.
Qed.

Lemma perm_other_chain {A} (cs : list (list A)) i j ci cj a :
  NoDup (concat cs) -> nth_error cs i = Some ci -> nth_error cs j = Some cj -> i <> j ->
  In a ci -> In a cj -> False.
Proof.
  revert i j. induction cs as [|c cs IH]; intros i j N Hi Hj Hn Ha Hb; [destruct i; discriminate|].
  cbn in N. destruct i as [|i], j as [|j]; cbn in *; try congruence.
  - inversion Hi; subst. apply (nodup_app_disj _ _ _ N Ha). apply in_concat. exists cj. split; auto.
    eapply nth_error_In; eauto.
  - inversion Hj; subst. apply (nodup_app_disj _ _ _ N Hb). apply in_concat. exists ci. split; auto.
    eapply nth_error_In; eauto.
  - eapply (IH i j); eauto. eapply NoDup_app_r; eauto.
Qed.

Lemma table_remove_spec dbg h lg t S key hash :
  TInv h t S -> (forall a, In a S -> fld n_next h a <> Some a) ->
  (N.of_nat (length S) < 2 ^ 32)%N ->
  (table_remove dbg (mk_mem h lg) t key hash = Ret (mk_mem h lg, t, 0) /\
   forall a, In a S -> ~ matches h key hash a) \/
  (exists h' t' a S',
    table_remove dbg (mk_mem h lg) t key hash = Ret (mk_mem h' lg, t', a) /\
    a <> 0 /\ matches h key hash a /\ Permutation S (a :: S') /\
    TInv h' t' S' /\ sim strip_nh h h' /\
    (forall b, ~ In b S' -> hget h' b = hget h b)).
Proof.
  intros T Hs Hsz. destruct (t_chains _ _ _ T) as (cs & C1 & C2 & C3).
  destruct (find_pointer_spec dbg h lg t S key hash cs T Hs C1 C2 C3)
    as (p & l1 & rest & r & E1 & E2 & E3 & E4 & E5 & E6 & E7).
  unfold table_remove. rewrite E5. cbn [bind]. rewrite E6. cbn [bind].
  destruct rest as [|a l2]; [left; cbn; auto|]. right. cbn [hd] in *.
  destruct E7 as [M Ia]. pose proof (TInv_live _ _ _ _ T Ia) as [La Na].
  pose proof Na as Na'. apply Nat.eqb_neq in Na'. rewrite Na'.
  pose proof (t_nodup _ _ _ T) as N.
  assert (NE : NoDup ((l1 ++ a :: l2) ++ r)).
  { eapply Permutation_NoDup; [|exact N]. rewrite E4. now rewrite <- app_assoc. }
  assert (NDc : NoDup (l1 ++ a :: l2)) by (eapply NoDup_app_l; eauto).
  (* next_hash of the removed node *)
  assert (Hq : exists q, fld n_next_hash h a = Some q /\ hchain h q l2).
  { clear - E3. revert p E3. induction l1 as [|b l1 IH]; intros p E3; cbn in E3.
    - destruct E3 as (_ & _ & q & Q & C). eauto.
    - destruct E3 as (_ & _ & q & Q & C). eauto. }
  destruct Hq as (q & Q & Cq). pose proof Q as Q'. apply fld_Some in Q' as (n & Hn & Hnq).
  rewrite (get_live _ _ _ _ Hn). cbn [bind]. rewrite Hnq.
  set (i := bucket hash (t_length t)) in *.
  destruct (store_chain h lg (t_table t) i p l1 (a :: l2) l2 q E1 E3) as (h' & p' & F1 & F2 & F3 & F4).
  - eapply NoDup_app_l; eauto.
  - exact Cq.
  - intros b Hb Hb2. apply (nodup_app_disj _ _ _ NDc Hb). right; auto.
  - rewrite F1. cbn [bind fst snd].
    assert (Hel : u32 (t_elems t + (2 ^ 32 - 1)) = N.of_nat (length (l1 ++ l2 ++ r))).
    { rewrite (t_el _ _ _ T). rewrite (Permutation_length E4).
      rewrite (Permutation_length E4) in Hsz.
      rewrite !app_length in *. cbn [length app] in *. unfold u32.
      clear - Hsz. symmetry. apply (N.mod_unique _ _ 1); [|change (2 ^ 32)%N with 4294967296%N in *]; lia. }
    assert (PS : Permutation S (a :: l1 ++ l2 ++ r)).
    { rewrite E4. cbn. symmetry. apply Permutation_middle. }
    assert (NS' : NoDup (l1 ++ l2 ++ r)).
    { eapply Permutation_NoDup in N; [|exact PS]. inversion N; auto. }
    exists h', (mk_htable (t_length t) (u32 (t_elems t + (2 ^ 32 - 1))) (set_nth i p' (t_table t))), a, (l1 ++ l2 ++ r).
    split; [reflexivity|]. split; [exact Na|]. split; [exact M|]. split; [exact PS|].
    split; [|split; [exact F3|]].
    + eapply (TInv_replace h h' t i p p' l1 (a :: l2) l2 S (l1 ++ l2 ++ r) cs); eauto.
      * intros b Hb. destruct (C2 i _ b E2) as (hs & H1 & H2); [apply in_app_iff; cbn; auto|].
        exists hs. split; auto. rewrite (sim_nh_hash _ _ _ F3). auto.
      * intros b _. apply (sim_nh_hash _ _ _ F3).
      * intros j c b Hj Hjc Hb. unfold fld. rewrite F4; auto. intros Hl1.
        eapply (perm_other_chain cs i j); eauto.
        -- eapply Permutation_NoDup; [symmetry; exact C3|exact N].
        -- apply in_app_iff; auto.
      * intros r0 Hr0. assert (Permutation ((l1 ++ a :: l2) ++ r0) ((l1 ++ a :: l2) ++ r)).
        { rewrite <- Hr0, C3, E4. now rewrite <- app_assoc. }
        apply Permutation_app_inv_l in H. rewrite <- app_assoc.
        apply Permutation_app_head, Permutation_app_head. symmetry; auto.
    + intros b Hb. apply F4. intros Hl1. apply Hb. apply in_app_iff; auto.
Qed.

(** ** Resize *)
Lemma grow_ok elems k : forall fuel,
  (k <= 31)%N -> (elems <= 2 ^ 31)%N -> (31 - N.to_nat k < fuel) ->
  exists k', grow fuel (2 ^ k) elems = Ret (2 ^ k')%N /\ (k <= k' <= 31)%N.
Proof.
  intros fuel Hk He. revert k Hk. induction fuel as [|fuel IH]; intros k Hk Hf; [lia|].
  cbn [grow]. destruct (N.ltb (2 ^ k) elems) eqn:E.
  - apply N.ltb_lt in E.
    assert (k < 31)%N.
    { destruct (N.lt_ge_cases k 31); auto. exfalso.
      assert (2 ^ 31 <= 2 ^ k)%N by (apply N.pow_le_mono_r; lia). lia. }
    replace (u32 (2 ^ k * 2)) with (2 ^ (N.succ k))%N.
    + destruct (IH (N.succ k)) as (k' & E1 & E2); [lia|lia|]. exists k'. split; [auto|lia].
    + unfold u32. rewrite N.pow_succ_r by lia. rewrite (N.mul_comm 2).
      symmetry. apply N.mod_small.
      assert (2 ^ k * 2 <= 2 ^ 31)%N.
      { replace (2 ^ k * 2)%N with (2 ^ (N.succ k))%N by (rewrite N.pow_succ_r by lia; lia).
        apply N.pow_le_mono_r; lia. }
      change (2 ^ 31)%N with 2147483648%N in *. change (2 ^ 32)%N with 4294967296%N. lia.
  - exists k. split; [auto|lia].
Qed.

Lemma perm_swap_mid {A} (a : A) l c r : Permutation (l ++ (a :: c) ++ r) ((a :: l) ++ c ++ r).
Proof. cbn. symmetry. apply Permutation_middle. Qed.

Definition placed (h : heap node) (nl : N) (cs : list (list nat)) : Prop :=
  forall i c a, nth_error cs i = Some c -> In a c ->
    exists hs, fld n_hash h a = Some hs /\ bucket hs nl = i.

Lemma rehash_chain_spec k l : forall fuel h lg p nt ncs cnt,
  (2 <= k <= 31)%N ->
  hchain h p l -> length l < fuel -> Forall2 (hchain h) nt ncs -> placed h (2 ^ k) ncs ->
  NoDup (l ++ concat ncs) -> length nt = N.to_nat (2 ^ k) ->
  (cnt + N.of_nat (length l) < 2 ^ 32)%N ->
  exists h' nt' ncs',
    rehash_chain fuel (mk_mem h lg) nt (2 ^ k) p cnt
      = Ret (mk_mem h' lg, nt', (cnt + N.of_nat (length l))%N) /\
    Forall2 (hchain h') nt' ncs' /\ placed h' (2 ^ k) ncs' /\
    Permutation (concat ncs') (l ++ concat ncs) /\ length nt' = length nt /\
    sim strip_nh h h' /\ (forall a, ~ In a l -> hget h' a = hget h a).
Proof.
  induction l as [|a l IH]; intros fuel h lg p nt ncs cnt Hk Hc Hf F2 Pl N Ln Hcnt;
    destruct fuel as [|fuel]; cbn [length] in Hf; try lia.
  - cbn in Hc. subst p. cbn [rehash_chain]. exists h, nt, ncs. cbn [Nat.eqb length].
    rewrite N.add_0_r. split; [reflexivity|]. split; [auto|]. split; [auto|]. split; [cbn; auto|].
    split; [auto|]. split; [apply sim_refl|auto].
  - destruct Hc as (-> & Na & q & Q & C). cbn [rehash_chain].
    pose proof Na as Na'. apply Nat.eqb_neq in Na'. rewrite Na'.
    pose proof Q as Q'. apply fld_Some in Q' as (n & Hn & Hnq).
    rewrite (get_live _ _ _ _ Hn). cbn [bind].
    set (b := bucket (n_hash n) (2 ^ k)).
    assert (Hb : b < length nt) by (rewrite Ln; apply bucket_lt; lia).
    destruct (nth_error nt b) as [old|] eqn:Eo; [|apply nth_error_None in Eo; lia].
    cbn [load_loc]. rewrite Eo. cbn [bind].
    rewrite upd_live by (eapply fld_live; eauto). cbn [bind].
    cbn [store_loc]. pose proof Hb as Hb'. apply Nat.ltb_lt in Hb'. rewrite Hb'. cbn [bind fst snd].
    destruct (Forall2_nth_l _ _ _ _ _ F2 Eo) as (c & Ec & Hc).
    set (h1 := hupd h a (set_next_hash old)).
    assert (Nal : ~ In a l /\ ~ In a (concat ncs)).
    { inversion N; subst. rewrite in_app_iff in H1. tauto. }
    assert (Fr : forall b, b <> a -> fld n_next_hash h1 b = fld n_next_hash h b).
    { intros x Hx. unfold h1. now apply fld_hupd_ne. }
    assert (Sm : sim strip_nh h h1) by (apply sim_hupd; reflexivity).
    assert (In_c : forall j cj x, nth_error ncs j = Some cj -> In x cj -> In x (concat ncs)).
    { intros j cj x Hj Hx. apply in_concat. exists cj. split; auto. eapply nth_error_In; eauto. }
    destruct (concat_set_nth ncs b c (a :: c) Ec) as (r & P1 & P2).
    rewrite Hnq.
    destruct (IH fuel h1 lg q (set_nth b a nt) (set_nth b (a :: c) ncs) (u32 (cnt + 1)))
      as (h' & nt' & ncs' & G1 & G2 & G3 & G4 & G5 & G6 & G7).
    + exact Hk.
    + eapply hchain_frame; [|exact C]. intros x Hx. apply Fr. intros ->; tauto.
    + lia.
    + apply Forall2_set_nth.
      * assert (Fc : Forall (fun c => forall x, In x c -> x <> a) ncs).
        { apply Forall_forall. intros c0 Hc0 x Hx ->. apply (proj2 Nal). apply in_concat; eauto. }
        clear - F2 Fc Fr. induction F2; constructor; inversion Fc; subst; auto.
        eapply hchain_frame; [|eassumption]. intros z Hz. apply Fr. auto.
      * cbn. split; [auto|]. split; [auto|]. exists old. split.
        -- unfold h1. apply fld_hupd_eq; [reflexivity|]. congruence.
        -- eapply hchain_frame; [|exact Hc]. intros x Hx. apply Fr. intros ->.
           apply (proj2 Nal). eapply In_c; eauto.
    + intros i c0 x Hi Hx. rewrite nth_error_set_nth in Hi.
      assert (Hh : forall y, fld n_hash h1 y = fld n_hash h y)
        by (intros y; apply (sim_nh_hash _ _ _ Sm)).
      rewrite Hh. destruct (i =? b) eqn:E.
      * apply Nat.eqb_eq in E; subst i. destruct (b <? length ncs); [|discriminate].
        inversion Hi; subst c0. destruct Hx as [->|Hx]; [|eauto].
        exists (n_hash n). split; [|reflexivity]. apply fld_Some; eauto.
      * eauto.
    + eapply Permutation_NoDup; [|exact N]. rewrite P2, P1. symmetry. apply perm_swap_mid.
    + now rewrite set_nth_length.
    + unfold u32. rewrite N.mod_small; [|cbn [length] in Hcnt; lia]. cbn [length] in Hcnt. lia.
    + assert (Hu : u32 (cnt + 1) = (cnt + 1)%N).
      { unfold u32. apply N.mod_small. cbn [length] in Hcnt. lia. }
      rewrite Hu in G1.
      exists h', nt', ncs'. split; [|split; [auto|split; [auto|split; [|split; [|split]]]]].
      * fold h1. rewrite Hu, G1. do 2 f_equal. cbn [length]. lia.
      * rewrite G4, P2, P1. apply perm_swap_mid.
      * rewrite G5. apply set_nth_length.
      * eapply sim_trans; eauto.
      * intros x Hx. rewrite G7 by (intros Hl; apply Hx; cbn; auto).
        unfold h1. apply hget_hupd_ne. intros ->. apply Hx; cbn; auto.
Qed.

Lemma rehash_spec k old : forall cs h lg nt ncs cnt,
  (2 <= k <= 31)%N ->
  Forall2 (hchain h) old cs -> Forall2 (hchain h) nt ncs -> placed h (2 ^ k) ncs ->
  NoDup (concat cs ++ concat ncs) -> length nt = N.to_nat (2 ^ k) ->
  (cnt + N.of_nat (length (concat cs)) < 2 ^ 32)%N ->
  exists h' nt' ncs',
    rehash (mk_mem h lg) old nt (2 ^ k) cnt
      = Ret (mk_mem h' lg, nt', (cnt + N.of_nat (length (concat cs)))%N) /\
    Forall2 (hchain h') nt' ncs' /\ placed h' (2 ^ k) ncs' /\
    Permutation (concat ncs') (concat cs ++ concat ncs) /\ length nt' = length nt /\
    sim strip_nh h h' /\ (forall a, ~ In a (concat cs) -> hget h' a = hget h a).
Proof.
  induction old as [|p old IH]; intros cs h lg nt ncs cnt Hk Fo Fn Pl N Ln Hcnt; inversion Fo; subst.
  - cbn. exists h, nt, ncs. rewrite N.add_0_r. split; [auto|]. split; [auto|]. split; [auto|].
    split; [auto|]. split; [auto|]. split; [apply sim_refl|auto].
  - rename y into c. rename l' into cs. cbn [concat] in *. cbn [rehash].
    rewrite app_length in Hcnt.
    assert (Nc : NoDup (c ++ concat ncs)).
    { eapply NoDup_app_l with (b := concat cs). eapply Permutation_NoDup; [|exact N].
      rewrite <- !app_assoc. apply Permutation_app_head, Permutation_app_comm. }
    destruct (rehash_chain_spec k c (S (length h)) h lg p nt ncs cnt)
      as (h1 & nt1 & ncs1 & G1 & G2 & G3 & G4 & G5 & G6 & G7); auto.
    + assert (length c <= length h); [|lia]. apply nodup_live_le; [eapply NoDup_app_l; eauto|].
      intros a Ha. eapply hchain_live; eauto.
    + lia.
    + cbn [m_heap]. rewrite G1. cbn [bind fst snd].
      destruct (IH cs h1 lg nt1 ncs1 (cnt + N.of_nat (length c))%N)
        as (h' & nt' & ncs' & K1 & K2 & K3 & K4 & K5 & K6 & K7); auto.
      * assert (Fd : Forall (fun d => forall a, In a d -> ~ In a c) cs).
        { apply Forall_forall. intros d Hd a Ha Hc.
          rewrite <- app_assoc in N. apply (nodup_app_disj _ _ _ N Hc). apply in_app_iff. left.
          apply in_concat; eauto. }
        clear - H3 Fd G7. induction H3; constructor; inversion Fd; subst; auto.
        eapply hchain_frame; [|eassumption]. intros a Ha. unfold fld. rewrite G7; auto.
      * eapply Permutation_NoDup; [|exact N]. rewrite G4. rewrite !app_assoc.
        apply Permutation_app_tail, Permutation_app_comm.
      * congruence.
      * lia.
      * exists h', nt', ncs'. rewrite app_length. split; [rewrite K1; do 2 f_equal; lia|].
        split; [auto|]. split; [auto|]. split; [|split; [congruence|split]].
        -- rewrite K4, G4. rewrite !app_assoc. apply Permutation_app_tail, Permutation_app_comm.
        -- eapply sim_trans; eauto.
        -- intros a Ha. rewrite in_app_iff in Ha. rewrite K7, G7; tauto.
Qed.

Lemma concat_repeat_nil {A} n : concat (repeat (@nil A) n) = [].
Proof. induction n; cbn; auto. Qed.

(** Resize keeps the table's contents.  (The precondition is that of [TInv]
    except that the length may be stale.) *)
Lemma resize_spec dbg h lg t S cs :
  Forall2 (hchain h) (t_table t) cs -> Permutation (concat cs) S -> NoDup S ->
  (forall a, In a S -> exists hs, fld n_hash h a = Some hs) ->
  t_elems t = N.of_nat (length S) -> (N.of_nat (length S) <= 2 ^ 31)%N ->
  exists h' t', resize dbg (mk_mem h lg) t = Ret (mk_mem h' lg, t') /\
    TInv h' t' S /\ sim strip_nh h h' /\ (forall a, ~ In a S -> hget h' a = hget h a).
Proof.
  intros F P N Hh El Hle. unfold resize.
  destruct (grow_ok (t_elems t) 2 64) as (k & Hg & Hk); [lia|rewrite El; auto|change (N.to_nat 2) with 2; lia|].
  change (2 ^ 2)%N with 4%N in Hg. rewrite Hg. cbn [bind].
  destruct (rehash_spec k (t_table t) cs h lg (repeat 0 (N.to_nat (2 ^ k))) (repeat [] (N.to_nat (2 ^ k))) 0)
    as (h' & nt' & ncs' & K1 & K2 & K3 & K4 & K5 & K6 & K7); auto.
  - clear. induction (N.to_nat (2 ^ k)); cbn; constructor; auto. reflexivity.
  - intros i c a Hi Ha. apply nth_error_In, repeat_spec in Hi. subst c. destruct Ha.
  - rewrite concat_repeat_nil, app_nil_r. eapply Permutation_NoDup; [symmetry; exact P|exact N].
  - apply repeat_length.
  - rewrite (Permutation_length P).
    change (2 ^ 31)%N with 2147483648%N in *. change (2 ^ 32)%N with 4294967296%N. lia.
  - rewrite K1. cbn [bind fst snd].
    rewrite (Permutation_length P), N.add_0_l, El, N.eqb_refl.
    unfold assert_. cbn [negb]. rewrite andb_false_r. cbn [bind].
    rewrite concat_repeat_nil, app_nil_r in K4.
    exists h', (mk_htable (2 ^ k) (N.of_nat (length S)) nt'). split; [reflexivity|].
    split; [|split; [auto|]].
    + constructor; cbn; auto.
      * exists ncs'. split; [auto|]. split; [exact K3|]. now rewrite K4.
      * rewrite K5. apply repeat_length.
      * exists k. split; auto.
    + intros a Ha. apply K7. intros Hc. apply Ha. eapply Permutation_in; eauto.
Qed.

Lemma table_new_spec dbg h lg :
  exists t, table_new dbg (mk_mem h lg) = Ret (mk_mem h lg, t) /\ TInv h t [].
Proof.
  exists (mk_htable 4 0 [0;0;0;0]). split.
  - unfold table_new, resize. cbn. unfold assert_. rewrite andb_false_r. reflexivity.
  - constructor; cbn; auto.
    + exists [[];[];[];[]]. split; [repeat constructor|]. split; [|constructor].
      intros i c a Hi Ha. do 4 (destruct i as [|i]; [cbn in Hi; inversion Hi; subst c; destruct Ha|]).
      destruct i; discriminate.
    + constructor.
    + exists 2%N. split; [reflexivity|lia].
Qed.

(** HandleTable::Insert *)
Lemma table_insert_spec dbg h lg t S e key hash :
  TInv h t S -> (forall a, In a S -> fld n_next h a <> Some a) ->
  ~ In e S -> e <> 0 -> matches h key hash e -> fld n_next h e <> Some e ->
  (N.of_nat (length S) < 2 ^ 31)%N ->
  (exists h' t', table_insert dbg (mk_mem h lg) t e = Ret (mk_mem h' lg, t', 0) /\
     (forall a, In a S -> ~ matches h key hash a) /\
     TInv h' t' (e :: S) /\ sim strip_nh h h' /\
     (forall b, ~ In b (e :: S) -> hget h' b = hget h b)) \/
  (exists h' t' old S', table_insert dbg (mk_mem h lg) t e = Ret (mk_mem h' lg, t', old) /\
     old <> 0 /\ matches h key hash old /\ Permutation S (old :: S') /\
     TInv h' t' (e :: S') /\ sim strip_nh h h' /\
     (forall b, ~ In b (e :: S') -> hget h' b = hget h b)).
Proof.
  intros T Hs He He0 Hm Hself Hsz. destruct (t_chains _ _ _ T) as (cs & C1 & C2 & C3).
  destruct (find_pointer_spec dbg h lg t S key hash cs T Hs C1 C2 C3)
    as (p & l1 & rest & r & E1 & E2 & E3 & E4 & E5 & E6 & E7).
  pose proof (t_nodup _ _ _ T) as N.
  assert (NE : NoDup ((l1 ++ rest) ++ r)).
  { eapply Permutation_NoDup; [|exact N]. rewrite E4. now rewrite <- app_assoc. }
  assert (NDc : NoDup (l1 ++ rest)) by (eapply NoDup_app_l; eauto).
  assert (HeN : ~ In e (l1 ++ rest ++ r)).
  { intros H. apply He. eapply Permutation_in; [symmetry; exact E4|exact H]. }
  pose proof Hm as Hm'. apply fld_Some in Hm' as (n & Hn & Hnk). inversion Hnk as [[Hnh Hnkey]].
  set (i := bucket hash (t_length t)) in *.
  unfold table_insert. unfold key_of. rewrite (get_live _ _ _ _ Hn). cbn [bind].
  assert (Hsf : (n_next n =? e) = false).
  { apply Nat.eqb_neq. intros E. apply Hself. apply fld_Some; eauto. }
  rewrite Hsf. cbn [negb]. unfold assert_. rewrite !andb_false_r. cbn [bind].
  rewrite Hnh, Hnkey, E5. cbn [bind]. rewrite E6. cbn [bind].
  assert (Hq : exists q l2, (if hd 0 rest =? 0 then Ret 0
                else let! o := get (mk_mem h lg) (hd 0 rest) in Ret (n_next_hash o)) = Ret q /\
               hchain h q l2 /\ match rest with [] => l2 = [] | _ :: r' => l2 = r' end).
  { destruct rest as [|a l2].
    - exists 0, []. cbn. auto.
    - assert (G : exists q, a <> 0 /\ fld n_next_hash h a = Some q /\ hchain h q l2).
      { clear - E3. revert p E3. induction l1 as [|b l1 IH]; intros p E3; cbn in E3.
        - destruct E3 as (_ & Z & q & Q & C). eauto.
        - destruct E3 as (_ & _ & q & Q & C). eauto. }
      destruct G as (q & Na & Q & C). exists q, l2. cbn [hd].
      apply Nat.eqb_neq in Na. rewrite Na. apply fld_Some in Q as (na & Hna & Hqa).
      rewrite (get_live _ _ _ _ Hna). cbn [bind]. rewrite Hqa. auto. }
  destruct Hq as (q & l2 & Q1 & Q2 & Q3). rewrite Q1. cbn [bind].
  assert (Le : live h e) by (eapply fld_live; eauto).
  rewrite upd_live by auto. cbn [bind]. set (h1 := hupd h e (set_next_hash q)).
  assert (Sm1 : sim strip_nh h h1) by (apply sim_hupd; reflexivity).
  assert (F1 : forall b, b <> e -> hget h1 b = hget h b) by (intros b Hb; now apply hget_hupd_ne).
  assert (Hl2 : forall b, In b l2 -> In b (l1 ++ rest)).
  { intros b Hb. destruct rest; subst l2; [destruct Hb|]. apply in_app_iff; cbn; auto. }
  destruct (store_chain h1 lg (t_table t) i p l1 rest (e :: l2) e E1) as (h' & p' & G1 & G2 & G3 & G4).
  { eapply hchain_frame; [|exact E3]. intros b Hb. unfold fld. rewrite F1; auto. intros ->.
    apply HeN. rewrite app_assoc. apply in_app_iff; auto. }
  { eapply NoDup_app_l; eauto. }
  { cbn. split; [auto|]. split; [auto|]. exists q. split.
    - unfold h1. apply fld_hupd_eq; [reflexivity|]. now apply live_fld.
    - eapply hchain_frame; [|exact Q2]. intros b Hb. unfold fld. rewrite F1; auto. intros ->.
      apply HeN. rewrite app_assoc. apply in_app_iff; auto. }
  { intros b Hb [<-|Hb2].
    - apply HeN. apply in_app_iff; auto.
    - destruct rest; subst l2; [destruct Hb2|]. apply (nodup_app_disj _ _ _ NDc Hb). right; auto. }
  rewrite G1. cbn [bind fst snd].
  assert (Sm : sim strip_nh h h') by (eapply sim_trans; eauto).
  assert (Fr : forall b, b <> e -> ~ In b l1 -> hget h' b = hget h b).
  { intros b Hb Hb1. rewrite G4, F1; auto. }
  assert (Hhash : forall b, fld n_hash h' b = fld n_hash h b)
    by (intros b; apply (sim_nh_hash _ _ _ Sm)).
  assert (Hehash : fld n_hash h e = Some hash) by (apply fld_Some; eauto).
  set (S' := e :: l1 ++ l2 ++ r).
  assert (NS' : NoDup S').
  { unfold S'. constructor.
    - intros H. apply HeN. rewrite !in_app_iff in *. destruct H as [H|[H|H]]; auto.
      apply Hl2 in H. rewrite in_app_iff in H. tauto.
    - destruct rest; subst l2; [exact (eq_rect _ _ NE _ (eq_sym (app_assoc _ _ _)))|].
      rewrite <- app_assoc in NE. cbn in NE. now apply NoDup_remove_1 in NE. }
  assert (TI : forall el, el = N.of_nat (length S') ->
             TInv h' (mk_htable (t_length t) el (set_nth i p' (t_table t))) S').
  { intros el ->. eapply (TInv_replace h h' t i p p' l1 rest (e :: l2) S S' cs); eauto.
    - intros b [<-|Hb].
      + exists hash. rewrite Hhash. auto.
      + destruct (C2 i _ b E2 (Hl2 b Hb)) as (hs & H1 & H2). exists hs. rewrite Hhash. auto.
    - intros j c b Hj Hjc Hb. unfold fld. rewrite Fr; auto.
      + intros ->. apply He. eapply Permutation_in; [exact C3|]. apply in_concat. exists c. split; auto.
        eapply nth_error_In; eauto.
      + intros Hl1. eapply (perm_other_chain cs i j); eauto.
        * eapply Permutation_NoDup; [symmetry; exact C3|exact N].
        * apply in_app_iff; auto.
    - intros r0 Hr0. assert (Permutation ((l1 ++ rest) ++ r0) ((l1 ++ rest) ++ r)).
      { rewrite <- Hr0, C3, E4. now rewrite <- app_assoc. }
      apply Permutation_app_inv_l in H. rewrite H. unfold S'. rewrite <- app_assoc. cbn.
      apply Permutation_middle. }
  destruct rest as [|old l2'].
  - left. subst l2. cbn [hd] in *. cbn [Nat.eqb].
    assert (Hlen : (u32 (t_elems t + 1) = N.of_nat (length S'))%N).
    { unfold S'. cbn [app length] in *. rewrite (t_el _ _ _ T), (Permutation_length E4). cbn [app] in *.
      rewrite (Permutation_length E4) in Hsz. cbn [app] in Hsz.
      unfold u32. rewrite N.mod_small; [lia|].
      change (2 ^ 31)%N with 2147483648%N in *. change (2 ^ 32)%N with 4294967296%N. lia. }
    assert (PS : Permutation S' (e :: S)).
    { unfold S'. constructor. symmetry. rewrite E4. cbn. reflexivity. }
    cbn [t_length]. destruct (N.ltb (t_length t) (u32 (t_elems t + 1))) eqn:Elt.
    + pose proof (TI _ Hlen) as T1. destruct (t_chains _ _ _ T1) as (cs1 & D1 & D2 & D3).
      destruct (resize_spec dbg h' lg _ S' cs1 D1 D3 NS') as (h2 & t2 & R1 & R2 & R3 & R4).
      * intros b Hb. destruct (TInv_live _ _ _ _ T1 Hb) as [Lb _].
        destruct (hget h' b) as [nb|] eqn:Eb; [|congruence]. exists (n_hash nb). apply fld_Some; eauto.
      * cbn. exact Hlen.
      * rewrite (Permutation_length PS). cbn [length].
        change (2 ^ 31)%N with 2147483648%N in *. lia.
      * rewrite R1. cbn [bind fst snd]. exists h2, t2. split; [reflexivity|]. split; [exact E7|].
        split; [eapply TInv_perm; eauto|]. split; [eapply sim_trans; eauto|].
        intros b Hb. rewrite R4, Fr; auto.
        -- intros ->; apply Hb; cbn; auto.
        -- intros H; apply Hb. right. eapply Permutation_in; [symmetry; exact E4|]. apply in_app_iff; auto.
        -- intros H. apply Hb. eapply Permutation_in; [exact PS|exact H].
    + eexists h', _. split; [reflexivity|]. split; [exact E7|].
      split; [eapply TInv_perm; [exact PS|]; apply TI; exact Hlen|]. split; [exact Sm|].
      intros b Hb. apply Fr; auto.
      * intros ->; apply Hb; cbn; auto.
      * intros H; apply Hb. right. eapply Permutation_in; [symmetry; exact E4|]. apply in_app_iff; auto.
  - right. subst l2'. destruct E7 as [M Iold]. cbn [hd] in *.
    pose proof (TInv_live _ _ _ _ T Iold) as [Lo No]. pose proof No as No'. apply Nat.eqb_neq in No'. rewrite No'.
    assert (PS : Permutation S (old :: l1 ++ l2 ++ r)).
    { rewrite E4. cbn. symmetry. apply Permutation_middle. }
    eexists h', _, old, (l1 ++ l2 ++ r). split; [reflexivity|]. split; [exact No|]. split; [exact M|].
    split; [exact PS|]. split; [|split; [exact Sm|]].
    + apply TI. unfold S'. rewrite (t_el _ _ _ T), (Permutation_length PS). reflexivity.
    + intros b Hb. apply Fr.
      * intros ->; apply Hb; cbn; auto.
      * intros H; apply Hb. right. apply in_app_iff; auto.
Qed.
