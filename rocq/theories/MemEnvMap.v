(** MemEnvMap.v -- the sorted map, histories, and the core invariant of the
    in-memory environment. *)
From Coq Require Import List Arith NArith ZArith Lia Bool Permutation Sorted.
From Verif Require Import Outcome Heap Status MemEnv MemEnvSpec MemEnvMem.
Import ListNotations.
Local Open Scope outcome_scope.

(** ** Strings *)
Lemma str_eqb_eq a : forall b, str_eqb a b = true <-> a = b.
Proof.
  induction a as [|x a IH]; intros [|y b]; cbn [str_eqb]; split; intros H; try discriminate; auto.
  - apply andb_prop in H as [H1 H2]. apply N.eqb_eq in H1. apply IH in H2. congruence.
  - inversion H; subst. rewrite N.eqb_refl. cbn. now apply IH.
Qed.
Lemma str_eqb_refl a : str_eqb a a = true.
Proof. now apply str_eqb_eq. Qed.
Lemma str_eqb_neq a b : str_eqb a b = false <-> a <> b.
Proof.
  rewrite <- str_eqb_eq. destruct (str_eqb a b); split; intros H; congruence.
Qed.
Lemma str_eqb_sym a b : str_eqb a b = str_eqb b a.
Proof.
  destruct (str_eqb b a) eqn:E; [apply str_eqb_eq in E; subst; apply str_eqb_refl|].
  apply str_eqb_neq in E. apply str_eqb_neq. congruence.
Qed.
Lemma lex_irr a : lex_ltb a a = false.
Proof. induction a as [|x a IH]; cbn [lex_ltb]; auto. now rewrite N.ltb_irrefl. Qed.
Lemma lex_trans a : forall b c, lex_ltb a b = true -> lex_ltb b c = true -> lex_ltb a c = true.
Proof.
  induction a as [|x a IH]; intros [|y b] [|z c]; cbn [lex_ltb]; try discriminate; auto.
  destruct (N.ltb_spec x y), (N.ltb_spec y z), (N.ltb_spec y x), (N.ltb_spec z y), (N.ltb_spec x z), (N.ltb_spec z x);
    try lia; try discriminate; auto. apply IH.
Qed.
Lemma lex_total a : forall b, lex_ltb a b = false -> str_eqb a b = false -> lex_ltb b a = true.
Proof.
  induction a as [|x a IH]; intros [|y b]; cbn [lex_ltb str_eqb]; try discriminate; auto.
  destruct (N.ltb_spec x y), (N.ltb_spec y x); try discriminate; auto. assert (x = y) by lia. subst. rewrite N.eqb_refl. cbn. apply IH.
Qed.

(** ** The map *)
Lemma find_set k v m k' : map_find k' (map_set k v m) = if str_eqb k' k then Some v else map_find k' m.
Proof.
  induction m as [|[k1 v1] m IH]; cbn [map_set map_find]; [reflexivity|].
  destruct (lex_ltb k k1) eqn:El; cbn [map_find]; [reflexivity|].
  destruct (str_eqb k k1) eqn:Ek; cbn [map_find].
  - apply str_eqb_eq in Ek. subst k1. destruct (str_eqb k' k); reflexivity.
  - rewrite IH. destruct (str_eqb k' k1) eqn:E1; [|reflexivity]. apply str_eqb_eq in E1. subst k1.
    rewrite str_eqb_sym, Ek. reflexivity.
Qed.
Definition klt (p q : str * nat) : Prop := lex_ltb (fst p) (fst q) = true.
Definition sorted (m : fmap) : Prop := StronglySorted klt m.
Lemma sorted_set k v m : sorted m -> sorted (map_set k v m).
Proof.
  unfold sorted. induction 1 as [|[k1 v1] m S IH F]; cbn [map_set]; [repeat constructor|].
  destruct (lex_ltb k k1) eqn:El.
  - constructor; [constructor; auto|]. constructor; [exact El|]. eapply Forall_impl; [|exact F]. intros [k2 v2] Hq. cbn in *.
    eapply lex_trans; eauto.
  - destruct (str_eqb k k1) eqn:Ek.
    + apply str_eqb_eq in Ek. subst k1. constructor; auto.
    + constructor; auto. pose proof (lex_total _ _ El Ek) as Hlt. clear IH S.
      induction m as [|[k2 v2] m IH]; cbn [map_set]; [constructor; auto|].
      inversion F; subst. destruct (lex_ltb k k2); [constructor; auto|].
      destruct (str_eqb k k2) eqn:E2; [constructor; auto|constructor; auto].
Qed.
Lemma sorted_erase k m : sorted m -> sorted (map_erase k m).
Proof.
  unfold sorted. induction 1 as [|[k1 v1] m S IH F]; cbn [map_erase]; [constructor|].
  destruct (str_eqb k k1); auto. constructor; auto. clear IH S.
  induction m as [|[k2 v2] m IH]; cbn [map_erase]; [constructor|]. inversion F; subst. destruct (str_eqb k k2); auto.
Qed.
Lemma sorted_find_lt k1 v1 m k : Forall (klt (k1, v1)) m -> lex_ltb k k1 = true \/ k = k1 -> map_find k m = None.
Proof.
  intros F Hk. induction F as [|[k2 v2] m Hq F IH]; cbn [map_find]; auto.
  destruct (str_eqb k k2) eqn:E; auto. apply str_eqb_eq in E. subst k2. cbn in Hq. unfold klt in Hq. cbn in Hq. exfalso.
  destruct Hk as [Hk|Hk].
  - assert (lex_ltb k k = true) by (eapply lex_trans; eauto). rewrite lex_irr in H. discriminate.
  - subst k1. rewrite lex_irr in Hq. discriminate.
Qed.
Lemma find_erase k m k' : sorted m -> map_find k' (map_erase k m) = if str_eqb k' k then None else map_find k' m.
Proof.
  unfold sorted. induction 1 as [|[k1 v1] m S IH F]; cbn [map_erase map_find].
  - now destruct (str_eqb k' k).
  - destruct (str_eqb k k1) eqn:E.
    + apply str_eqb_eq in E. subst k1. destruct (str_eqb k' k) eqn:E2; [|reflexivity].
      apply str_eqb_eq in E2. subst k'. eapply sorted_find_lt; eauto.
    + cbn [map_find]. rewrite IH. destruct (str_eqb k' k1) eqn:E1; [|reflexivity]. apply str_eqb_eq in E1. subst k1.
      rewrite str_eqb_sym, E. reflexivity.
Qed.
Lemma vals_set k v m : map_find k m = None -> Permutation (map snd (map_set k v m)) (v :: map snd m).
Proof.
  induction m as [|[k1 v1] m IH]; cbn [map_find map_set]; [reflexivity|].
  destruct (str_eqb k k1); [discriminate|]. intros H. destruct (lex_ltb k k1); [reflexivity|].
  cbn [map snd]. rewrite IH by auto. apply perm_swap.
Qed.
Lemma vals_erase k v m : map_find k m = Some v -> Permutation (map snd m) (v :: map snd (map_erase k m)).
Proof.
  induction m as [|[k1 v1] m IH]; cbn [map_find map_erase]; [discriminate|].
  destruct (str_eqb k k1); intros H; [inversion H; subst; reflexivity|].
  cbn [map snd]. rewrite IH by auto. apply perm_swap.
Qed.
Lemma erase_set k v m : map_find k m = None -> map_erase k (map_set k v m) = m.
Proof.
  induction m as [|[k1 v1] m IH]; cbn [map_find map_set map_erase]; [now rewrite str_eqb_refl|].
  destruct (str_eqb k k1) eqn:E; [discriminate|]. intros H. destruct (lex_ltb k k1); cbn [map_erase].
  - now rewrite str_eqb_refl.
  - rewrite E. now rewrite IH.
Qed.
Lemma set_set k v v0 m : map_find k m = None -> map_set k v (map_set k v0 m) = map_set k v m.
Proof.
  induction m as [|[k1 v1] m IH]; cbn [map_find map_set].
  - now rewrite lex_irr, str_eqb_refl.
  - destruct (str_eqb k k1) eqn:E; [discriminate|]. intros H. destruct (lex_ltb k k1) eqn:El; cbn [map_set].
    + now rewrite lex_irr, str_eqb_refl.
    + rewrite El, E. now rewrite IH.
Qed.
Lemma find_in k v m : map_find k m = Some v -> In v (map snd m).
Proof.
  induction m as [|[k1 v1] m IH]; cbn [map_find]; [discriminate|]. destruct (str_eqb k k1); intros H.
  - inversion H. cbn. auto.
  - cbn. auto.
Qed.
Lemma index_find k v m : map_find k m = Some v -> map_index k m = (m, v).
Proof. intros H. unfold map_index. now rewrite H. Qed.

(** ** Histories *)
Lemma bound_lt H : forall f i, bound H f = Some i -> i < length H.
Proof.
  induction H as [|ev H IH]; intros f i; cbn [bound length]; [discriminate|].
  destruct (ev_call ev); try (intros E; apply IH in E; lia).
  - destruct (str_eqb f f0); [|intros E; apply IH in E; lia]. destruct (bound H f) eqn:Eb; intros E; inversion E; subst; [apply IH in Eb; lia|lia].
  - destruct (str_eqb f f0); [discriminate|]. intros E; apply IH in E; lia.
  - destruct (bound H a) eqn:Eb; [|intros E; apply IH in E; lia].
    destruct (str_eqb f a); [discriminate|]. destruct (str_eqb f b); intros E; [inversion E; subst; apply IH in Eb; lia|apply IH in E; lia].
Qed.
Lemma opened_lt H : forall h k i, opened H h = Some (k, i) -> h < length H /\ i < length H.
Proof.
  induction H as [|ev H IH]; intros h k i; [discriminate|]. cbn [opened].
  destruct (h =? length H) eqn:E.
  - apply Nat.eqb_eq in E. subst h. destruct (opens (ev_call ev)) as [[k' f]|]; [|discriminate].
    destruct (bound (ev :: H) f) eqn:Eb; [|discriminate]. intros K. inversion K; subst. apply bound_lt in Eb. cbn [length] in *. lia.
  - intros K. apply IH in K. cbn [length]. lia.
Qed.
Lemma contents_new H : forall i, length H <= i -> contents H i = [].
Proof.
  induction H as [|ev H IH]; intros i Hi; cbn [contents length] in *; [reflexivity|].
  assert (E := IH i ltac:(lia)). destruct (ev_call ev); auto.
  - destruct (bound H f); auto. now destruct (_ =? _).
  - destruct (opened H h) as [[k j]|] eqn:Eo; auto. destruct (j =? i) eqn:Ej; auto.
    apply Nat.eqb_eq in Ej. subst. apply opened_lt in Eo. lia.
Qed.
Lemma opened_old ev H h : h <> length H -> opened (ev :: H) h = opened H h.
Proof. intros E. cbn [opened]. apply Nat.eqb_neq in E. now rewrite E. Qed.

(** ** The core invariant *)
Definition nrefs (fm : fmap) (op : heap ofile) (a : nat) : nat :=
  count_occ Nat.eq_dec (map snd fm) a + count_occ Nat.eq_dec (map (fun p => ofile_state (snd p)) op) a.

(** [Z] are the FileStates whose count has reached zero and that some thread is
    about to delete (none when there is one caller). *)
Record Core (Z : nat -> Prop) (e : env) (B : str -> option nat) (C : nat -> list N) (I : nat -> nat) (n : nat) : Prop := {
  co_mem : MInv (e_mem e) (fun a => C (I a)) (nrefs (e_map e) (e_open e));
  co_alive : forall a, alive (e_mem e) a <-> 0 < nrefs (e_map e) (e_open e) a \/ Z a;
  co_dead : forall a, Z a -> nrefs (e_map e) (e_open e) a = 0;
  co_sorted : sorted (e_map e);
  co_hwf : hwf (e_open e);
  co_vals : NoDup (map snd (e_map e));
  co_bound : forall f, B f = option_map I (map_find f (e_map e));
  co_inj : forall a a', alive (e_mem e) a -> alive (e_mem e) a' -> I a = I a' -> a = a';
  co_lt : forall a, alive (e_mem e) a -> I a < n }.

Lemma Core_ext Z e B C I n B' C' n' : Core Z e B C I n -> (forall f, B' f = B f) ->
  (forall a, alive (e_mem e) a -> C' (I a) = C (I a)) -> n <= n' -> Core Z e B' C' I n'.
Proof.
  intros K EB EC Hn. constructor; try apply K.
  - eapply MInv_ext; [apply (co_mem _ _ _ _ _ _ K)|auto|auto].
  - intros f. rewrite EB. apply (co_bound _ _ _ _ _ _ K).
  - intros a Ha. eapply Nat.lt_le_trans; [apply (co_lt _ _ _ _ _ _ K a Ha)|auto].
Qed.

Lemma Core_extZ Z Z' e B C I n : Core Z e B C I n -> (forall a, Z' a <-> Z a) -> Core Z' e B C I n.
Proof.
  intros K E. constructor; try apply K.
  - intros a. rewrite E. apply (co_alive _ _ _ _ _ _ K).
  - intros a Ha. apply (co_dead _ _ _ _ _ _ K). now apply E.
Qed.
Lemma Core_env Z e e' B C I n : Core Z e B C I n -> e_mem e' = e_mem e -> e_map e' = e_map e -> e_open e' = e_open e -> Core Z e' B C I n.
Proof. intros K E1 E2 E3. destruct e, e'. cbn in *. subst. exact K. Qed.

Lemma nrefs_map fm op a : In a (map snd fm) -> 0 < nrefs fm op a.
Proof. intros H. unfold nrefs. apply (count_occ_In Nat.eq_dec) in H. lia. Qed.
Lemma nrefs_open fm op h o : hget op h = Some o -> 0 < nrefs fm op (ofile_state o).
Proof.
  intros H. unfold nrefs. assert (K : In (ofile_state o) (map (fun p => ofile_state (snd p)) op)).
  { induction op as [|[h' o'] op IH]; cbn [hget] in H; [discriminate|]. destruct (h =? h'); cbn [map snd].
    - inversion H. left. reflexivity.
    - right. auto. }
  apply (count_occ_In Nat.eq_dec) in K. lia.
Qed.
Lemma Core_find Z e B C I n f a : Core Z e B C I n -> map_find f (e_map e) = Some a -> alive (e_mem e) a.
Proof. intros K E. apply (co_alive _ _ _ _ _ _ K). left. apply nrefs_map. eapply find_in; eauto. Qed.
Lemma Core_find_nz Z e B C I n f a : Core Z e B C I n -> map_find f (e_map e) = Some a -> ~ Z a.
Proof. intros K E Q. apply (co_dead _ _ _ _ _ _ K) in Q. apply find_in, (nrefs_map _ (e_open e)) in E. lia. Qed.
Lemma Core_obj Z e B C I n h o : Core Z e B C I n -> hget (e_open e) h = Some o -> alive (e_mem e) (ofile_state o).
Proof. intros K E. apply (co_alive _ _ _ _ _ _ K). left. eapply nrefs_open; eauto. Qed.

Lemma states_put (op : heap ofile) h o : hget op h = None ->
  map (fun p => ofile_state (snd p)) (hput op h o) = ofile_state o :: map (fun p => ofile_state (snd p)) op.
Proof. intros E. unfold hput. rewrite hdel_notin by auto. reflexivity. Qed.
Lemma states_del (op : heap ofile) h o : hwf op -> hget op h = Some o ->
  Permutation (map (fun p => ofile_state (snd p)) op) (ofile_state o :: map (fun p => ofile_state (snd p)) (hdel op h)).
Proof.
  unfold hwf. induction op as [|[h' o'] op IH]; cbn [hget dom map fst]; [discriminate|]. intros W E.
  apply NoDup_cons_iff in W as [W1 W2]. cbn [hdel]. destruct (h =? h') eqn:Eh.
  - apply Nat.eqb_eq in Eh. subst h'. inversion E; subst o'. rewrite hdel_notin; [reflexivity|].
    apply not_dom_hget. exact W1.
  - cbn [map snd]. rewrite IH by auto. apply perm_swap.
Qed.
Lemma count_perm l l' (a : nat) : Permutation l l' -> count_occ Nat.eq_dec l a = count_occ Nat.eq_dec l' a.
Proof. intros P. now apply Permutation_count_occ. Qed.
Lemma count_cons l (x a : nat) : count_occ Nat.eq_dec (x :: l) a = (if a =? x then 1 else 0) + count_occ Nat.eq_dec l a.
Proof.
  cbn [count_occ]. destruct (Nat.eq_dec x a) as [->|H]; [now rewrite Nat.eqb_refl|].
  assert (E : a =? x = false) by (apply Nat.eqb_neq; auto). now rewrite E.
Qed.

(** Opening an object on a live file. *)
Lemma Core_open Z e B C I n h o : Core Z e B C I n -> alive (e_mem e) (ofile_state o) -> ~ Z (ofile_state o) -> hget (e_open e) h = None ->
  (N.of_nat (length (e_open e)) < 2 ^ 31 - 2)%N ->
  exists m', ref (e_mem e) (ofile_state o) = Ret m' /\
    Core Z (mk_env m' (e_map e) (hput (e_open e) h o)) B C I n /\ (forall a, alive m' a <-> alive (e_mem e) a).
Proof.
  intros K Ha NZ Hh Hn. set (a := ofile_state o) in *.
  assert (Hle : nrefs (e_map e) (e_open e) a <= 1 + length (e_open e)).
  { unfold nrefs. assert (count_occ Nat.eq_dec (map snd (e_map e)) a <= 1).
    { apply NoDup_count_occ. apply (co_vals _ _ _ _ _ _ K). }
    assert (forall l : list nat, count_occ Nat.eq_dec l a <= length l).
    { induction l as [|x l IHl]; [cbn; lia|]. rewrite count_cons. cbn [length]. destruct (a =? x); lia. }
    specialize (H0 (map (fun p => ofile_state (snd p)) (e_open e))). rewrite map_length in H0. lia. }
  destruct (ref_ok _ _ _ _ (co_mem _ _ _ _ _ _ K) Ha ltac:(lia)) as (m' & E & I' & A').
  exists m'. split; [exact E|]. 
  assert (Nr : forall x, nrefs (e_map e) (hput (e_open e) h o) x = upn (nrefs (e_map e) (e_open e)) a (S (nrefs (e_map e) (e_open e) a)) x).
  { intros x. unfold upn, nrefs. rewrite states_put by auto. rewrite count_cons. fold a. destruct (x =? a) eqn:Ex; [|lia].
    apply Nat.eqb_eq in Ex. subst x. lia. }
  split; [|exact A']. constructor; cbn [e_mem e_map e_open].
  - eapply MInv_ext; [exact I'|auto|]. intros x _. apply Nr.
  - intros x. rewrite A', Nr. rewrite (co_alive _ _ _ _ _ _ K). unfold upn. destruct (x =? a) eqn:Ex; [|tauto].
    apply Nat.eqb_eq in Ex. subst x. apply (co_alive _ _ _ _ _ _ K) in Ha. split; [intros _; left; lia|auto].
  - intros x Hx. rewrite Nr. rewrite upn_ne; [now apply (co_dead _ _ _ _ _ _ K)|]. intros ->. contradiction.
  - apply K.
  - apply hwf_hput, K.
  - apply K.
  - apply K.
  - intros x y. rewrite !A'. apply (co_inj _ _ _ _ _ _ K).
  - intros x. rewrite A'. apply (co_lt _ _ _ _ _ _ K).
Qed.

(** Replacing an object by one on the same file (its position moves). *)
Lemma Core_setobj Z e B C I n h o o' : Core Z e B C I n -> hget (e_open e) h = Some o -> ofile_state o' = ofile_state o ->
  Core Z (mk_env (e_mem e) (e_map e) (hput (e_open e) h o')) B C I n.
Proof.
  intros K Hh Es.
  assert (Nr : forall x, nrefs (e_map e) (hput (e_open e) h o') x = nrefs (e_map e) (e_open e) x).
  { intros x. unfold nrefs. f_equal. unfold hput. cbn [map snd]. rewrite Es. apply count_perm. symmetry. apply states_del; auto.
    apply (co_hwf _ _ _ _ _ _ K). }
  constructor; cbn [e_mem e_map e_open]; try apply K.
  - eapply MInv_ext; [apply (co_mem _ _ _ _ _ _ K)|auto|]. intros; apply Nr.
  - intros x. rewrite Nr. apply (co_alive _ _ _ _ _ _ K).
  - intros x Hx. rewrite Nr. now apply (co_dead _ _ _ _ _ _ K).
  - apply hwf_hput, K.
Qed.

(** One reference to [a] given up: the map becomes [fm], the objects [op]. *)
Definition Zadd (Z : nat -> Prop) (a : nat) (d : bool) : nat -> Prop := fun x => Z x \/ (d = true /\ x = a).
Lemma Core_drop dbg Z e B C I n a fm op B' : Core Z e B C I n ->
  (forall x, nrefs (e_map e) (e_open e) x = (if x =? a then 1 else 0) + nrefs fm op x) ->
  sorted fm -> hwf op -> NoDup (map snd fm) -> (forall f, B' f = option_map I (map_find f fm)) ->
  exists m' d, unref_dec dbg (e_mem e) a = Ret (m', d) /\ Core (Zadd Z a d) (mk_env m' fm op) B' C I n /\
    (forall x, alive m' x <-> alive (e_mem e) x) /\ ~ Z a.
Proof.
  intros K P S W ND Hb.
  assert (Hpos : 0 < nrefs (e_map e) (e_open e) a) by (rewrite P, Nat.eqb_refl; lia).
  assert (Ha : alive (e_mem e) a) by (apply (co_alive _ _ _ _ _ _ K); auto).
  assert (NZ : ~ Z a) by (intros Q; apply (co_dead _ _ _ _ _ _ K) in Q; lia).
  destruct (unref_dec_ok dbg _ _ _ a (co_mem _ _ _ _ _ _ K) Ha Hpos) as (m' & E & I' & A').
  do 2 eexists. split; [exact E|]. split; [|split; [exact A'|exact NZ]].
  assert (Nr : forall x, nrefs fm op x = upn (nrefs (e_map e) (e_open e)) a (nrefs (e_map e) (e_open e) a - 1) x).
  { intros x. unfold upn. specialize (P x). destruct (x =? a) eqn:Ex; [|lia]. apply Nat.eqb_eq in Ex. subst x. lia. }
  constructor; cbn [e_mem e_map e_open]; auto.
  - eapply MInv_ext; [exact I'|auto|]. intros x _. apply Nr.
  - intros x. rewrite A'. rewrite (co_alive _ _ _ _ _ _ K). unfold Zadd. specialize (P x). destruct (x =? a) eqn:Ex.
    + apply Nat.eqb_eq in Ex. subst x. destruct (Nat.eqb_spec (nrefs (e_map e) (e_open e) a) 1).
      * split; [auto|left; lia].
      * split; [left; lia|left; lia].
    + apply Nat.eqb_neq in Ex. split.
      * intros [Q|Q]; [left; lia|auto].
      * intros [Q|[Q|(_ & Q)]]; [left; lia|auto|contradiction].
  - intros x [Hx|(Hd & ->)].
    + rewrite Nr, upn_ne by (intros ->; contradiction). now apply (co_dead _ _ _ _ _ _ K).
    + apply Nat.eqb_eq in Hd. rewrite Nr, upn_eq. lia.
  - intros x y Hx Hy. apply A' in Hx, Hy. now apply (co_inj _ _ _ _ _ _ K).
  - intros x Hx. apply A' in Hx. now apply (co_lt _ _ _ _ _ _ K).
Qed.
Lemma Core_destroy Z e B C I n a : Core Z e B C I n -> Z a ->
  exists m', destroy (e_mem e) a = Ret m' /\ Core (fun x => Z x /\ x <> a) (mk_env m' (e_map e) (e_open e)) B C I n /\
    (forall x, alive m' x <-> alive (e_mem e) x /\ x <> a).
Proof.
  intros K Za. assert (Ha : alive (e_mem e) a) by (apply (co_alive _ _ _ _ _ _ K); auto).
  destruct (destroy_ok _ _ _ a (co_mem _ _ _ _ _ _ K) Ha) as (m' & E & I' & A').
  exists m'. split; [exact E|]. split; [|exact A'].
  constructor; cbn [e_mem e_map e_open]; try apply K.
  - exact I'.
  - intros x. rewrite A', (co_alive _ _ _ _ _ _ K). split.
    + intros ([Q|Q] & Hn); auto.
    + intros [Q|(Q & Hn)]; [|auto]. split; [auto|]. intros ->. apply (co_dead _ _ _ _ _ _ K) in Za. lia.
  - intros x (Hx & _). now apply (co_dead _ _ _ _ _ _ K).
  - intros x y Hx Hy. apply A' in Hx as (Hx & _), Hy as (Hy & _). now apply (co_inj _ _ _ _ _ _ K).
  - intros x Hx. apply A' in Hx as (Hx & _). now apply (co_lt _ _ _ _ _ _ K).
Qed.
Lemma Core_unref dbg Z e B C I n a fm op B' : Core Z e B C I n ->
  (forall x, nrefs (e_map e) (e_open e) x = (if x =? a then 1 else 0) + nrefs fm op x) ->
  sorted fm -> hwf op -> NoDup (map snd fm) -> (forall f, B' f = option_map I (map_find f fm)) ->
  exists m', unref dbg (e_mem e) a = Ret m' /\ Core Z (mk_env m' fm op) B' C I n /\ (forall x, alive m' x -> alive (e_mem e) x).
Proof.
  intros K P S W ND Hb. destruct (Core_drop dbg Z e B C I n a fm op B' K P S W ND Hb) as (m1 & d & E1 & K1 & A1 & NZ).
  unfold unref. rewrite E1. cbn [bind fst snd]. destruct d.
  - destruct (Core_destroy _ _ _ _ _ _ a K1) as (m2 & E2 & K2 & A2); [right; auto|]. cbn [e_mem e_map e_open] in *.
    exists m2. split; [exact E2|]. split.
    + eapply Core_extZ; [exact K2|]. intros x. unfold Zadd. split.
      * intros Hx. split; [auto|]. intros ->. contradiction.
      * intros ([Hx|(_ & Hx)] & Hn); [auto|contradiction].
    + intros x Hx. apply A2 in Hx as (Hx & _). now apply A1.
  - exists m1. split; [reflexivity|]. split; [|intros x; apply A1].
    eapply Core_extZ; [exact K1|]. intros x. unfold Zadd. split; [auto|]. intros [Q|(Q & _)]; [auto|discriminate].
Qed.

Lemma nrefs_del Z e B C I n h o : Core Z e B C I n -> hget (e_open e) h = Some o ->
  forall x, nrefs (e_map e) (e_open e) x = (if x =? ofile_state o then 1 else 0) + nrefs (e_map e) (hdel (e_open e) h) x.
Proof.
  intros K Hh x. unfold nrefs. rewrite (count_perm _ _ x (states_del _ _ _ (co_hwf _ _ _ _ _ _ K) Hh)), count_cons. lia.
Qed.
Lemma Core_delete dbg Z e B C I n h o : Core Z e B C I n -> hget (e_open e) h = Some o ->
  exists m', unref dbg (e_mem e) (ofile_state o) = Ret m' /\
    Core Z (mk_env m' (e_map e) (hdel (e_open e) h)) B C I n /\ (forall a, alive m' a -> alive (e_mem e) a).
Proof.
  intros K Hh. apply (Core_unref dbg Z e B C I n); try apply K; auto.
  - now apply (nrefs_del Z e B C I n).
  - apply hwf_hdel, K.
Qed.
Lemma Core_delete_dec dbg Z e B C I n h o : Core Z e B C I n -> hget (e_open e) h = Some o ->
  exists m' d, unref_dec dbg (e_mem e) (ofile_state o) = Ret (m', d) /\
    Core (Zadd Z (ofile_state o) d) (mk_env m' (e_map e) (hdel (e_open e) h)) B C I n /\
    (forall a, alive m' a <-> alive (e_mem e) a) /\ ~ Z (ofile_state o).
Proof.
  intros K Hh. apply (Core_drop dbg Z e B C I n); try apply K; auto.
  - now apply (nrefs_del Z e B C I n).
  - apply hwf_hdel, K.
Qed.

Lemma nrefs_erase (e : env) f a : map_find f (e_map e) = Some a ->
  forall x, nrefs (e_map e) (e_open e) x = (if x =? a then 1 else 0) + nrefs (map_erase f (e_map e)) (e_open e) x.
Proof.
  intros Hf x. unfold nrefs. rewrite (count_perm _ _ x (vals_erase _ _ _ Hf)), count_cons. lia.
Qed.
Lemma vals_erase_nodup Z e B C I n f a : Core Z e B C I n -> map_find f (e_map e) = Some a -> NoDup (map snd (map_erase f (e_map e))).
Proof.
  intros K Hf. pose proof (co_vals _ _ _ _ _ _ K) as ND. apply (Permutation_NoDup (vals_erase _ _ _ Hf)) in ND.
  now apply NoDup_cons_iff in ND as [_ ND].
Qed.
Lemma bound_erase Z e B C I n f : Core Z e B C I n ->
  forall g, (if str_eqb g f then None else B g) = option_map I (map_find g (map_erase f (e_map e))).
Proof.
  intros K g. rewrite find_erase by apply K. destruct (str_eqb g f); [reflexivity|]. apply (co_bound _ _ _ _ _ _ K).
Qed.
Lemma Core_remove dbg Z e B C I n f a : Core Z e B C I n -> map_find f (e_map e) = Some a ->
  exists m', remove_internal dbg (e_mem e) (e_map e) f = Ret (m', map_erase f (e_map e)) /\
    Core Z (mk_env m' (map_erase f (e_map e)) (e_open e)) (fun g => if str_eqb g f then None else B g) C I n /\
    (forall x, alive m' x -> alive (e_mem e) x).
Proof.
  intros K Hf. unfold remove_internal. rewrite Hf, (index_find _ _ _ Hf).
  destruct (Core_unref dbg Z e B C I n a (map_erase f (e_map e)) (e_open e) (fun g => if str_eqb g f then None else B g) K) as (m' & E & K' & A').
  - now apply nrefs_erase.
  - apply sorted_erase, K.
  - apply K.
  - now apply (vals_erase_nodup Z e B C I n f a).
  - now apply (bound_erase Z e B C I n).
  - rewrite E. cbn [bind]. exists m'. auto.
Qed.
Lemma Core_remove_dec dbg Z e B C I n f a : Core Z e B C I n -> map_find f (e_map e) = Some a ->
  exists m' d, unref_dec dbg (e_mem e) a = Ret (m', d) /\
    Core (Zadd Z a d) (mk_env m' (map_erase f (e_map e)) (e_open e)) (fun g => if str_eqb g f then None else B g) C I n /\
    (forall x, alive m' x <-> alive (e_mem e) x) /\ ~ Z a.
Proof.
  intros K Hf. apply (Core_drop dbg Z e B C I n); auto.
  - now apply nrefs_erase.
  - apply sorted_erase, K.
  - apply K.
  - now apply (vals_erase_nodup Z e B C I n f a).
  - now apply (bound_erase Z e B C I n).
Qed.

Lemma Core_truncate Z e B C I n a : Core Z e B C I n -> alive (e_mem e) a ->
  exists m', truncate (e_mem e) a = Ret m' /\
    Core Z (mk_env m' (e_map e) (e_open e)) B (upn C (I a) []) I n /\ (forall x, alive m' x <-> alive (e_mem e) x).
Proof.
  intros K Ha. destruct (truncate_ok _ _ _ a (co_mem _ _ _ _ _ _ K) Ha) as (m' & E & I' & A' & _).
  exists m'. split; [exact E|]. split; [|exact A'].
  constructor; cbn [e_mem e_map e_open]; try apply K.
  - eapply MInv_ext; [exact I'| |auto]. intros x Hx. apply A' in Hx. unfold upn. destruct (x =? a) eqn:Ex.
    + apply Nat.eqb_eq in Ex. subst x. now rewrite Nat.eqb_refl.
    + apply Nat.eqb_neq in Ex. assert (I x <> I a) by (intros Q; apply Ex, (co_inj _ _ _ _ _ _ K); auto).
      apply Nat.eqb_neq in H. now rewrite H.
  - intros x. rewrite A'. apply (co_alive _ _ _ _ _ _ K).
  - intros x y Hx Hy. apply A' in Hx, Hy. now apply (co_inj _ _ _ _ _ _ K).
  - intros x Hx. apply A' in Hx. now apply (co_lt _ _ _ _ _ _ K).
Qed.

Lemma Core_append alb Z e B C I n a d : allocator_ok alb -> Core Z e B C I n -> alive (e_mem e) a ->
  (N.of_nat (length (C (I a))) + N.of_nat (length d) < 2 ^ 64)%N ->
  exists m', append alb (e_mem e) a d = Ret m' /\
    Core Z (mk_env m' (e_map e) (e_open e)) B (upn C (I a) (C (I a) ++ d)) I n /\ (forall x, alive m' x <-> alive (e_mem e) x).
Proof.
  intros Halb K Ha Hlt. destruct (append_ok alb _ _ _ a d Halb (co_mem _ _ _ _ _ _ K) Ha Hlt) as (m' & E & I' & A').
  exists m'. split; [exact E|]. split; [|exact A'].
  constructor; cbn [e_mem e_map e_open]; try apply K.
  - eapply MInv_ext; [exact I'| |auto]. intros x Hx. apply A' in Hx. unfold upn. destruct (x =? a) eqn:Ex.
    + apply Nat.eqb_eq in Ex. subst x. now rewrite Nat.eqb_refl.
    + apply Nat.eqb_neq in Ex. assert (I x <> I a) by (intros Q; apply Ex, (co_inj _ _ _ _ _ _ K); auto).
      apply Nat.eqb_neq in H. now rewrite H.
  - intros x. rewrite A'. apply (co_alive _ _ _ _ _ _ K).
  - intros x y Hx Hy. apply A' in Hx, Hy. now apply (co_inj _ _ _ _ _ _ K).
  - intros x Hx. apply A' in Hx. now apply (co_lt _ _ _ _ _ _ K).
Qed.

(** A new file under a new name. *)
Lemma Core_new alc Z e B C I n f : allocator_ok alc -> Core Z e B C I n -> map_find f (e_map e) = None -> C n = [] ->
  exists m1 a m', new_file alc (e_mem e) = (m1, a) /\ ref m1 a = Ret m' /\ ~ alive (e_mem e) a /\
    Core Z (mk_env m' (map_set f a (e_map e)) (e_open e)) (fun g => if str_eqb g f then Some n else B g) C (upn I a n) (S n) /\
    (forall x, alive m' x <-> alive (e_mem e) x \/ x = a).
Proof.
  intros Halc K Hf Hc. destruct (new_file_ok alc _ _ _ Halc (co_mem _ _ _ _ _ _ K)) as (m1 & a & E1 & N0 & Na & I1 & A1).
  destruct (ref_ok m1 _ _ a I1) as (m' & E2 & I2 & A2).
  { apply A1. auto. } { rewrite upn_eq. lia. }
  exists m1, a, m'. split; [exact E1|]. split; [exact E2|]. split; [exact Na|].
  assert (A : forall x, alive m' x <-> alive (e_mem e) x \/ x = a) by (intros x; rewrite A2; apply A1).
  assert (Nz : nrefs (e_map e) (e_open e) a = 0).
  { destruct (nrefs (e_map e) (e_open e) a) eqn:Q; auto. exfalso. apply Na. apply (co_alive _ _ _ _ _ _ K). lia. }
  assert (NZ : ~ Z a) by (intros Q; apply Na, (co_alive _ _ _ _ _ _ K); auto).
  assert (Nr : forall x, nrefs (map_set f a (e_map e)) (e_open e) x = (if x =? a then 1 else 0) + nrefs (e_map e) (e_open e) x).
  { intros x. unfold nrefs. rewrite (count_perm _ _ x (vals_set f a _ Hf)), count_cons. lia. }
  split; [|exact A]. constructor; cbn [e_mem e_map e_open].
  - eapply MInv_ext; [exact I2| |].
    + intros x Hx. unfold upn. destruct (x =? a); auto.
    + intros x Hx. rewrite Nr. unfold upn. rewrite Nat.eqb_refl. destruct (x =? a) eqn:Ex; [|lia]. apply Nat.eqb_eq in Ex. subst x. lia.
  - intros x. rewrite A, Nr, (co_alive _ _ _ _ _ _ K). destruct (x =? a) eqn:Ex.
    + apply Nat.eqb_eq in Ex. split; [left; lia|auto].
    + apply Nat.eqb_neq in Ex. split; [intros [[Q|Q]|Q]; [left; lia|auto|contradiction]|intros [Q|Q]; left; [left; lia|auto]].
  - intros x Hx. rewrite Nr. assert (Ex : x =? a = false) by (apply Nat.eqb_neq; intros ->; contradiction). rewrite Ex.
    now apply (co_dead _ _ _ _ _ _ K).
  - apply sorted_set, K.
  - apply K.
  - eapply Permutation_NoDup; [symmetry; apply vals_set; auto|]. constructor; [|apply K].
    intros Q. apply (nrefs_map _ (e_open e)) in Q. lia.
  - intros g. rewrite find_set. destruct (str_eqb g f); cbn [option_map]; [now rewrite upn_eq|].
    rewrite (co_bound _ _ _ _ _ _ K). destruct (map_find g (e_map e)) as [x|] eqn:Eg; cbn [option_map]; auto.
    f_equal. rewrite upn_ne; auto. intros ->. apply Na. eapply Core_find; eauto.
  - intros x y Hx Hy. apply A in Hx, Hy. unfold upn. destruct (x =? a) eqn:Ex, (y =? a) eqn:Ey.
    + apply Nat.eqb_eq in Ex, Ey. congruence.
    + intros Q. destruct Hy as [Hy|Hy]; [|apply Nat.eqb_neq in Ey; contradiction]. pose proof (co_lt _ _ _ _ _ _ K y Hy). lia.
    + intros Q. destruct Hx as [Hx|Hx]; [|apply Nat.eqb_neq in Ex; contradiction]. pose proof (co_lt _ _ _ _ _ _ K x Hx). lia.
    + apply Nat.eqb_neq in Ex, Ey. destruct Hx as [Hx|Hx]; [|contradiction]. destruct Hy as [Hy|Hy]; [|contradiction].
      now apply (co_inj _ _ _ _ _ _ K).
  - intros x Hx. unfold upn. destruct (x =? a) eqn:Ex; [lia|]. apply A in Hx as [Hx|Hx]; [|apply Nat.eqb_neq in Ex; contradiction].
    pose proof (co_lt _ _ _ _ _ _ K x Hx). lia.
Qed.

(** Moving a name to a free name. *)
Lemma Core_move Z e B C I n s t a : Core Z e B C I n -> map_find s (e_map e) = Some a -> s <> t -> map_find t (e_map e) = None ->
  Core Z (mk_env (e_mem e) (map_erase s (map_set t a (e_map e))) (e_open e))
    (fun g => if str_eqb g s then None else if str_eqb g t then Some (I a) else B g) C I n.
Proof.
  intros K Hs Hne Ht.
  assert (Hs' : map_find s (map_set t a (e_map e)) = Some a).
  { rewrite find_set. apply str_eqb_neq in Hne. now rewrite Hne. }
  assert (P : Permutation (map snd (map_erase s (map_set t a (e_map e)))) (map snd (e_map e))).
  { pose proof (vals_erase _ _ _ Hs') as P1. pose proof (vals_set t a _ Ht) as P2. rewrite P2 in P1.
    apply Permutation_cons_inv in P1. now symmetry. }
  assert (Nr : forall x, nrefs (map_erase s (map_set t a (e_map e))) (e_open e) x = nrefs (e_map e) (e_open e) x).
  { intros x. unfold nrefs. f_equal. now apply count_perm. }
  constructor; cbn [e_mem e_map e_open]; try apply K.
  - eapply MInv_ext; [apply (co_mem _ _ _ _ _ _ K)|auto|]. intros; apply Nr.
  - intros x. rewrite Nr. apply (co_alive _ _ _ _ _ _ K).
  - intros x Hx. rewrite Nr. now apply (co_dead _ _ _ _ _ _ K).
  - apply sorted_erase, sorted_set, K.
  - eapply Permutation_NoDup; [symmetry; exact P|apply K].
  - intros g. rewrite find_erase by (apply sorted_set, K). rewrite find_set. destruct (str_eqb g s); [reflexivity|].
    destruct (str_eqb g t); [reflexivity|]. apply (co_bound _ _ _ _ _ _ K).
Qed.
