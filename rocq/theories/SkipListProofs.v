(** SkipListProofs.v -- ghost invariant of the skip list's memory, preserved by
    every single store of Insert, and correctness of the sequential searches. *)
From Coq Require Import List Arith ZArith NArith Lia Bool Sorted Permutation.
From Verif Require Import Outcome Random SkipList SkipListSpec.
Import ListNotations.
Local Open Scope outcome_scope.

(** ** Comparators *)
Section Cmp.
  Context {K : Type} (cmp : K -> K -> Z) (Hc : comparator_ok cmp).

  Lemma cmp_neg a b : (cmp a b < 0)%Z <-> (0 < cmp b a)%Z.
  Proof. pose proof (cmp_opp _ Hc a b). destruct (cmp a b), (cmp b a); cbn in *; lia. Qed.
  Lemma cmp_zero a b : (cmp a b = 0)%Z <-> (cmp b a = 0)%Z.
  Proof. pose proof (cmp_opp _ Hc a b). destruct (cmp a b), (cmp b a); cbn in *; lia. Qed.
  Lemma cmp_refl a : (cmp a a = 0)%Z.
  Proof. pose proof (cmp_opp _ Hc a a). destruct (cmp a a); cbn in *; lia. Qed.
  Lemma cmp_lt_le a b c : (cmp a b < 0)%Z -> (cmp b c <= 0)%Z -> (cmp a c < 0)%Z.
  Proof.
    intros H1 H2. assert (H3 : (cmp a c <= 0)%Z) by (eapply cmp_le_trans; eauto; lia).
    destruct (Z.eq_dec (cmp a c) 0) as [E|]; [|lia].
    apply cmp_zero in E.
    assert ((cmp b a <= 0)%Z) by (eapply cmp_le_trans; eauto; lia).
    apply cmp_neg in H1. lia.
  Qed.
  Lemma cmp_le_lt a b c : (cmp a b <= 0)%Z -> (cmp b c < 0)%Z -> (cmp a c < 0)%Z.
  Proof.
    intros H1 H2. assert (H3 : (cmp a c <= 0)%Z) by (eapply cmp_le_trans; eauto; lia).
    destruct (Z.eq_dec (cmp a c) 0) as [E|]; [|lia].
    apply cmp_zero in E.
    assert ((cmp c b <= 0)%Z) by (eapply cmp_le_trans; eauto; lia).
    apply cmp_neg in H2. lia.
  Qed.
  Lemma cmp_lt_trans a b c : (cmp a b < 0)%Z -> (cmp b c < 0)%Z -> (cmp a c < 0)%Z.
  Proof. intros. eapply cmp_lt_le; eauto. lia. Qed.
End Cmp.

(** ** Lists *)
Lemma set_nth_length {A} (l : list A) n x : length (set_nth l n x) = length l.
Proof. revert n; induction l as [|y t IH]; intros [|n]; cbn; auto. Qed.

Lemma nth_error_set_nth {A} (l : list A) n x k :
  nth_error (set_nth l n x) k = if (k =? n) && (n <? length l) then Some x else nth_error l k.
Proof.
  revert n k; induction l as [|y t IH]; intros n k.
  - cbn [set_nth length]. rewrite Nat.ltb_irrefl || (destruct n; cbn). all: try rewrite Bool.andb_false_r; auto.
    all: destruct n; cbn; rewrite ?Bool.andb_false_r; auto.
  - destruct n as [|n]; destruct k as [|k]; cbn [set_nth nth_error length]; auto.
    rewrite IH. reflexivity.
Qed.

Lemma set_nth_oob {A} (l : list A) n x : length l <= n -> set_nth l n x = l.
Proof.
  revert n; induction l as [|y t IH]; intros [|n] H; cbn in *; auto; try lia.
  now rewrite IH by lia.
Qed.

Lemma find_app {A} (f : A -> bool) a b :
  find f (a ++ b) = match find f a with Some x => Some x | None => find f b end.
Proof. induction a as [|x t IH]; cbn; auto. destruct (f x); auto. Qed.

Lemma find_split {A} (f : A -> bool) l y :
  find f l = Some y -> exists p s, l = p ++ y :: s /\ f y = true /\ Forall (fun x => f x = false) p.
Proof.
  induction l as [|x t IH]; cbn; [discriminate|].
  destruct (f x) eqn:E.
  - intros H; inversion H; subst. exists [], t. auto.
  - intros H. destruct (IH H) as (p & s & -> & Hy & Hp). exists (x :: p), s. auto.
Qed.

Lemma find_none_all {A} (f : A -> bool) l : find f l = None -> Forall (fun x => f x = false) l.
Proof.
  induction l as [|x t IH]; cbn; auto. destruct (f x) eqn:E; [discriminate|]. auto.
Qed.

Lemma find_ext {A} (f g : A -> bool) l : (forall x, In x l -> f x = g x) -> find f l = find g l.
Proof.
  induction l as [|x t IH]; cbn; auto. intros H. rewrite (H x) by auto. rewrite IH; auto.
Qed.

Lemma nodup_split_unique {A} (l1 l2 s1 s2 : list A) x :
  NoDup (l1 ++ x :: s1) -> l1 ++ x :: s1 = l2 ++ x :: s2 -> l1 = l2 /\ s1 = s2.
Proof.
  revert l2; induction l1 as [|a t IH]; intros [|b u] Hn He; cbn in *.
  - inversion He; auto.
  - inversion He; subst. exfalso. inversion Hn; subst. apply H1.
    apply in_or_app; cbn; auto.
  - inversion He; subst. exfalso. inversion Hn; subst. apply H1. apply in_or_app; cbn; auto.
  - inversion He; subst. inversion Hn; subst. destruct (IH u H3 H1). subst; auto.
Qed.

(** ** Ghost state *)
Section Ghost.
  Context {K : Type} (cmp : K -> K -> Z) (Hc : comparator_ok cmp).

  Notation mem := (mem K). Notation store := (store K). Notation skiplist := (skiplist K).

  (** Ghost: the node order, and how many levels of each node are linked in. *)
  Record ghost := { g_mem : mem; g_l : list nat; g_lv : nat -> nat }.

  Definition height_of (m : mem) (a : nat) : nat :=
    match nth_error (nodes m) a with Some n => length (next_ n) | None => 0 end.

  Definition lt_nodes (m : mem) (a b : nat) : Prop :=
    exists ka kb, key_of m a = Ret ka /\ key_of m b = Ret kb /\ (cmp ka kb < 0)%Z.

  (** a node with key [k] is before / after *)
  Definition node_lt (m : mem) (a : nat) (k : K) : Prop :=
    exists ka, key_of m a = Ret ka /\ (cmp ka k < 0)%Z.
  Definition node_ge (m : mem) (a : nat) (k : K) : Prop :=
    exists ka, key_of m a = Ret ka /\ (0 <= cmp ka k)%Z.

  Record Good (g : ghost) : Prop := {
    G_nodes : forall a, In a (g_l g) -> 0 < a < length (nodes (g_mem g));
    G_head : 0 < length (nodes (g_mem g)) /\ g_lv g 0 = kMaxHeight /\ height_of (g_mem g) 0 = kMaxHeight;
    G_lv : forall a, g_lv g a <= height_of (g_mem g) a;
    G_max : 1 <= max_height_ (g_mem g) <= kMaxHeight;
    G_ht : forall a, In a (g_l g) -> height_of (g_mem g) a <= max_height_ (g_mem g);
    G_sorted : StronglySorted (lt_nodes (g_mem g)) (g_l g);
    G_links : forall p x s i, 0 :: g_l g = p ++ x :: s -> i < g_lv g x ->
                Next (g_mem g) x i = Ret (find (fun y => i <? g_lv g y) s)
  }.

  Lemma lt_nodes_trans m a b c : lt_nodes m a b -> lt_nodes m b c -> lt_nodes m a c.
  Proof.
    intros (ka & kb & H1 & H2 & H3) (kb' & kc & H4 & H5 & H6).
    rewrite H2 in H4. inversion H4; subst. exists ka, kc. split; auto. split; auto.
    eapply cmp_lt_trans; eauto.
  Qed.

  Lemma lt_nodes_irrefl m a : ~ lt_nodes m a a.
  Proof.
    intros (ka & kb & H1 & H2 & H3). rewrite H1 in H2; inversion H2; subst.
    rewrite (cmp_refl _ Hc) in H3. lia.
  Qed.

  Lemma sorted_nodup m l : StronglySorted (lt_nodes m) l -> NoDup l.
  Proof.
    induction 1 as [|a l H IH Hf]; constructor; auto.
    intros Hin. rewrite Forall_forall in Hf. apply (lt_nodes_irrefl m a). auto.
  Qed.

  Lemma Good_nodup g : Good g -> NoDup (0 :: g_l g).
  Proof.
    intros G. constructor.
    - intros H. apply (G_nodes _ G) in H. lia.
    - eapply sorted_nodup. apply G.
  Qed.

  Lemma key_of_ret (m : mem) a : a < length (nodes m) -> exists k, key_of m a = Ret k.
  Proof.
    intros H. unfold key_of, get_node. destruct (nth_error (nodes m) a) eqn:E.
    - cbn. eauto.
    - apply nth_error_None in E. lia.
  Qed.

  Lemma sorted_app_inv m p x s :
    StronglySorted (lt_nodes m) (p ++ x :: s) ->
    Forall (fun a => lt_nodes m a x) p /\ Forall (lt_nodes m x) s.
  Proof.
    induction p as [|a t IH]; cbn; intros H.
    - inversion H; subst. auto.
    - inversion H; subst. destruct (IH H2) as [H4 H5]. split; auto. constructor; auto.
      rewrite Forall_forall in H3. apply H3. apply in_or_app; cbn; auto.
  Qed.

  (** ** Search positions

      [before g x key]: x is the head or a list node with a key < [key]. *)
  Definition before (g : ghost) (x : nat) (key : K) : Prop :=
    x = 0 \/ (In x (g_l g) /\ node_lt (g_mem g) x key).

  Lemma in_split_head g x : x = 0 \/ In x (g_l g) -> exists p s, 0 :: g_l g = p ++ x :: s.
  Proof.
    intros H. assert (Hin : In x (0 :: g_l g)) by (cbn; intuition).
    apply in_split in Hin. destruct Hin as (p & s & E). eauto.
  Qed.

  (** All list nodes after a position are in the suffix; those before have
      smaller keys. *)
  Lemma split_nodes g p x s : Good g -> 0 :: g_l g = p ++ x :: s ->
    (forall y, In y s -> In y (g_l g)) /\
    (forall y, In y s -> x <> 0 -> lt_nodes (g_mem g) x y) /\
    (x <> 0 -> forall y, In y p -> y <> 0 -> lt_nodes (g_mem g) y x) /\
    (forall y, In y p -> y = 0 \/ In y (g_l g)) /\ (x = 0 -> p = []).
  Proof.
    intros G E. destruct p as [|a t]; cbn in E.
    - injection E as <- <-. split; [auto|]. split; [congruence|]. split; [congruence|].
      split; [cbn; tauto|auto].
    - injection E as <- E2. pose proof (G_sorted _ G) as Hs. rewrite E2 in Hs.
      apply sorted_app_inv in Hs as [H1 H2]. rewrite Forall_forall in H1, H2.
      split; [intros y Hy; rewrite E2; apply in_or_app; cbn; auto|].
      split; [auto|]. split.
      { intros _ y [<-|Hy] Hne; [congruence|auto]. }
      split.
      + intros y [<-|Hy]; [auto|]. right. rewrite E2. apply in_or_app; auto.
      + intros ->. exfalso. assert (Hin : In 0 (g_l g)) by (rewrite E2; apply in_or_app; cbn; auto).
        apply (G_nodes _ G) in Hin. lia.
  Qed.

  Lemma Next_ok g x i : Good g -> x = 0 \/ In x (g_l g) -> i < g_lv g x ->
    exists p s, 0 :: g_l g = p ++ x :: s /\
      Next (g_mem g) x i = Ret (find (fun y => i <? g_lv g y) s).
  Proof.
    intros G Hx Hi. destruct (in_split_head g x Hx) as (p & s & E).
    exists p, s. split; auto. eapply G_links; eauto.
  Qed.

  (** What one read of a link tells. *)
  Lemma Next_sound g x i v : Good g -> x = 0 \/ In x (g_l g) -> i < g_lv g x ->
    Next (g_mem g) x i = Ret v ->
    match v with
    | Some y => In y (g_l g) /\ i < g_lv g y /\ (x <> 0 -> lt_nodes (g_mem g) x y) /\
                (forall z, In z (g_l g) -> i < g_lv g z -> (x = 0 \/ lt_nodes (g_mem g) x z) ->
                           z = y \/ lt_nodes (g_mem g) y z)
    | None => forall z, In z (g_l g) -> i < g_lv g z -> (x = 0 \/ lt_nodes (g_mem g) x z) -> False
    end.
  Proof.
    intros G Hx Hi Hn. destruct (Next_ok g x i G Hx Hi) as (p & s & E & Hn').
    rewrite Hn in Hn'. inversion Hn'; subst v; clear Hn'.
    destruct (split_nodes g p x s G E) as (S1 & S2 & S3 & S4 & S5).
    assert (Hafter : forall z, In z (g_l g) -> (x = 0 \/ lt_nodes (g_mem g) x z) -> In z s).
    { intros z Hz Hxz. assert (Hz' : In z (0 :: g_l g)) by (cbn; auto).
      rewrite E in Hz'. apply in_app_or in Hz'. destruct Hz' as [Hp|[<-|Hs]]; auto; exfalso.
      - assert (z <> 0) by (apply (G_nodes _ G) in Hz; lia).
        destruct Hxz as [->|Hlt].
        + rewrite S5 in Hp by reflexivity. inversion Hp.
        + destruct (Nat.eq_dec x 0) as [->|Hx0].
          * rewrite S5 in Hp by reflexivity. inversion Hp.
          * apply (lt_nodes_irrefl (g_mem g) x). eapply lt_nodes_trans; eauto.
      - destruct Hxz as [->|Hlt].
        + apply (G_nodes _ G) in Hz; lia.
        + eapply lt_nodes_irrefl; eauto. }
    destruct (find (fun y => i <? g_lv g y) s) as [y|] eqn:Ef.
    - apply find_split in Ef. destruct Ef as (p2 & s2 & Es & Hy & Hp2).
      apply Nat.ltb_lt in Hy.
      assert (Hys : In y s) by (rewrite Es; apply in_or_app; cbn; auto).
      split; [auto|]. split; [exact Hy|]. split; [auto|].
      intros z Hz Hiz Hxz. pose proof (Hafter z Hz Hxz) as Hzs. rewrite Es in Hzs.
      apply in_app_or in Hzs. destruct Hzs as [Hp|[<-|Hs]]; auto.
      + rewrite Forall_forall in Hp2. specialize (Hp2 z Hp). apply Nat.ltb_ge in Hp2. lia.
      + right. rewrite Es in E.
        assert (E' : 0 :: g_l g = (p ++ x :: p2) ++ y :: s2) by (rewrite <- app_assoc; exact E).
        destruct (split_nodes g _ y s2 G E') as (_ & T2 & _). apply T2; auto.
        assert (In y (g_l g)) by auto. apply (G_nodes _ G) in H. lia.
    - intros z Hz Hiz Hxz. apply find_none_all in Ef. rewrite Forall_forall in Ef.
      specialize (Ef z (Hafter z Hz Hxz)). apply Nat.ltb_ge in Ef. lia.
  Qed.

  Lemma KeyIsAfterNode_spec m key v :
    (forall y, v = Some y -> y < length (nodes m)) ->
    exists b, KeyIsAfterNode cmp m key v = Ret b /\
      match v, b with
      | Some y, true => node_lt m y key
      | Some y, false => node_ge m y key
      | None, b => b = false
      end.
  Proof.
    intros Hv. destruct v as [y|]; cbn [KeyIsAfterNode]; [|eauto].
    destruct (key_of_ret m y (Hv y eq_refl)) as [k Hk]. rewrite Hk. cbn [bind].
    eexists; split; [reflexivity|].
    destruct (Z.ltb_spec (cmp k key) 0); [exists k|exists k]; auto.
  Qed.

  (** ** Sequential searches *)

  Definition full (g : ghost) : Prop :=
    (forall a, In a (g_l g) -> g_lv g a = height_of (g_mem g) a /\ 1 <= g_lv g a) /\
    (forall a, 0 < a < length (nodes (g_mem g)) -> In a (g_l g)).

  (** prev[i] is the last node before [key] at level i *)
  Definition prev_ok (g : ghost) (key : K) (i p : nat) : Prop :=
    before g p key /\ i < g_lv g p /\
    (forall z, In z (g_l g) -> i < g_lv g z -> (p = 0 \/ lt_nodes (g_mem g) p z) -> node_ge (g_mem g) z key).

  Lemma node_lt_ge_dec m a k : a < length (nodes m) -> node_lt m a k \/ node_ge m a k.
  Proof.
    intros H. destruct (key_of_ret m a H) as [ka Hk].
    destruct (Z.ltb_spec (cmp ka k) 0); [left|right]; exists ka; auto.
  Qed.

  Lemma ge_lt_trans m y z k : node_ge m y k -> lt_nodes m y z -> node_ge m z k.
  Proof.
    intros (ky & H1 & H2) (ky' & kz & H3 & H4 & H5). rewrite H1 in H3; inversion H3; subst.
    exists kz. split; auto. destruct (Z.lt_ge_cases (cmp kz k) 0) as [Hlt|]; auto.
    exfalso. pose proof (cmp_lt_trans _ Hc _ _ _ H5 Hlt). lia.
  Qed.

  (** Loop invariant of fge_loop and its result. *)
  Lemma fge_loop_ok g key : Good g -> (forall a, In a (g_l g) -> 1 <= g_lv g a) ->
    forall fuel x level prev p s,
      0 :: g_l g = p ++ x :: s -> before g x key -> level < g_lv g x ->
      length prev = kMaxHeight -> level < kMaxHeight ->
      length s + level < fuel ->
      (forall i, level < i -> i < max_height_ (g_mem g) ->
                 exists q, nth_error prev i = Some (Some q) /\ prev_ok g key i q) ->
      exists v prev', fge_loop cmp fuel (g_mem g) key x level prev = Ret (v, prev') /\
        length prev' = kMaxHeight /\
        (forall i, i < max_height_ (g_mem g) ->
                   exists q, nth_error prev' i = Some (Some q) /\ prev_ok g key i q) /\
        match v with
        | Some y => In y (g_l g) /\ node_ge (g_mem g) y key /\
                    (forall z, In z (g_l g) -> node_ge (g_mem g) z key -> z = y \/ lt_nodes (g_mem g) y z)
        | None => forall z, In z (g_l g) -> node_lt (g_mem g) z key
        end.
  Proof.
    intros G Hpos. induction fuel as [|fuel IH]; intros x level prev p s E Hb Hlv Hpl Hlm Hfuel Hprev; [lia|].
    cbn [fge_loop].
    assert (Hx : x = 0 \/ In x (g_l g)) by (destruct Hb as [->|[? ?]]; auto).
    pose proof (G_links _ G p x s level E Hlv) as Hn. rewrite Hn. cbn [bind].
    pose proof (Next_sound g x level _ G Hx Hlv Hn) as Hsound.
    set (v := find (fun y => level <? g_lv g y) s) in *.
    assert (Hvn : forall y, v = Some y -> y < length (nodes (g_mem g))).
    { intros y Ey. rewrite Ey in Hsound. destruct Hsound as [Hy _]. apply (G_nodes _ G) in Hy. lia. }
    destruct (KeyIsAfterNode_spec (g_mem g) key v Hvn) as (b & Hk & Hb2). rewrite Hk. cbn [bind].
    assert (Hdone : (match v with Some y => node_ge (g_mem g) y key | None => True end) ->
       prev_ok g key level x).
    { intros Hge. split; [exact Hb|]. split; [exact Hlv|].
      intros z Hz Hiz Hxz. destruct v as [y|].
      - destruct Hsound as (_ & _ & _ & Hnext). destruct (Hnext z Hz Hiz Hxz) as [->|Hlt]; auto.
        eapply ge_lt_trans; eauto.
      - exfalso. eauto. }
    assert (Hend : (match v with Some y => node_ge (g_mem g) y key | None => True end) ->
      exists v0 prev', (match level with
            | O => Ret (v, set_nth prev level (Some x))
            | S level' => fge_loop cmp fuel (g_mem g) key x level' (set_nth prev level (Some x))
            end) = Ret (v0, prev') /\ length prev' = kMaxHeight /\
        (forall i, i < max_height_ (g_mem g) ->
                   exists q, nth_error prev' i = Some (Some q) /\ prev_ok g key i q) /\
        match v0 with
        | Some y => In y (g_l g) /\ node_ge (g_mem g) y key /\
                    (forall z, In z (g_l g) -> node_ge (g_mem g) z key -> z = y \/ lt_nodes (g_mem g) y z)
        | None => forall z, In z (g_l g) -> node_lt (g_mem g) z key
        end).
    { intros Hge. specialize (Hdone Hge).
      assert (Hprev' : forall i, level <= i -> i < max_height_ (g_mem g) ->
                 exists q, nth_error (set_nth prev level (Some x)) i = Some (Some q) /\ prev_ok g key i q).
      { intros i Hi1 Hi2. rewrite nth_error_set_nth. rewrite Hpl.
        destruct (i =? level) eqn:Ei; cbn [andb].
        - apply Nat.eqb_eq in Ei; subst i.
          destruct (Nat.ltb_spec level kMaxHeight); [|lia]. eauto.
        - apply Nat.eqb_neq in Ei. apply Hprev; lia. }
      destruct level as [|level'].
      - eexists _, _. split; [reflexivity|]. split; [now rewrite set_nth_length|].
        split; [intros; apply Hprev'; lia|].
        destruct v as [y|].
        + destruct Hsound as (Hy & _ & _ & Hnext). split; [exact Hy|]. split; [exact Hge|].
          intros z Hz Hzge. apply Hnext; [exact Hz|specialize (Hpos z Hz); lia|].
          destruct Hb as [->|[Hxl (kx & Hkx & Hlt)]]; [now left|]. right.
          destruct Hzge as (kz & Hkz & Hzc). exists kx, kz. split; auto. split; auto.
          eapply cmp_lt_le; eauto. pose proof (cmp_opp _ Hc key kz).
          destruct (cmp key kz), (cmp kz key); cbn in *; lia.
        + intros z Hz. destruct (node_lt_ge_dec (g_mem g) z key) as [|Hzge]; auto.
          { apply (G_nodes _ G) in Hz; lia. }
          exfalso. apply (Hsound z Hz). { specialize (Hpos z Hz). lia. }
          destruct Hb as [->|[Hxl (kx & Hkx & Hlt)]]; [now left|]. right.
          destruct Hzge as (kz & Hkz & Hzc). exists kx, kz. split; auto. split; auto.
          eapply cmp_lt_le; eauto. pose proof (cmp_opp _ Hc key kz).
          destruct (cmp key kz), (cmp kz key); cbn in *; lia.
      - apply (IH x level' _ p s); [exact E|exact Hb|lia|now rewrite set_nth_length|lia|lia|].
        intros i Hi1 Hi2. apply Hprev'; lia. }
    destruct v as [y|] eqn:Ev; [destruct b|].
    - (* advance *)
      destruct Hsound as (Hy & Hly & Hxy & _).
      unfold v in Ev. apply find_split in Ev as (p2 & s2 & Es & _ & _).
      apply (IH y level prev (p ++ x :: p2) s2); auto.
      + rewrite <- app_assoc. cbn. rewrite <- Es. exact E.
      + right; auto.
      + rewrite Es, app_length in Hfuel. cbn in Hfuel. lia.
    - apply Hend. exact Hb2.
    - subst b. apply Hend. exact I.
  Qed.

  Lemma list_nodes_bound g : Good g -> length (g_l g) < length (nodes (g_mem g)).
  Proof.
    intros G. pose proof (Good_nodup g G) as Hnd.
    assert (Hincl : incl (0 :: g_l g) (seq 0 (length (nodes (g_mem g))))).
    { intros a Ha. apply in_seq. pose proof (G_head _ G). destruct Ha as [<-|Ha]; [lia|].
      apply (G_nodes _ G) in Ha. lia. }
    pose proof (NoDup_incl_length Hnd Hincl) as H. rewrite seq_length in H. cbn in H. lia.
  Qed.

  Lemma FGE_ok g key : Good g -> (forall a, In a (g_l g) -> 1 <= g_lv g a) ->
    exists v prev', FindGreaterOrEqual cmp (g_mem g) key = Ret (v, prev') /\
      length prev' = kMaxHeight /\
      (forall i, i < max_height_ (g_mem g) ->
                 exists q, nth_error prev' i = Some (Some q) /\ prev_ok g key i q) /\
      match v with
      | Some y => In y (g_l g) /\ node_ge (g_mem g) y key /\
                  (forall z, In z (g_l g) -> node_ge (g_mem g) z key -> z = y \/ lt_nodes (g_mem g) y z)
      | None => forall z, In z (g_l g) -> node_lt (g_mem g) z key
      end.
  Proof.
    intros G Hpos. unfold FindGreaterOrEqual.
    pose proof (G_max _ G) as Hm. destruct (G_head _ G) as (H0 & H1 & H2).
    apply (fge_loop_ok g key G Hpos (search_fuel (g_mem g)) 0 (max_height_ (g_mem g) - 1) no_prev
             [] (g_l g)); auto.
    - now left.
    - rewrite H1. lia.
    - lia.
    - unfold search_fuel. pose proof (list_nodes_bound g G). lia.
    - intros i Hi1 Hi2. lia.
  Qed.

  Lemma flt_loop_ok dbg g key : Good g -> (forall a, In a (g_l g) -> 1 <= g_lv g a) ->
    forall fuel x level p s,
      0 :: g_l g = p ++ x :: s -> before g x key -> level < g_lv g x ->
      length s + level < fuel ->
      exists r, flt_loop cmp dbg fuel (g_mem g) key x level = Ret r /\ before g r key /\
        (forall z, In z (g_l g) -> node_lt (g_mem g) z key -> z = r \/ (r <> 0 /\ lt_nodes (g_mem g) z r)).
  Proof.
    intros G Hpos. induction fuel as [|fuel IH]; intros x level p s E Hb Hlv Hfuel; [lia|].
    cbn [flt_loop].
    assert (Hx : x = 0 \/ In x (g_l g)) by (destruct Hb as [->|[? ?]]; auto).
    assert (Hxn : x < length (nodes (g_mem g))).
    { destruct Hx as [->|Hx]; [apply (G_head _ G)|]. apply (G_nodes _ G) in Hx; lia. }
    destruct (key_of_ret _ _ Hxn) as [kx Hkx]. rewrite Hkx. cbn [bind].
    assert (Hassert : (x =? 0) || (cmp kx key <? 0)%Z = true).
    { destruct Hb as [->|[_ (k' & Hk' & Hlt)]]; [reflexivity|].
      rewrite Hkx in Hk'; inversion Hk'; subst. apply Z.ltb_lt in Hlt. rewrite Hlt.
      apply Bool.orb_true_r. }
    rewrite Hassert. unfold assert_. cbn [negb]. rewrite Bool.andb_false_r. cbn [bind].
    pose proof (G_links _ G p x s level E Hlv) as Hn. rewrite Hn. cbn [bind].
    pose proof (Next_sound g x level _ G Hx Hlv Hn) as Hsound.
    set (v := find (fun y => level <? g_lv g y) s) in *.
    assert (Hend : (match v with Some y => node_ge (g_mem g) y key | None => True end) ->
      exists r, (match level with
            | O => Ret x
            | S level' => flt_loop cmp dbg fuel (g_mem g) key x level'
            end) = Ret r /\ before g r key /\
        (forall z, In z (g_l g) -> node_lt (g_mem g) z key -> z = r \/ (r <> 0 /\ lt_nodes (g_mem g) z r))).
    { intros Hge. destruct level as [|level'].
      - eexists; split; [reflexivity|]. split; [exact Hb|].
        intros z Hz Hzlt.
        assert (Hz' : In z (0 :: g_l g)) by (cbn; auto). rewrite E in Hz'.
        destruct (split_nodes g p x s G E) as (S1 & S2 & S3 & S4 & S5).
        assert (z <> 0) by (apply (G_nodes _ G) in Hz; lia).
        apply in_app_or in Hz'. destruct Hz' as [Hp|[<-|Hs]]; auto.
        + assert (Hx0 : x <> 0) by (intros ->; rewrite S5 in Hp by reflexivity; inversion Hp).
          right. split; auto.
        + exfalso. assert (Hxz : x = 0 \/ lt_nodes (g_mem g) x z).
          { destruct (Nat.eq_dec x 0); [auto|]. right. auto. }
          assert (Hzge : node_ge (g_mem g) z key).
          { pose proof (Hpos z Hz). destruct v as [y|].
            - destruct Hsound as (_ & _ & _ & Hnext).
              destruct (Hnext z Hz ltac:(lia) Hxz) as [->|Hlt]; auto. eapply ge_lt_trans; eauto.
            - exfalso. apply (Hsound z Hz ltac:(lia) Hxz). }
          destruct Hzlt as (k1 & A1 & A2). destruct Hzge as (k2 & A3 & A4).
          rewrite A1 in A3; inversion A3; subst. lia.
      - apply (IH x level' p s); auto; lia. }
    destruct v as [y|] eqn:Ev.
    - destruct Hsound as (Hy & Hly & Hxy & _).
      assert (Hyn : y < length (nodes (g_mem g))) by (apply (G_nodes _ G) in Hy; lia).
      destruct (key_of_ret _ _ Hyn) as [ky Hky]. rewrite Hky. cbn [bind].
      destruct (Z.leb_spec 0 (cmp ky key)) as [Hge|Hlt].
      + apply Hend. exists ky; auto.
      + unfold v in Ev. apply find_split in Ev as (p2 & s2 & Es & _ & _).
        apply (IH y level (p ++ x :: p2) s2); auto.
        * rewrite <- app_assoc. cbn. rewrite <- Es. exact E.
        * right. split; auto. exists ky; auto.
        * rewrite Es, app_length in Hfuel. cbn in Hfuel. lia.
    - cbn [bind]. apply Hend. exact I.
  Qed.

  Lemma FLT_ok dbg g key : Good g -> (forall a, In a (g_l g) -> 1 <= g_lv g a) ->
    exists r, FindLessThan cmp dbg (g_mem g) key = Ret r /\ before g r key /\
        (forall z, In z (g_l g) -> node_lt (g_mem g) z key -> z = r \/ (r <> 0 /\ lt_nodes (g_mem g) z r)).
  Proof.
    intros G Hpos. unfold FindLessThan.
    pose proof (G_max _ G) as Hm. destruct (G_head _ G) as (H0 & H1 & H2).
    apply (flt_loop_ok dbg g key G Hpos _ 0 _ [] (g_l g)); auto.
    - now left.
    - rewrite H1. lia.
    - unfold search_fuel. pose proof (list_nodes_bound g G). lia.
  Qed.

  Lemma flast_loop_ok g : Good g -> (forall a, In a (g_l g) -> 1 <= g_lv g a) ->
    forall fuel x level p s,
      0 :: g_l g = p ++ x :: s -> level < g_lv g x ->
      length s + level < fuel ->
      exists p' r, flast_loop fuel (g_mem g) x level = Ret r /\ 0 :: g_l g = p' ++ [r].
  Proof.
    intros G Hpos. induction fuel as [|fuel IH]; intros x level p s E Hlv Hfuel; [lia|].
    cbn [flast_loop].
    pose proof (G_links _ G p x s level E Hlv) as Hn. rewrite Hn. cbn [bind].
    destruct (find (fun y => level <? g_lv g y) s) as [y|] eqn:Ef.
    - apply find_split in Ef as (p2 & s2 & Es & Hly & _). apply Nat.ltb_lt in Hly.
      apply (IH y level (p ++ x :: p2) s2); auto.
      + rewrite <- app_assoc. cbn. rewrite <- Es. exact E.
      + rewrite Es, app_length in Hfuel. cbn in Hfuel. lia.
    - destruct level as [|level'].
      + exists p, x. split; auto. apply find_none_all in Ef.
        destruct s as [|z s]; [exact E|]. exfalso.
        destruct (split_nodes g p x (z :: s) G E) as (S1 & _).
        assert (Hz : In z (g_l g)) by (apply S1; cbn; auto). specialize (Hpos z Hz).
        inversion Ef; subst. apply Nat.ltb_ge in H1. lia.
      + apply (IH x level' p s); auto; lia.
  Qed.

  Lemma FLast_ok g : Good g -> (forall a, In a (g_l g) -> 1 <= g_lv g a) ->
    exists p' r, FindLast (g_mem g) = Ret r /\ 0 :: g_l g = p' ++ [r].
  Proof.
    intros G Hpos. unfold FindLast.
    pose proof (G_max _ G) as Hm. destruct (G_head _ G) as (H0 & H1 & H2).
    apply (flast_loop_ok g G Hpos _ 0 _ [] (g_l g)); auto.
    - rewrite H1. lia.
    - unfold search_fuel. pose proof (list_nodes_bound g G). lia.
  Qed.
End Ghost.
