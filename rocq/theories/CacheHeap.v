(** CacheHeap.v -- heap lemmas for the cache proofs: field views, updates,
    and the circular doubly linked lists. *)
From Coq Require Import List Arith NArith Lia Bool.
From Verif Require Import Outcome Heap Cache.
Import ListNotations.
Local Open Scope outcome_scope.

Definition fld {A} (g : node -> A) (h : heap node) (a : nat) : option A := option_map g (hget h a).

Definition hupd (h : heap node) (a : nat) (f : node -> node) : heap node :=
  match hget h a with Some n => hput h a (f n) | None => h end.

Lemma hget_hupd h a f b :
  hget (hupd h a f) b = if b =? a then option_map f (hget h a) else hget h b.
Proof.
  unfold hupd. destruct (hget h a) as [n|] eqn:E.
  - rewrite hget_hput. destruct (b =? a); reflexivity.
  - destruct (b =? a) eqn:E2; auto. apply Nat.eqb_eq in E2; subst. now rewrite E.
Qed.

Lemma fld_hupd_ne {A} (g : node -> A) h a f b : b <> a -> fld g (hupd h a f) b = fld g h b.
Proof.
  intros H. unfold fld. rewrite hget_hupd. apply Nat.eqb_neq in H. now rewrite H.
Qed.

Lemma fld_hupd_same {A} (g : node -> A) h a f b :
  (forall n, g (f n) = g n) -> fld g (hupd h a f) b = fld g h b.
Proof.
  intros H. unfold fld. rewrite hget_hupd. destruct (b =? a) eqn:E; auto.
  apply Nat.eqb_eq in E; subst. destruct (hget h a); cbn; auto. now rewrite H.
Qed.

Lemma fld_hupd_eq {A} (g : node -> A) h a f x :
  (forall n, g (f n) = x) -> fld g h a <> None -> fld g (hupd h a f) a = Some x.
Proof.
  intros H Hl. unfold fld in *. rewrite hget_hupd, Nat.eqb_refl.
  destruct (hget h a); cbn in *; [now rewrite H | congruence].
Qed.

Lemma hget_hupd_ne h a f b : b <> a -> hget (hupd h a f) b = hget h b.
Proof. intros H. rewrite hget_hupd. apply Nat.eqb_neq in H. now rewrite H. Qed.

Lemma hupd_live h a f b : hget (hupd h a f) b = None <-> hget h b = None.
Proof.
  rewrite hget_hupd. destruct (b =? a) eqn:E; [|tauto].
  apply Nat.eqb_eq in E; subst. destruct (hget h a); cbn; split; congruence.
Qed.

Definition live (h : heap node) (a : nat) : Prop := hget h a <> None.

Lemma fld_live {A} (g : node -> A) h a x : fld g h a = Some x -> live h a.
Proof. unfold fld, live. destruct (hget h a); cbn; congruence. Qed.

Lemma live_fld {A} (g : node -> A) h a : live h a -> fld g h a <> None.
Proof. unfold fld, live. destruct (hget h a); cbn; congruence. Qed.

Lemma fld_Some {A} (g : node -> A) h a x : fld g h a = Some x <-> exists n, hget h a = Some n /\ g n = x.
Proof.
  unfold fld. destruct (hget h a); cbn; split.
  - intros E; inversion E; eauto.
  - intros [n0 [E1 E2]]; inversion E1; subst; reflexivity.
  - discriminate.
  - intros [n0 [E1 E2]]; discriminate.
Qed.

(** Running a read or write of the model on live addresses. *)
Lemma get_live h lg a n : hget h a = Some n -> get (mk_mem h lg) a = Ret n.
Proof. intros H. unfold get. cbn. now rewrite H. Qed.

Lemma upd_live h lg a f : live h a -> upd (mk_mem h lg) a f = Ret (mk_mem (hupd h a f) lg).
Proof.
  unfold live, upd, hupd. cbn. destruct (hget h a); [reflexivity|congruence].
Qed.

(** Heaps that differ only in what [f] erases. *)
Definition sim (f : node -> node) (h h' : heap node) : Prop :=
  forall a, option_map f (hget h' a) = option_map f (hget h a).

Lemma sim_refl f h : sim f h h.
Proof. intros a; reflexivity. Qed.
Lemma sim_trans f h1 h2 h3 : sim f h1 h2 -> sim f h2 h3 -> sim f h1 h3.
Proof. intros A B a. now rewrite B. Qed.
Lemma sim_fld {A} (g : node -> A) f h h' a :
  (forall n, g (f n) = g n) -> sim f h h' -> fld g h' a = fld g h a.
Proof.
  intros Hg S. specialize (S a). unfold fld.
  destruct (hget h' a) as [x|], (hget h a) as [y|]; cbn in *; try discriminate; auto.
  rewrite <- (Hg x), <- (Hg y). congruence.
Qed.
Lemma sim_live f h h' a : sim f h h' -> live h' a <-> live h a.
Proof.
  intros S. specialize (S a). unfold live.
  destruct (hget h' a), (hget h a); cbn in *; split; congruence.
Qed.
Lemma sim_hupd f g h a : (forall n, f (g n) = f n) -> sim f h (hupd h a g).
Proof.
  intros H b. rewrite hget_hupd. destruct (b =? a) eqn:E; auto.
  apply Nat.eqb_eq in E; subst. destruct (hget h a); cbn; auto. now rewrite H.
Qed.

Definition strip_links (n : node) : node := set_next 0 (set_prev 0 n).
Definition strip_nh (n : node) : node := set_next_hash 0 n.

(** ** Circular doubly linked lists *)
Definition linked (h : heap node) (x y : nat) : Prop :=
  fld n_next h x = Some y /\ fld n_prev h y = Some x.

Fixpoint path (h : heap node) (x : nat) (l : list nat) (z : nat) : Prop :=
  match l with
  | [] => linked h x z
  | y :: l' => linked h x y /\ path h y l' z
  end.

Definition dll (h : heap node) (d : nat) (l : list nat) : Prop := NoDup (d :: l) /\ path h d l d.

Lemma path_app h l1 : forall x y l2 z, path h x (l1 ++ y :: l2) z <-> path h x l1 y /\ path h y l2 z.
Proof.
  induction l1 as [|a l1 IH]; intros x y l2 z; cbn; [tauto|]. rewrite IH. tauto.
Qed.

Lemma path_frame h h' l : forall x z,
  (forall a, In a (x :: l) -> fld n_next h' a = fld n_next h a) ->
  (forall a, In a (l ++ [z]) -> fld n_prev h' a = fld n_prev h a) ->
  path h x l z -> path h' x l z.
Proof.
  induction l as [|y l IH]; intros x z Hn Hp; cbn; unfold linked.
  - intros [A B]. rewrite Hn, Hp by (cbn; auto). auto.
  - intros [[A B] C]. rewrite Hn by (cbn; auto). rewrite Hp by (cbn; auto).
    split; [auto|]. apply IH; auto.
    + intros a Ha. apply Hn. cbn in *; tauto.
    + intros a Ha. apply Hp. cbn; auto.
Qed.

Lemma dll_frame h h' d l :
  (forall a, In a (d :: l) -> fld n_next h' a = fld n_next h a /\ fld n_prev h' a = fld n_prev h a) ->
  dll h d l -> dll h' d l.
Proof.
  intros F [N P]. split; auto. eapply path_frame; [| |exact P].
  - intros a Ha. now apply F.
  - intros a Ha. apply F. apply in_app_iff in Ha. cbn in *. tauto.
Qed.

Lemma path_live h l : forall x z a, path h x l z -> In a (x :: l ++ [z]) -> live h a.
Proof.
  induction l as [|y l IH]; intros x z a; cbn.
  - intros [A B] [E|[E|[]]]; subst; eapply fld_live; eauto.
  - intros [[A B] C] [E|H]; subst; [eapply fld_live; eauto|].
    eapply IH; eauto.
Qed.

Lemma dll_live h d l a : dll h d l -> In a (d :: l) -> live h a.
Proof.
  intros [_ P] H. eapply path_live; eauto. cbn in *. rewrite in_app_iff. tauto.
Qed.

Lemma last_cons_def {A} (l : list A) : forall b x y, last (b :: l) x = last (b :: l) y.
Proof. induction l as [|c l IH]; intros b x y; [reflexivity|]. apply (IH c). Qed.

Lemma path_last h l : forall x z, path h x l z -> linked h (last l x) z.
Proof.
  induction l as [|y l IH]; intros x z; [cbn; auto|]. intros [_ C].
  apply IH in C. destruct l as [|b l]; [exact C|].
  change (last (y :: b :: l) x) with (last (b :: l) x).
  now rewrite (last_cons_def l b x y).
Qed.

Lemma last_in {A} (l : list A) d : l <> [] -> In (last l d) l.
Proof.
  induction l as [|a l IH]; [congruence|]. intros _. destruct l; [cbn; auto|].
  right. apply IH. discriminate.
Qed.

Lemma path_next h d l z : path h d l z -> fld n_next h d = Some (hd z l).
Proof. destruct l; cbn; unfold linked; tauto. Qed.

Lemma dll_next_ne h d l a : dll h d l -> In a l -> fld n_next h a <> Some a.
Proof.
  intros [N P] H. apply in_split in H as (l1 & l2 & ->).
  rewrite path_app in P. destruct P as [_ P].
  apply path_next in P. rewrite P. intros E; inversion E.
  rewrite app_comm_cons in N. apply NoDup_remove in N as [_ N].
  apply N. cbn. rewrite in_app_iff.
  destruct l2; cbn in *; [left; exact H0|subst; tauto].
Qed.

Lemma dll_head_next h d l : dll h d l -> fld n_next h d = Some (hd d l).
Proof. intros [_ P]. eapply path_next; eauto. Qed.

Lemma nodup_app_disj {A} (a b : list A) x : NoDup (a ++ b) -> In x a -> ~ In x b.
Proof.
  induction a as [|y a IH]; cbn; [tauto|]. intros N [->|H]; inversion N; subst; auto.
  rewrite in_app_iff in H1. tauto.
Qed.

Lemma NoDup_snoc {A} (l : list A) x : NoDup l -> ~ In x l -> NoDup (l ++ [x]).
Proof.
  induction l as [|y l IH]; cbn; intros N H.
  - constructor; [tauto|constructor].
  - inversion N; subst. constructor; [|apply IH; tauto].
    rewrite in_app_iff; cbn. intros [|[->|[]]]; tauto.
Qed.

(** LRU_Remove takes e out of its list and changes only the links of its two
    neighbours. *)
Lemma LRU_Remove_spec h lg d l1 e l2 :
  dll h d (l1 ++ e :: l2) ->
  exists h', LRU_Remove (mk_mem h lg) e = Ret (mk_mem h' lg) /\
    dll h' d (l1 ++ l2) /\ sim strip_links h h' /\
    (forall a, ~ In a (d :: l1 ++ l2) -> hget h' a = hget h a).
Proof.
  intros D. pose proof D as [N P].
  rewrite path_app in P. destruct P as [P1 P2].
  pose proof (path_last _ _ _ _ P1) as [X1 X2].
  set (x := last l1 d) in *. set (y := hd d l2).
  pose proof (path_next _ _ _ _ P2) as Y1. fold y in Y1.
  assert (Y2 : fld n_prev h y = Some e).
  { unfold y. destruct l2; cbn in *; unfold linked in P2; tauto. }
  assert (Hx : In x (d :: l1)).
  { unfold x. destruct l1 as [|b l1]; [cbn; auto|]. right. apply last_in. discriminate. }
  assert (Hy : In y (l2 ++ [d])).
  { unfold y. destruct l2; cbn; auto. }
  rewrite app_comm_cons in N. apply NoDup_remove in N as [N Ne].
  assert (Hex : e <> x) by (intros ->; apply Ne; rewrite in_app_iff; auto).
  assert (Hey : e <> y).
  { intros ->. apply Ne. rewrite in_app_iff in *. cbn in Hy |- *. tauto. }
  exists (hupd (hupd h y (set_prev x)) x (set_next y)).
  apply fld_Some in Y1 as (n & Hn & Hnx). pose proof X2 as X2'. apply fld_Some in X2' as (n' & Hn' & Hnp).
  rewrite Hn in Hn'; inversion Hn'; subst n'; clear Hn'.
  assert (Ly : live h y) by (eapply fld_live; eauto).
  assert (Lx : live h x) by (eapply fld_live; eauto).
  split; [|split; [|split]].
  - unfold LRU_Remove. rewrite (get_live _ _ _ _ Hn). cbn [bind].
    rewrite Hnx, Hnp. rewrite upd_live by auto. cbn [bind].
    rewrite (get_live _ _ _ n) by (rewrite hget_hupd_ne by auto; auto).
    cbn [bind]. rewrite Hnx, Hnp. apply upd_live.
    unfold live. rewrite hupd_live. exact Lx.
  - split; [exact N|].
    (* links *)
    set (h' := hupd (hupd h y (set_prev x)) x (set_next y)).
    assert (Fn : forall a, a <> x -> fld n_next h' a = fld n_next h a).
    { intros a Ha. unfold h'. rewrite fld_hupd_ne by auto. apply fld_hupd_same. reflexivity. }
    assert (Fp : forall a, a <> y -> fld n_prev h' a = fld n_prev h a).
    { intros a Ha. unfold h'. rewrite fld_hupd_same by reflexivity. apply fld_hupd_ne; auto. }
    assert (Lk : linked h' x y).
    { split; unfold h'.
      - apply fld_hupd_eq; [reflexivity|]. apply live_fld. unfold live. rewrite hupd_live. auto.
      - rewrite fld_hupd_same by reflexivity. apply fld_hupd_eq; [reflexivity|]. apply live_fld; auto. }
    (* split l1 at its last element, l2 at its first *)
    assert (A1 : match l1 with [] => x = d | _ => exists l1', l1 = l1' ++ [x] end).
    { unfold x. destruct l1; auto. exists (removelast (n0 :: l1)).
      rewrite (app_removelast_last d) at 1 by discriminate. f_equal. }
    assert (A2 : match l2 with [] => y = d | b :: _ => y = b end).
    { unfold y. destruct l2; auto. }
    clearbody h' x y.
    assert (Q1 : forall r, path h' x r d -> path h' d (l1 ++ r) d).
    { intros r Hr. destruct l1 as [|b l1'']; [cbn; rewrite A1 in Hr; exact Hr|].
      destruct A1 as [l1' E]. rewrite E in *. rewrite <- app_assoc. cbn.
      rewrite path_app. split; [|exact Hr].
      rewrite path_app in P1. destruct P1 as [P1 _].
      assert (Nx : ~ In x (d :: l1')).
      { assert (N2 := N). rewrite <- app_comm_cons, <- app_assoc, app_comm_cons in N2. cbn [app] in N2.
        rewrite app_comm_cons in N2. apply NoDup_remove_2 in N2. rewrite in_app_iff in N2. tauto. }
      eapply path_frame; [| |exact P1].
      + intros a Ha. apply Fn. intros ->; tauto.
      + intros a Ha. apply Fp. intros ->.
        apply in_app_iff in Ha. cbn in Ha.
        apply in_app_iff in Hy. cbn in Hy.
        assert (Hy1 : In y (l1' ++ [x])) by (apply in_app_iff; cbn; tauto).
        destruct Hy as [Hy|[Hy|[]]].
        * apply (nodup_app_disj (d :: l1' ++ [x]) l2 y); [exact N| |exact Hy]. right. exact Hy1.
        * rewrite <- app_comm_cons in N. apply NoDup_cons_iff in N as [N0 _]. apply N0. rewrite Hy. apply in_app_iff. auto. }
    apply Q1. destruct l2 as [|b l2']; cbn.
    + cbn in A2. rewrite A2 in Lk. exact Lk.
    + cbn in A2. rewrite A2 in Lk. split; [exact Lk|].
      cbn in P2. destruct P2 as [_ P2].
      assert (Nb : NoDup ((d :: l1) ++ b :: l2')) by exact N.
      eapply path_frame; [| |exact P2].
      * intros a Ha. apply Fn. intros ->.
        exact (nodup_app_disj _ _ _ Nb Hx Ha).
      * intros a Ha. apply Fp. rewrite A2. intros ->. apply NoDup_remove_2 in Nb.
        apply Nb. rewrite in_app_iff in *. cbn in *. tauto.
  - eapply sim_trans; apply sim_hupd; reflexivity.
  - intros a Ha.
    assert (a <> x) by (intros ->; apply Ha; cbn in *; rewrite in_app_iff; tauto).
    assert (a <> y).
    { intros ->. apply Ha. cbn. rewrite in_app_iff in *. cbn in Hy. tauto. }
    rewrite !hget_hupd_ne by auto. reflexivity.
Qed.

(** LRU_Append puts e at the newest end. *)
Lemma LRU_Append_spec h lg d l e :
  dll h d l -> live h e -> ~ In e (d :: l) ->
  exists h', LRU_Append (mk_mem h lg) d e = Ret (mk_mem h' lg) /\
    dll h' d (l ++ [e]) /\ sim strip_links h h' /\
    (forall a, ~ In a (e :: d :: l) -> hget h' a = hget h a).
Proof.
  intros D Le Ne. pose proof D as [N P].
  pose proof (path_last _ _ _ _ P) as [X1 X2]. set (x := last l d) in *.
  assert (Hx : In x (d :: l)).
  { unfold x. destruct l as [|b0 l0]; [left; reflexivity|]. right. apply last_in. discriminate. }
  assert (Hex : e <> x) by (intros ->; tauto).
  assert (Hed : e <> d) by (intros ->; cbn in Ne; tauto).
  assert (Ld : live h d) by (eapply dll_live; eauto; cbn; auto).
  assert (Lx : live h x) by (eapply dll_live; eauto).
  set (h1 := hupd h e (set_next d)). set (h2 := hupd h1 e (set_prev x)).
  set (h3 := hupd h2 x (set_next e)). set (h4 := hupd h3 d (set_prev e)).
  apply fld_Some in X2 as (nd & Hnd & Hpd).
  assert (Ll : forall a, live h a -> live h1 a /\ live h2 a /\ live h3 a).
  { intros a La. unfold live, h1, h2, h3 in *.
    split; [|split]; intros E; apply La; repeat (apply hupd_live in E); exact E. }
  exists h4. split; [|split; [|split]].
  - unfold LRU_Append. rewrite upd_live by auto. cbn [bind]. fold h1.
    rewrite (get_live _ _ _ nd) by (unfold h1; rewrite hget_hupd_ne by auto; auto).
    cbn [bind]. rewrite Hpd. rewrite upd_live by (apply Ll; auto). cbn [bind]. fold h2.
    destruct (hget h e) as [ne|] eqn:E; [|congruence].
    assert (E2 : hget h2 e = Some (set_prev x (set_next d ne))).
    { unfold h2, h1. rewrite !hget_hupd, !Nat.eqb_refl, E. reflexivity. }
    rewrite (get_live _ _ _ _ E2). cbn [bind]. cbn [set_prev set_next n_prev].
    rewrite upd_live by (apply Ll; auto). cbn [bind]. fold h3.
    assert (E3 : hget h3 e = Some (set_prev x (set_next d ne))).
    { unfold h3. rewrite hget_hupd_ne by auto. exact E2. }
    rewrite (get_live _ _ _ _ E3). cbn [bind]. cbn [set_prev set_next n_next].
    rewrite upd_live by (apply Ll; auto). reflexivity.
  - assert (Fn : forall a, a <> e -> a <> x -> fld n_next h4 a = fld n_next h a).
    { intros a A1 A2. unfold h4, h3, h2, h1. rewrite fld_hupd_same by reflexivity.
      rewrite fld_hupd_ne by auto. rewrite fld_hupd_same by reflexivity. now rewrite fld_hupd_ne. }
    assert (Fp : forall a, a <> e -> a <> d -> fld n_prev h4 a = fld n_prev h a).
    { intros a A1 A2. unfold h4, h3, h2, h1. rewrite fld_hupd_ne by auto.
      rewrite fld_hupd_same by reflexivity. rewrite fld_hupd_ne by auto.
      now rewrite fld_hupd_same. }
    assert (L1 : linked h4 x e).
    { split.
      - unfold h4. rewrite fld_hupd_same by reflexivity. unfold h3. apply fld_hupd_eq; [reflexivity|].
        apply live_fld. apply Ll; auto.
      - unfold h4. rewrite fld_hupd_ne by auto. unfold h3. rewrite fld_hupd_same by reflexivity.
        unfold h2. apply fld_hupd_eq; [reflexivity|]. apply live_fld. apply Ll; auto. }
    assert (L2 : linked h4 e d).
    { split.
      - unfold h4. rewrite fld_hupd_same by reflexivity. unfold h3. rewrite fld_hupd_ne by auto.
        unfold h2. rewrite fld_hupd_same by reflexivity. unfold h1. apply fld_hupd_eq; [reflexivity|].
        apply live_fld; auto.
      - unfold h4. apply fld_hupd_eq; [reflexivity|]. apply live_fld. apply Ll; auto. }
    split.
    + rewrite app_comm_cons. apply NoDup_snoc; auto.
    + rewrite path_app. split; [|exact L2].
      destruct l as [|b l0].
      * cbn. exact L1.
      * assert (E : exists l', b :: l0 = l' ++ [x]).
        { exists (removelast (b :: l0)). unfold x. apply app_removelast_last. discriminate. }
        destruct E as [l' E]. rewrite E in *. rewrite path_app. split; [|exact L1].
        rewrite path_app in P. destruct P as [P _].
        assert (NN : ~ In x (d :: l') /\ ~ In d (l' ++ [x])).
        { split; [|inversion N; auto].
          rewrite app_comm_cons in N. apply NoDup_remove_2 in N. rewrite app_nil_r in N. exact N. }
        eapply path_frame; [| |exact P].
        -- intros a Ha. apply Fn.
           ++ intros ->. apply Ne. cbn in *. rewrite in_app_iff. tauto.
           ++ intros ->. tauto.
        -- intros a Ha. apply Fp.
           ++ intros ->. apply Ne. cbn. right. exact Ha.
           ++ intros ->. tauto.
  - unfold h4, h3, h2, h1.
    eapply sim_trans; [|apply sim_hupd; reflexivity].
    eapply sim_trans; [|apply sim_hupd; reflexivity].
    eapply sim_trans; apply sim_hupd; reflexivity.
  - intros a Ha. unfold h4, h3, h2, h1.
    assert (a <> e) by (intros ->; apply Ha; cbn; auto).
    assert (a <> d) by (intros ->; apply Ha; cbn; auto).
    assert (a <> x) by (intros ->; apply Ha; cbn in *; tauto).
    rewrite !hget_hupd_ne by auto. reflexivity.
Qed.
