(** CacheShardLife.v -- construction and destruction of one shard. *)
From Coq Require Import List Arith NArith Lia Bool Permutation.
From Verif Require Import Outcome Heap Cache CacheHeap CacheTable CacheShard CacheShardOps.
Import ListNotations.
Local Open Scope outcome_scope.

Section Life.
  Variable hashf : bytes -> N.
  Notation LInv := (LInv hashf).
  Notation Inv := (Inv hashf).

  Lemma set_capacity_Inv h s L P Z c :
    L = [] -> P = [] -> Inv h s L P Z -> Inv h (set_capacity c s) L P Z.
  Proof. intros -> -> I. constructor; try apply I. intros _; auto. Qed.

  Lemma shard_new_spec alc dbg h lg :
    allocator_ok alc ->
    exists h' s, shard_new alc dbg (mk_mem h lg) = Ret (mk_mem h' lg, s) /\
      Inv h' s [] [] [] /\ frame [s_lru s; s_in_use s] h h' /\
      hget h (s_lru s) = None /\ hget h (s_in_use s) = None.
  Proof.
    intros Ha. unfold shard_new. cbn [m_heap m_log].
    set (l := alc (dom h)). destruct (Ha (dom h)) as [Hl Hlz]. fold l in Hl, Hlz.
    apply not_dom_hget in Hl.
    set (h1 := hput h l node0). set (u := alc (dom h1)).
    destruct (Ha (dom h1)) as [Hu Huz]. fold u in Hu, Huz. apply not_dom_hget in Hu.
    set (h2 := hput h1 u node0).
    assert (Hul : u <> l). { intros E. rewrite E in Hu. unfold h1 in Hu. rewrite hget_hput_eq in Hu. discriminate. }
    destruct (table_new_spec dbg h2 lg) as (t & T1 & T2). rewrite T1. cbn [bind fst snd].
    assert (Hl2 : hget h2 l = Some node0).
    { unfold h2. rewrite hget_hput_ne by auto. apply hget_hput_eq. }
    assert (Hu2 : hget h2 u = Some node0) by apply hget_hput_eq.
    rewrite upd_live by (unfold live; congruence). cbn [bind].
    rewrite upd_live by (unfold live; rewrite hupd_live; congruence). cbn [bind].
    rewrite upd_live by (unfold live; rewrite !hupd_live; congruence). cbn [bind].
    rewrite upd_live by (unfold live; rewrite !hupd_live; congruence). cbn [bind].
    set (h3 := hupd (hupd (hupd (hupd h2 l (set_next l)) l (set_prev l)) u (set_next u)) u (set_prev u)).
    assert (Hl3 : hget h3 l = Some (set_prev l (set_next l node0))).
    { unfold h3. rewrite !(hget_hupd_ne _ u) by auto. rewrite !hget_hupd, !Nat.eqb_refl, Hl2. reflexivity. }
    assert (Hu3 : hget h3 u = Some (set_prev u (set_next u node0))).
    { unfold h3. rewrite !hget_hupd, !Nat.eqb_refl. apply Nat.eqb_neq in Hul. rewrite Hul, Hu2. reflexivity. }
    exists h3, (mk_shard 0 0 l u t). split; [reflexivity|]. cbn [s_lru s_in_use].
    split; [|split; [|split; [exact Hl|]]].
    - constructor; cbn [s_lru s_in_use s_table s_usage s_capacity app addrs map].
      + constructor; cbn [addrs map].
        * split; [repeat constructor; intros []|]. cbn. unfold linked, fld. rewrite Hl3. auto.
        * split; [repeat constructor; intros []|]. cbn. unfold linked, fld. rewrite Hu3. auto.
        * intros e [].
        * intros e [].
        * intros e [].
        * cbn. constructor; [intros [E|[]]; congruence|]. constructor; [intros []|constructor].
        * cbn. intros [E|[E|[]]]; auto.
      + eapply TInv_frame; [|exact T2]. intros a [].
      + constructor.
      + reflexivity.
      + auto.
      + intros e [].
      + cbn. lia.
    - intros a Hna. assert (a <> l /\ a <> u) as [A1 A2] by (split; intros ->; apply Hna; cbn; auto).
      unfold h3, h2, h1.
      rewrite !hget_hupd_ne by auto. rewrite !hget_hput_ne by auto. reflexivity.
    - destruct (hget h u) eqn:E; auto. unfold h1 in Hu. rewrite hget_hput_ne in Hu by auto. congruence.
  Qed.

  (** The next pointers alone. *)
  Fixpoint nexts (h : heap node) (l : list nat) (z : nat) : Prop :=
    match l with
    | [] => True
    | a :: t => fld n_next h a = Some (hd z t) /\ nexts h t z
    end.
  Lemma path_nexts h l : forall x z, path h x l z -> nexts h l z.
  Proof.
    induction l as [|a l IH]; cbn [path nexts]; intros x z H; auto. destruct H as [_ H].
    split; [|eauto]. now apply path_next in H.
  Qed.
  Lemma nexts_frame h h' l z :
    (forall a, In a l -> fld n_next h' a = fld n_next h a) -> nexts h l z -> nexts h' l z.
  Proof.
    induction l as [|a l IH]; cbn [nexts]; intros F H; auto. destruct H as [H1 H2].
    rewrite F by (cbn; auto). split; auto. apply IH; auto. intros b Hb; apply F; cbn; auto.
  Qed.

  Lemma dtor_loop_spec dbg s L : forall fuel h lg,
    NoDup (s_lru s :: addrs L) -> nexts h (addrs L) (s_lru s) ->
    (forall e, In e L -> fld n_view h (e_addr e) = Some (view hashf e true 1)) ->
    length L < fuel ->
    exists h', dtor_loop fuel dbg (mk_mem h lg) s (hd (s_lru s) (addrs L)) = Ret (mk_mem h' (lg ++ map dcall_of L)) /\
      (forall a, ~ In a (addrs L) -> hget h' a = hget h a) /\ (forall a, In a (addrs L) -> hget h' a = None).
  Proof.
    induction L as [|e L IH]; intros fuel h lg N Hp Hv Hf; destruct fuel as [|fuel]; cbn [length] in Hf; try lia;
      cbn [addrs map hd dtor_loop].
    - rewrite Nat.eqb_refl. exists h. rewrite app_nil_r. split; [reflexivity|]. split; [auto|intros a []].
    - cbn [addrs map] in N. fold (addrs L) in *. pose proof N as N0.
      apply NoDup_cons_iff in N as [N1 N2]. pose proof N2 as N2'. apply NoDup_cons_iff in N2 as [N2 N3].
      assert (E1 : (e_addr e =? s_lru s) = false).
      { apply Nat.eqb_neq. intros E. apply N1. rewrite <- E. cbn; auto. }
      rewrite E1. cbn [addrs map nexts] in Hp. fold (addrs L) in Hp. destruct Hp as [Hnx Hp2].
      pose proof (Hv e (or_introl eq_refl)) as Ve.
      pose proof (view_node _ _ _ _ _ _ Ve) as (n & Hn & V1 & V2 & _ & _ & Vk & Vic & Vr).
      apply fld_Some in Hnx as (n' & Hn' & Hnx).
      assert (n' = n) by congruence. subst n'.
      rewrite (get_live _ _ _ _ Hn). cbn [bind]. rewrite Vic. unfold assert_ at 1. cbn [negb]. rewrite andb_false_r.
      cbn [bind]. rewrite upd_live by (unfold live; congruence). cbn [bind].
      set (h1 := hupd h (e_addr e) (set_in_cache false)).
      assert (Hn1 : hget h1 (e_addr e) = Some (set_in_cache false n)).
      { unfold h1. rewrite hget_hupd, Nat.eqb_refl, Hn. reflexivity. }
      rewrite (get_live _ _ _ _ Hn1). cbn [bind set_in_cache n_refs]. rewrite Vr.
      unfold assert_ at 1. cbn [N.eqb Pos.eqb negb]. rewrite andb_false_r. cbn [bind].
      unfold Unref. rewrite (get_live _ _ _ _ Hn1). cbn [bind set_in_cache n_refs]. rewrite Vr.
      unfold assert_ at 1. change (N.ltb 0 1) with true. cbn [negb]. rewrite andb_false_r. cbn [bind].
      change (u32 (1 + (2 ^ 32 - 1))) with 0%N.
      rewrite upd_live by (unfold live; congruence). cbn [bind].
      set (h2 := hupd h1 (e_addr e) (set_refs 0)).
      assert (Hn2 : hget h2 (e_addr e) = Some (set_refs 0 (set_in_cache false n))).
      { unfold h2. rewrite hget_hupd, Nat.eqb_refl, Hn1. reflexivity. }
      rewrite (get_live _ _ _ _ Hn2). cbn [bind set_refs set_in_cache n_refs n_in_cache]. change (N.eqb 0 0) with true. cbn iota.
      unfold assert_ at 1. cbn [negb]. rewrite andb_false_r. cbn [bind].
      unfold key_of. rewrite (get_live _ _ _ _ Hn2). cbn [bind set_refs set_in_cache n_next n_key n_deleter n_value].
      assert (E2 : (n_next n =? e_addr e) = false).
      { rewrite Hnx. apply Nat.eqb_neq. destruct L as [|y L]; cbn [addrs map hd].
        - intros E. apply N1. rewrite E. cbn; auto.
        - intros E. apply N2. rewrite <- E. cbn; auto. }
      rewrite E2. unfold assert_ at 1. cbn [negb]. rewrite andb_false_r. cbn [bind m_heap m_log].
      rewrite Hnx, Vk, V1, V2.
      set (h3 := hdel h2 (e_addr e)).
      assert (F3 : forall a, a <> e_addr e -> hget h3 a = hget h a).
      { intros a Hne. unfold h3, h2, h1. rewrite hget_hdel_ne by auto. rewrite !hget_hupd_ne by auto. reflexivity. }
      assert (Nl : s_lru s <> e_addr e) by (intros E; apply Nat.eqb_neq in E1; congruence).
      destruct (IH fuel h3 (lg ++ [dcall_of e])) as (h' & R1 & R2 & R3).
      { constructor; [intros H; apply N1; cbn; auto|exact N3]. }
      { eapply nexts_frame; [|exact Hp2]. intros a Hin. unfold fld. rewrite F3; auto. intros ->; tauto. }
      { intros y Hy. unfold fld. rewrite F3; [apply Hv; cbn; auto|]. intros E. apply N2. rewrite <- E. now apply in_map. }
      { lia. }
      exists h'. unfold dcall_of in R1 at 1. rewrite R1, <- app_assoc. split; [reflexivity|]. split.
      + intros a Hna. assert (a <> e_addr e /\ ~ In a (addrs L)) as [A1 A2].
        { split; intros H; apply Hna; [left; congruence|right; auto]. }
        rewrite R2, F3; auto.
      + intros a [<-|Hin]; [|auto]. destruct (in_dec Nat.eq_dec (e_addr e) (addrs L)) as [Hin|Hin]; [auto|].
        rewrite R2 by auto. unfold h3. apply hget_hdel_eq.
  Qed.

  Lemma shard_dtor_spec dbg h lg s L :
    Inv h s L [] [] ->
    exists h', shard_dtor dbg (mk_mem h lg) s = Ret (mk_mem h' (lg ++ map dcall_of L)) /\
      frame (own (s_lru s) (s_in_use s) L [] []) h h' /\
      (forall a, In a (own (s_lru s) (s_in_use s) L [] []) -> hget h' a = None).
  Proof.
    intros I. pose proof (i_l _ _ _ _ _ _ I) as IL. unfold shard_dtor.
    pose proof (dll_head_next _ _ _ (l_use _ _ _ _ _ _ _ IL)) as Hu. apply fld_Some in Hu as (nu & Hu & Hun).
    pose proof (dll_head_next _ _ _ (l_lru _ _ _ _ _ _ _ IL)) as Hl. apply fld_Some in Hl as (nl & Hl & Hln).
    rewrite (get_live _ _ _ _ Hu). cbn [bind]. rewrite Hun. cbn [addrs map hd]. rewrite Nat.eqb_refl.
    unfold assert_ at 1. cbn [negb]. rewrite andb_false_r. cbn [bind].
    rewrite (get_live _ _ _ _ Hl). cbn [bind]. rewrite Hln. cbn [m_heap].
    destruct (l_lru _ _ _ _ _ _ _ IL) as [N Hp].
    destruct (dtor_loop_spec dbg s L (S (length h)) h lg N (path_nexts _ _ _ _ Hp)) as (h' & R1 & R2 & R3).
    { intros e He. now apply (l_L _ _ _ _ _ _ _ IL). }
    { pose proof (Inv_idle_length _ _ _ _ _ _ I). lia. }
    rewrite R1. cbn [bind m_heap m_log]. eexists. split; [reflexivity|]. split.
    - intros a Ha. assert (A : a <> s_lru s /\ a <> s_in_use s /\ ~ In a (addrs L)).
      { split; [|split]; intros H; apply Ha; subst; own_tac. }
      destruct A as (A1 & A2 & A3). rewrite !hget_hdel_ne by auto. apply R2; auto.
    - intros a Ha. rewrite !hget_hdel. destruct (a =? s_lru s) eqn:E1; auto. destruct (a =? s_in_use s) eqn:E2; auto.
      apply Nat.eqb_neq in E1, E2. apply R3. own_tac. destruct Ha as [Ha|[Ha|[Ha|[]]]]; congruence || auto.
  Qed.
End Life.
