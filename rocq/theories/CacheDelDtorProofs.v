(** CacheDelDtorProofs.v -- the destructor with deleters (CacheDelDtor.v) follows the
    destructor without (Cache.v) up to the first deleter that calls something. *)
From Coq Require Import List Arith NArith Lia Bool Permutation.
From Verif Require Import Outcome Heap Cache CacheSpec CacheRun CacheDel CacheDelDtor CacheHeap CacheTable CacheShard CacheShardOps CacheShardLife CacheGlobal CacheHist CacheHistStep CacheProofs CacheThms CacheDtorProofs.
Import ListNotations.
Local Open Scope outcome_scope.

Section Follow.
  Variable hashf : bytes -> N.
  Variable alc : allocator.
  Variable dbg : bool.
  Variable del : N -> bytes -> N -> dprog.
  Variable depth : nat.
  Notation D := (S depth).

  Definition quiet (d : dcall) : Prop := del (d_deleter d) (d_key d) (d_value d) = DEnd.
  Definition bad (i : nat) (d : dcall) : Prop :=
    exists x k, del (d_deleter d) (d_key d) (d_value d) = DCall x k /\ gone hashf i x.

  Lemma run_gone i l c x k : i < 16 -> gone hashf i x -> run_del hashf alc dbg del D i l c (DCall x k) = UB.
  Proof.
    intros Hi G. destruct x; cbn [gone] in G; try contradiction; cbn [run_del member bind];
      first [rewrite (proj2 (Nat.ltb_lt _ _) G) | rewrite (proj2 (Nat.ltb_lt _ _) Hi)]; reflexivity.
  Qed.

  (** What a run of the plain destructor tells: the calls [ds] it makes, and how the
      destructor with deleters [r] ends. *)
  Definition follows (i : nat) (lg lg' : list dcall) (c' : cache) (r : outcome (back cache)) : Prop :=
    exists ds, lg' = lg ++ ds /\
      (Forall quiet ds -> r = Ret (Back c')) /\
      (Forall (fun d => quiet d \/ bad i d) ds -> Exists (bad i) ds -> r = UB).
  Lemma not_both i d : quiet d -> bad i d -> False.
  Proof. intros Q (x & k & E & _). unfold quiet in Q. congruence. Qed.
  Lemma some_bad i ds : Forall (fun d => quiet d \/ bad i d) ds -> Forall quiet ds \/ Exists (bad i) ds.
  Proof.
    induction 1 as [|d ds [Q|B] _ [IH|IH]]; auto using Forall_cons, Exists_cons_hd, Exists_cons_tl.
  Qed.
  Lemma follows_seq i lg lg1 lg2 c1 c2 r f :
    follows i lg lg1 c1 r -> follows i lg1 lg2 c2 (f c1) -> follows i lg lg2 c2 (bback r f).
  Proof.
    intros (d1 & -> & Q1 & B1) (d2 & -> & Q2 & B2). exists (d1 ++ d2). rewrite <- app_assoc. split; [reflexivity|]. split.
    - intros F. apply Forall_app in F as [F1 F2]. unfold bback. rewrite (Q1 F1). cbn [bind]. auto.
    - intros F X. apply Forall_app in F as [F1 F2]. unfold bback. destruct (some_bad _ _ F1) as [Y|Y].
      + rewrite (Q1 Y). cbn [bind]. apply B2; [exact F2|]. apply Exists_app in X as [X|X]; [|exact X].
        exfalso. clear - X Y. induction X as [d ds B|d ds X IH]; inversion Y; subst; eauto using not_both.
      + rewrite (B1 F1 Y). reflexivity.
  Qed.
  Lemma follows_ret i lg c : follows i lg lg c (Ret (Back c)).
  Proof. exists []. rewrite app_nil_r. split; [reflexivity|]. split; [auto|]. intros _ X. inversion X. Qed.

  Lemma with_mem_mem c : with_mem c (c_mem c) = c.
  Proof. now destruct c. Qed.

  Lemma get_upd_log m p f m' : upd m p f = Ret m' -> m_log m' = m_log m.
  Proof. unfold upd. destruct (hget (m_heap m) p); [|discriminate 1]. intros E. injection E as <-. reflexivity. Qed.
  Lemma get_upd m p f m' : upd m p f = Ret m' -> exists n, get m' p = Ret n.
  Proof.
    unfold upd, get. destruct (hget (m_heap m) p) as [n|]; [|discriminate 1]. intros E. injection E as <-.
    cbn [m_heap]. rewrite hget_hput_eq. eauto.
  Qed.
  Lemma remove_log m e m' : LRU_Remove m e = Ret m' -> m_log m' = m_log m.
  Proof.
    unfold LRU_Remove. destruct (get m e) as [n| | |]; try discriminate 1. cbn [bind].
    destruct (upd m _ _) as [m1| | |] eqn:U; try discriminate 1. cbn [bind].
    destruct (get m1 e) as [n1| | |]; try discriminate 1. cbn [bind]. intros V.
    rewrite (get_upd_log _ _ _ _ V). exact (get_upd_log _ _ _ _ U).
  Qed.
  Lemma append_log m l e m' : LRU_Append m l e = Ret m' -> m_log m' = m_log m.
  Proof.
    unfold LRU_Append. destruct (upd m e _) as [m1| | |] eqn:U1; try discriminate 1. cbn [bind].
    destruct (get m1 l) as [n1| | |]; try discriminate 1. cbn [bind].
    destruct (upd m1 e _) as [m2| | |] eqn:U2; try discriminate 1. cbn [bind].
    destruct (get m2 e) as [n2| | |]; try discriminate 1. cbn [bind].
    destruct (upd m2 _ _) as [m3| | |] eqn:U3; try discriminate 1. cbn [bind].
    destruct (get m3 e) as [n3| | |]; try discriminate 1. cbn [bind]. intros U4.
    rewrite (get_upd_log _ _ _ _ U4), (get_upd_log _ _ _ _ U3), (get_upd_log _ _ _ _ U2). exact (get_upd_log _ _ _ _ U1).
  Qed.

  Lemma Unref_follows i c s e m' : i < 16 -> Unref dbg (c_mem c) s e = Ret m' ->
    follows i (m_log (c_mem c)) (m_log m') (with_mem c m') (Unref_d hashf alc dbg del D i c s e).
  Proof.
    intros Hi. unfold Unref, Unref_d. destruct (get (c_mem c) e) as [n| | |]; try discriminate 1. cbn [bind].
    destruct (assert_ dbg _) as [u| | |]; try discriminate 1. cbn [bind].
    destruct (upd (c_mem c) e _) as [m1| | |] eqn:U; try discriminate 1. cbn [bind].
    destruct (get m1 e) as [n1| | |] eqn:G1; try discriminate 1. cbn [bind].
    rewrite <- (get_upd_log _ _ _ _ U). destruct (N.eqb (n_refs n1) 0).
    - destruct (assert_ dbg (negb (n_in_cache n1))) as [u1| | |]; try discriminate 1. cbn [bind].
      destruct (key_of dbg m1 e) as [k| | |]; try discriminate 1. cbn [bind]. intros E. injection E as <-. cbn [m_log].
      eexists. split; [reflexivity|]. split.
      + intros F. inversion F as [|d ds Q _]; subst. unfold quiet in Q. cbn [d_deleter d_key d_value] in Q. rewrite Q.
        cbn [run_del]. unfold bback. cbn [bind with_mem c_mem m_heap m_log]. unfold get in G1 |- *. cbn [m_heap].
        destruct (hget (m_heap m1) e); [reflexivity|discriminate G1].
      + intros _ X. inversion X as [d ds (x & kk & E & G)|d ds Y]; subst; [|inversion Y].
        cbn [d_deleter d_key d_value] in E. rewrite E. rewrite run_gone by assumption. reflexivity.
    - destruct (n_in_cache n1 && N.eqb (n_refs n1) 1).
      + destruct (LRU_Remove m1 e) as [m2| | |] eqn:R; try discriminate 1. cbn [bind]. intros A. rewrite A. cbn [bind].
        rewrite (append_log _ _ _ _ A), (remove_log _ _ _ R). apply follows_ret.
      + intros E. injection E as <-. apply follows_ret.
  Qed.

  Lemma loop_follows i s : i < 16 -> forall fuel c e m' fuel', fuel <= fuel' ->
    dtor_loop fuel dbg (c_mem c) s e = Ret m' ->
    follows i (m_log (c_mem c)) (m_log m') (with_mem c m') (dtor_loop_d hashf alc dbg del D fuel' i c s e).
  Proof.
    intros Hi. induction fuel as [|fuel IH]; intros c e m' fuel' L; cbn [dtor_loop]; [discriminate 1|].
    destruct fuel' as [|fuel']; [lia|]. cbn [dtor_loop_d].
    destruct (e =? s_lru s).
    - intros E. injection E as <-. rewrite with_mem_mem. apply follows_ret.
    - destruct (get (c_mem c) e) as [n| | |]; try discriminate 1. cbn [bind].
      destruct (assert_ dbg (n_in_cache n)) as [u| | |]; try discriminate 1. cbn [bind].
      destruct (upd (c_mem c) e _) as [m1| | |] eqn:U; try discriminate 1. cbn [bind].
      destruct (get m1 e) as [n1| | |]; try discriminate 1. cbn [bind].
      destruct (assert_ dbg (n_refs n1 =? 1)%N) as [u1| | |]; try discriminate 1. cbn [bind].
      destruct (Unref dbg m1 s e) as [m2| | |] eqn:R; try discriminate 1. cbn [bind]. intros E.
      rewrite <- (get_upd_log _ _ _ _ U).
      eapply follows_seq.
      + exact (Unref_follows i (with_mem c m1) s e m2 Hi R).
      + exact (IH (with_mem (with_mem c m1) m2) (n_next n) m' fuel' ltac:(lia) E).
  Qed.

  Lemma shard_follows i c s m' fuel' : i < 16 -> the_shard c i = Ret s -> length (m_heap (c_mem c)) < fuel' ->
    shard_dtor dbg (c_mem c) s = Ret m' ->
    follows i (m_log (c_mem c)) (m_log m') (with_mem c m') (shard_dtor_d hashf alc dbg del D fuel' i c).
  Proof.
    intros Hi Hs L. unfold shard_dtor, shard_dtor_d. rewrite Hs. cbn [bind].
    destruct (get (c_mem c) (s_in_use s)) as [u| | |]; try discriminate 1. cbn [bind].
    destruct (assert_ dbg _) as [a| | |]; try discriminate 1. cbn [bind].
    destruct (get (c_mem c) (s_lru s)) as [l| | |]; try discriminate 1. cbn [bind].
    destruct (dtor_loop _ dbg (c_mem c) s (n_next l)) as [m1| | |] eqn:E; try discriminate 1. cbn [bind]. intros R. injection R as <-.
    eapply follows_seq.
    - exact (loop_follows i s Hi (S (length (m_heap (c_mem c)))) c (n_next l) m1 fuel' ltac:(lia) E).
    - cbn [m_log with_mem c_mem c_shards c_last_id]. apply follows_ret.
  Qed.


  (** The same with each entry's own shard. *)
  Definition home_bad (d : dcall) : Prop := bad (Shard (hashf (d_key d))) d.
  Definition follows_home (lg lg' : list dcall) (c' : cache) (r : outcome (back cache)) : Prop :=
    exists ds, lg' = lg ++ ds /\
      (Forall quiet ds -> r = Ret (Back c')) /\
      (Forall (fun d => quiet d \/ home_bad d) ds -> Exists home_bad ds -> r = UB).
  Lemma home_seq i lg ds lg2 c1 c2 r f : follows i lg (lg ++ ds) c1 r -> Forall (fun d => Shard (hashf (d_key d)) = i) ds ->
    follows_home (lg ++ ds) lg2 c2 (f c1) -> follows_home lg lg2 c2 (bback r f).
  Proof.
    intros (d1 & E & Q1 & B1) H (d2 & -> & Q2 & B2). apply app_inv_head in E. subst d1. exists (ds ++ d2). rewrite <- app_assoc.
    split; [reflexivity|]. split.
    - intros F. apply Forall_app in F as [F1 F2]. unfold bback. rewrite (Q1 F1). cbn [bind]. auto.
    - intros F X. apply Forall_app in F as [F1 F2]. unfold bback.
      assert (F1' : Forall (fun d => quiet d \/ bad i d) ds).
      { rewrite Forall_forall in *. intros d Hd. rewrite <- (H d Hd). exact (F1 d Hd). }
      destruct (some_bad _ _ F1') as [Y|Y].
      + rewrite (Q1 Y). cbn [bind]. apply B2; [exact F2|]. apply Exists_app in X as [X|X]; [|exact X].
        exfalso. apply Exists_exists in X as (d & Hd & B). rewrite Forall_forall in Y. exact (not_both _ d (Y d Hd) B).
      + rewrite (B1 F1' Y). reflexivity.
  Qed.

  Hypothesis hash32 : forall k, (hashf k < 2 ^ 32)%N.
  Variable A : astate.
  Variable f : nat -> shard.
  Lemma dtors_follows n : n <= 16 -> forall c m',
    (forall i, i < n -> the_shard c i = Ret (f i)) ->
    (forall i, i < n -> Inv hashf (m_heap (c_mem c)) (f i) (aL (A i)) (aP (A i)) (aZ (A i))) ->
    (forall i j a, i < n -> j < n -> i <> j -> In a (aown (f i) (A i)) -> ~ In a (aown (f j) (A j))) ->
    (forall i, i < n -> aP (A i) = [] \/ dbg = false) ->
    (forall i e, i < n -> In e (aL (A i)) -> Shard (hashf (e_key e)) = i) ->
    dtors dbg (c_mem c) (map f (rev (seq 0 n))) = Ret m' ->
    exists fuel0, forall fuel', fuel0 <= fuel' ->
      follows_home (m_log (c_mem c)) (m_log m') (with_mem c m') (dtors_d hashf alc dbg del D fuel' n c).
  Proof.
    induction n as [|n IH]; intros Hn c m' Hs Hi Hd Hp Hk.
    - cbn [seq rev map dtors]. intros E. injection E as <-. exists 0. intros fuel' _. cbn [dtors_d]. rewrite with_mem_mem.
      exists []. rewrite app_nil_r. split; [reflexivity|]. split; [auto|]. intros _ X. inversion X.
    - rewrite seq_S, rev_app_distr. cbn [plus rev app map dtors].
      destruct (shard_dtor_held hashf dbg (m_heap (c_mem c)) (m_log (c_mem c)) (f n) _ _ _ (Hi n ltac:(lia)) (Hp n ltac:(lia))) as (h1 & R1 & R2 & R3).
      assert (Em : mk_mem (m_heap (c_mem c)) (m_log (c_mem c)) = c_mem c) by (destruct (c_mem c); reflexivity). rewrite Em in R1.
      rewrite R1. cbn [bind]. intros E.
      destruct (IH ltac:(lia) (with_mem c (mk_mem h1 (m_log (c_mem c) ++ map dcall_of (aL (A n))))) m') as (fuel0 & K).
      { intros i Li. apply Hs. lia. }
      { intros i Li. eapply Inv_frame; [|apply Hi; lia]. intros a Ha. apply R2. intros Hf.
        refine (Hd n i a _ _ _ (freed_own A f n a Hf) Ha); lia. }
      { intros i j a Li Lj. apply Hd; lia. }
      { intros i Li. apply Hp. lia. }
      { intros i e Li. apply Hk. lia. }
      { exact E. }
      exists (Nat.max fuel0 (S (length (m_heap (c_mem c))))). intros fuel' L. cbn [dtors_d].
      pose proof (shard_follows n c (f n) _ fuel' ltac:(lia) (Hs n ltac:(lia)) ltac:(lia) R1) as F1. cbn [m_log] in F1.
      refine (home_seq n _ _ _ _ _ _ _ F1 _ (K fuel' ltac:(lia))).
      apply Forall_forall. intros d Hin. apply in_map_iff in Hin as (e & <- & He). cbn [dcall_of d_key]. apply Hk; [lia|exact He].
  Qed.
End Follow.

Section Cache.
  Variable hashf : bytes -> N.
  Hypothesis hash32 : forall k, (hashf k < 2 ^ 32)%N.
  Variable alc : allocator.
  Variable cap : N.
  Variable H : history.
  Variable c : cache.
  Variable A : astate.
  Hypothesis G : GInv hashf (per_shard cap) c A.
  Hypothesis I : HInv (per_shard cap) H A.
  Lemma cache_follows dbg del depth : dbg = false \/ (forall j, cached cap H j = true -> ~ in_use H j) ->
    forall m', cache_dtor dbg (clear_log c) = Ret m' ->
    exists fuel0, forall fuel', fuel0 <= fuel' ->
      follows_home hashf del [] (m_log m') (with_mem (clear_log c) m') (cache_dtor_d hashf alc dbg del (S depth) fuel' (clear_log c)).
  Proof.
    intros Hq m'. destruct (shards_fun hashf cap c A G) as (f & Hnth & Er & Hinv & Hd).
    unfold cache_dtor. cbn [clear_log c_shards c_mem]. rewrite Er. intros E.
    assert (In16 : forall i, i < 16 -> In i (rev (seq 0 16))) by (intros i Hi; apply (proj2 (in_rev16 i)); exact Hi).
    refine (dtors_follows hashf alc dbg del depth A f 16 (le_n 16) (clear_log c) m' _ _ _ _ _ E).
    - intros i Hi. unfold the_shard. cbn [clear_log c_shards]. rewrite (Hnth i Hi). reflexivity.
    - intros i Hi. apply Hinv. auto.
    - intros i j a Hi Hj. apply Hd; auto.
    - intros i Hi. destruct Hq as [->|Hq]; [auto|]. left. destruct (aP (A i)) as [|e P] eqn:EP; [reflexivity|]. exfalso.
      destruct (used_cached hashf cap H c A G I i e Hi) as [K1 K2]; [rewrite EP; cbn; auto|]. exact (Hq _ K1 K2).
    - intros i e Hi He. apply (g_key _ _ _ _ G i e Hi). unfold ents. rewrite in_app_iff. auto.
  Qed.
End Cache.
