(** SkipListConcProofs.v -- invariants of concurrent readers. *)
From Coq Require Import List Arith ZArith NArith Lia Bool Sorted Permutation.
From Verif Require Import Outcome Random SkipList SkipListSpec SkipListProofs SkipListInsert
  SkipListSeq SkipListConc SkipListConcSpec.
Import ListNotations.
Local Open Scope outcome_scope.

Lemma insert_all_app {K} (cmp : K -> K -> Z) dbg : forall a b s,
  insert_all cmp dbg s (a ++ b) = bind (insert_all cmp dbg s a) (fun s1 => insert_all cmp dbg s1 b).
Proof.
  induction a as [|[k h] a IH]; intros b s; [reflexivity|]. cbn [app insert_all].
  destruct (InsertH cmp dbg s k h) as [y| | |]; cbn [bind]; auto.
Qed.

Lemma snoc_split {A} (l : list A) x h1 h2 : l ++ [x] = h1 ++ h2 ->
  (h1 = l ++ [x] /\ h2 = []) \/ (exists h2', l = h1 ++ h2' /\ h2 = h2' ++ [x]).
Proof.
  intros E. destruct (rev h2) as [|y r] eqn:Er.
  - left. assert (h2 = []) by (rewrite <- (rev_involutive h2), Er; reflexivity). subst.
    rewrite app_nil_r in E. auto.
  - right. assert (E2 : h2 = rev r ++ [y]) by (rewrite <- (rev_involutive h2), Er; reflexivity).
    subst h2. rewrite app_assoc in E. apply app_inj_tail in E as [E1 E2]. subst. eauto.
Qed.

Section Conc.
  Context {K : Type} (cmp : K -> K -> Z) (Hc : comparator_ok cmp).
  Notation mem := (mem K). Notation store := (store K). Notation skiplist := (skiplist K).
  Notation ghost := (@ghost K).
  Notation Good := (Good cmp).
  Notation lt_nodes := (lt_nodes cmp).
  Notation node_lt := (node_lt cmp).
  Notation node_ge := (node_ge cmp).
  Notation trace := (trace cmp).
  Notation gstep := (gstep cmp).

  Variable k0 : K.
  Notation s0 := (skiplist0 k0).
  Notation g0 := (ghost0 k0).

  (** ** The trace of a history, with the state at every operation boundary *)
  Definition boundary (tr : list (store * ghost)) (h1 : list (K * nat)) : Prop :=
    exists s1, insert_all cmp true s0 h1 = Ret s1 /\
      sl_log s1 = map fst (firstn (length (sl_log s1)) tr) /\
      let g1 := final g0 (firstn (length (sl_log s1)) tr) in
      at_ghost s1 g1 /\ Good g1 /\ full g1 /\ length (nodes (g_mem g1)) = S (length h1) /\
      (forall i k h, nth_error h1 i = Some (k, h) -> key_of (g_mem g1) (S i) = Ret k).

  Lemma distinct_snoc ks k : distinct cmp (ks ++ [k]) ->
    distinct cmp ks /\ forall k', In k' ks -> cmp k' k <> 0%Z.
  Proof.
    induction ks as [|a t IH]; cbn [app distinct]; intros H.
    - split; [exact I|]. intros k' [].
    - destruct H as [H1 H2]. destruct (IH H2) as [H3 H4]. split; [split; auto|].
      + intros k' Hk'. apply H1. apply in_or_app; auto.
      + intros x [<-|Hx]; auto. apply H1. apply in_or_app; cbn; auto.
  Qed.

  Lemma hist_trace hist : heights_ok hist -> distinct cmp (map fst hist) ->
    exists tr s, insert_all cmp true s0 hist = Ret s /\ trace g0 tr /\ sl_log s = map fst tr /\
      (forall h1 h2, hist = h1 ++ h2 -> boundary tr h1).
  Proof.
    induction hist as [|[k h] hist IH] using rev_ind; intros Hh Hd.
    - exists [], s0. split; [reflexivity|]. split; [exact I|]. split; [reflexivity|].
      intros h1 h2 E. symmetry in E. apply app_eq_nil in E as [-> ->].
      exists s0. split; [reflexivity|]. split; [reflexivity|]. cbn.
      split; [reflexivity|]. split; [apply ghost0_good|]. split; [apply ghost0_full|].
      split; [reflexivity|]. intros i k h Hi. destruct i; discriminate.
    - apply Forall_app in Hh as [Hh1 Hh2]. inversion Hh2 as [|? ? Hkh _]; subst. cbn in Hkh.
      rewrite map_app in Hd. cbn [map fst] in Hd. apply distinct_snoc in Hd as [Hd1 Hd2].
      destruct (IH Hh1 Hd1) as (tr & s & E & T & L & B). clear IH.
      destruct (B hist [] (eq_sym (app_nil_r hist))) as (s1 & E1 & L1 & A1 & G1 & F1 & N1 & Kx1).
      rewrite E in E1. inversion E1; subst s1. clear E1.
      assert (Hlen : length (sl_log s) = length tr) by (rewrite L, map_length; reflexivity).
      rewrite Hlen, firstn_all in *.
      destruct (InsertH_ok cmp Hc true s (final g0 tr) k h G1 F1 A1 Hkh) as
        (s' & tr' & P & S & E2 & T2 & A2 & L2 & R2 & F2 & El & El' & Kx & Hx & N2).
      { intros a ka Ha Hka. destruct a as [|a]; [apply (G_nodes _ _ G1) in Ha; lia|].
        apply (G_nodes _ _ G1) in Ha. destruct (nth_error hist a) as [[ka' ha]|] eqn:En.
        - rewrite (Kx1 a ka' ha En) in Hka. inversion Hka; subst ka'.
          intros E0. apply (cmp_zero _ Hc) in E0. apply (Hd2 ka); auto.
          apply nth_error_In in En. apply in_map_iff. exists (ka, ha); auto.
        - apply nth_error_None in En. lia. }
      destruct (trace_good cmp Hc _ tr' G1 T2) as [G2 M2].
      exists (tr ++ tr'), s'.
      assert (Es' : insert_all cmp true s0 (hist ++ [(k, h)]) = Ret s').
      { rewrite insert_all_app, E. cbn [bind insert_all]. rewrite E2. reflexivity. }
      assert (Ls' : sl_log s' = map fst (tr ++ tr')) by (rewrite L2, L, map_app; reflexivity).
      assert (Ts' : trace g0 (tr ++ tr')) by (apply trace_app; auto).
      split; [exact Es'|]. split; [exact Ts'|]. split; [exact Ls'|].
      intros h1 h2 Esp. apply snoc_split in Esp. destruct Esp as [[-> ->]|(h2' & Eh & ->)].
      + exists s'. split; [exact Es'|].
        assert (Hl' : length (sl_log s') = length (tr ++ tr')) by (rewrite Ls', map_length; reflexivity).
        rewrite Hl', firstn_all. split; [exact Ls'|]. cbv zeta. rewrite final_app.
        split; [exact A2|]. split; [exact G2|]. split; [exact F2|].
        split; [rewrite N2, N1, app_length; cbn; lia|].
        intros i k' h' Hi. destruct (lt_dec i (length hist)) as [Hlt|Hge].
        * rewrite nth_error_app1 in Hi by exact Hlt. apply (m_key _ _ M2). eapply Kx1; eauto.
        * assert (i = length hist).
          { assert (i < length (hist ++ [(k, h)])) by (apply nth_error_Some; congruence).
            rewrite app_length in H; cbn in H; lia. }
          subst i. rewrite nth_error_app2, Nat.sub_diag in Hi by lia. cbn in Hi. inversion Hi; subst.
          rewrite N1 in Kx. exact Kx.
      + destruct (B h1 h2' Eh) as (s1 & E1 & L1' & A1' & G1' & F1' & N1' & Kx1').
        exists s1. split; [exact E1|].
        assert (Hle : length (sl_log s1) <= length tr).
        { rewrite L1', map_length, firstn_length. lia. }
        rewrite firstn_app. replace (length (sl_log s1) - length tr) with 0 by lia.
        cbn [firstn]. rewrite app_nil_r. split; [exact L1'|]. cbv zeta. auto 10.
  Qed.

  Variable hist : list (K * nat).
  Variable tr : list (store * ghost).
  Hypothesis Htr : trace g0 tr.
  Hypothesis Hb : forall h1 h2, hist = h1 ++ h2 -> boundary tr h1.
  Hypothesis Hlog : exists s, insert_all cmp true s0 hist = Ret s /\ sl_log s = map fst tr.
  Notation W := (map fst tr).
  Notation m0 := (mem0 k0).

  Definition gat (n : nat) : ghost := final g0 (firstn n tr).
  Notation gm n := (g_mem (gat n)).
  Notation mem_at := (mem_at m0 W).

  Lemma gat_trace n : trace g0 (firstn n tr).
  Proof. pose proof Htr as H. rewrite <- (firstn_skipn n tr) in H. apply trace_app in H. apply H. Qed.

  Lemma gat_good n : Good (gat n).
  Proof. apply (trace_good cmp Hc g0); [apply ghost0_good|apply gat_trace]. Qed.

  Lemma gat_S n : n < length tr -> exists w, nth_error W n = Some w /\ gstep (gat n) w (gat (S n)).
  Proof.
    intros Hn. destruct (nth_error tr n) as [[w g]|] eqn:En.
    2:{ apply nth_error_None in En; lia. }
    exists w. split; [rewrite nth_error_map, En; reflexivity|].
    assert (E : firstn (S n) tr = firstn n tr ++ [(w, g)]).
    { clear - En. revert n En. induction tr as [|a t IH]; intros [|n] En; cbn in En; try discriminate.
      - inversion En; subst. reflexivity.
      - cbn [firstn app]. f_equal. apply IH. exact En. }
    pose proof (gat_trace (S n)) as HT. rewrite E in HT. apply trace_app in HT as [_ HT].
    unfold gat. rewrite E, final_app. cbn [trace] in HT. destruct HT as [HT _]. exact HT.
  Qed.

  Lemma gat_mono n m : n <= m -> mono (gat n) (gat m).
  Proof.
    intros Hnm. pose proof (gat_trace m) as HT.
    assert (E : firstn m tr = firstn n tr ++ skipn n (firstn m tr)).
    { rewrite <- (firstn_skipn n (firstn m tr)) at 1. rewrite firstn_firstn.
      replace (Nat.min n m) with n by lia. reflexivity. }
    unfold gat at 2. rewrite E, final_app. fold (gat n).
    rewrite E in HT. apply trace_app in HT as [_ HT].
    apply (trace_good cmp Hc (gat n)); [apply gat_good|exact HT].
  Qed.

  Lemma replay_trace g t : Good g -> trace g t -> replay (g_mem g) (map fst t) = Ret (g_mem (final g t)).
  Proof.
    revert g; induction t as [|[w g'] t IH]; intros g G T; [reflexivity|].
    destruct T as [Hs T]. cbn [map fst replay]. destruct (gstep_good cmp Hc g w g' G Hs) as (G' & E & _).
    rewrite E. cbn [bind]. rewrite final_cons. apply IH; auto.
  Qed.

  Lemma mem_at_ok n : mem_at n = Ret (gm n).
  Proof.
    unfold SkipListConc.mem_at. rewrite firstn_map. apply (replay_trace g0).
    - apply ghost0_good.
    - apply gat_trace.
  Qed.

  (** ** Reading a link *)
  Lemma last_release_app : forall (ws : list store) w i acc x l,
    last_release (ws ++ [w]) i acc x l =
    match w with
    | SLink b x' l' _ =>
        if (x' =? x) && (l' =? l) then (if b then S (i + length ws) else 0)
        else last_release ws i acc x l
    | _ => last_release ws i acc x l
    end.
  Proof.
    induction ws as [|w' ws IH]; intros w i acc x l; cbn [app last_release length].
    - destruct w as [k h|h|b x' l' v]; cbn [last_release]; auto.
      rewrite Nat.add_0_r. reflexivity.
    - destruct w' as [k h|h|b x' l' v]; cbn [last_release]; rewrite IH;
        rewrite <- Nat.add_succ_comm; reflexivity.
  Qed.

  Lemma last_release_le : forall n x l, last_release (firstn n W) 0 0 x l <= n.
  Proof.
    assert (H : forall (ws : list store) i acc x l, acc <= i -> last_release ws i acc x l <= i + length ws).
    { induction ws as [|w ws IH]; intros i acc x l Ha; cbn [last_release length]; [lia|].
      destruct w as [k h|h|b x' l' v].
      - specialize (IH (S i) acc x l ltac:(lia)). lia.
      - specialize (IH (S i) acc x l ltac:(lia)). lia.
      - specialize (IH (S i) (if (x' =? x) && (l' =? l) then (if b then S i else 0) else acc) x l).
        assert ((if (x' =? x) && (l' =? l) then (if b then S i else 0) else acc) <= S i).
        { destruct ((x' =? x) && (l' =? l)); [destruct b; lia|lia]. }
        specialize (IH H). lia. }
    intros n x l. specialize (H (firstn n W) 0 0 x l (le_n 0)).
    pose proof (firstn_le_length n W). lia.
  Qed.

  Lemma load_stable T x i : x = 0 \/ In x (g_l (gat T)) -> i < g_lv (gat T) x ->
    forall n, T <= n -> n <= length tr ->
    let T' := Nat.max T (last_release (firstn n W) 0 0 x i) in
    T <= T' <= n /\ Next (gm T') x i = Next (gm n) x i.
  Proof.
    intros Hx Hi n HT. induction HT as [|n HT IH]; intros Hn; cbv zeta.
    - pose proof (last_release_le T x i).
      replace (Nat.max T (last_release (firstn T W) 0 0 x i)) with T by lia. split; [lia|reflexivity].
    - destruct IH as [IH1 IH2]; [lia|].
      destruct (gat_S n) as (w & Hw & Hs); [lia|].
      assert (E : firstn (S n) W = firstn n W ++ [w]).
      { clear - Hw. revert n Hw. generalize (map fst tr) as l. induction l as [|a t IH]; intros [|n] En; cbn in En; try discriminate.
        - inversion En; subst. reflexivity.
        - cbn [firstn app]. f_equal. apply IH. exact En. }
      rewrite E, last_release_app.
      assert (Hlen : length (firstn n W) = n) by (rewrite firstn_length, map_length; lia).
      rewrite Hlen, Nat.add_0_l.
      pose proof (gat_good n) as Gn. pose proof (gat_mono T n HT) as M.
      assert (Hxn : x < length (nodes (gm n))).
      { destruct Hx as [->|Hx].
        - apply (G_head _ _ Gn).
        - apply (m_l _ _ M) in Hx. apply (G_nodes _ _ Gn) in Hx. lia. }
      inversion Hs as [g h Hh Eg Ew Eg'|g k h p s Hh El Hp Hsuf Eg Ew Eg'
                      |g y j v m' Hy Hlv Hj Ha Eg Ew Eg'|g q j y p1 p2 s m' Eq Hq Hy Hj Hp2 Hnx Ha Eg Ew Eg'];
        subst g w.
      + split; [lia|]. rewrite IH2. reflexivity.
      + split; [lia|]. rewrite IH2.
        pose proof (new_node_reads (gm n) k h x) as HR. cbv zeta in HR. destruct HR as [HR _].
        destruct (HR Hxn) as (_ & _ & HR'). cbn [g_mem]. symmetry. apply HR'.
      + destruct (apply_link _ _ _ _ _ _ Ha) as (_ & _ & _ & _ & _ & A6). cbn [g_mem]. rewrite A6.
        destruct (Nat.eq_dec y x) as [->|Hne]; [destruct (Nat.eq_dec j i) as [->|Hne]|].
        * exfalso. pose proof (m_lv _ _ M x). lia.
        * destruct (j =? i) eqn:Eji; [apply Nat.eqb_eq in Eji; congruence|].
          rewrite Nat.eqb_refl. cbn [andb].
          destruct (i =? j) eqn:Eij; [apply Nat.eqb_eq in Eij; congruence|]. split; [lia|]. exact IH2.
        * destruct (y =? x) eqn:Eyx; [apply Nat.eqb_eq in Eyx; congruence|]. cbn [andb].
          destruct (x =? y) eqn:Exy; [apply Nat.eqb_eq in Exy; congruence|]. cbn [andb].
          split; [lia|]. exact IH2.
      + destruct ((q =? x) && (j =? i)) eqn:Eqx.
        * replace (Nat.max T (S n)) with (S n) by lia. split; [lia|]. rewrite Eg'. reflexivity.
        * split; [lia|]. rewrite IH2. cbn [g_mem].
          destruct (apply_link _ _ _ _ _ _ Ha) as (_ & _ & _ & _ & _ & A6). rewrite A6.
          rewrite (Nat.eqb_sym x q), (Nat.eqb_sym i j), Eqx. reflexivity.
  Qed.

  (** A load by a reader whose position is linked at that level: it is a load
      from the memory of the new view. *)
  Lemma load_ok T n x i : x = 0 \/ In x (g_l (gat T)) -> i < g_lv (gat T) x ->
    T <= n <= length tr ->
    exists v T', load_link m0 W T n x i = Ret (v, T') /\ T <= T' <= n /\
      Next (gm T') x i = Ret v /\ (x = 0 \/ In x (g_l (gat T'))) /\ i < g_lv (gat T') x.
  Proof.
    intros Hx Hi Hn. unfold load_link. rewrite !mem_at_ok. cbn [bind].
    destruct (Next_ok cmp (gat T) x i (gat_good T) Hx Hi) as (p & s & E & HN). rewrite HN. cbn [bind].
    pose proof (gat_mono T n ltac:(lia)) as M.
    assert (Hxn : x = 0 \/ In x (g_l (gat n))) by (destruct Hx; auto; right; apply (m_l _ _ M); auto).
    assert (Hin : i < g_lv (gat n) x) by (pose proof (m_lv _ _ M x); lia).
    destruct (Next_ok cmp (gat n) x i (gat_good n) Hxn Hin) as (p2 & s2 & E2 & HN2). rewrite HN2. cbn [bind].
    destruct (load_stable T x i Hx Hi n ltac:(lia) ltac:(lia)) as [H1 H2]. cbv zeta in *.
    eexists _, _. split; [reflexivity|]. split; [exact H1|]. split; [rewrite H2; exact HN2|].
    pose proof (gat_mono T _ (proj1 H1)) as M1. split.
    - destruct Hx; auto. right. apply (m_l _ _ M1); auto.
    - pose proof (m_lv _ _ M1 x). lia.
  Qed.

  (** ** Relation to the history *)
  Definition vis (T a : nat) : Prop := In a (g_l (gat T)) /\ 0 < g_lv (gat T) a.

  Lemma vis_mono T T' a : T <= T' -> vis T a -> vis T' a.
  Proof.
    intros H [H1 H2]. pose proof (gat_mono T T' H) as M. split; [apply (m_l _ _ M); auto|].
    pose proof (m_lv _ _ M a). lia.
  Qed.

  Lemma key_mono T T' a k : T <= T' -> key_of (gm T) a = Ret k -> key_of (gm T') a = Ret k.
  Proof. intros H. apply (m_key _ _ (gat_mono T T' H)). Qed.

  Lemma returned_vis t k : returned cmp s0 hist t k -> exists z, vis t z /\ key_of (gm t) z = Ret k.
  Proof.
    intros (h1 & h2 & n & E & (s1 & E1 & Hn) & Hnt & Hin).
    destruct (Hb h1 h2 E) as (s1' & E1' & L & A & G & [F1 F2] & N & Kx).
    rewrite E1 in E1'. inversion E1'; subst s1'. clear E1'. rewrite Hn in *.
    fold (gat n) in *. apply in_map_iff in Hin as ([k' h] & Ek & Hin). cbn in Ek. subst k'.
    apply In_nth_error in Hin as [i Hi]. exists (S i). split.
    - apply (vis_mono n); auto.
      assert (Hl : In (S i) (g_l (gat n))).
      { apply F2. rewrite N. assert (i < length h1) by (apply nth_error_Some; congruence). lia. }
      split; auto. destruct (F1 _ Hl). lia.
    - apply (key_mono n); auto. eapply Kx; eauto.
  Qed.

  Lemma in_called t a k : t <= length tr -> In a (g_l (gat t)) -> key_of (gm t) a = Ret k ->
    called cmp s0 hist t k.
  Proof.
    intros Ht Hin Hk. apply (G_nodes _ _ (gat_good t)) in Hin as Ha.
    destruct a as [|i]; [lia|].
    destruct Hlog as (sf & Ef & Lf).
    destruct (Hb hist [] (eq_sym (app_nil_r hist))) as (sf' & Ef' & _ & _ & _ & _ & Nf & Kxf).
    rewrite Ef in Ef'. inversion Ef'; subst sf'. clear Ef'.
    assert (Hnf : length (sl_log sf) = length tr) by (rewrite Lf, map_length; reflexivity).
    rewrite Hnf in *. fold (gat (length tr)) in *.
    assert (Hi : i < length hist).
    { pose proof (m_len _ _ (gat_mono t (length tr) Ht)). lia. }
    destruct (nth_error hist i) as [[k' h]|] eqn:En; [|apply nth_error_None in En; lia].
    assert (k' = k).
    { pose proof (Kxf i k' h En) as H1. pose proof (key_mono t (length tr) (S i) k Ht Hk) as H2.
      congruence. }
    subst k'. apply nth_error_split in En as (h1 & h2 & E & Hh1).
    destruct (Hb h1 ((k, h) :: h2) E) as (s1 & E1 & _ & _ & _ & _ & N1 & _).
    exists h1, h, h2, (length (sl_log s1)). split; [exact E|]. split; [exists s1; auto|].
    destruct (le_lt_dec t (length (sl_log s1))) as [Hle|]; auto. exfalso.
    pose proof (m_len _ _ (gat_mono t _ Hle)) as Hml. fold (gat (length (sl_log s1))) in N1. lia.
  Qed.

  (** ** The invariant of a reader *)
  Definition fin : ghost := gat (length tr).

  (** Loads still to come for a search at node x and level. *)
  Definition budget (steps x level : nat) : Prop :=
    exists p s, 0 :: g_l fin = p ++ x :: s /\ steps + level + length s <= length hist + 12.

  Definition it_ok (T : nat) (it : Iterator) : Prop :=
    match it with None => True | Some a => vis T a end.

  Definition pc_inv (now : nat) (r : reader K) : Prop :=
    let T := r_view r in
    match r_pc r with
    | PIdle => True
    | PHeight => r_steps r = 0 /\ r_from r = r_it r /\
        match r_op r with
        | OContains _ | OSeek _ | OLast => True
        | OPrev => Valid (r_it r) = true
        | _ => False
        end
    | PFge key x level => (r_op r = OContains key \/ r_op r = OSeek key) /\ r_from r = r_it r /\
        before cmp (gat T) x key /\ level < g_lv (gat T) x /\ budget (r_steps r) x level
    | PFlt key x level => r_op r = OPrev /\ r_from r = r_it r /\
        (exists a, r_it r = Some a /\ key_of (gm T) a = Ret key) /\
        before cmp (gat T) x key /\ level < g_lv (gat T) x /\ budget (r_steps r) x level
    | PFlast x level => r_op r = OLast /\ r_from r = r_it r /\
        (x = 0 \/ In x (g_l (gat T))) /\ level < g_lv (gat T) x /\ budget (r_steps r) x level
    | PNext0 x => r_steps r = 0 /\ r_from r = r_it r /\
        ((r_op r = OFirst /\ x = 0) \/ (r_op r = ONext /\ r_it r = Some x))
    | PDone => r_end r <= now /\
        exists kf kr, at_key (gm T) (r_from r) kf /\ at_key (gm T) (r_it r) kr /\
          result_ok cmp s0 hist (r_op r) (r_start r) (r_end r) kf kr (r_res r)
    end.

  Record RInv (now : nat) (r : reader K) : Prop := {
    RI_view : r_start r <= r_view r /\ r_view r <= now /\ now <= length tr;
    RI_it : it_ok (r_view r) (r_it r);
    RI_steps : r_steps r <= length hist + 13;
    RI_pc : pc_inv now r
  }.

  Lemma lt_nodes_mono T T' a b : T <= T' -> lt_nodes (gm T) a b -> lt_nodes (gm T') a b.
  Proof. intros H. apply lt_nodes_ext. intros x k. apply key_mono; auto. Qed.
  Lemma node_lt_mono T T' a k : T <= T' -> node_lt (gm T) a k -> node_lt (gm T') a k.
  Proof. intros H. apply node_lt_ext. intros x k'. apply key_mono; auto. Qed.
  Lemma before_mono T T' x key : T <= T' -> before cmp (gat T) x key -> before cmp (gat T') x key.
  Proof.
    intros H [->|[H1 H2]]; [now left|]. right. split; [apply (m_l _ _ (gat_mono T T' H)); auto|].
    eapply node_lt_mono; eauto.
  Qed.
  Lemma lv_mono T T' x i : T <= T' -> i < g_lv (gat T) x -> i < g_lv (gat T') x.
  Proof. intros H Hi. pose proof (m_lv _ _ (gat_mono T T' H) x). lia. Qed.
  Lemma in_mono T T' x : T <= T' -> In x (g_l (gat T)) -> In x (g_l (gat T')).
  Proof. intros H. apply (m_l _ _ (gat_mono T T' H)). Qed.

  Lemma at_key_mono T T' it ko : T <= T' -> at_key (gm T) it ko -> at_key (gm T') it ko.
  Proof.
    intros H. destruct it as [a|]; cbn; auto. intros (k & H1 & H2). exists k. split; auto.
    unfold iter_key, iter_node, assert_ in *. cbn in *. eapply key_mono; eauto.
  Qed.

  Lemma at_key_some T a k : key_of (gm T) a = Ret k -> at_key (gm T) (Some a) (Some k).
  Proof. intros H. exists k. split; auto. Qed.

  Lemma vis_key T a : vis T a -> exists k, key_of (gm T) a = Ret k.
  Proof.
    intros [H _]. apply key_of_ret. apply (G_nodes _ _ (gat_good T)) in H. lia.
  Qed.

  Lemma it_at_key T it : it_ok T it -> exists ko, at_key (gm T) it ko.
  Proof.
    destruct it as [a|]; cbn; [|eauto]. intros H. destruct (vis_key T a H) as [k Hk]. eauto.
  Qed.

  (** Moving with the writer or by synchronisation. *)
  Lemma RInv_view now now' r v : RInv now r -> r_view r <= v -> v <= now' -> now <= now' ->
    now' <= length tr -> RInv now' (set_view r v).
  Proof.
    intros [V I S P] H1 H2 H3 H4. split; cbn [set_view r_start r_view r_steps r_it]; auto.
    - lia.
    - destruct (r_it r) as [a|]; cbn in *; auto. eapply vis_mono; eauto.
    - unfold pc_inv in *. cbn [set_view r_pc r_view r_steps r_from r_it r_op r_res r_start r_end].
      destruct (r_pc r); auto.
      + destruct P as (A & B & C & D & E). split; auto. split; auto. split; [eapply before_mono; eauto|].
        split; auto. eapply lv_mono; eauto.
      + destruct P as (A & B & (a & C1 & C2) & D & E & F). split; auto. split; auto.
        split; [exists a; split; auto; eapply key_mono; eauto|].
        split; [eapply before_mono; eauto|]. split; auto. eapply lv_mono; eauto.
      + destruct P as (A & B & C & D & E). split; auto. split; auto.
        split; [destruct C; auto; right; eapply in_mono; eauto|]. split; auto. eapply lv_mono; eauto.
      + destruct P as (A & kf & kr & B & C & D). split; [lia|]. exists kf, kr.
        split; [eapply at_key_mono; eauto|]. split; auto. eapply at_key_mono; eauto.
  Qed.

  Lemma set_view_id (r : reader K) : set_view r (r_view r) = r.
  Proof. destruct r; reflexivity. Qed.

  Lemma RInv_now now now' r : RInv now r -> now <= now' -> now' <= length tr -> RInv now' r.
  Proof.
    intros H H1 H2. rewrite <- (set_view_id r). pose proof (RI_view _ _ H).
    apply (RInv_view now); auto; lia.
  Qed.

  Lemma RInv_new : RInv 0 (@new_reader K).
  Proof. split; cbn; auto; lia. Qed.

  Lemma RInv_start now r o : RInv now r -> may_start r o ->
    forall dbg, exists r', start dbg r o = Ret r' /\ RInv now r'.
  Proof.
    intros [V I S P] [Hm1 Hm2] dbg.
    destruct o as [k|k| | | |]; cbn [start].
    1,2,3,4: eexists; split; [reflexivity|]; split; cbn [r_start r_view r_steps r_it]; auto; try lia;
      unfold pc_inv; cbn [r_pc r_steps r_from r_it r_op]; auto.
    all: unfold iter_node, assert_; rewrite Hm2; cbn [negb]; rewrite Bool.andb_false_r; cbn [bind];
      destruct (r_it r) as [a|] eqn:Ei; [|discriminate]; cbn [bind];
      eexists; (split; [reflexivity|]); split; cbn [r_start r_view r_steps r_it]; auto; try lia;
      unfold pc_inv; cbn [r_pc r_steps r_from r_it r_op]; auto.
  Qed.

  (** Budget *)
  Lemma budget_down steps x level : budget steps x (S level) -> budget (S steps) x level.
  Proof. intros (p & s & E & H). exists p, s. split; auto. lia. Qed.

  Lemma budget_move T steps x y level : T <= length tr ->
    In y (g_l (gat T)) -> (x <> 0 -> lt_nodes (gm T) x y) ->
    budget steps x level -> budget (S steps) y level.
  Proof.
    intros HT Hy Hxy (p & s & E & H).
    assert (Hyf : In y (0 :: g_l fin)) by (right; apply (in_mono T); auto).
    pose proof (gat_good (length tr)) as G.
    assert (Hy0 : y <> 0) by (apply (G_nodes _ _ (gat_good T)) in Hy; lia).
    destruct (split_nodes cmp fin p x s G E) as (S1 & S2 & S3 & S4 & S5).
    assert (Hys : In y s).
    { rewrite E in Hyf. apply in_app_or in Hyf. destruct Hyf as [Hp|[->|Hs]]; auto; exfalso.
      - destruct (Nat.eq_dec x 0) as [->|Hx0].
        + rewrite S5 in Hp by reflexivity. inversion Hp.
        + apply (lt_nodes_irrefl cmp Hc (g_mem fin) x).
          eapply lt_nodes_trans; [exact Hc| |apply S3; eauto].
          apply (lt_nodes_mono T); auto.
      - apply (lt_nodes_irrefl cmp Hc (gm T) y). apply Hxy. exact Hy0. }
    apply in_split in Hys as (s1 & s2 & Es). exists (p ++ x :: s1), s2. split.
    - rewrite <- app_assoc. cbn [app]. rewrite <- Es. exact E.
    - rewrite Es, app_length in H. cbn in H. lia.
  Qed.

  Lemma fin_len : length (g_l fin) <= length hist.
  Proof.
    destruct Hlog as (sf & Ef & Lf).
    destruct (Hb hist [] (eq_sym (app_nil_r hist))) as (sf' & Ef' & _ & _ & _ & _ & Nf & _).
    rewrite Ef in Ef'. inversion Ef'; subst sf'. clear Ef'.
    assert (Hnf : length (sl_log sf) = length tr) by (rewrite Lf, map_length; reflexivity).
    rewrite Hnf in *. fold (gat (length tr)) in *.
    pose proof (list_nodes_bound cmp Hc fin (gat_good _)). unfold fin in *. lia.
  Qed.

  Lemma budget_start h : h <= 12 -> budget 1 0 (h - 1).
  Proof.
    intros H. exists [], (g_l fin). split; [reflexivity|]. pose proof fin_len. lia.
  Qed.

  Lemma vis_nonzero T a : vis T a -> a <> 0.
  Proof. intros [H _]. apply (G_nodes _ _ (gat_good T)) in H. lia. Qed.

  (** What the last load of a search (level 0) says about visible keys. *)
  Lemma level0_none T x : (x = 0 \/ In x (g_l (gat T))) -> 0 < g_lv (gat T) x ->
    Next (gm T) x 0 = Ret None ->
    forall z, vis T z -> x = 0 \/ lt_nodes (gm T) x z -> False.
  Proof.
    intros Hx Hl Hn z [Hz1 Hz2] Hxz.
    exact (Next_sound cmp Hc (gat T) x 0 None (gat_good T) Hx Hl Hn z Hz1 Hz2 Hxz).
  Qed.

  Lemma level0_some T x y : (x = 0 \/ In x (g_l (gat T))) -> 0 < g_lv (gat T) x ->
    Next (gm T) x 0 = Ret (Some y) ->
    vis T y /\ (x <> 0 -> lt_nodes (gm T) x y) /\
    forall z, vis T z -> x = 0 \/ lt_nodes (gm T) x z -> z = y \/ lt_nodes (gm T) y z.
  Proof.
    intros Hx Hl Hn.
    destruct (Next_sound cmp Hc (gat T) x 0 (Some y) (gat_good T) Hx Hl Hn) as (A & B & C & D).
    split; [split; auto|]. split; auto. intros z [Hz1 Hz2] Hxz. apply D; auto.
  Qed.

  Lemma fge_result T x key v : before cmp (gat T) x key -> 0 < g_lv (gat T) x ->
    Next (gm T) x 0 = Ret v -> match v with Some y => node_ge (gm T) y key | None => True end ->
    match v with
    | Some y => vis T y /\ exists ky, key_of (gm T) y = Ret ky /\ (0 <= cmp ky key)%Z /\
        forall z kz, vis T z -> key_of (gm T) z = Ret kz -> (0 <= cmp kz key)%Z -> (0 <= cmp kz ky)%Z
    | None => forall z kz, vis T z -> key_of (gm T) z = Ret kz -> (cmp kz key < 0)%Z
    end.
  Proof.
    intros Hbf Hl Hn Hge.
    assert (Hx : x = 0 \/ In x (g_l (gat T))) by (destruct Hbf as [|[? _]]; auto).
    assert (Hpos : forall z kz, key_of (gm T) z = Ret kz -> (0 <= cmp kz key)%Z ->
              x = 0 \/ lt_nodes (gm T) x z).
    { intros z kz Hz Hc0. destruct Hbf as [|[_ (kx & Hkx & Hlt)]]; auto. right.
      exists kx, kz. split; auto. split; auto. eapply cmp_lt_le; eauto.
      pose proof (cmp_opp _ Hc key kz). destruct (cmp key kz), (cmp kz key); cbn in *; lia. }
    destruct v as [y|].
    - destruct (level0_some T x y Hx Hl Hn) as (A & _ & B). split; auto.
      destruct Hge as (ky & Hky & Hc0). exists ky. split; auto. split; auto.
      intros z kz Hz Hkz Hzc. destruct (B z Hz (Hpos z kz Hkz Hzc)) as [->|(k1 & k2 & B1 & B2 & B3)].
      + rewrite Hky in Hkz. inversion Hkz; subst. rewrite (cmp_refl _ Hc). lia.
      + rewrite Hky in B1. rewrite Hkz in B2. inversion B1; inversion B2; subst.
        apply (cmp_neg _ Hc) in B3. lia.
    - intros z kz Hz Hkz. destruct (Z.lt_ge_cases (cmp kz key) 0) as [|Hzc]; auto. exfalso.
      eapply (level0_none T x Hx Hl Hn z Hz). apply (Hpos z kz); auto.
  Qed.

  Lemma flt_result T x key v : before cmp (gat T) x key -> 0 < g_lv (gat T) x ->
    Next (gm T) x 0 = Ret v -> match v with Some y => node_ge (gm T) y key | None => True end ->
    forall z kz, vis T z -> key_of (gm T) z = Ret kz -> (cmp kz key < 0)%Z ->
      x <> 0 /\ forall kx, key_of (gm T) x = Ret kx -> (0 <= cmp kx kz)%Z.
  Proof.
    intros Hbf Hl Hn Hge z kz Hz Hkz Hlt.
    assert (Hx : x = 0 \/ In x (g_l (gat T))) by (destruct Hbf as [|[? _]]; auto).
    assert (Hno : ~ (x = 0 \/ lt_nodes (gm T) x z)).
    { intros Hxz. destruct v as [y|].
      - destruct (level0_some T x y Hx Hl Hn) as (_ & _ & B). destruct Hge as (ky & Hky & Hc0).
        destruct (B z Hz Hxz) as [->|(k1 & k2 & B1 & B2 & B3)].
        + rewrite Hky in Hkz. inversion Hkz; subst. lia.
        + rewrite Hky in B1. rewrite Hkz in B2. inversion B1; inversion B2; subst.
          pose proof (cmp_lt_trans _ Hc _ _ _ B3 Hlt). lia.
      - eapply (level0_none T x Hx Hl Hn); eauto. }
    split; [tauto|]. intros kx Hkx. destruct (Z.lt_ge_cases (cmp kx kz) 0) as [Hlt2|]; auto.
    exfalso. apply Hno. right. exists kx, kz. auto.
  Qed.

  Lemma called_mono t t' k : t <= t' -> called cmp s0 hist t k -> called cmp s0 hist t' k.
  Proof.
    intros H (h1 & h & h2 & n & A & B & C). exists h1, h, h2, n. split; auto. split; auto. lia.
  Qed.

  Lemma vis_called T now a k : T <= now -> now <= length tr -> vis T a -> key_of (gm T) a = Ret k ->
    called cmp s0 hist now k.
  Proof.
    intros H1 H2 [Hin _] Hk. apply (called_mono T); auto. eapply in_called; eauto. lia.
  Qed.

  Lemma returned_vis' ts T k : ts <= T -> returned cmp s0 hist ts k ->
    exists z, vis T z /\ key_of (gm T) z = Ret k.
  Proof.
    intros H Hr. destruct (returned_vis ts k Hr) as (z & H1 & H2). exists z.
    split; [eapply vis_mono; eauto|eapply key_mono; eauto].
  Qed.

  (** ** Every load of every operation is safe and keeps the invariant *)
  Lemma rstep_ok dbg now n r : RInv now r -> in_op r = true -> may_read now n r ->
    exists r', rstep cmp dbg m0 W now n r = Ret r' /\ RInv now r'.
  Proof.
    intros [V I S P] Hop [Hn1 Hn2].
    unfold rstep, in_op, pc_inv in *. destruct (r_pc r) as [| |key x level|key x level|x level|x|] eqn:Epc;
      try discriminate; cbv zeta in P.
    - (* height *)
      destruct P as (P1 & P2 & P3). rewrite mem_at_ok. cbn [bind].
      pose proof (G_max _ _ (gat_good n)) as GM. unfold kMaxHeight in GM.
      destruct (G_head _ _ (gat_good (r_view r))) as (_ & GH & _). unfold kMaxHeight in GH.
      destruct (r_op r) as [k|k| | | |] eqn:Eop; try tauto.
      1,2,3: eexists; split; [reflexivity|]; split;
        cbn [goto r_start r_view r_steps r_it]; auto; try lia;
        unfold pc_inv; cbn [goto r_pc r_steps r_from r_it r_op r_view];
        rewrite ?Eop; (split; [auto|]); (split; [auto|]); (split; [left; reflexivity|]);
        (split; [lia|]); rewrite P1; apply budget_start; lia.
      destruct (r_it r) as [a|] eqn:Eit; [|discriminate]. cbn in I.
      destruct (vis_key _ _ I) as [ka Hka].
      unfold iter_node, assert_, Valid. cbn [negb]. rewrite Bool.andb_false_r. cbn [bind].
      rewrite mem_at_ok. cbn [bind]. rewrite Hka. cbn [bind].
      eexists; split; [reflexivity|]; split; cbn [goto r_start r_view r_steps r_it]; rewrite ?Eit; auto; try lia.
      unfold pc_inv; cbn [goto r_pc r_steps r_from r_it r_op r_view].
      split; [auto|]. split; [congruence|]. split; [eauto|]. split; [left; reflexivity|].
      split; [lia|]. rewrite P1. apply budget_start. lia.
    - (* FindGreaterOrEqual *)
      destruct P as (P1 & P2 & P3 & P4 & P5). specialize (Hn2 ltac:(discriminate)).
      assert (Hx : x = 0 \/ In x (g_l (gat (r_view r)))) by (destruct P3 as [|[? _]]; auto).
      destruct (load_ok (r_view r) n x level Hx P4 ltac:(lia)) as (v & T' & E & HT & HN & Hx' & Hl').
      rewrite E. cbn [bind]. rewrite mem_at_ok. cbn [bind].
      pose proof (before_mono _ T' x key (proj1 HT) P3) as Hbf.
      pose proof (Next_sound cmp Hc (gat T') x level v (gat_good T') Hx' Hl' HN) as HS.
      assert (Hvn : forall y, v = Some y -> y < length (nodes (gm T'))).
      { intros y Ey. rewrite Ey in HS. destruct HS as [Hy _]. apply (G_nodes _ _ (gat_good T')) in Hy. lia. }
      destruct (KeyIsAfterNode_spec cmp (gm T') key v Hvn) as (b & Hk & Hb2). rewrite Hk. cbn [bind].
      assert (Hit : it_ok T' (r_it r)).
      { destruct (r_it r); cbn in *; auto. eapply vis_mono; [|exact I]; lia. }
      pose proof P5 as (pp & ss & _ & HBud).
      assert (Hend : (match v with Some y => node_ge (gm T') y key | None => True end) ->
        exists r', (match level with
            | O => found cmp r T' now (gm T') v
            | Datatypes.S level' => Ret (goto r T' (PFge key x level'))
            end) = Ret r' /\ RInv now r').
      { intros Hge. destruct level as [|level'].
        - pose proof (fge_result T' x key v Hbf Hl' HN Hge) as HF.
          destruct (it_at_key T' (r_from r) ltac:(rewrite P2; exact Hit)) as [kf Hkf].
          unfold found. destruct P1 as [P1|P1]; rewrite P1.
          + (* Contains *)
            assert (Hfin : forall b,
               ((exists k', returned cmp s0 hist (r_start r) k' /\ cmp key k' = 0%Z) -> b = true) ->
               ((forall k', called cmp s0 hist now k' -> cmp key k' <> 0%Z) -> b = false) ->
               RInv now (finish r T' now (r_it r) b)).
            { intros b0 B1 B2. split; cbn [finish r_start r_view r_steps r_it]; auto; try lia.
              unfold pc_inv; cbn [finish r_pc r_from r_it r_op r_view r_start r_end r_res].
              split; [lia|]. exists kf, kf. split; auto. split; [rewrite <- P2; auto|].
              unfold result_ok. rewrite P1. auto. }
            destruct v as [y|].
            * destruct HF as (Hvy & ky & Hky & Hc1 & Hmin). rewrite Hky. cbn [bind].
              eexists. split; [reflexivity|]. apply Hfin.
              -- intros (k' & Hr & Hk'). apply Z.eqb_eq.
                 destruct (returned_vis' (r_start r) T' k' ltac:(lia) Hr) as (z & Hz & Hkz).
                 apply (cmp_zero _ Hc) in Hk'.
                 specialize (Hmin z k' Hz Hkz ltac:(lia)).
                 (* ky <= k' = key <= ky *)
                 destruct (Z.eq_dec (cmp ky key) 0) as [E0|Hne]; [apply (cmp_zero _ Hc); exact E0|].
                 exfalso. assert (H1 : (cmp key ky < 0)%Z) by (apply (cmp_neg _ Hc); lia).
                 assert (H2 : (cmp k' ky < 0)%Z) by (eapply cmp_le_lt; eauto; lia). lia.
              -- intros Hnc. apply Z.eqb_neq. apply Hnc.
                 eapply (vis_called T'); eauto; lia.
            * eexists. split; [reflexivity|]. apply Hfin; auto.
              intros (k' & Hr & Hk'). exfalso.
              destruct (returned_vis' (r_start r) T' k' ltac:(lia) Hr) as (z & Hz & Hkz).
              specialize (HF z k' Hz Hkz). apply (cmp_zero _ Hc) in Hk'. lia.
          + (* Seek *)
            eexists. split; [reflexivity|].
            destruct v as [y|].
            * destruct HF as (Hvy & ky & Hky & Hc1 & Hmin).
              split; cbn [finish r_start r_view r_steps r_it]; auto; try lia.
              unfold pc_inv; cbn [finish r_pc r_from r_it r_op r_view r_start r_end r_res].
              split; [lia|]. exists kf, (Some ky). split; auto. split; [apply at_key_some; auto|].
              unfold result_ok. rewrite P1. split; [|split; auto].
              -- intros k Ek. inversion Ek; subst. eapply (vis_called T'); eauto; lia.
              -- intros k' Hr [H1 H2].
                 destruct (returned_vis' (r_start r) T' k' ltac:(lia) Hr) as (z & Hz & Hkz).
                 specialize (Hmin z k' Hz Hkz H1). lia.
            * split; cbn [finish r_start r_view r_steps r_it]; auto; try lia.
              unfold pc_inv; cbn [finish r_pc r_from r_it r_op r_view r_start r_end r_res].
              split; [lia|]. exists kf, None. split; auto. split; [reflexivity|].
              unfold result_ok. rewrite P1. split; [discriminate|].
              intros k' Hr.
              destruct (returned_vis' (r_start r) T' k' ltac:(lia) Hr) as (z & Hz & Hkz). eauto.
        - eexists. split; [reflexivity|].
          split; cbn [goto r_start r_view r_steps r_it]; auto; try lia.
          unfold pc_inv; cbn [goto r_pc r_steps r_from r_it r_op r_view].
          split; [auto|]. split; [auto|]. split; [auto|]. split; [lia|]. apply budget_down; auto. }
      destruct v as [y|]; [destruct b|].
      + destruct HS as (Hy & Hly & Hxy & _).
        eexists. split; [reflexivity|].
        assert (HB' : budget (Datatypes.S (r_steps r)) y level) by (eapply (budget_move T'); eauto; lia).
        split; cbn [goto r_start r_view r_steps r_it]; auto; try lia.
        unfold pc_inv; cbn [goto r_pc r_steps r_from r_it r_op r_view].
        split; [auto|]. split; [auto|]. split; [right; auto|]. split; [auto|]. exact HB'.
      + apply Hend. exact Hb2.
      + subst b. apply Hend. exact Logic.I.
    - (* FindLessThan *)
      destruct P as (P1 & P2 & (a & Ea & Hka) & P3 & P4 & P5). specialize (Hn2 ltac:(discriminate)).
      assert (Hx : x = 0 \/ In x (g_l (gat (r_view r)))) by (destruct P3 as [|[? _]]; auto).
      rewrite mem_at_ok. cbn [bind].
      assert (Hxn : x < length (nodes (gm (r_view r)))).
      { destruct Hx as [->|Hx]; [apply (G_head _ _ (gat_good _))|].
        apply (G_nodes _ _ (gat_good _)) in Hx; lia. }
      destruct (key_of_ret _ _ Hxn) as [kx Hkx]. rewrite Hkx. cbn [bind].
      assert (Hassert : (x =? 0) || (cmp kx key <? 0)%Z = true).
      { destruct P3 as [->|[_ (k' & Hk' & Hlt)]]; [reflexivity|].
        rewrite Hkx in Hk'; inversion Hk'; subst. apply Z.ltb_lt in Hlt. rewrite Hlt.
        apply Bool.orb_true_r. }
      rewrite Hassert. unfold assert_. cbn [negb]. rewrite Bool.andb_false_r. cbn [bind].
      destruct (load_ok (r_view r) n x level Hx P4 ltac:(lia)) as (v & T' & E & HT & HN & Hx' & Hl').
      rewrite E. cbn [bind]. rewrite mem_at_ok. cbn [bind].
      pose proof (before_mono _ T' x key (proj1 HT) P3) as Hbf.
      pose proof (Next_sound cmp Hc (gat T') x level v (gat_good T') Hx' Hl' HN) as HS.
      assert (Hit : it_ok T' (r_it r)).
      { destruct (r_it r); cbn in *; auto. eapply vis_mono; [|exact I]; lia. }
      pose proof P5 as (pp & ss & _ & HBud).
      pose proof (key_mono _ T' a key (proj1 HT) Hka) as Hka'.
      assert (Hend : (match v with Some y => node_ge (gm T') y key | None => True end) ->
        exists r', (match level with
            | O => Ret (finish r T' now (not_head x) (r_res r))
            | Datatypes.S level' => Ret (goto r T' (PFlt key x level'))
            end) = Ret r' /\ RInv now r').
      { intros Hge. destruct level as [|level'].
        - pose proof (flt_result T' x key v Hbf Hl' HN Hge) as HF.
          eexists. split; [reflexivity|]. unfold not_head. destruct (Nat.eqb_spec x 0) as [Ex|Ex].
          + split; cbn [finish r_start r_view r_steps r_it]; auto; try lia; [exact Logic.I|].
            unfold pc_inv; cbn [finish r_pc r_from r_it r_op r_view r_start r_end r_res].
            split; [lia|]. exists (Some key), None. split; [rewrite P2, Ea; apply at_key_some; auto|].
            split; [reflexivity|]. unfold result_ok. rewrite P1. split; [discriminate|].
            exists key. split; [reflexivity|]. intros k' Hr Hlt.
            destruct (returned_vis' (r_start r) T' k' ltac:(lia) Hr) as (z & Hz & Hkz).
            destruct (HF z k' Hz Hkz Hlt). congruence.
          + assert (Hvx : vis T' x).
            { split; auto. destruct Hx'; auto. congruence. }
            destruct Hbf as [|[_ (kx' & Hkx' & Hltx)]]; [congruence|].
            split; cbn [finish r_start r_view r_steps r_it]; auto; try lia.
            unfold pc_inv; cbn [finish r_pc r_from r_it r_op r_view r_start r_end r_res].
            split; [lia|]. exists (Some key), (Some kx'). split; [rewrite P2, Ea; apply at_key_some; auto|].
            split; [apply at_key_some; auto|]. unfold result_ok. rewrite P1. split.
            * intros k Ek. inversion Ek; subst. eapply (vis_called T'); eauto; lia.
            * exists key. split; [reflexivity|]. split; [exact Hltx|]. intros k' Hr [H1 H2].
              destruct (returned_vis' (r_start r) T' k' ltac:(lia) Hr) as (z & Hz & Hkz).
              destruct (HF z k' Hz Hkz H2) as [_ H3]. specialize (H3 kx' Hkx'). lia.
        - eexists. split; [reflexivity|].
          split; cbn [goto r_start r_view r_steps r_it]; auto; try lia.
          unfold pc_inv; cbn [goto r_pc r_steps r_from r_it r_op r_view].
          split; [auto|]. split; [auto|]. split; [eauto|]. split; [auto|]. split; [lia|].
          apply budget_down; auto. }
      destruct v as [y|].
      + destruct HS as (Hy & Hly & Hxy & _).
        assert (Hyn : y < length (nodes (gm T'))) by (apply (G_nodes _ _ (gat_good T')) in Hy; lia).
        destruct (key_of_ret _ _ Hyn) as [ky Hky]. rewrite Hky. cbn [bind].
        destruct (Z.leb_spec 0 (cmp ky key)) as [Hge|Hlt].
        * apply Hend. exists ky; auto.
        * eexists. split; [reflexivity|].
          assert (HB' : budget (Datatypes.S (r_steps r)) y level) by (eapply (budget_move T'); eauto; lia).
          split; cbn [goto r_start r_view r_steps r_it]; auto; try lia.
          unfold pc_inv; cbn [goto r_pc r_steps r_from r_it r_op r_view].
          split; [auto|]. split; [auto|]. split; [eauto|].
          split; [right; split; auto; exists ky; auto|]. split; [auto|]. exact HB'.
      + cbn [bind]. apply Hend. exact Logic.I.
    - (* FindLast *)
      destruct P as (P1 & P2 & Hx & P4 & P5). specialize (Hn2 ltac:(discriminate)).
      destruct (load_ok (r_view r) n x level Hx P4 ltac:(lia)) as (v & T' & E & HT & HN & Hx' & Hl').
      rewrite E. cbn [bind].
      pose proof (Next_sound cmp Hc (gat T') x level v (gat_good T') Hx' Hl' HN) as HS.
      assert (Hit : it_ok T' (r_it r)).
      { destruct (r_it r); cbn in *; auto. eapply vis_mono; [|exact I]; lia. }
      pose proof P5 as (pp & ss & _ & HBud).
      destruct v as [y|].
      + destruct HS as (Hy & Hly & Hxy & _).
        eexists. split; [reflexivity|].
        assert (HB' : budget (Datatypes.S (r_steps r)) y level) by (eapply (budget_move T'); eauto; lia).
        split; cbn [goto r_start r_view r_steps r_it]; auto; try lia.
        unfold pc_inv; cbn [goto r_pc r_steps r_from r_it r_op r_view].
        split; [auto|]. split; [auto|]. split; [auto|]. split; [auto|]. exact HB'.
      + destruct level as [|level'].
        * destruct (it_at_key T' (r_from r) ltac:(rewrite P2; exact Hit)) as [kf Hkf].
          pose proof (level0_none T' x Hx' Hl' HN) as HF.
          eexists. split; [reflexivity|]. unfold not_head. destruct (Nat.eqb_spec x 0) as [Ex|Ex].
          -- split; cbn [finish r_start r_view r_steps r_it]; auto; try lia; [exact Logic.I|].
            unfold pc_inv; cbn [finish r_pc r_from r_it r_op r_view r_start r_end r_res].
            split; [lia|]. exists kf, None. split; [auto|].
            split; [reflexivity|]. unfold result_ok. rewrite P1. split; [discriminate|].
            intros k' Hr. destruct (returned_vis' (r_start r) T' k' ltac:(lia) Hr) as (z & Hz & Hkz).
            eauto.
          -- assert (Hvx : vis T' x).
            { split; auto. destruct Hx'; auto. congruence. }
            destruct (vis_key T' x Hvx) as [kx Hkx].
            split; cbn [finish r_start r_view r_steps r_it]; auto; try lia.
            unfold pc_inv; cbn [finish r_pc r_from r_it r_op r_view r_start r_end r_res].
            split; [lia|]. exists kf, (Some kx). split; [auto|].
            split; [apply at_key_some; auto|]. unfold result_ok. rewrite P1. split.
            ++ intros k Ek. inversion Ek; subst. eapply (vis_called T'); eauto; lia.
            ++ intros k' Hr Hlt. destruct (returned_vis' (r_start r) T' k' ltac:(lia) Hr) as (z & Hz & Hkz).
               apply (HF z Hz). right. exists kx, k'. auto.
        * eexists. split; [reflexivity|].
          split; cbn [goto r_start r_view r_steps r_it]; auto; try lia.
          unfold pc_inv; cbn [goto r_pc r_steps r_from r_it r_op r_view].
          split; [auto|]. split; [auto|]. split; [auto|]. split; [lia|]. apply budget_down; auto.
    - (* Next(0) *)
      destruct P as (P1 & P2 & P3). specialize (Hn2 ltac:(discriminate)).
      assert (Hx : x = 0 \/ In x (g_l (gat (r_view r)))).
      { destruct P3 as [[_ ->]|[_ Ei]]; auto. rewrite Ei in I. right. apply I. }
      assert (Hl : 0 < g_lv (gat (r_view r)) x).
      { destruct P3 as [[_ ->]|[_ Ei]].
        - destruct (G_head _ _ (gat_good (r_view r))) as (_ & -> & _). unfold kMaxHeight. lia.
        - rewrite Ei in I. apply I. }
      destruct (load_ok (r_view r) n x 0 Hx Hl ltac:(lia)) as (v & T' & E & HT & HN & Hx' & Hl').
      rewrite E. cbn [bind].
      assert (Hit : it_ok T' (r_it r)).
      { destruct (r_it r); cbn in *; auto. eapply vis_mono; [|exact I]; lia. }
      destruct (it_at_key T' (r_from r) ltac:(rewrite P2; exact Hit)) as [kf Hkf].
      eexists. split; [reflexivity|].
      destruct v as [y|].
      + destruct (level0_some T' x y Hx' Hl' HN) as (Hvy & Hxy & HF).
        destruct (vis_key T' y Hvy) as [ky Hky].
        split; cbn [finish r_start r_view r_steps r_it]; auto; try lia.
        unfold pc_inv; cbn [finish r_pc r_from r_it r_op r_view r_start r_end r_res].
        split; [lia|]. exists kf, (Some ky). split; [auto|]. split; [apply at_key_some; auto|].
        assert (Hcalled : forall k, Some ky = Some k -> called cmp s0 hist now k).
        { intros k Ek. inversion Ek; subst. eapply (vis_called T'); eauto; lia. }
        assert (Hafter : forall k', returned cmp s0 hist (r_start r) k' -> (cmp k' ky < 0)%Z ->
                  x <> 0 /\ forall kx, key_of (gm T') x = Ret kx -> ~ (cmp kx k' < 0)%Z).
        { intros k' Hr Hlt. destruct (returned_vis' (r_start r) T' k' ltac:(lia) Hr) as (z & Hz & Hkz).
          assert (Hno : ~ (x = 0 \/ lt_nodes (gm T') x z)).
          { intros Hxz. destruct (HF z Hz Hxz) as [->|(k1 & k2 & B1 & B2 & B3)].
            - rewrite Hky in Hkz; inversion Hkz; subst. rewrite (cmp_refl _ Hc) in Hlt. lia.
            - rewrite Hky in B1. rewrite Hkz in B2. inversion B1; inversion B2; subst.
              apply (cmp_neg _ Hc) in B3. lia. }
          split; [tauto|]. intros kx Hkx Hltx. apply Hno. right. exists kx, k'. auto. }
        destruct P3 as [[Eo ->]|[Eo Ei]]; unfold result_ok; rewrite Eo; (split; [exact Hcalled|]).
        * intros k' Hr Hlt. destruct (Hafter k' Hr Hlt). congruence.
        * rewrite P2, Ei in Hkf. destruct Hkf as (f & Hf & ->). exists f. split; [reflexivity|].
          assert (Hkx : key_of (gm T') x = Ret f) by exact Hf.
          assert (Hx0 : x <> 0) by (rewrite Ei in Hit; eapply vis_nonzero; eauto).
          destruct (Hxy Hx0) as (k1 & k2 & B1 & B2 & B3).
          rewrite Hkx in B1. rewrite Hky in B2. inversion B1; inversion B2; subst.
          split; [exact B3|]. intros k' Hr [H1 H2]. destruct (Hafter k' Hr H2) as [_ H3].
          apply (H3 k1 Hkx H1).
      + pose proof (level0_none T' x Hx' Hl' HN) as HF.
        split; cbn [finish r_start r_view r_steps r_it]; auto; try lia; [exact Logic.I|].
        unfold pc_inv; cbn [finish r_pc r_from r_it r_op r_view r_start r_end r_res].
        split; [lia|]. exists kf, None. split; [auto|]. split; [reflexivity|].
        destruct P3 as [[Eo ->]|[Eo Ei]]; unfold result_ok; rewrite Eo; (split; [discriminate|]).
        * intros k' Hr. destruct (returned_vis' (r_start r) T' k' ltac:(lia) Hr) as (z & Hz & Hkz). eauto.
        * rewrite P2, Ei in Hkf. destruct Hkf as (f & Hf & ->). exists f. split; [reflexivity|].
          intros k' Hr Hlt. destruct (returned_vis' (r_start r) T' k' ltac:(lia) Hr) as (z & Hz & Hkz).
          apply (HF z Hz). right. exists f, k'. auto.
  Qed.

  (** ** All reachable configurations *)
  Lemma forall_set_nth {A} (P : A -> Prop) l i x : Forall P l -> P x -> Forall P (set_nth l i x).
  Proof.
    intros H Hx. revert i. induction H as [|a l Ha Hl IH]; intros [|i]; cbn; constructor; auto.
  Qed.

  Lemma reachable_inv dbg nr c : reachable cmp dbg m0 W nr c ->
    c_now c <= length tr /\ Forall (RInv (c_now c)) (c_readers c).
  Proof.
    induction 1 as [|c c' _ [IH1 IH2] Hs].
    - split; [cbn; lia|]. cbn. induction nr; cbn; constructor; auto. apply RInv_new.
    - destruct Hs as [now rs Hw|now rs i r v Hr Hv|now rs i r o r' Hr Hm Hst|now rs i r n r' Hr Hop Hm Hst];
        cbn [c_now c_readers] in *.
      + rewrite map_length in Hw. split; [lia|]. eapply Forall_impl; [|exact IH2].
        intros r Hr. apply (RInv_now now); auto; lia.
      + split; [lia|]. assert (HI : RInv now r)
          by (rewrite Forall_forall in IH2; apply IH2; eapply nth_error_In; eauto).
        apply forall_set_nth; auto. apply (RInv_view now); auto; lia.
      + split; [lia|]. assert (HI : RInv now r)
          by (rewrite Forall_forall in IH2; apply IH2; eapply nth_error_In; eauto).
        apply forall_set_nth; auto.
        destruct (RInv_start now r o HI Hm dbg) as (r2 & E & HR). rewrite Hst in E. inversion E; subst; auto.
      + split; [lia|]. assert (HI : RInv now r)
          by (rewrite Forall_forall in IH2; apply IH2; eapply nth_error_In; eauto).
        apply forall_set_nth; auto.
        destruct (rstep_ok dbg now n r HI Hop Hm) as (r2 & E & HR). rewrite Hst in E. inversion E; subst; auto.
  Qed.
End Conc.
