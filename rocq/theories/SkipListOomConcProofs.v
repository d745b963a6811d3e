(** SkipListOomConcProofs.v -- the writer of C119: its trace of stores. *)
From Coq Require Import List Arith ZArith NArith Lia Bool Sorted Permutation.
From Verif Require Import Outcome Random SkipList SkipListSpec SkipListProofs SkipListInsert
  SkipListSeq SkipListConc SkipListConcSpec SkipListConcProofs SkipListOom SkipListOomProps SkipListOomConcSpec SkipListConcGen.
Import ListNotations.
Local Open Scope outcome_scope.

Definition okey {K} (a : K * nat * bool) : K := fst (fst a).
Definition okeys {K} (h : list (K * nat * bool)) : list K := stored okey snd h.
Lemma okeys_app {K} (a b : list (K * nat * bool)) : okeys (a ++ b) = okeys a ++ okeys b.
Proof. unfold okeys, stored. now rewrite filter_app, map_app. Qed.
Lemma okeys_in {K} (h : list (K * nat * bool)) k n : In (k, n, false) h -> In k (okeys h).
Proof. intros H. unfold okeys, stored. apply in_map_iff. exists (k, n, false). split; [reflexivity|]. apply filter_In. auto. Qed.
Lemma okeys_nth {K} : forall (h : list (K * nat * bool)) i k, nth_error (okeys h) i = Some k ->
  exists h1 n h2, h = h1 ++ (k, n, false) :: h2 /\ length (okeys h1) = i.
Proof.
  induction h as [|[[k' n] oom] h IH]; intros i k H; [destruct i; discriminate|]. destruct oom.
  - destruct (IH i k H) as (h1 & m & h2 & -> & L). exists ((k', n, true) :: h1), m, h2. split; [reflexivity|exact L].
  - destruct i as [|i]; [cbn in H; injection H as <-; exists [], n, h; split; reflexivity|].
    destruct (IH i k H) as (h1 & m & h2 & -> & L). exists ((k', n, false) :: h1), m, h2. split; [reflexivity|]. unfold okeys, stored in *. cbn. now rewrite L.
Qed.

Lemma oinsert_all_app {K} (cmp : K -> K -> Z) dbg : forall a b s,
  oinsert_all cmp dbg s (a ++ b) = bind (oinsert_all cmp dbg s a) (fun s1 => oinsert_all cmp dbg s1 b).
Proof.
  induction a as [|[[k h] oom] a IH]; intros b s; [reflexivity|]. cbn [app oinsert_all].
  destruct (oInsertH cmp dbg s k h oom) as [y| | |]; cbn [bind]; auto.
Qed.

Lemma insertable_snoc {K} (cmp : K -> K -> Z) (x : K * nat * bool) : forall h present, insertable cmp okey snd present (h ++ [x]) ->
  insertable cmp okey snd present h /\ (forall k, In k present \/ In k (okeys h) -> cmp (okey x) k <> 0%Z).
Proof.
  induction h as [|[[k' n] oom] h IH]; intros present; cbn [app insertable].
  - intros (H & _). split; [exact I|]. intros k [Hk|[]]. auto.
  - intros (H & T). cbn [snd] in *. destruct (IH _ T) as (A & B). split; [auto|]. intros k Hk. apply B. destruct oom.
    + destruct Hk as [Hk|Hk]; [auto|]. right. exact Hk.
    + destruct Hk as [Hk|[<-|Hk]]; [left; now right|left; left; reflexivity|right; exact Hk].
Qed.

Section Trace.
  Context {K : Type} (cmp : K -> K -> Z) (Hc : comparator_ok cmp).
  Notation ghost := (@ghost K).

  Lemma thrown_trace dbg s g key h : Good cmp g -> full g -> at_ghost s g -> 1 <= h <= kMaxHeight ->
    (forall a ka, In a (g_l g) -> key_of (g_mem g) a = Ret ka -> cmp key ka <> 0%Z) ->
    exists s' tr, oInsertH cmp dbg s key h true = Ret s' /\ trace cmp g tr /\ at_ghost s' (final g tr) /\
      sl_log s' = sl_log s ++ map fst tr /\ full (final g tr) /\ length (nodes (g_mem (final g tr))) = length (nodes (g_mem g)).
  Proof.
    intros G F A Hh Hnew. assert (Hpos : forall a, In a (g_l g) -> 1 <= g_lv g a) by (intros a Ha; apply F; exact Ha).
    destruct (FGE_ok cmp Hc g key G Hpos) as (v & prev & F1 & F2 & F3 & F4).
    unfold oInsertH. pose proof A as A'. unfold at_ghost in A. rewrite A, F1. cbn [bind].
    assert (HA : (match v with None => Ret tt | Some a => let! ka := key_of (g_mem g) a in assert_ dbg (negb (cmp key ka =? 0)%Z) end) = Ret tt).
    { pose proof (InsertH_ok cmp Hc dbg s g key h G F A' Hh Hnew) as (s' & tr & P & S & E & _).
      unfold InsertH in E. rewrite A, F1 in E. cbn [bind] in E.
      destruct v as [a|]; [|reflexivity]. destruct (key_of (g_mem g) a) as [ka| | |]; cbn [bind] in *; try discriminate E.
      destruct (assert_ dbg (negb (cmp key ka =? 0)%Z)) as [[]| | |]; cbn [bind] in *; try discriminate E. reflexivity. }
    rewrite HA. cbn [bind]. unfold insert_thrown. rewrite A. pose proof (G_max _ _ G) as GM.
    destruct (Nat.ltb_spec (max_height_ (g_mem g)) h) as [Hlt|Hge].
    - destruct (fill_prev_ret (h - max_height_ (g_mem g)) prev (max_height_ (g_mem g))) as (p & ->); [lia|]. cbn [bind].
      set (g' := {| g_mem := {| nodes := nodes (g_mem g); max_height_ := h |}; g_l := g_l g; g_lv := g_lv g |}).
      assert (Hs : gstep cmp g (SMax h) g') by (apply gs_max; lia).
      destruct (do_store_ok cmp Hc s g _ g' G A' Hs) as (s1 & Hd & A1 & R1 & L1).
      exists s1, [(SMax h, g')]. split; [exact Hd|]. split; [cbn; auto|]. split; [exact A1|]. split; [exact L1|]. split; [exact F|reflexivity].
    - exists s, []. split; [reflexivity|]. split; [exact I|]. split; [exact A'|]. split; [cbn; now rewrite app_nil_r|]. split; [exact F|reflexivity].
  Qed.

  Variable k0 : K.
  Notation s0 := (skiplist0 k0).
  Notation g0 := (ghost0 k0).

  Definition oboundary (tr : list (store K * ghost)) (h1 : list (K * nat * bool)) : Prop :=
    exists s1, oinsert_all cmp true s0 h1 = Ret s1 /\
      sl_log s1 = map fst (firstn (length (sl_log s1)) tr) /\
      let g1 := final g0 (firstn (length (sl_log s1)) tr) in
      at_ghost s1 g1 /\ Good cmp g1 /\ full g1 /\ length (nodes (g_mem g1)) = S (length (okeys h1)) /\
      (forall i k, nth_error (okeys h1) i = Some k -> key_of (g_mem g1) (S i) = Ret k).

  Lemma ohist_trace hist : Forall (fun a => 1 <= snd (fst a) <= 12) hist -> insertable cmp okey snd [] hist ->
    exists tr s, oinsert_all cmp true s0 hist = Ret s /\ trace cmp g0 tr /\ sl_log s = map fst tr /\
      (forall h1 h2, hist = h1 ++ h2 -> oboundary tr h1).
  Proof.
    induction hist as [|[[k h] oom] hist IH] using rev_ind; intros Hh Hd.
    - exists [], s0. split; [reflexivity|]. split; [exact I|]. split; [reflexivity|].
      intros h1 h2 E. symmetry in E. apply app_eq_nil in E as [-> ->].
      exists s0. split; [reflexivity|]. split; [reflexivity|]. cbn.
      split; [reflexivity|]. split; [apply ghost0_good|]. split; [apply ghost0_full|].
      split; [reflexivity|]. intros i k Hi. destruct i; discriminate Hi.
    - apply Forall_app in Hh as [Hh1 Hh2]. apply Forall_inv in Hh2. rename Hh2 into Hkh. cbn [fst snd] in Hkh.
      apply insertable_snoc in Hd as [Hd1 Hd2]. change (okey (k, h, oom)) with k in Hd2.
      destruct (IH Hh1 Hd1) as (tr & s & E & T & L & B). clear IH.
      destruct (B hist [] (eq_sym (app_nil_r hist))) as (s1 & E1 & L1 & A1 & G1 & F1 & N1 & Kx1).
      rewrite E in E1. inversion E1; subst s1. clear E1.
      assert (Hlen : length (sl_log s) = length tr) by (rewrite L, map_length; reflexivity).
      rewrite Hlen, firstn_all in *.
      assert (Hnew : forall a ka, In a (g_l (final g0 tr)) -> key_of (g_mem (final g0 tr)) a = Ret ka -> cmp k ka <> 0%Z).
      { intros a ka Ha Hka. destruct a as [|a]; [apply (G_nodes _ _ G1) in Ha; lia|].
        apply (G_nodes _ _ G1) in Ha. destruct (nth_error (okeys hist) a) as [ka'|] eqn:En; [|apply nth_error_None in En; lia].
        rewrite (Kx1 a ka' En) in Hka. injection Hka as <-. apply Hd2. right. eapply nth_error_In; eauto. }
      assert (Step : exists s' tr', oInsertH cmp true s k h oom = Ret s' /\ trace cmp (final g0 tr) tr' /\ at_ghost s' (final (final g0 tr) tr') /\
        sl_log s' = sl_log s ++ map fst tr' /\ full (final (final g0 tr) tr') /\
        length (nodes (g_mem (final (final g0 tr) tr'))) = length (nodes (g_mem (final g0 tr))) + (if oom then 0 else 1) /\
        (oom = false -> key_of (g_mem (final (final g0 tr) tr')) (length (nodes (g_mem (final g0 tr)))) = Ret k)).
      { destruct oom.
        - destruct (thrown_trace true s (final g0 tr) k h G1 F1 A1 Hkh Hnew) as (s' & tr' & E2 & T2 & A2 & L2 & F2 & N2).
          exists s', tr'. rewrite Nat.add_0_r. repeat (split; [assumption|]). discriminate.
        - destruct (InsertH_ok cmp Hc true s (final g0 tr) k h G1 F1 A1 Hkh Hnew) as
            (s' & tr' & P & S & E2 & T2 & A2 & L2 & R2 & F2 & El & El' & Kx & Hx & N2).
          exists s', tr'. unfold oInsertH. rewrite N2, Nat.add_1_r. repeat (split; [assumption|]). split; [reflexivity|]. intros _. exact Kx. }
      destruct Step as (s' & tr' & E2 & T2 & A2 & L2 & F2 & N2 & Kx).
      destruct (trace_good cmp Hc _ tr' G1 T2) as [G2 M2].
      exists (tr ++ tr'), s'.
      assert (Es' : oinsert_all cmp true s0 (hist ++ [(k, h, oom)]) = Ret s').
      { rewrite oinsert_all_app, E. cbn [bind oinsert_all]. rewrite E2. reflexivity. }
      assert (Ls' : sl_log s' = map fst (tr ++ tr')) by (rewrite L2, L, map_app; reflexivity).
      assert (Ts' : trace cmp g0 (tr ++ tr')) by (apply trace_app; auto).
      split; [exact Es'|]. split; [exact Ts'|]. split; [exact Ls'|].
      intros h1 h2 Esp. apply snoc_split in Esp. destruct Esp as [[-> ->]|(h2' & Eh & ->)].
      + exists s'. split; [exact Es'|].
        assert (Hl' : length (sl_log s') = length (tr ++ tr')) by (rewrite Ls', map_length; reflexivity).
        rewrite Hl', firstn_all. split; [exact Ls'|]. cbv zeta. rewrite final_app.
        split; [exact A2|]. split; [exact G2|]. split; [exact F2|]. rewrite okeys_app.
        split; [rewrite N2, N1, app_length; unfold okeys at 3, stored; destruct oom; cbn; lia|].
        intros i k' Hi. destruct (lt_dec i (length (okeys hist))) as [Hlt|Hge].
        * rewrite nth_error_app1 in Hi by exact Hlt. apply (m_key _ _ M2). eapply Kx1; eauto.
        * rewrite nth_error_app2 in Hi by lia. destruct oom; [destruct (i - length (okeys hist)); discriminate Hi|].
          destruct (i - length (okeys hist)) as [|j] eqn:Ej; [|destruct j; discriminate Hi]. cbn in Hi. injection Hi as <-.
          replace (S i) with (length (nodes (g_mem (final g0 tr)))) by lia. auto.
      + destruct (B h1 h2' Eh) as (s1 & E1 & L1' & A1' & G1' & F1' & N1' & Kx1').
        exists s1. split; [exact E1|].
        assert (Hle : length (sl_log s1) <= length tr).
        { rewrite L1', map_length, firstn_length. lia. }
        rewrite firstn_app. replace (length (sl_log s1) - length tr) with 0 by lia.
        cbn [firstn]. rewrite app_nil_r. split; [exact L1'|]. cbv zeta. auto 10.
  Qed.

  Variable hist : list (K * nat * bool).
  Variable tr : list (store K * ghost).
  Hypothesis Htr : trace cmp g0 tr.
  Hypothesis Hb : forall h1 h2, hist = h1 ++ h2 -> oboundary tr h1.
  Hypothesis Hlog : exists s, oinsert_all cmp true s0 hist = Ret s /\ sl_log s = map fst tr.

  Lemma inserted_vis t k : inserted cmp s0 hist t k -> exists z, vis k0 tr t z /\ key_of (g_mem (gat k0 tr t)) z = Ret k.
  Proof.
    intros (h1 & h2 & n & E & (s1 & E1 & Hn) & Hnt & h & Hin).
    destruct (Hb h1 h2 E) as (s1' & E1' & L & A & G & [F1 F2] & N & Kx).
    rewrite E1 in E1'. inversion E1'; subst s1'. clear E1'. rewrite Hn in *.
    fold (gat k0 tr n) in *. apply okeys_in in Hin.
    apply In_nth_error in Hin as [i Hi]. exists (S i). split.
    - apply (vis_mono cmp Hc k0 tr Htr n); auto.
      assert (Hl : In (S i) (g_l (gat k0 tr n))).
      { apply F2. rewrite N. assert (i < length (okeys h1)) by (apply nth_error_Some; congruence). lia. }
      split; auto. destruct (F1 _ Hl). lia.
    - apply (key_mono cmp Hc k0 tr Htr n); auto.
  Qed.

  Lemma in_inserting t a k : t <= length tr -> In a (g_l (gat k0 tr t)) -> key_of (g_mem (gat k0 tr t)) a = Ret k ->
    inserting cmp s0 hist t k.
  Proof.
    intros Ht Hin Hk. apply (G_nodes _ _ (gat_good cmp Hc k0 tr Htr t)) in Hin as Ha.
    destruct a as [|i]; [lia|].
    destruct Hlog as (sf & Ef & Lf).
    destruct (Hb hist [] (eq_sym (app_nil_r hist))) as (sf' & Ef' & _ & _ & _ & _ & Nf & Kxf).
    rewrite Ef in Ef'. inversion Ef'; subst sf'. clear Ef'.
    assert (Hnf : length (sl_log sf) = length tr) by (rewrite Lf, map_length; reflexivity).
    rewrite Hnf in *. fold (gat k0 tr (length tr)) in *.
    assert (Hi : i < length (okeys hist)).
    { pose proof (m_len _ _ (gat_mono cmp Hc k0 tr Htr t (length tr) Ht)). lia. }
    destruct (nth_error (okeys hist) i) as [k'|] eqn:En; [|apply nth_error_None in En; lia].
    assert (k' = k).
    { pose proof (Kxf i k' En) as H1. pose proof (key_mono cmp Hc k0 tr Htr t (length tr) (S i) k Ht Hk) as H2.
      congruence. }
    subst k'. apply okeys_nth in En as (h1 & h & h2 & E & Hh1).
    destruct (Hb h1 ((k, h, false) :: h2) E) as (s1 & E1 & _ & _ & _ & _ & N1 & _).
    exists h1, h, h2, (length (sl_log s1)). split; [exact E|]. split; [exists s1; auto|].
    destruct (le_lt_dec t (length (sl_log s1))) as [Hle|]; auto. exfalso.
    pose proof (m_len _ _ (gat_mono cmp Hc k0 tr Htr t _ Hle)) as Hml. fold (gat k0 tr (length (sl_log s1))) in N1. lia.
  Qed.

  Lemma inserting_mono t t' k : t <= t' -> inserting cmp s0 hist t k -> inserting cmp s0 hist t' k.
  Proof. intros H (h1 & h & h2 & n & A & B & C). exists h1, h, h2, n. split; auto. split; auto. lia. Qed.

  Lemma onodes_bound : length (g_l (gat k0 tr (length tr))) <= length (okeys hist).
  Proof.
    destruct Hlog as (sf & Ef & Lf).
    destruct (Hb hist [] (eq_sym (app_nil_r hist))) as (sf' & Ef' & _ & _ & _ & _ & Nf & _).
    rewrite Ef in Ef'. inversion Ef'; subst sf'. clear Ef'.
    assert (Hnf : length (sl_log sf) = length tr) by (rewrite Lf, map_length; reflexivity).
    rewrite Hnf in *. fold (gat k0 tr (length tr)) in *.
    pose proof (list_nodes_bound cmp Hc _ (gat_good cmp Hc k0 tr Htr (length tr))). lia.
  Qed.
End Trace.
