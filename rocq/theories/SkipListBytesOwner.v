(** SkipListBytesOwner.v -- what holds after everything the owning thread has done. *)
From Coq Require Import List Arith ZArith NArith Lia Bool Sorted Permutation.
From Verif Require Import Outcome Random Arena ArenaSpec ArenaProofs SkipList SkipListSpec SkipListProofs
  SkipListInsert SkipListSeq SkipListProps SkipListArena SkipListArenaSpec SkipListArenaProofs SkipListArenaProps
  SkipListConc SkipListConcSpec SkipListConcProofs SkipListConcProps SkipListBytes SkipListBytesSpec SkipListBytesProofs SkipListBytesRun.
Import ListNotations.
Local Open Scope outcome_scope.
Local Opaque N.pow N.sub N.mul N.div N.modulo.

Lemma phi_app {K} (t t' : list (bact * option (store K))) n : n <= length t -> phi (t ++ t') n = phi t n.
Proof. intros H. unfold phi. rewrite firstn_app. replace (n - length t) with 0 by lia. cbn [firstn]. rewrite app_nil_r. reflexivity. Qed.
Lemma phi_len {K} (t : list (bact * option (store K))) : phi t (length t) = length (stores t).
Proof. unfold phi. rewrite firstn_all. reflexivity. Qed.
Lemma InsertH_dbg {K} (cmp : K -> K -> Z) dbg s k h s' : InsertH cmp true s k h = Ret s' -> InsertH cmp dbg s k h = Ret s'.
Proof.
  unfold InsertH. destruct (FindGreaterOrEqual cmp (sl_mem s) k) as [[v pv]| | |]; cbn [bind]; auto. destruct v as [y|]; auto.
  destruct (key_of (sl_mem s) y) as [ka| | |]; cbn [bind]; auto. unfold assert_. destruct dbg; auto. cbn [andb].
  destruct (negb (negb (cmp k ka =? 0)%Z)); cbn [bind]; [discriminate|auto].
Qed.
Lemma distinct_add {K} (cmp : K -> K -> Z) (Hc : comparator_ok cmp) ks k : distinct cmp ks -> (forall k', In k' ks -> cmp k' k <> 0%Z) -> distinct cmp (ks ++ [k]).
Proof.
  induction ks as [|a ks IH]; cbn [app distinct]; intros H Hn; [split; [intros k' []|exact I]|]. destruct H as (H1 & H2). split.
  - intros k' Hk'. apply in_app_iff in Hk' as [Hk'|[<-|[]]]; [apply H1; exact Hk'|apply Hn; left; reflexivity].
  - apply IH; [exact H2|]. intros k' Hk'. apply Hn. right. exact Hk'.
Qed.

Section Owner.
  Context {K : Type} (cmp : K -> K -> Z) (ksize : N) (enc : K -> list N) (dec : list N -> option K).
  Hypotheses (Hc : comparator_ok cmp) (Hkc : key_codec ksize enc dec).
  Variables (dbg : bool) (k0 : K).
  Notation s0 := (skiplist0 k0).
  Notation ev := (bact * option (store K))%type.
  Notation run := (run ksize enc).

  Definition marks (hist : list (K * nat)) (t : list ev) (ins : list (K * nat * nat)) : Prop :=
    (forall k b e, In (k, b, e) ins -> b <= length t /\ e <= length t /\
       exists h1 h h2, hist = h1 ++ (k, h) :: h2 /\ stores_of cmp s0 (h1 ++ [(k, h)]) (phi t e)) /\
    (forall h1 k h h2, hist = h1 ++ (k, h) :: h2 -> exists b e, In (k, b, e) ins /\ stores_of cmp s0 h1 (phi t b)).
  Record own (w0 : @world K) (p : N) (w : @world K) (W : list bact) (ins : list (K * nat * nat))
      (l : alist) (t : list ev) (addrs : list N) (s : skiplist K) (hist : list (K * nat)) : Prop := {
    o_list : w_list w = Some l;
    o_t : map fst t = W;
    o_run : run (mk_bst [p] (mem0 k0) (w_mem w0) (w_others w0) []) t (mk_bst addrs (sl_mem s) (w_mem w) (w_others w) []);
    o_all : insert_all cmp true s0 hist = Ret s;
    o_log : sl_log s = stores t;
    o_h : heights_1_12 hist;
    o_d : distinct cmp (map fst hist);
    o_keys : w_keys w = rev (map fst hist);
    o_head : a_head l = p /\ addr addrs 0 = p;
    o_max : a_max l = max_height_ (sl_mem s);
    o_len : length addrs = S (length hist);
    o_ins : length ins = length hist;
    o_marks : marks hist t ins
  }.

  Lemma constructed_own w0 l0 : constructed cmp ksize enc dec dbg k0 w0 l0 -> exists p, a_head l0 = p /\ own w0 p w0 [] [] l0 [] [p] s0 [].
  Proof.
    intros (w & Rw & Ew & D & El). destruct (reachable_ok cmp ksize enc dec dbg k0 Hc Hkc w Rw) as (addrs & g & HJ).
    unfold J in HJ. rewrite Ew in HJ. destruct HJ as (-> & Ek & S).
    destruct D as [m l rs ks o ans m' p Hl Hn E|m l rs ks r a d m' Hr Ha Hd E|m rs ans m' l' Hn E|fuel m l rs ks k ans m' l' Hm Hn E]; cbn [w_list w_keys w_mem w_others] in *; try congruence.
    destruct (aSkipList_ok _ _ _ Hkc dbg m rs k0 ans S Hn) as (m1 & p & E1 & S1 & _).
    assert (X : m1 = m' /\ l' = mk_alist p 1 (Random_new 0xdeadbeef)) by (split; congruence). destruct X as (-> & ->).
    assert (l0 = mk_alist p 1 (Random_new 0xdeadbeef)) by congruence. subst l0. exists p. split; [reflexivity|].
    split; cbn [w_list w_keys w_mem w_others a_head a_max map rev length]; try reflexivity.
    - apply run_nil. unfold gsim. cbn [t_addrs t_M t_m t_os t_pend]. rewrite app_nil_r. exact S1.
    - constructor.
    - split; reflexivity.
    - split; [intros k b e []|]. intros h1 k h h2 E0. destruct h1; discriminate.
  Qed.

  Lemma marks_app hist t t' ins : marks hist t ins -> marks hist (t ++ t') ins.
  Proof.
    intros (P1 & P2). split.
    - intros k b e Hin. destruct (P1 k b e Hin) as (B & E & H). rewrite app_length. split; [lia|]. split; [lia|]. rewrite phi_app by exact E. exact H.
    - intros h1 k h h2 E. destruct (P2 h1 k h h2 E) as (b & e & Hin & H). exists b, e. split; [exact Hin|].
      rewrite phi_app; [exact H|]. destruct (P1 k b e Hin) as (B & _). exact B.
  Qed.

  Lemma own_insert w0 p m l0 rs ks W ins l t addrs s hist k ans :
    own w0 p (mk_world m l0 rs ks) W ins l t addrs s hist -> ~ member cmp k ks -> insert_new_ok ksize m l ans ->
    exists m' l' t' q s' h, (forall fuel, length ks + 13 <= fuel -> lInsert cmp ksize enc dec dbg false fuel m l k ans = Ret (m', l', map fst t')) /\
      own w0 p (mk_world m' (Some l') rs (k :: ks)) (W ++ map fst t') (ins ++ [(k, length W, length W + length (map fst t'))]) l' (t ++ t') (addrs ++ [q]) s' (hist ++ [(k, h)]).
  Proof.
    intros O Hm Hn. destruct (RandomHeight_ok dbg (a_rnd l)) as (rnd & h & Hr & Hh). change kMaxHeight with 12 in Hh.
    specialize (Hn rnd h (RandomHeight_false dbg _ _ Hr)).
    assert (Hks : ks = rev (map fst hist)) by exact (o_keys _ _ _ _ _ _ _ _ _ _ O).
    assert (Hd' : distinct cmp (map fst (hist ++ [(k, h)]))).
    { rewrite map_app. cbn [map fst]. apply distinct_add; [exact Hc|apply (o_d _ _ _ _ _ _ _ _ _ _ O)|]. intros k' Hk' E0. apply Hm. exists k'.
      split; [rewrite Hks; apply in_rev; rewrite rev_involutive; exact Hk'|]. apply (cmp_zero _ Hc). exact E0. }
    assert (Hh' : heights_1_12 (hist ++ [(k, h)])).
    { apply Forall_app. split; [apply (o_h _ _ _ _ _ _ _ _ _ _ O)|]. constructor; [cbn [snd]; lia|constructor]. }
    destruct (hist_trace cmp Hc k0 _ Hh' Hd') as (tr' & s' & Es' & _ & _ & _).
    assert (EI : InsertH cmp true s k h = Ret s').
    { rewrite insert_all_app, (o_all _ _ _ _ _ _ _ _ _ _ O) in Es'. cbn [bind insert_all] in Es'. destruct (InsertH cmp true s k h); cbn [bind] in Es'; congruence. }
    apply (InsertH_dbg _ dbg) in EI. pose proof (o_run _ _ _ _ _ _ _ _ _ _ O) as R. cbn [w_mem w_others] in R.
    pose proof (run_sim _ _ _ _ _ _ _ _ _ R) as S. pose proof (o_len _ _ _ _ _ _ _ _ _ _ O) as Hlen.
    assert (Hpos : 0 < length addrs) by lia. destruct (o_head _ _ _ _ _ _ _ _ _ _ O) as (Eh1 & Eh2).
    assert (Hsf : search_fuel (sl_mem s) <= length ks + 13).
    { unfold search_fuel. rewrite <- (s_len _ _ _ _ _ _ S), Hlen, Hks, rev_length, map_length. change kMaxHeight with 12. lia. }
    destruct (lInsert_ok cmp ksize enc dec Hkc _ _ dbg (length ks + 13) _ _ _ _ l k ans h rnd s' R Hpos ltac:(congruence) (o_max _ _ _ _ _ _ _ _ _ _ O) Hsf Hr Hh Hn EI)
      as (m' & q & t' & EL & R' & L').
    exists m', (mk_alist (a_head l) (max_height_ (sl_mem s')) rnd), t', q, s', h. split.
    { intros fuel Hf. eapply lInsert_more; [exact EL|exact Hf]. }
    pose proof (o_t _ _ _ _ _ _ _ _ _ _ O) as Et. assert (EW : length W = length t) by (rewrite <- Et, map_length; reflexivity).
    split; cbn [w_list w_keys w_mem w_others a_head a_max].
    - reflexivity.
    - rewrite map_app, Et. reflexivity.
    - exact R'.
    - exact Es'.
    - rewrite L', (o_log _ _ _ _ _ _ _ _ _ _ O), stores_app. reflexivity.
    - exact Hh'.
    - exact Hd'.
    - rewrite map_app, rev_app_distr, Hks. reflexivity.
    - split; [exact Eh1|]. rewrite <- Eh2. unfold addr. apply app_nth1. exact Hpos.
    - reflexivity.
    - rewrite !app_length, Hlen. cbn [length]. lia.
    - rewrite !app_length, (o_ins _ _ _ _ _ _ _ _ _ _ O). reflexivity.
    - destruct (o_marks _ _ _ _ _ _ _ _ _ _ O) as (P1 & P2). rewrite EW, map_length. split.
      + intros k1 b e Hin. apply in_app_iff in Hin as [Hin|[Hin|[]]].
        * destruct (P1 k1 b e Hin) as (B & E & h1 & h' & h2 & Eq & St). rewrite app_length. split; [lia|]. split; [lia|].
          exists h1, h', (h2 ++ [(k, h)]). split; [rewrite Eq, <- app_assoc; reflexivity|]. rewrite phi_app by exact E. exact St.
        * injection Hin as <- <- <-. rewrite app_length. split; [lia|]. split; [lia|]. exists hist, h, []. split; [reflexivity|].
          rewrite <- app_length, phi_len. exists s'. split; [exact Es'|]. rewrite L', (o_log _ _ _ _ _ _ _ _ _ _ O), stores_app. reflexivity.
      + intros h1 k1 h' h2 Eq.
        destruct h2 as [|x h2 _] using rev_ind.
        * apply app_inj_tail in Eq as (<- & Eq). injection Eq as <- <-. exists (length t), (length t + length t'). split; [apply in_app_iff; right; left; reflexivity|].
          rewrite phi_app, phi_len by lia. exists s. split; [apply O|]. rewrite (o_log _ _ _ _ _ _ _ _ _ _ O). reflexivity.
        * rewrite app_comm_cons, app_assoc in Eq. apply app_inj_tail in Eq as (Eq & _).
          destruct (P2 h1 k1 h' h2 Eq) as (b & e & Hin & St). exists b, e. split; [apply in_app_iff; left; exact Hin|].
          rewrite phi_app; [exact St|]. apply (P1 k1 b e Hin).
  Qed.

  Lemma owner_own w0 l0 w W ins : constructed cmp ksize enc dec dbg k0 w0 l0 -> owner cmp ksize enc dec dbg w0 w W ins ->
    exists l t addrs s hist, own w0 (a_head l0) w W ins l t addrs s hist.
  Proof.
    intros C O. destruct (constructed_own _ _ C) as (p & Ep & O0). rewrite Ep. clear C Ep.
    induction O as [|m l rs ks W ins o ans m' q O IH Hl Hn E|m l rs ks W ins r ord a d m' O IH Hr Ha Hd E|fuel m l rs ks W ins k ans m' l' W1 O IH Hm Hn E].
    - exists l0, [], [p], s0, []. exact O0.
    - destruct IH as (l1 & t & addrs & s & hist & I). exists l1, (t ++ [(BArena (m_arena m') (new_blocks m m'), None)]), addrs, s, hist.
      pose proof (o_run _ _ _ _ _ _ _ _ _ _ I) as R. cbn [w_mem w_others] in R. pose proof (run_sim _ _ _ _ _ _ _ _ _ R) as S. rewrite app_nil_r in S.
      destruct (arena_call_ok _ _ _ Hkc dbg addrs (sl_mem s) m rs o ans S Hl Hn) as (m1 & p1 & E1 & S1 & _). rewrite E in E1. injection E1 as <- <-.
      destruct I. split; auto.
      + rewrite map_app, o_t0. reflexivity.
      + cbn [w_mem w_others]. eapply run_snoc; [exact R| |].
        * rewrite (arena_shape _ _ _ _ _ _ E) at 3. apply e_arena. right. eexists. split; reflexivity.
        * unfold gsim. cbn [t_addrs t_M t_m t_os t_pend]. rewrite app_nil_r. exact S1.
      + rewrite o_log0, stores_app. cbn. rewrite app_nil_r. reflexivity.
      + apply marks_app. exact o_marks0.
    - destruct IH as (l1 & t & addrs & s & hist & I). exists l1, (t ++ [(BPut ord a d, None)]), addrs, s, hist.
      pose proof (o_run _ _ _ _ _ _ _ _ _ _ I) as R. cbn [w_mem w_others] in R. pose proof (run_sim _ _ _ _ _ _ _ _ _ R) as S. rewrite app_nil_r in S.
      assert (Em : m' = put m a d) by (unfold store_at in E; destruct (in_block m a _); [injection E as <-; reflexivity|discriminate]).
      destruct I. split; auto.
      + rewrite map_app, o_t0. reflexivity.
      + cbn [w_mem w_others]. eapply run_snoc; [exact R| |].
        * rewrite Em. eapply e_other; eassumption.
        * unfold gsim. cbn [t_addrs t_M t_m t_os t_pend]. rewrite app_nil_r, Em.
          apply (sim_bytes _ _ _ Hkc _ _ m); [exact S|reflexivity|reflexivity|].
          intros q z Hq Hz. unfold put. cbn [m_bytes]. apply put_out. intros Hcv. pose proof (all_disjoint _ _ _ _ _ _ S) as D. apply pd_app in D as (_ & _ & D).
          apply (D q r Hq Hr z Hz). unfold covers in *. cbn [fst snd] in Hcv. lia.
      + rewrite o_log0, stores_app. cbn. rewrite app_nil_r. reflexivity.
      + apply marks_app. exact o_marks0.
    - destruct IH as (l1 & t & addrs & s & hist & I). pose proof (o_list _ _ _ _ _ _ _ _ _ _ I) as El. cbn [w_list] in El. injection El as <-.
      destruct (own_insert _ _ _ _ _ _ _ _ _ _ _ _ _ k ans I Hm Hn) as (m1 & l1' & t' & q & s' & h & E1 & I').
      pose proof (E1 (max fuel (length ks + 13)) (Nat.le_max_r _ _)) as E2.
      rewrite (lInsert_more cmp ksize enc dec _ _ _ _ _ _ _ _ E (Nat.le_max_l _ _)) in E2. injection E2 as <- <- ->.
      exists l', (t ++ t'), (addrs ++ [q]), s', (hist ++ [(k, h)]). exact I'.
  Qed.
End Owner.
