(** SkipListBytesRun.v -- the owning thread: what its log contains. *)
From Coq Require Import List Arith ZArith NArith Lia Bool Sorted Permutation.
From Verif Require Import Outcome Random Arena ArenaSpec ArenaProofs SkipList SkipListSpec SkipListProofs
  SkipListInsert SkipListSeq SkipListProps SkipListArena SkipListArenaSpec SkipListArenaProofs SkipListArenaProps
  SkipListConc SkipListConcSpec SkipListConcProofs SkipListBytes SkipListBytesSpec SkipListBytesProofs.
Import ListNotations.
Local Open Scope outcome_scope.
Local Opaque N.pow N.sub N.mul N.div N.modulo.

Section Run.
  Context {K : Type} (cmp : K -> K -> Z) (ksize : N) (enc : K -> list N) (dec : list N -> option K).
  Hypotheses (Hc : comparator_ok cmp) (Hkc : key_codec ksize enc dec).
  Notation bst := (@bst K). Notation gsim := (gsim ksize enc). Notation est := (est ksize enc). Notation tr := (tr ksize enc).
  Notation ev := (bact * option (store K))%type.

  (** *** Logging changes nothing else *)
  Lemma lSetNext_erase o m p n q : (let! (m', _) := lSetNext ksize o m p n q in Ret m') = aSetNext ksize m p n q.
  Proof. unfold lSetNext. destruct (aSetNext ksize m p n q); reflexivity. Qed.
  Lemma lNewNode_erase dbg m k h ans : (let! (m', p, _) := lNewNode ksize enc dbg m k h ans in Ret (m', p)) = aNewNode ksize enc dbg m k h ans.
  Proof.
    unfold lNewNode, aNewNode. destruct (arena_call dbg m _ ans) as [[m1 p]| | |]; cbn [bind]; try reflexivity.
    destruct (bad_node p); [reflexivity|]. destruct (store_at m1 p (enc k)); reflexivity.
  Qed.
  Lemma llink_erase : forall n i m x prev, (let! (m', _) := llink ksize n i m x prev in Ret m') = alink ksize n i m x prev.
  Proof.
    induction n as [|n IH]; intros i m x prev; [reflexivity|]. cbn [llink alink].
    destruct (match nth_error prev i with Some (Some p) => Ret p | _ => UB end) as [p| | |]; cbn [bind]; try reflexivity.
    destruct (aNext ksize m p i) as [nx| | |]; cbn [bind]; try reflexivity. unfold lSetNext.
    destruct (aSetNext ksize m x i nx) as [m1| | |]; cbn [bind]; try reflexivity.
    destruct (aSetNext ksize m1 p i x) as [m2| | |]; cbn [bind]; try reflexivity.
    rewrite <- IH. destruct (llink ksize n (S i) m2 x prev) as [[m3 w3]| | |]; reflexivity.
  Qed.
  Lemma lInsert_erase dbg dbg249 fuel m l k ans :
    (let! (m', l', _) := lInsert cmp ksize enc dec dbg dbg249 fuel m l k ans in Ret (m', l')) = aInsert cmp ksize enc dec dbg dbg249 fuel m l k ans.
  Proof.
    unfold lInsert, aInsert. destruct (aFindGreaterOrEqual cmp ksize dec fuel m l k (Some (repeat None kMaxHeight))) as [[x prev]| | |]; cbn [bind]; try reflexivity.
    match goal with |- (let! _ := (let! _ := ?e in _) in _) = _ => destruct e as [[]| | |]; cbn [bind]; try reflexivity end.
    destruct (RandomHeight dbg dbg249 (a_rnd l)) as [[rnd h]| | |]; cbn [bind]; try reflexivity. destruct prev as [prev|]; [|reflexivity].
    assert (HX : forall mx pv w1, (let! (m', l', _) := (let! (m, x, w2) := lNewNode ksize enc dbg m k h ans in
        let! (m, w3) := llink ksize h 0 m x pv in Ret (m, mk_alist (a_head l) mx rnd, w1 ++ w2 ++ w3)) in Ret (m', l')) =
      (let! (m, x) := aNewNode ksize enc dbg m k h ans in let! m := alink ksize h 0 m x pv in Ret (m, mk_alist (a_head l) mx rnd))).
    { intros mx pv w1. rewrite <- lNewNode_erase. destruct (lNewNode ksize enc dbg m k h ans) as [[[m1 p] w2]| | |]; cbn [bind]; try reflexivity.
      rewrite <- llink_erase. destruct (llink ksize h 0 m1 p pv) as [[m2 w3]| | |]; reflexivity. }
    destruct (a_max l <? h); [|exact (HX _ _ _)].
    destruct (afill prev (a_head l) (a_max l) (h - a_max l)) as [pv| | |]; cbn [bind]; try reflexivity. apply HX.
  Qed.
  Lemma lInsert_more dbg fuel fuel' m l k ans r : lInsert cmp ksize enc dec dbg false fuel m l k ans = Ret r -> fuel <= fuel' ->
    lInsert cmp ksize enc dec dbg false fuel' m l k ans = Ret r.
  Proof.
    intros H Hf. unfold lInsert, aFindGreaterOrEqual in *.
    destruct (afge cmp ksize dec fuel m k (a_head l) (a_max l - 1) (Some (repeat None kMaxHeight))) as [v| | |] eqn:E; cbn [bind] in H; try discriminate.
    rewrite (afge_more cmp ksize dec _ fuel' _ _ _ _ _ _ E Hf). exact H.
  Qed.

  (** *** Runs *)
  Definition run (s0 : bst) (t : list ev) (s : bst) : Prop := exists st, tr t st /\ st 0 = s0 /\ st (length t) = s.
  Lemma run_nil s : gsim s -> run s [] s.
  Proof.
    intros G. exists (fun _ => s). split; [split|split; reflexivity]; [intros; exact G|]. intros i w so H. destruct i; discriminate.
  Qed.
  Lemma run_snoc s0 t s w so s' : run s0 t s -> est s w so s' -> gsim s' -> run s0 (t ++ [(w, so)]) s'.
  Proof.
    intros (st & T & E0 & E1) Es G. rewrite <- E1 in Es. destruct (tr_snoc _ _ t st w so s' T Es G) as (st' & T' & E' & Eq).
    exists st'. split; [exact T'|]. split; [rewrite Eq by lia; exact E0|exact E'].
  Qed.
  Lemma run_sim s0 t addrs M m os pend : run s0 t (mk_bst addrs M m os pend) -> sim ksize enc addrs M m (os ++ pend).
  Proof. intros (st & (G & _) & _ & E). specialize (G (length t) (le_n _)). rewrite E in G. exact G. Qed.

  Lemma lset_ok s0 t addrs M m os (b : bool) x n l M' :
    run s0 t (mk_bst addrs M m os []) -> apply_store M (SLink b x n l) = Ret M' -> ok_link addrs l ->
    let w := BPut (if b then Release else Relaxed) (cell ksize addrs x n) (le_bytes 8 (ptr addrs l)) in
    exists m', lSetNext ksize (if b then Release else Relaxed) m (addr addrs x) n (ptr addrs l) = Ret (m', [w]) /\
      run s0 (t ++ [(w, Some (SLink b x n l))]) (mk_bst addrs M' m' os []).
  Proof.
    intros R E Hl w. pose proof (run_sim _ _ _ _ _ _ _ R) as S.
    destruct (aSetNext_ok _ _ _ Hkc _ _ _ _ _ _ _ _ _ S E Hl) as (m' & E1 & S1 & _).
    exists m'. split; [unfold lSetNext; rewrite E1; reflexivity|].
    assert (Em : m' = put m (cell ksize addrs x n) (le_bytes 8 (ptr addrs l))).
    { unfold aSetNext, store_at in E1. destruct (bad_node (addr addrs x)); [discriminate|]. destruct (in_block m _ _); [|discriminate]. injection E1 as <-. reflexivity. }
    eapply run_snoc; [exact R| |exact S1]. rewrite Em. apply e_link; [exact E|reflexivity].
  Qed.
  Lemma arena_shape dbg m o ans m' p : arena_call dbg m o ans = Ret (m', p) -> m' = mk_amem (m_bytes m) (m_live m ++ new_blocks m m') (m_arena m').
  Proof.
    unfold arena_call. destruct (astep dbg (m_arena m) o ans) as [[[a p'] evs]| | |]; cbn [bind]; try discriminate. intros H. injection H as <- _.
    cbn [m_bytes m_live m_arena]. unfold new_blocks. cbn [m_live]. rewrite skipn_app, skipn_all, Nat.sub_diag. reflexivity.
  Qed.
  Lemma lNewNode_ok s0 t dbg addrs M m os k h ans : run s0 t (mk_bst addrs M m os []) -> 1 <= h <= 12 ->
    new_ok m (OpAllocateAligned (node_size ksize h)) ans ->
    exists m' p w1 w2, lNewNode ksize enc dbg m k h ans = Ret (m', p, [w1; w2]) /\
      run s0 (t ++ [(w1, None); (w2, Some (SNew k h))])
        (mk_bst (addrs ++ [p]) {| nodes := nodes M ++ [{| nkey := k; next_ := repeat None h |}]; max_height_ := max_height_ M |} m' os []).
  Proof.
    intros R Hh Hn. pose proof (run_sim _ _ _ _ _ _ _ R) as S. rewrite app_nil_r in S.
    destruct (arena_call_ok _ _ _ Hkc dbg _ _ _ _ _ ans S (node_size_legal _ _ _ Hkc h Hh) Hn) as (m1 & p & E1 & S1 & _).
    destruct (aNewNode_ok _ _ _ Hkc dbg addrs M m os k h ans S Hh Hn) as (m2 & p2 & E2 & S2 & _).
    unfold aNewNode in E2. rewrite E1 in E2. cbn [bind] in E2. unfold lNewNode. rewrite E1. cbn [bind].
    destruct (bad_node p); [discriminate|]. destruct (store_at m1 p (enc k)) as [m3| | |] eqn:E3; cbn [bind] in E2; try discriminate. injection E2 as -> <-.
    cbn [bind]. exists m2, p. eexists _, _. split; [reflexivity|].
    assert (Em2 : m2 = put m1 p (enc k)) by (unfold store_at in E3; destruct (in_block m1 p _); [injection E3 as <-; reflexivity|discriminate]).
    change [(BArena (m_arena m1) (new_blocks m m1), None); (BPut Plain p (enc k), Some (SNew k h))] with
      ([(BArena (m_arena m1) (new_blocks m m1), @None (store K))] ++ [(BPut Plain p (enc k), Some (SNew k h))]). rewrite app_assoc.
    eapply run_snoc.
    - eapply (run_snoc _ _ _ _ _ (mk_bst addrs M m1 os [(p, node_size ksize h)])); [exact R| |].
      + rewrite (arena_shape _ _ _ _ _ _ E1) at 3. apply e_arena. left. exists (p, node_size ksize h). split; reflexivity.
      + exact S1.
    - rewrite Em2. apply e_key. exact Hh.
    - unfold SkipListBytesProofs.gsim. cbn [t_addrs t_M t_m t_os t_pend]. rewrite app_nil_r. apply S2.
  Qed.

  Lemma llink_ok s0 addrs os : forall n i s t m x prev s', run s0 t (mk_bst addrs (sl_mem s) m os []) -> x < length addrs ->
    link_loop n i s x prev = Ret s' ->
    exists m' t', llink ksize n i m (addr addrs x) (prevs addrs prev) = Ret (m', map fst t') /\
      run s0 (t ++ t') (mk_bst addrs (sl_mem s') m' os []) /\ sl_log s' = sl_log s ++ stores t' /\ max_height_ (sl_mem s') = max_height_ (sl_mem s).
  Proof.
    induction n as [|n IH]; intros i s t m x prev s' R Hx H; cbn [link_loop llink] in *.
    - injection H as <-. exists m, []. rewrite !app_nil_r. auto.
    - unfold get_prev in H. unfold prevs. rewrite nth_error_map.
      destruct (nth_error prev i) as [[p|]|]; cbn [bind] in H; try discriminate. cbn [option_map bind].
      destruct (Next (sl_mem s) p i) as [nx| | |] eqn:En; cbn [bind] in H; try discriminate.
      pose proof (run_sim _ _ _ _ _ _ _ R) as S.
      destruct (aNext_ok _ _ _ Hkc _ _ _ _ S p i nx En) as (-> & Hnx). cbn [bind].
      unfold do_store in H. destruct (apply_store (sl_mem s) (SLink false x i nx)) as [M1| | |] eqn:E1; cbn [bind] in H; try discriminate.
      destruct (lset_ok _ _ _ _ _ _ _ _ _ _ _ R E1 Hnx) as (m1 & Ew1 & R1). cbn [ptr] in Ew1. rewrite Ew1. cbn [bind].
      cbn [sl_mem] in H. destruct (apply_store M1 (SLink true p i (Some x))) as [M2| | |] eqn:E2; cbn [bind] in H; try discriminate.
      destruct (lset_ok _ _ _ _ _ _ true p i (Some x) _ R1 E2 Hx) as (m2 & Ew2 & R2). cbn [ptr] in Ew2, R2. rewrite Ew2. cbn [bind].
      match type of H with link_loop _ _ ?s1 _ _ = _ => destruct (IH _ s1 _ m2 x prev s' R2 Hx H) as (m' & t' & Em' & R' & L' & MX') end.
      fold (prevs addrs prev). rewrite Em'. cbn [bind].
      exists m', ((BPut Relaxed (cell ksize addrs x i) (le_bytes 8 (ptr addrs nx)), Some (SLink false x i nx)) :: (BPut Release (cell ksize addrs p i) (le_bytes 8 (addr addrs x)), Some (SLink true p i (Some x))) :: t'). split; [cbn [map fst app]; reflexivity|]. split; [|split].
      + rewrite <- !app_assoc in R'. cbn [app] in R'. exact R'.
      + rewrite L'. cbn [sl_log]. rewrite <- !app_assoc. reflexivity.
      + rewrite MX'. cbn [sl_mem]. destruct (link_nodes _ _ _ _ _ _ E1) as (nd1 & _ & _ & ->). destruct (link_nodes _ _ _ _ _ _ E2) as (nd2 & _ & _ & ->). reflexivity.
  Qed.

  Lemma lInsert_ok s0 t dbg fuel addrs s m os l key ans h rnd s' :
    run s0 t (mk_bst addrs (sl_mem s) m os []) -> 0 < length addrs ->
    a_head l = addr addrs 0 -> a_max l = max_height_ (sl_mem s) -> search_fuel (sl_mem s) <= fuel ->
    RandomHeight dbg false (a_rnd l) = Ret (rnd, h) -> 1 <= h <= 12 ->
    new_ok m (OpAllocateAligned (node_size ksize h)) ans ->
    InsertH cmp dbg s key h = Ret s' ->
    exists m' p t', lInsert cmp ksize enc dec dbg false fuel m l key ans = Ret (m', mk_alist (a_head l) (max_height_ (sl_mem s')) rnd, map fst t') /\
      run s0 (t ++ t') (mk_bst (addrs ++ [p]) (sl_mem s') m' os []) /\ sl_log s' = sl_log s ++ stores t'.
  Proof.
    intros R Hpos Hhead Hmax Hfuel Hr Hh Hn H. unfold InsertH in H. pose proof (run_sim _ _ _ _ _ _ _ R) as S.
    destruct (FindGreaterOrEqual cmp (sl_mem s) key) as [[v pv]| | |] eqn:E; cbn [bind] in H; try discriminate.
    destruct (aFGE_ok _ _ _ _ Hkc _ _ _ _ S l Hhead Hmax fuel Hfuel key v pv E) as (E1 & _ & Hv).
    assert (Bp : Forall (fun q => match q with Some y => y < length addrs | None => True end) pv).
    { rewrite (s_len _ _ _ _ _ _ S). unfold FindGreaterOrEqual in E. eapply fge_prev_bound; [exact E|].
      apply Forall_forall. intros q Hq. apply repeat_spec in Hq. subst q. exact Logic.I. }
    unfold lInsert. rewrite E1. cbn [bind]. rewrite (ptr_null _ _ _ Hkc _ _ _ _ S v Hv).
    assert (HA : (if (match v with None => true | Some _ => false end) || negb dbg then Ret tt
                  else let! k := aKey ksize dec m (ptr addrs v) in assert_ dbg (negb (cmp key k =? 0)%Z)) = Ret tt /\ insert_linked s key h pv = Ret s').
    { destruct v as [y|]; cbn [orb]; [|auto]. destruct (key_of (sl_mem s) y) as [ka| | |] eqn:Ek; cbn [bind] in H; try discriminate.
      cbn [ptr]. rewrite (aKey_ok _ _ _ Hkc _ _ _ _ S y ka Ek). cbn [bind]. unfold assert_ in *.
      destruct dbg; cbn [negb andb bind] in *; [|auto]. destruct (negb (negb (cmp key ka =? 0)%Z)); cbn [bind] in H; [discriminate|]. auto. }
    destruct HA as (-> & Hi). cbn [bind]. rewrite Hr. cbn [bind]. rewrite Hmax, Hhead. clear H.
    unfold insert_linked in Hi. set (mh := max_height_ (sl_mem s)) in *.
    assert (HM : exists s2 pv2 t1, nodes (sl_mem s2) = nodes (sl_mem s) /\ sl_log s2 = sl_log s ++ stores t1 /\
        (if mh <? h then let! prev := afill (prevs addrs pv) (addr addrs 0) mh (h - mh) in Ret (h, prev, [BMax h]) else Ret (mh, prevs addrs pv, [])) =
          Ret (max_height_ (sl_mem s2), prevs addrs pv2, map fst t1) /\
        run s0 (t ++ t1) (mk_bst addrs (sl_mem s2) m os []) /\
        Forall (fun q => match q with Some y => y < length addrs | None => True end) pv2 /\
        (let! s := do_store s2 (SNew key h) in link_loop h 0 s (length (nodes (sl_mem s2))) pv2) = Ret s').
    { destruct (mh <? h).
      - destruct (fill_prev pv mh (h - mh)) as [pv2| | |] eqn:Ef; cbn [bind] in Hi; try discriminate.
        rewrite (afill_ok addrs _ _ _ _ Ef). cbn [bind]. cbn [do_store apply_store bind] in Hi.
        exists {| sl_mem := {| nodes := nodes (sl_mem s); max_height_ := h |}; rnd_ := rnd_ s; sl_log := sl_log s ++ [SMax h] |}, pv2, [(BMax h, Some (SMax h))].
        cbn [sl_mem nodes sl_log max_height_ map fst]. split; [reflexivity|]. split; [reflexivity|]. split; [reflexivity|]. split; [|split; [|exact Hi]].
        + eapply run_snoc; [exact R|apply e_max|]. unfold SkipListBytesProofs.gsim. cbn [t_addrs t_M t_m t_os t_pend].
          split; [apply S|apply S|apply S|apply S].
        + eapply (fill_prev_bound (length addrs)); [lia|exact Ef|exact Bp].
      - cbn [bind] in Hi. exists s, pv, []. cbn [map]. unfold stores. cbn [flat_map]. rewrite !app_nil_r. split; [reflexivity|]. split; [reflexivity|]. split; [reflexivity|]. split; [exact R|]. split; [exact Bp|exact Hi]. }
    destruct HM as (s2 & pv2 & t1 & En & L1 & Em & R1 & Bp2 & Hl). clear Hi. rewrite Em. cbn [bind].
    destruct (lNewNode_ok _ _ dbg _ _ _ _ key h ans R1 Hh Hn) as (m1 & p & w1 & w2 & E2 & R2). rewrite E2. cbn [bind].
    unfold do_store in Hl. cbn [apply_store bind] in Hl.
    assert (Hx : length (nodes (sl_mem s2)) < length (addrs ++ [p])) by (rewrite app_length, En, (s_len _ _ _ _ _ _ S); cbn; lia).
    match type of Hl with link_loop _ _ ?s3 _ _ = _ => destruct (llink_ok s0 (addrs ++ [p]) os h 0 s3 _ m1 _ pv2 s' R2 Hx Hl) as (m' & t' & E3 & R3 & L3 & Emax) end.
    assert (Ep : addr (addrs ++ [p]) (length (nodes (sl_mem s2))) = p).
    { unfold addr. rewrite En, <- (s_len _ _ _ _ _ _ S), app_nth2, Nat.sub_diag by lia. reflexivity. }
    rewrite Ep, prevs_app in E3 by exact Bp2. rewrite E3. cbn [bind]. cbn [sl_mem max_height_] in Emax.
    exists m', p, (t1 ++ [(w1, None); (w2, Some (SNew key h))] ++ t'). split; [rewrite Emax, !map_app; reflexivity|]. split.
    - rewrite <- !app_assoc in R3. exact R3.
    - rewrite L3. cbn [sl_log]. rewrite L1, !stores_app, <- !app_assoc. reflexivity.
  Qed.
End Run.
