(** SkipListBytesProps.v -- property theorems C105: readers in other threads of a
    skip list in the bytes of an arena, while the owning thread inserts and uses the
    arena for other things.

    [constructed w0 l0]: the list has just been constructed in [w0], where anything
    may have happened to the arena before.  [owner w0 w W ins]: what the owning thread
    does from then on, [W] every action on memory, [ins] its insertions.  [k]: any
    configuration reachable by interleaving [W] with the loads of [nr] readers. *)
From Coq Require Import List Arith ZArith NArith Lia Bool Sorted Permutation.
From Verif Require Import Outcome Random Arena ArenaSpec ArenaProofs SkipList SkipListSpec SkipListProofs
  SkipListInsert SkipListSeq SkipListProps SkipListArena SkipListArenaSpec SkipListArenaProofs SkipListArenaProps
  SkipListConc SkipListConcSpec SkipListConcProofs SkipListConcProps SkipListBytes SkipListBytesSpec SkipListBytesProofs SkipListBytesRun SkipListBytesOwner.
Import ListNotations.
Local Open Scope outcome_scope.
Local Opaque N.pow N.sub N.mul N.div N.modulo.

(** What the readers see at first. *)
Definition shared0 {K} (w0 : @world K) (l0 : alist) : shared := mk_shared (w_mem w0) (a_max l0).

Lemma bytes_nodes {K} (cmp : K -> K -> Z) ksize enc dec dbg k0 w0 l0 w W ins nr k :
  comparator_ok cmp -> key_codec ksize enc dec -> constructed cmp ksize enc dec dbg k0 w0 l0 -> owner cmp ksize enc dec dbg w0 w W ins ->
  breachable cmp ksize dec dbg (a_head l0) (shared0 w0 l0) W nr k ->
  exists l t addrs s hist st c, own cmp ksize enc k0 w0 (a_head l0) w W ins l t addrs s hist /\ tr ksize enc t st /\
    map fst t = W /\ t_sh (st 0) = shared0 w0 l0 /\ t_M (st 0) = mem0 k0 /\ st (length t) = mk_bst addrs (sl_mem s) (w_mem w) (w_others w) [] /\
    reachable cmp dbg (mem0 k0) (stores t) nr c /\ crel t st c k.
Proof.
  intros Hc Hkc C O HR. destruct (owner_own cmp ksize enc dec Hc Hkc dbg k0 w0 l0 w W ins C O) as (l & t & addrs & s & hist & I).
  destruct (o_run _ _ _ _ _ _ _ _ _ _ _ _ _ _ I) as (st & T & E0 & E1).
  assert (Esh : t_sh (st 0) = shared0 w0 l0).
  { rewrite E0. unfold t_sh, shared0. cbn [t_m t_M]. f_equal. destruct (constructed_own cmp ksize enc dec Hc Hkc dbg k0 w0 l0 C) as (p & _ & I0).
    symmetry. exact (o_max _ _ _ _ _ _ _ _ _ _ _ _ _ _ I0). }
  assert (EM : t_M (st 0) = mem0 k0) by (rewrite E0; reflexivity).
  pose proof (o_t _ _ _ _ _ _ _ _ _ _ _ _ _ _ I) as Et.
  assert (Hpos : 0 < length (t_addrs (st (length t)))) by (rewrite E1; cbn [t_addrs]; rewrite (o_len _ _ _ _ _ _ _ _ _ _ _ _ _ _ I); lia).
  assert (Hhd : a_head l0 = addr (t_addrs (st (length t))) 0) by (rewrite E1; symmetry; exact (proj2 (o_head _ _ _ _ _ _ _ _ _ _ _ _ _ _ I))).
  rewrite <- Esh, <- Et, Hhd in HR.
  destruct (bsim cmp ksize enc dec Hkc t st T dbg Hpos) with (nr := nr) (k := k) as (c & Rc & Ck); [|exact HR|].
  - intros nr' c Rc i r Hi. rewrite EM, <- (o_log _ _ _ _ _ _ _ _ _ _ _ _ _ _ I) in Rc.
    destruct (C28_readers_safe_and_terminate K cmp dbg k0 hist (skiplist0 k0) s nr' c Hc (o_h _ _ _ _ _ _ _ _ _ _ _ _ _ _ I) (o_d _ _ _ _ _ _ _ _ _ _ _ _ _ _ I)
      (ctor_eq k0) (o_all _ _ _ _ _ _ _ _ _ _ _ _ _ _ I) Rc i r Hi) as (S1 & S2). cbn [sl_mem skiplist0] in S1. rewrite EM, <- (o_log _ _ _ _ _ _ _ _ _ _ _ _ _ _ I). split.
    + intros Hop n Hm. destruct (S1 Hop n Hm) as (r' & E & _). eauto.
    + intros o Hm. destruct (S2 o Hm) as (r' & E & _). eauto.
  - exists l, t, addrs, s, hist, st, c. rewrite EM in Rc. auto 10.
Qed.

(** C105: every reader inside an operation can perform its next load, from every
    state it may read, without a data race, a load of memory it may not touch or that
    is not initialised, or a failed assertion; an operation makes at most (number of
    insertions) + 13 loads; starting one is safe. *)
Theorem C105_readers_safe_and_terminate :
  forall (K : Type) (cmp : K -> K -> Z) ksize enc dec dbg k0, comparator_ok cmp -> key_codec ksize enc dec ->
  forall w0 l0 w W ins nr k, constructed cmp ksize enc dec dbg k0 w0 l0 -> owner cmp ksize enc dec dbg w0 w W ins ->
    breachable cmp ksize dec dbg (a_head l0) (shared0 w0 l0) W nr k ->
    forall i r, nth_error (k_readers k) i = Some r ->
      b_view r <= k_now k /\
      (b_in_op r = true -> forall n, b_may_read (k_now k) n r ->
         exists r', brstep cmp ksize dec dbg (a_head l0) (shared0 w0 l0) W (k_now k) n r = Ret r' /\
           b_steps r' = S (b_steps r) /\ b_steps r' <= length ins + 13) /\
      (forall o, b_may_start r o -> exists r', bstart dbg (a_head l0) r o = Ret r' /\ b_steps r' = 0).
Proof.
  intros K cmp ksize enc dec dbg k0 Hc Hkc w0 l0 w W ins nr k C O HR i b Hi.
  destruct (bytes_nodes _ _ _ _ _ _ _ _ _ _ _ _ _ Hc Hkc C O HR) as (l & t & addrs & s & hist & st & c & I & T & Et & Esh & EM & E1 & Rc & Cn & Ck & CF).
  destruct (forall2_nth _ _ _ CF _ _ Hi) as (r & Hr & L).
  assert (Hhd : a_head l0 = addr (t_addrs (st (length t))) 0) by (rewrite E1; symmetry; exact (proj2 (o_head _ _ _ _ _ _ _ _ _ _ _ _ _ _ I))).
  assert (Hpos : 0 < length (t_addrs (st (length t)))) by (rewrite E1; cbn [t_addrs]; rewrite (o_len _ _ _ _ _ _ _ _ _ _ _ _ _ _ I); lia).
  rewrite <- (o_log _ _ _ _ _ _ _ _ _ _ _ _ _ _ I) in Rc.
  destruct (C28_readers_safe_and_terminate K cmp dbg k0 hist (skiplist0 k0) s nr c Hc (o_h _ _ _ _ _ _ _ _ _ _ _ _ _ _ I) (o_d _ _ _ _ _ _ _ _ _ _ _ _ _ _ I)
    (ctor_eq k0) (o_all _ _ _ _ _ _ _ _ _ _ _ _ _ _ I) Rc i r Hr) as (S1 & S2). cbn [sl_mem skiplist0] in S1.
  split; [exact (l_le _ _ _ _ _ L)|]. split.
  - intros Hop n Hm. destruct (S1 ltac:(rewrite (rel_in_op _ _ _ _ _ L); exact Hop) (phi t n)) as (r' & E & Es & El).
    { rewrite Cn. exact (b_may_read_rel t st _ _ _ _ L Hm). }
    rewrite Cn, (o_log _ _ _ _ _ _ _ _ _ _ _ _ _ _ I), <- EM in E. destruct Hm as (M1 & M2).
    destruct (rel_read cmp ksize enc dec Hkc t st T dbg (k_now k) n r b r' L Hpos Ck M1 M2 E) as (b' & Eb & L').
    rewrite <- Hhd, Esh, Et in Eb. exists b'. split; [exact Eb|].
    rewrite <- (l_steps _ _ _ _ _ L'), <- (l_steps _ _ _ _ _ L), (o_ins _ _ _ _ _ _ _ _ _ _ _ _ _ _ I). auto.
  - intros o Hm. pose proof (b_may_start_rel ksize enc dec Hkc t st T _ _ _ _ L Hm) as Hm'. destruct (S2 o Hm') as (r' & E & Es).
    destruct (rel_start ksize enc dec Hkc t st T dbg _ _ _ _ _ L E Hm') as (b' & Eb & L' & _). rewrite <- Hhd in Eb. exists b'. split; [exact Eb|].
    rewrite <- (l_steps _ _ _ _ _ L'). exact Es.
Qed.
Print Assumptions C105_readers_safe_and_terminate.

(** C105: what a finished operation returned.  A key is certainly there if its Insert
    had returned, in the happens-before order, when the operation started; it is
    possibly there if its Insert had been called when the operation returned.  The
    keys are those the reader itself finds at the iterator's old and new position. *)
Theorem C105_concurrent_answers :
  forall (K : Type) (cmp : K -> K -> Z) ksize enc dec dbg k0, comparator_ok cmp -> key_codec ksize enc dec ->
  forall w0 l0 w W ins nr k, constructed cmp ksize enc dec dbg k0 w0 l0 -> owner cmp ksize enc dec dbg w0 w W ins ->
    breachable cmp ksize dec dbg (a_head l0) (shared0 w0 l0) W nr k ->
    forall i r, nth_error (k_readers k) i = Some r -> b_pc r = QDone ->
      exists kf kr,
        key_in (bKey ksize dec (shared0 w0 l0) W (b_view r)) (b_from r) kf /\
        key_in (bKey ksize dec (shared0 w0 l0) W (b_view r)) (b_it r) kr /\
        answer_ok cmp (inserted ins (b_start r)) (begun ins (b_end r)) (b_op r) kf kr (b_res r).
Proof.
  intros K cmp ksize enc dec dbg k0 Hc Hkc w0 l0 w W ins nr k C O HR i b Hi Hpc.
  destruct (bytes_nodes _ _ _ _ _ _ _ _ _ _ _ _ _ Hc Hkc C O HR) as (l & t & addrs & s & hist & st & c & I & T & Et & Esh & EM & E1 & Rc & Cn & Ck & CF).
  destruct (forall2_nth _ _ _ CF _ _ Hi) as (r & Hr & L).
  rewrite <- (o_log _ _ _ _ _ _ _ _ _ _ _ _ _ _ I) in Rc.
  destruct (conc_inv cmp dbg k0 hist (skiplist0 k0) s nr c Hc (o_h _ _ _ _ _ _ _ _ _ _ _ _ _ _ I) (o_d _ _ _ _ _ _ _ _ _ _ _ _ _ _ I)
    (ctor_eq k0) (o_all _ _ _ _ _ _ _ _ _ _ _ _ _ _ I) Rc) as (tr' & _ & Ltr & Ttr & B & HL & Hn & HF).
  assert (HI : RInv cmp k0 hist tr' (c_now c) r) by (rewrite Forall_forall in HF; apply HF; eapply nth_error_In; eauto).
  assert (Hpc' : r_pc r = PDone).
  { pose proof (l_pc _ _ _ _ _ L) as P. rewrite Hpc in P. unfold pc_rel in P. destruct (r_pc r); try contradiction. reflexivity. }
  pose proof (RI_pc _ _ _ _ _ _ HI) as P. unfold pc_inv in P. rewrite Hpc' in P. cbv zeta in P. destruct P as (_ & kf & kr & Hkf & Hkr & R).
  pose proof (l_le _ _ _ _ _ L) as LE. pose proof (l_view _ _ _ _ _ L) as V.
  assert (Em : g_mem (gat k0 tr' (r_view r)) = t_M (st (b_view b))).
  { pose proof (mem_at_ok cmp Hc k0 tr' Ttr (r_view r)) as A1. pose proof (mem_ok ksize enc t st T (b_view b) ltac:(lia)) as A2.
    rewrite EM, <- V, <- (o_log _ _ _ _ _ _ _ _ _ _ _ _ _ _ I), Ltr in A2. congruence. }
  rewrite Em in Hkf, Hkr.
  assert (HK : forall it p ko, at_key (t_M (st (b_view b))) it ko -> p = ptr (t_addrs (st (length t))) it /\ ok_link (t_addrs (st (length t))) it ->
    key_in (bKey ksize dec (shared0 w0 l0) W (b_view b)) p ko).
  { intros it p ko Hk (-> & OK). unfold key_in. rewrite (valid_ok ksize enc dec Hkc t st T it OK). destruct it as [x|]; cbn [Valid at_key] in *; [|exact Hk].
    destruct Hk as (kk & Ek & ->). exists kk. split; [|reflexivity]. cbn [iter_key iter_node bind] in Ek.
    destruct (key_ok ksize enc dec Hkc t st T (b_view b) x kk ltac:(lia)) as (A & _); [unfold iter_key, iter_node, assert_ in Ek; cbn [andb bind] in Ek; exact Ek|].
    rewrite Esh, Et in A. exact A. }
  exists kf, kr. split; [apply (HK _ _ _ Hkf (l_from _ _ _ _ _ L))|]. split; [apply (HK _ _ _ Hkr (l_it _ _ _ _ _ L))|].
  destruct (o_marks _ _ _ _ _ _ _ _ _ _ _ _ _ _ I) as (P1 & P2).
  assert (HA : forall kk, inserted ins (b_start b) kk -> returned cmp (skiplist0 k0) hist (r_start r) kk).
  { intros kk (bs & e & Hin & He). destruct (P1 _ _ _ Hin) as (_ & _ & h1 & h & h2 & Eq & St). exists (h1 ++ [(kk, h)]), h2, (phi t e).
    split; [rewrite Eq, <- app_assoc; reflexivity|]. split; [exact St|]. split; [rewrite (l_start _ _ _ _ _ L); apply phi_mono; exact He|].
    rewrite map_app. apply in_or_app. right. left. reflexivity. }
  assert (HB : forall kk, called cmp (skiplist0 k0) hist (r_end r) kk -> begun ins (b_end b) kk).
  { intros kk (h1 & h & h2 & n & Eq & (s1 & Es1 & Ln) & Hlt). destruct (P2 _ _ _ _ Eq) as (bs & e & Hin & (s2 & Es2 & Ln2)). exists bs, e. split; [exact Hin|].
    assert (s1 = s2) by congruence. subst s2. destruct (l_end _ _ _ _ _ L) as (El & _).
    destruct (Nat.lt_ge_cases bs (b_end b)) as [?|G]; [assumption|]. pose proof (phi_mono t _ _ G). lia. }
  unfold result_ok in R. rewrite (l_op _ _ _ _ _ L), (l_res _ _ _ _ _ L) in R. unfold answer_ok. destruct R as (R1 & R2). split.
  - destruct (b_op b); auto; intros kk Hk; apply HB; apply R1; exact Hk.
  - destruct (b_op b) as [kk|kk| | | |].
    + destruct R2 as (Ra & Rb). split.
      * intros (k' & Hk' & E0). apply Ra. eauto.
      * intros Hno. apply Rb. intros k' Hk'. apply Hno. auto.
    + destruct kr; [destruct R2 as (Ra & Rb); split; auto|auto].
    + destruct kr; auto. intros k' Hk'. apply (R2 k'). auto.
    + destruct kr; auto. intros k' Hk'. apply (R2 k'). auto.
    + destruct R2 as (f & Ef & R2). exists f. split; [exact Ef|]. destruct kr; [destruct R2 as (Ra & Rb); split; auto|auto].
    + destruct R2 as (f & Ef & R2). exists f. split; [exact Ef|]. destruct kr; [destruct R2 as (Ra & Rb); split; auto|auto].
Qed.
Print Assumptions C105_concurrent_answers.

(** C105: between operations a reader can ask a valid iterator for its key. *)
Theorem C105_iterator_key :
  forall (K : Type) (cmp : K -> K -> Z) ksize enc dec dbg k0, comparator_ok cmp -> key_codec ksize enc dec ->
  forall w0 l0 w W ins nr k, constructed cmp ksize enc dec dbg k0 w0 l0 -> owner cmp ksize enc dec dbg w0 w W ins ->
    breachable cmp ksize dec dbg (a_head l0) (shared0 w0 l0) W nr k ->
    forall i r, nth_error (k_readers k) i = Some r -> aValid (b_it r) = true ->
      exists x, bKey ksize dec (shared0 w0 l0) W (b_view r) (b_it r) = Ret x /\ begun ins (k_now k) x.
Proof.
  intros K cmp ksize enc dec dbg k0 Hc Hkc w0 l0 w W ins nr k C O HR i b Hi Hv.
  destruct (bytes_nodes _ _ _ _ _ _ _ _ _ _ _ _ _ Hc Hkc C O HR) as (l & t & addrs & s & hist & st & c & I & T & Et & Esh & EM & E1 & Rc & Cn & Ck & CF).
  destruct (forall2_nth _ _ _ CF _ _ Hi) as (r & Hr & L).
  rewrite <- (o_log _ _ _ _ _ _ _ _ _ _ _ _ _ _ I) in Rc.
  destruct (conc_inv cmp dbg k0 hist (skiplist0 k0) s nr c Hc (o_h _ _ _ _ _ _ _ _ _ _ _ _ _ _ I) (o_d _ _ _ _ _ _ _ _ _ _ _ _ _ _ I)
    (ctor_eq k0) (o_all _ _ _ _ _ _ _ _ _ _ _ _ _ _ I) Rc) as (tr' & _ & Ltr & Ttr & B & HL & Hn & HF).
  assert (HI : RInv cmp k0 hist tr' (c_now c) r) by (rewrite Forall_forall in HF; apply HF; eapply nth_error_In; eauto).
  pose proof (l_le _ _ _ _ _ L) as LE. pose proof (l_view _ _ _ _ _ L) as V. destruct (l_it _ _ _ _ _ L) as (Eit & OK).
  assert (Em : g_mem (gat k0 tr' (r_view r)) = t_M (st (b_view b))).
  { pose proof (mem_at_ok cmp Hc k0 tr' Ttr (r_view r)) as A1. pose proof (mem_ok ksize enc t st T (b_view b) ltac:(lia)) as A2.
    rewrite EM, <- V, <- (o_log _ _ _ _ _ _ _ _ _ _ _ _ _ _ I), Ltr in A2. congruence. }
  rewrite Eit in Hv |- *. rewrite (valid_ok ksize enc dec Hkc t st T _ OK) in Hv. pose proof (RI_it _ _ _ _ _ _ HI) as IT.
  destruct (r_it r) as [x|]; [|discriminate]. cbn [it_ok] in IT. destruct (vis_key cmp Hc k0 tr' Ttr (r_view r) x IT) as (kk & Ek).
  exists kk. split.
  - rewrite Em in Ek. destruct (key_ok ksize enc dec Hkc t st T (b_view b) x kk ltac:(lia) Ek) as (A & _). rewrite Esh, Et in A. exact A.
  - pose proof (RI_view _ _ _ _ _ _ HI) as RV.
    assert (Cl : called cmp (skiplist0 k0) hist (c_now c) kk).
    { eapply (vis_called cmp Hc k0 hist tr' Ttr B HL (r_view r)); [lia|lia|exact IT|exact Ek]. }
    destruct (o_marks _ _ _ _ _ _ _ _ _ _ _ _ _ _ I) as (P1 & P2). destruct Cl as (h1 & h & h2 & n & Eq & (s1 & Es1 & Ln) & Hlt).
    destruct (P2 _ _ _ _ Eq) as (bs & e & Hin & (s2 & Es2 & Ln2)). exists bs, e. split; [exact Hin|].
    assert (s1 = s2) by congruence. subst s2. destruct (Nat.lt_ge_cases bs (k_now k)) as [?|G]; [assumption|]. pose proof (phi_mono t _ _ G). lia.
Qed.
Print Assumptions C105_iterator_key.

(** C105: the owning thread is the program of C99: the log is extra, and complete. *)
Theorem C105_owner_is_the_program :
  forall (K : Type) (cmp : K -> K -> Z) ksize enc dec dbg k0, comparator_ok cmp -> key_codec ksize enc dec ->
  forall w0 l0 w W ins, constructed cmp ksize enc dec dbg k0 w0 l0 -> owner cmp ksize enc dec dbg w0 w W ins ->
    SkipListArenaSpec.reachable cmp ksize enc dec dbg k0 w /\
    (exists l, w_list w = Some l /\ shared_at (shared0 w0 l0) W (length W) = mk_shared (w_mem w) (a_max l)) /\
    (forall fuel m l k ans,
       (let! (m', l', _) := lInsert cmp ksize enc dec dbg false fuel m l k ans in Ret (m', l')) = aInsert cmp ksize enc dec dbg false fuel m l k ans).
Proof.
  intros K cmp ksize enc dec dbg k0 Hc Hkc w0 l0 w W ins C O. split; [|split].
  - destruct C as (w1 & R1 & _ & D & _). induction O as [|m l rs ks W ins o ans m' q O IH Hl Hn E|m l rs ks W ins r ord a d m' O IH Hr Ha Hd E|fuel m l rs ks W ins k ans m' l' W1 O IH Hm Hn E].
    + eapply many_snoc; eassumption.
    + eapply many_snoc; [exact IH|]. eapply does_alloc; eassumption.
    + eapply many_snoc; [exact IH|]. eapply does_write; eassumption.
    + eapply many_snoc; [exact IH|]. eapply does_insert; [exact Hm|exact Hn|]. rewrite <- lInsert_erase, E. reflexivity.
  - destruct (bytes_nodes _ _ _ _ _ _ _ _ _ _ _ 0 _ Hc Hkc C O (breach_init _ _ _ _ _ _ _ 0)) as (l & t & addrs & s & hist & st & c & I & T & Et & Esh & EM & E1 & _).
    exists l. split; [apply I|]. rewrite <- Esh, <- Et, map_length, (shared_ok ksize enc t st T) by lia. rewrite E1. unfold t_sh. cbn [t_m t_M].
    rewrite (o_max _ _ _ _ _ _ _ _ _ _ _ _ _ _ I). reflexivity.
  - intros. apply lInsert_erase.
Qed.
Print Assumptions C105_owner_is_the_program.

(** C105: and its Inserts return. *)
Theorem C105_insert_returns :
  forall (K : Type) (cmp : K -> K -> Z) ksize enc dec dbg k0, comparator_ok cmp -> key_codec ksize enc dec ->
  forall w0 l0 w W ins l k ans, constructed cmp ksize enc dec dbg k0 w0 l0 -> owner cmp ksize enc dec dbg w0 w W ins -> w_list w = Some l ->
    ~ member cmp k (w_keys w) -> insert_new_ok ksize (w_mem w) l ans ->
    exists m' l' W1, forall fuel, length (w_keys w) + 13 <= fuel -> lInsert cmp ksize enc dec dbg false fuel (w_mem w) l k ans = Ret (m', l', W1).
Proof.
  intros K cmp ksize enc dec dbg k0 Hc Hkc w0 l0 w W ins l k ans C O El Hm Hn.
  destruct (owner_own cmp ksize enc dec Hc Hkc dbg k0 w0 l0 w W ins C O) as (l1 & t & addrs & s & hist & I).
  pose proof (o_list _ _ _ _ _ _ _ _ _ _ _ _ _ _ I) as E1. assert (l1 = l) by congruence. subst l1. destruct w as [m lo rs ks]. cbn [w_mem w_keys] in *.
  destruct (own_insert cmp ksize enc dec Hc Hkc dbg k0 _ _ _ _ _ _ _ _ _ _ _ _ _ k ans I Hm Hn) as (m' & l' & t' & q & s' & h & E & _). eauto.
Qed.
Print Assumptions C105_insert_returns.

Local Transparent N.pow N.sub N.mul N.div N.modulo.
(** A concrete run meets the hypotheses.  The program takes 5 bytes and builds a list
    of one-byte keys; a reader starts SeekToFirst; the program inserts 7 and then
    writes its bytes; the reader's load happens after the 7 is linked in, and gives it
    the right to read the node. *)
Definition exw0 : @world N := mk_world (fst ex2) (Some (snd ex2)) [(4096, 5)]%N [].
Definition exi : amem * alist * list bact :=
  ex_run (amem0, mk_alist 0 0 0, []) (lInsert ex_cmp 1 ex_enc ex_dec true false 13 (fst ex2) (snd ex2) 7%N 0).
Definition exm : amem := ex_run amem0 (store_at (fst (fst exi)) 4097 [255; 255]%N).
Definition exW : list bact := snd exi ++ [BPut Plain 4097 [255; 255]%N].
Definition exr1 : breader N :=
  {| b_view := 0; b_pc := QNext0 4104; b_op := OFirst; b_it := 0; b_res := false; b_from := 0; b_start := 0; b_end := 0; b_steps := 0 |}.
Definition exr2 : breader N :=
  {| b_view := 5; b_pc := QDone; b_op := OFirst; b_it := 4208; b_res := false; b_from := 0; b_start := 0; b_end := 5; b_steps := 1 |}.

Lemma exw0_constructed : constructed ex_cmp 1 ex_enc ex_dec true 0%N exw0 (snd ex2).
Proof.
  exists (mk_world (fst ex1) None [(4096, 5)]%N []).
  assert (R1 : SkipListArenaSpec.reachable ex_cmp 1 ex_enc ex_dec true 0%N (mk_world (fst ex1) None [(4096, 5)]%N [])).
  { eapply many_snoc; [apply many_nil|]. apply (does_alloc _ _ _ _ _ _ _ None [] [] (OpAllocate 5) 4096 _ 4096%N).
    - split; reflexivity.
    - intros a p ev E. lazy in E. injection E as <- <- <-. split; [|exact Logic.I]. repeat split; try reflexivity; try constructor.
      vm_compute. discriminate.
    - reflexivity. }
  split; [exact R1|]. split; [reflexivity|]. split; [|reflexivity]. apply (does_construct _ _ _ _ _ _ _ _ 0).
  - no_new.
  - destruct (C99_construct_and_insert_return _ _ _ _ _ _ _ ex_cmp_ok ex_codec _ R1) as (H & _).
    destruct (H eq_refl 0%N) as (m' & l' & E & _); [no_new|]. cbn [w_mem] in E. unfold ex2. rewrite E. reflexivity.
Qed.
Lemma exw_owner : owner ex_cmp 1 ex_enc ex_dec true exw0 (mk_world exm (Some (snd (fst exi))) [(4096, 5)]%N [7]%N) exW ([] ++ [(7%N, 0, 0 + length (snd exi))]).
Proof.
  assert (Hm : ~ member ex_cmp 7%N []) by (intros (k & [] & _)).
  assert (Hn : insert_new_ok 1 (fst ex2) (snd ex2) 0%N) by (intros r h E; lazy in E; injection E as <- <-; no_new).
  assert (O1 : owner ex_cmp 1 ex_enc ex_dec true exw0 (mk_world (fst (fst exi)) (Some (snd (fst exi))) [(4096, 5)]%N [7]%N) ([] ++ snd exi) ([] ++ [(7%N, 0, 0 + length (snd exi))])).
  { apply (owner_insert ex_cmp 1 ex_enc ex_dec true exw0 13 (fst ex2) (snd ex2) [(4096, 5)]%N [] [] [] 7%N 0%N); [apply owner_start|exact Hm|exact Hn|].
    destruct (C105_insert_returns _ _ _ _ _ _ _ ex_cmp_ok ex_codec _ _ _ _ _ (snd ex2) 7%N 0%N exw0_constructed (owner_start _ _ _ _ _ _) eq_refl Hm Hn) as (m' & l' & W1 & E).
    specialize (E 13 (le_n _)). cbn [w_mem exw0] in E. unfold exi. rewrite E. reflexivity. }
  apply (owner_write ex_cmp 1 ex_enc ex_dec true exw0 (fst (fst exi)) (Some (snd (fst exi))) [(4096, 5)]%N [7]%N (snd exi) _ (4096, 5)%N); [exact O1|left; reflexivity|cbn; lia|cbn; lia|].
  pose proof (proj1 (C105_owner_is_the_program _ _ _ _ _ _ _ ex_cmp_ok ex_codec _ _ _ _ _ exw0_constructed O1)) as R.
  destruct (C99_program_served _ _ _ _ _ _ _ ex_cmp_ok ex_codec _ R) as (_ & H & _).
  destruct (H (4096, 5)%N 4097%N [255; 255]%N) as (m' & E); [left; reflexivity|discriminate|cbn; lia|cbn; lia|].
  cbn [w_mem] in E. unfold exm. rewrite E. reflexivity.
Qed.
Example C105_hypotheses_satisfiable :
  constructed ex_cmp 1 ex_enc ex_dec true 0%N exw0 (snd ex2) /\
  owner ex_cmp 1 ex_enc ex_dec true exw0 (mk_world exm (Some (snd (fst exi))) [(4096, 5)]%N [7]%N) exW [(7%N, 0, 7)] /\
  breachable ex_cmp 1 ex_dec true (a_head (snd ex2)) (shared0 exw0 (snd ex2)) exW 1 {| k_now := 5; k_readers := [exr2] |} /\
  b_pc exr2 = QDone /\ bKey 1 ex_dec (shared0 exw0 (snd ex2)) exW (b_view exr2) (b_it exr2) = Ret 7%N /\
  (* without the view it got from its load, reading the node would have been a race *)
  bKey 1 ex_dec (shared0 exw0 (snd ex2)) exW 0 (b_it exr2) = UB.
Proof.
  split; [exact exw0_constructed|]. split; [replace 7 with (length (snd exi)) by (vm_compute; reflexivity); exact exw_owner|]. split; [|split; [reflexivity|split; vm_compute; reflexivity]].
  assert (H1 : breachable ex_cmp 1 ex_dec true (a_head (snd ex2)) (shared0 exw0 (snd ex2)) exW 1 {| k_now := 0; k_readers := [exr1] |}).
  { eapply breach_step; [apply breach_init|]. apply (bs_start _ _ _ _ _ _ _ 0 [new_breader] 0 new_breader OFirst exr1); [reflexivity|split; [reflexivity|exact Logic.I]|vm_compute; reflexivity]. }
  assert (H2 : forall n, n <= 5 -> breachable ex_cmp 1 ex_dec true (a_head (snd ex2)) (shared0 exw0 (snd ex2)) exW 1 {| k_now := n; k_readers := [exr1] |}).
  { induction n as [|n IH]; intros Hn; [exact H1|]. eapply breach_step; [apply IH; lia|]. apply bs_write. replace (length exW) with 8 by (vm_compute; reflexivity). lia. }
  eapply breach_step; [apply (H2 5); lia|]. apply (bs_read _ _ _ _ _ _ _ 5 [exr1] 0 exr1 5 exr2); [reflexivity|reflexivity|split; [lia|intros _; cbn; lia]|vm_compute; reflexivity].
Qed.
