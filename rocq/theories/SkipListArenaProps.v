(** SkipListArenaProps.v -- property theorems C99: the skip list in the bytes of
    an arena it shares with the rest of the program.

    [reachable]: any interleaving of the program's own Allocate/AllocateAligned
    calls, its writes to what it got, the construction of the list and insertions
    of new keys, with new[] answering as its contract allows.  [dbg]: assertions on
    (except skiplist.h:249, see C27).  The searches are given the number of loop
    iterations they may make: the number of keys plus 13 is enough. *)
From Coq Require Import List Arith ZArith NArith Lia Bool Sorted Permutation.
From Verif Require Import Outcome Random Arena ArenaSpec ArenaProofs SkipList SkipListSpec SkipListProofs
  SkipListInsert SkipListSeq SkipListProps SkipListArena SkipListArenaSpec SkipListArenaProofs.
Import ListNotations.
Local Open Scope outcome_scope.

Section Props.
  Context {K : Type} (cmp : K -> K -> Z) (ksize : N) (enc : K -> list N) (dec : list N -> option K).
  Variables (dbg : bool) (k0 : K).
  Hypotheses (Hc : comparator_ok cmp) (Hkc : key_codec ksize enc dec).
  Notation sim := (sim ksize enc).
  Notation world := (@world K).

  Lemma afge_more fuel : forall fuel' m key x level prev r, afge cmp ksize dec fuel m key x level prev = Ret r -> fuel <= fuel' ->
    afge cmp ksize dec fuel' m key x level prev = Ret r.
  Proof.
    induction fuel as [|fuel IH]; intros [|fuel'] m key x level prev r H Hf; cbn [afge] in *; try discriminate; [lia|].
    destruct (aNext ksize m x level) as [nx| | |]; cbn [bind] in *; try discriminate.
    destruct (aKeyIsAfterNode cmp ksize dec m key nx) as [[]| | |]; cbn [bind] in *; try discriminate.
    - apply (IH fuel'); [exact H|lia].
    - destruct level as [|level]; [exact H|]. apply (IH fuel'); [exact H|lia].
  Qed.
  Lemma aInsert_more fuel fuel' m l key ans r : aInsert cmp ksize enc dec dbg false fuel m l key ans = Ret r -> fuel <= fuel' ->
    aInsert cmp ksize enc dec dbg false fuel' m l key ans = Ret r.
  Proof.
    intros H Hf. unfold aInsert, aFindGreaterOrEqual in *.
    destruct (afge cmp ksize dec fuel m key (a_head l) (a_max l - 1) (Some (repeat None kMaxHeight))) as [v| | |] eqn:E; cbn [bind] in H; try discriminate.
    rewrite (afge_more _ fuel' _ _ _ _ _ _ E Hf). exact H.
  Qed.
  Lemma RandomHeight_false rnd r : RandomHeight dbg false rnd = Ret r -> RandomHeight false false rnd = Ret r.
  Proof.
    unfold RandomHeight, assert_. destruct (height_loop (kMaxHeight - 1) rnd 1) as [r' h]. cbn [andb bind].
    destruct (dbg && negb (h <=? kMaxHeight)); cbn [bind]; congruence.
  Qed.

  Record built (g : @ghost K) (addrs : list N) (m : amem) (l : alist) (others : list (N * N)) (ks : list K) : Prop := {
    b_sim : sim addrs (g_mem g) m others;
    b_good : Good cmp g;
    b_full : full g;
    b_keys : exists sk, keysof g sk /\ Permutation ks sk;
    b_head : a_head l = addr addrs 0;
    b_max : a_max l = max_height_ (g_mem g);
    b_len : length addrs = S (length ks)
  }.
  Definition J (w : world) (addrs : list N) (g : @ghost K) : Prop :=
    match w_list w with
    | None => addrs = [] /\ w_keys w = [] /\ sim [] none (w_mem w) (w_others w)
    | Some l => built g addrs (w_mem w) l (w_others w) (w_keys w)
    end.
  Lemma built_fuel g addrs m l others ks fuel : built g addrs m l others ks -> length ks + 13 <= fuel -> search_fuel (g_mem g) <= fuel.
  Proof.
    intros B H. unfold search_fuel. rewrite <- (s_len _ _ _ _ _ _ (b_sim _ _ _ _ _ _ B)), (b_len _ _ _ _ _ _ B). change kMaxHeight with 12. lia.
  Qed.
  Lemma built_pos g addrs m l others ks : built g addrs m l others ks -> 0 < length addrs.
  Proof. intros B. rewrite (b_len _ _ _ _ _ _ B). lia. Qed.

  (** One insertion. *)
  Lemma built_insert g addrs m l others ks k ans : built g addrs m l others ks -> ~ member cmp k ks -> insert_new_ok ksize m l ans ->
    exists m' l' g' p, (forall fuel, length ks + 13 <= fuel -> aInsert cmp ksize enc dec dbg false fuel m l k ans = Ret (m', l')) /\
      built g' (addrs ++ [p]) m' l' others (k :: ks) /\ mono g g' /\ forall r, In r others -> same_bytes m m' r.
  Proof.
    intros B Hm Hn. destruct (b_keys _ _ _ _ _ _ B) as (sk & HK & P).
    destruct (RandomHeight_ok dbg (a_rnd l)) as (rnd & h & Hr & Hh).
    set (s := {| sl_mem := g_mem g; rnd_ := rnd; sl_log := [] |}).
    destruct (InsertH_keys cmp Hc dbg s g k h sk (b_good _ _ _ _ _ _ B) (b_full _ _ _ _ _ _ B) eq_refl Hh HK)
      as (s' & tr & ks' & E & T & A & _ & _ & G' & F' & K' & P').
    { intros k' Hk' E0. apply Hm. exists k'. split; [|exact E0]. eapply Permutation_in; [apply Permutation_sym; exact P|exact Hk']. }
    specialize (Hn rnd h (RandomHeight_false _ _ Hr)).
    assert (R : forall fuel, length ks + 13 <= fuel -> exists m' p, aInsert cmp ksize enc dec dbg false fuel m l k ans = Ret (m', mk_alist (a_head l) (max_height_ (sl_mem s')) rnd) /\
      sim (addrs ++ [p]) (sl_mem s') m' others /\ forall r, In r others -> same_bytes m m' r).
    { intros fuel Hf. apply (aInsert_ok cmp ksize enc dec Hkc dbg fuel addrs s m others l k ans h rnd s'); auto.
      - apply B.
      - apply (built_pos _ _ _ _ _ _ B).
      - apply B.
      - apply B.
      - apply (built_fuel _ _ _ _ _ _ _ B Hf). }
    destruct (R (length ks + 13) (le_n _)) as (m' & p & E1 & S1 & F1).
    exists m', (mk_alist (a_head l) (max_height_ (sl_mem s')) rnd), (final g tr), p.
    unfold at_ghost in A. split; [|split; [|split; [apply (trace_good cmp Hc g tr (b_good _ _ _ _ _ _ B) T)|exact F1]]].
    - intros fuel Hf. apply (aInsert_more (length ks + 13)); assumption.
    - split; cbn [a_head a_max].
      + rewrite <- A. exact S1.
      + exact G'.
      + exact F'.
      + exists ks'. split; [exact K'|]. etransitivity; [|exact P']. constructor. exact P.
      + rewrite (b_head _ _ _ _ _ _ B). unfold addr. rewrite app_nth1; [reflexivity|]. apply (built_pos _ _ _ _ _ _ B).
      + rewrite A. reflexivity.
      + rewrite app_length, (b_len _ _ _ _ _ _ B). cbn [length]. lia.
  Qed.

  Definition later (w : world) (addrs : list N) (g : @ghost K) (addrs' : list N) (g' : @ghost K) : Prop :=
    (exists t, addrs' = addrs ++ t) /\ (w_list w <> None -> mono g g').
  Lemma does_ok w w' addrs g : J w addrs g -> does cmp ksize enc dec dbg k0 w w' -> exists addrs' g', J w' addrs' g' /\ later w addrs g addrs' g' /\
    (w_list w <> None -> w_list w' <> None).
  Proof.
    assert (Hw : forall M addrs m others r a d m', sim addrs M m others -> In r others -> (fst r <= a)%N ->
      (a + N.of_nat (length d) <= fst r + snd r)%N -> store_at m a d = Ret m' -> sim addrs M m' others).
    { intros M addrs0 m others r a d m' S Hr Ha Hd E. unfold store_at in E. destruct (in_block m a (N.of_nat (length d))); [|discriminate].
      injection E as <-. apply (sim_bytes _ _ _ Hkc _ _ m); [exact S|reflexivity|reflexivity|].
      intros q z Hq Hz. cbn [m_bytes]. apply put_out. intros Hcv. pose proof (all_disjoint _ _ _ _ _ _ S) as D. apply pd_app in D as (_ & _ & D).
      apply (D q r Hq Hr z Hz). unfold covers in *. cbn [fst snd] in Hcv. lia. }
    intros HJ D. destruct D as [m l rs ks o ans m' p Hl Hn E|m l rs ks r a d m' Hr Ha Hd E|m rs ans m' l' Hn E|fuel m l rs ks k ans m' l' Hm Hn E]; unfold J in *; cbn [w_list w_keys w_mem w_others] in *.
    - exists addrs, g. split; [|split; [split; [exists []; rewrite app_nil_r; reflexivity|intros _; apply mono_refl]|auto]].
      destruct l as [l|].
      + destruct (arena_call_ok _ _ _ Hkc dbg addrs (g_mem g) m rs o ans (b_sim _ _ _ _ _ _ HJ) Hl Hn) as (m1 & p1 & E1 & S1 & _).
        rewrite E in E1. injection E1 as <- <-. destruct HJ. split; auto.
      + destruct HJ as (-> & -> & S). destruct (arena_call_ok _ _ _ Hkc dbg [] none m rs o ans S Hl Hn) as (m1 & p1 & E1 & S1 & _).
        rewrite E in E1. injection E1 as <- <-. auto.
    - exists addrs, g. split; [|split; [split; [exists []; rewrite app_nil_r; reflexivity|intros _; apply mono_refl]|auto]].
      destruct l as [l|].
      + pose proof (Hw _ _ _ _ _ _ _ _ (b_sim _ _ _ _ _ _ HJ) Hr Ha Hd E). destruct HJ. split; auto.
      + destruct HJ as (-> & -> & S). pose proof (Hw _ _ _ _ _ _ _ _ S Hr Ha Hd E). auto.
    - destruct HJ as (-> & _ & S). destruct (aSkipList_ok _ _ _ Hkc dbg m rs k0 ans S Hn) as (m1 & p & E1 & S1 & _).
      assert (X : m1 = m' /\ l' = mk_alist p 1 (Random_new 0xdeadbeef)) by (split; congruence). destruct X as (-> & ->).
      exists [p], (ghost0 k0). split; [|split; [split; [exists [p]; reflexivity|intros H; contradiction]|intros H; contradiction]].
      split; cbn [a_head a_max]; try reflexivity.
      + exact S1.
      + apply ghost0_good.
      + apply ghost0_full.
      + exists []. split; constructor.
    - destruct (built_insert _ _ _ _ _ _ k ans HJ Hm Hn) as (m1 & l1 & g' & p & E1 & B1 & M1 & _).
      pose proof (E1 (max fuel (length ks + 13)) (Nat.le_max_r _ _)) as E2.
      rewrite (aInsert_more _ _ _ _ _ _ _ E (Nat.le_max_l _ _)) in E2. injection E2 as <- <-.
      exists (addrs ++ [p]), g'. split; [exact B1|]. split; [|discriminate]. split; [eauto|]. intros _. exact M1.
  Qed.
  Lemma many_ok w w' addrs g : J w addrs g -> does_many cmp ksize enc dec dbg k0 w w' -> exists addrs' g', J w' addrs' g' /\ later w addrs g addrs' g' /\
    (w_list w <> None -> w_list w' <> None).
  Proof.
    intros HJ D. induction D as [w|w w1 w2 D IH D2].
    - exists addrs, g. split; [exact HJ|]. split; [|auto]. split; [exists []; rewrite app_nil_r; reflexivity|intros _; apply mono_refl].
    - destruct (IH HJ) as (a1 & g1 & J1 & ((t1 & ->) & M1) & N1). destruct (does_ok _ _ _ _ J1 D2) as (a2 & g2 & J2 & ((t2 & ->) & M2) & N2).
      exists ((addrs ++ t1) ++ t2), g2. split; [exact J2|]. split; [|auto]. split; [exists (t1 ++ t2); rewrite app_assoc; reflexivity|].
      intros H. eapply mono_trans; [exact (M1 H)|exact (M2 (N1 H))].
  Qed.
  Lemma reachable_ok w : reachable cmp ksize enc dec dbg k0 w -> exists addrs g, J w addrs g.
  Proof.
    intros R. assert (J0 : J world0 [] (ghost0 k0)) by (split; [reflexivity|split; [reflexivity|apply sim_start]]).
    destruct (many_ok _ _ _ _ J0 R) as (a & g & H & _). eauto.
  Qed.

  Lemma placed_at_ok fuel g addrs m l others ks it : built g addrs m l others ks -> length ks + 13 <= fuel ->
    placed_at cmp ksize dec dbg fuel m l it -> exists it0, positioned cmp dbg (g_mem g) it0 /\ it = ptr addrs it0 /\ ok_link addrs it0.
  Proof.
    intros B Hf H. pose proof (b_sim _ _ _ _ _ _ B) as S. pose proof (b_good _ _ _ _ _ _ B) as G. pose proof (b_full _ _ _ _ _ _ B) as F.
    pose proof (built_fuel _ _ _ _ _ _ _ B Hf) as Hsf. pose proof (built_pos _ _ _ _ _ _ B) as Hp.
    pose proof (b_head _ _ _ _ _ _ B) as Hh. pose proof (b_max _ _ _ _ _ _ B) as Hmx.
    assert (Hin : forall it0, positioned cmp dbg (g_mem g) it0 -> aValid (ptr addrs it0) = true -> ok_link addrs it0 ->
      exists p a s, it0 = Some a /\ g_l g = p ++ a :: s).
    { intros it0 Hpos Hv Hok. rewrite (aValid_ok _ _ _ Hkc _ _ _ _ S it0 Hok) in Hv. destruct it0 as [a|]; [|discriminate].
      pose proof (positioned_in cmp Hc g G F dbg _ Hpos) as Hi. cbn in Hi. apply in_split in Hi as (p & s & E). eauto. }
    induction H as [it E|it E|t it E|it it' _ IH Hv E|it it' _ IH Hv E].
    - pose proof (SeekToFirst_ok cmp g G F) as E0. destruct (aFirst_ok _ _ _ Hkc _ _ _ _ S l Hh _ E0) as (E1 & Hok).
      rewrite E in E1. injection E1 as ->. eexists. split; [eapply pos_first; exact E0|]. auto.
    - pose proof (SeekToLast_ok cmp Hc g G F) as E0. destruct (aLast_ok _ _ _ Hkc _ _ _ _ S l Hh Hmx Hp fuel Hsf _ E0) as (E1 & Hok).
      rewrite E in E1. injection E1 as ->. eexists. split; [eapply pos_last; exact E0|]. auto.
    - destruct (iSeek_ok cmp Hc g G F t) as (p & s & E0 & _). destruct (aSeek_ok _ _ _ _ Hkc _ _ _ _ S l Hh Hmx fuel Hsf _ _ E0) as (E1 & Hok).
      rewrite E in E1. injection E1 as ->. eexists. split; [eapply pos_seek; exact E0|]. auto.
    - destruct IH as (it0 & Hpos & -> & Hok0). destruct (Hin it0 Hpos Hv Hok0) as (p & a & s & -> & El).
      pose proof (iNext_ok cmp g G F dbg p a s El) as E0. destruct (aNext0_ok _ _ _ Hkc _ _ _ _ S dbg (Some a) _ Hok0 E0) as (E1 & Hok).
      rewrite E in E1. injection E1 as ->. eexists. split; [eapply pos_next; [exact Hpos|reflexivity|exact E0]|]. auto.
    - destruct IH as (it0 & Hpos & -> & Hok0). destruct (Hin it0 Hpos Hv Hok0) as (p & a & s & -> & El).
      pose proof (iPrev_ok cmp Hc g G F dbg p a s El) as E0. destruct (aPrev_ok _ _ _ _ Hkc _ _ _ _ S l Hh Hmx Hp fuel Hsf dbg (Some a) _ Hok0 E0) as (E1 & Hok).
      rewrite E in E1. injection E1 as ->. eexists. split; [eapply pos_prev; [exact Hpos|reflexivity|exact E0]|]. auto.
  Qed.

  Lemma built_sorted g addrs m l others ks : built g addrs m l others ks -> exists sk, keysof g sk /\ sorted_view cmp ks sk.
  Proof.
    intros B. destruct (b_keys _ _ _ _ _ _ B) as (sk & HK & P). exists sk. split; [exact HK|]. split; [exact P|].
    eapply keysof_sorted; [exact (b_good _ _ _ _ _ _ B)|exact HK].
  Qed.
End Props.

(** C99: Contains answers exactly for the keys inserted. *)
Theorem C99_contains :
  forall (K : Type) (cmp : K -> K -> Z) ksize enc dec dbg k0, comparator_ok cmp -> key_codec ksize enc dec ->
  forall w l fuel k, reachable cmp ksize enc dec dbg k0 w -> w_list w = Some l -> length (w_keys w) + 13 <= fuel ->
    exists b, aContains cmp ksize dec fuel (w_mem w) l k = Ret b /\ (b = true <-> member cmp k (w_keys w)).
Proof.
  intros K cmp ksize enc dec dbg k0 Hc Hkc w l fuel k R El Hf.
  destruct (reachable_ok cmp ksize enc dec dbg k0 Hc Hkc w R) as (addrs & g & HJ). unfold J in HJ. rewrite El in HJ.
  destruct (built_sorted _ _ _ _ _ _ _ _ _ HJ) as (sk & HK & P & Sd).
  destruct (Contains_ok cmp Hc g sk (b_good _ _ _ _ _ _ _ _ _ HJ) (b_full _ _ _ _ _ _ _ _ _ HJ) HK k) as (b & E & Hb).
  exists b. split.
  - eapply (aContains_ok _ _ _ _ Hkc); [exact (b_sim _ _ _ _ _ _ _ _ _ HJ)|exact (b_head _ _ _ _ _ _ _ _ _ HJ)|exact (b_max _ _ _ _ _ _ _ _ _ HJ)|eapply built_fuel; eauto|exact E].
  - rewrite Hb. symmetry. apply member_perm. exact P.
Qed.
Print Assumptions C99_contains.

(** C99: forward and backward iteration visit all keys in order; Seek goes to the
    smallest key not below the target. *)
Theorem C99_iteration :
  forall (K : Type) (cmp : K -> K -> Z) ksize enc dec dbg k0, comparator_ok cmp -> key_codec ksize enc dec ->
  forall w l fuel, reachable cmp ksize enc dec dbg k0 w -> w_list w = Some l -> length (w_keys w) + 13 <= fuel ->
    exists sk, sorted_view cmp (w_keys w) sk /\
      (exists it, ait_SeekToFirst ksize (w_mem w) l = Ret it /\
         walks (ait_key ksize dec dbg (w_mem w)) (ait_Next ksize dbg (w_mem w)) it sk) /\
      (exists it, ait_SeekToLast ksize fuel (w_mem w) l = Ret it /\
         walks (ait_key ksize dec dbg (w_mem w)) (ait_Prev cmp ksize dec dbg fuel (w_mem w) l) it (rev sk)) /\
      (forall t, exists it, ait_Seek cmp ksize dec fuel (w_mem w) l t = Ret it /\
         walks (ait_key ksize dec dbg (w_mem w)) (ait_Next ksize dbg (w_mem w)) it (filter (fun k => (0 <=? cmp k t)%Z) sk)).
Proof.
  intros K cmp ksize enc dec dbg k0 Hc Hkc w l fuel R El Hf.
  destruct (reachable_ok cmp ksize enc dec dbg k0 Hc Hkc w R) as (addrs & g & HJ). unfold J in HJ. rewrite El in HJ.
  destruct (built_sorted _ _ _ _ _ _ _ _ _ HJ) as (sk & HK & Hs).
  pose proof (b_good _ _ _ _ _ _ _ _ _ HJ) as G. pose proof (b_full _ _ _ _ _ _ _ _ _ HJ) as F. pose proof (b_sim _ _ _ _ _ _ _ _ _ HJ) as S.
  pose proof (b_head _ _ _ _ _ _ _ _ _ HJ) as Hh. pose proof (b_max _ _ _ _ _ _ _ _ _ HJ) as Hmx.
  pose proof (built_fuel _ _ _ _ _ _ _ _ _ _ HJ Hf) as Hsf. pose proof (built_pos _ _ _ _ _ _ _ _ _ HJ) as Hp.
  assert (Hstep : forall it it', ok_link addrs it -> iter_Next dbg (g_mem g) it = Ret it' -> ait_Next ksize dbg (w_mem w) (ptr addrs it) = Ret (ptr addrs it') /\ ok_link addrs it')
    by (intros it it' Hok E; exact (aNext0_ok _ _ _ Hkc _ _ _ _ S dbg it it' Hok E)).
  exists sk. split; [exact Hs|]. split; [|split].
  - pose proof (SeekToFirst_ok cmp g G F) as E0. destruct (aFirst_ok _ _ _ Hkc _ _ _ _ S l Hh _ E0) as (E1 & Hok). eexists. split; [exact E1|].
    eapply (aWalk_ok _ _ _ Hkc _ _ _ _ S); [exact Hstep|exact Hok|]. exact (walk_fwd cmp g G F dbg (g_l g) [] sk eq_refl HK).
  - pose proof (SeekToLast_ok cmp Hc g G F) as E0. destruct (aLast_ok _ _ _ Hkc _ _ _ _ S l Hh Hmx Hp fuel Hsf _ E0) as (E1 & Hok). eexists. split; [exact E1|].
    eapply (aWalk_ok _ _ _ Hkc _ _ _ _ S dbg (iter_Prev cmp dbg (g_mem g))); [|exact Hok|].
    + intros it it' H1 H2. exact (aPrev_ok _ _ _ _ Hkc _ _ _ _ S l Hh Hmx Hp fuel Hsf dbg it it' H1 H2).
    + eapply (walk_bwd cmp Hc g G F dbg (rev (g_l g)) []); [rewrite rev_involutive, app_nil_r; reflexivity|]. apply forall2_rev. exact HK.
  - intros t. destruct (iSeek_ok cmp Hc g G F t) as (p & s & E0 & Eg & Hlt & Hge). destruct (aSeek_ok _ _ _ _ Hkc _ _ _ _ S l Hh Hmx fuel Hsf _ _ E0) as (E1 & Hok).
    eexists. split; [exact E1|]. eapply (aWalk_ok _ _ _ Hkc _ _ _ _ S); [exact Hstep|exact Hok|].
    pose proof HK as HK'. unfold keysof in HK'. rewrite Eg in HK'. destruct (forall2_app_inv _ _ _ _ HK') as (k1 & k2 & Ek & H1 & H2).
    rewrite Ek, filter_app, filter_none, filter_all.
    + cbn [app]. eapply (walk_fwd cmp g G F dbg s p); auto.
    + eapply forall2_forall; [|exact Hge|exact H2]. intros a b (ka & A1 & A2) A3. cbn in *. rewrite A1 in A3. injection A3 as ->. apply Z.leb_le. exact A2.
    + eapply forall2_forall; [|exact Hlt|exact H1]. intros a b (ka & A1 & A2) A3. cbn in *. rewrite A1 in A3. injection A3 as ->. apply Z.leb_gt. exact A2.
Qed.
Print Assumptions C99_iteration.

(** C99: the constructor and an Insert of a new key return, and leave every byte
    the rest of the program got from the arena as it was. *)
Theorem C99_construct_and_insert_return :
  forall (K : Type) (cmp : K -> K -> Z) ksize enc dec dbg k0, comparator_ok cmp -> key_codec ksize enc dec ->
  forall w, reachable cmp ksize enc dec dbg k0 w ->
    (w_list w = None -> forall ans, new_ok (w_mem w) (OpAllocateAligned (node_size ksize 12)) ans ->
       exists m' l', aSkipList ksize enc dbg (w_mem w) k0 ans = Ret (m', l') /\
         forall r, In r (w_others w) -> same_bytes (w_mem w) m' r) /\
    (forall l fuel k ans, w_list w = Some l -> length (w_keys w) + 13 <= fuel -> ~ member cmp k (w_keys w) ->
       insert_new_ok ksize (w_mem w) l ans ->
       exists m' l', aInsert cmp ksize enc dec dbg false fuel (w_mem w) l k ans = Ret (m', l') /\
         forall r, In r (w_others w) -> same_bytes (w_mem w) m' r).
Proof.
  intros K cmp ksize enc dec dbg k0 Hc Hkc w R.
  destruct (reachable_ok cmp ksize enc dec dbg k0 Hc Hkc w R) as (addrs & g & HJ). unfold J in HJ. split.
  - intros El ans Hn. rewrite El in HJ. destruct HJ as (_ & _ & S). destruct (aSkipList_ok _ _ _ Hkc dbg _ _ k0 ans S Hn) as (m' & p & E & _ & F). eauto.
  - intros l fuel k ans El Hf Hm Hn. rewrite El in HJ.
    destruct (built_insert cmp ksize enc dec dbg Hc Hkc _ _ _ _ _ _ k ans HJ Hm Hn) as (m' & l' & g' & p & E & _ & _ & F). eauto.
Qed.
Print Assumptions C99_construct_and_insert_return.

(** C99, the other direction: the rest of the program gets regions that do not
    overlap one another, can write all of each, and its requests are served. *)
Theorem C99_program_served :
  forall (K : Type) (cmp : K -> K -> Z) ksize enc dec dbg k0, comparator_ok cmp -> key_codec ksize enc dec ->
  forall w, reachable cmp ksize enc dec dbg k0 w ->
    pairwise_disjoint (w_others w) /\
    (forall r a d, In r (w_others w) -> d <> [] -> (fst r <= a)%N -> (a + N.of_nat (length d) <= fst r + snd r)%N ->
       exists m', store_at (w_mem w) a d = Ret m') /\
    (forall o ans, legal o -> new_ok (w_mem w) o ans -> exists m' p, arena_call dbg (w_mem w) o ans = Ret (m', p) /\ m_bytes m' = m_bytes (w_mem w)).
Proof.
  intros K cmp ksize enc dec dbg k0 Hc Hkc w R.
  destruct (reachable_ok cmp ksize enc dec dbg k0 Hc Hkc w R) as (addrs & g & HJ).
  assert (S : exists a M, sim ksize enc a M (w_mem w) (w_others w)).
  { unfold J in HJ. destruct (w_list w); [eexists _, _; apply HJ|]. destruct HJ as (_ & _ & S). eauto. }
  destruct S as (a0 & M & S). split; [|split].
  - pose proof (all_disjoint _ _ _ _ _ _ S) as D. apply pd_app in D as (_ & D & _). exact D.
  - intros r a d Hr Hd H1 H2. eexists. apply (store_ret _ r).
    + apply (all_placed _ _ _ _ _ _ S). apply in_or_app. auto.
    + destruct d; [congruence|]. cbn [length] in H2. lia.
    + exact H1.
    + exact H2.
  - intros o ans Hl Hn. destruct (arena_call_ok _ _ _ Hkc dbg _ _ _ _ o ans S Hl Hn) as (m' & p & E & _ & Eb & _). eauto.
Qed.
Print Assumptions C99_program_served.

(** C99: an iterator may be kept while the program and the list go on: it still has
    its key, and Next takes it to the least greater key of the list as it is then. *)
Theorem C99_iterator_kept :
  forall (K : Type) (cmp : K -> K -> Z) ksize enc dec dbg k0, comparator_ok cmp -> key_codec ksize enc dec ->
  forall w l fuel it k w', reachable cmp ksize enc dec dbg k0 w -> w_list w = Some l -> length (w_keys w) + 13 <= fuel ->
    placed_at cmp ksize dec dbg fuel (w_mem w) l it -> aValid it = true ->
    ait_key ksize dec dbg (w_mem w) it = Ret k ->
    does_many cmp ksize enc dec dbg k0 w w' ->
    ait_key ksize dec dbg (w_mem w') it = Ret k /\
    exists it', ait_Next ksize dbg (w_mem w') it = Ret it' /\
      (aValid it' = false -> forall k', In k' (w_keys w') -> (cmp k' k <= 0)%Z) /\
      (aValid it' = true -> exists k2, ait_key ksize dec dbg (w_mem w') it' = Ret k2 /\ In k2 (w_keys w') /\ (cmp k k2 < 0)%Z /\
         forall k', In k' (w_keys w') -> (cmp k k' < 0)%Z -> (cmp k2 k' <= 0)%Z).
Proof.
  intros K cmp ksize enc dec dbg k0 Hc Hkc w l fuel it k w' R El Hf Hpl Hv Hk D.
  destruct (reachable_ok cmp ksize enc dec dbg k0 Hc Hkc w R) as (addrs & g & HJ).
  destruct (many_ok cmp ksize enc dec dbg k0 Hc Hkc w w' addrs g HJ D) as (addrs' & g' & HJ' & ((t & ->) & M) & HN).
  unfold J in HJ. rewrite El in HJ. assert (El' : w_list w <> None) by congruence. specialize (M El'). specialize (HN El').
  unfold J in HJ'. destruct (w_list w') as [l'|]; [|congruence]. clear HN El' D.
  destruct (placed_at_ok cmp ksize enc dec dbg Hc Hkc fuel _ _ _ _ _ _ _ HJ Hf Hpl) as (it0 & Hpos & -> & Hok).
  pose proof (b_sim _ _ _ _ _ _ _ _ _ HJ) as S. pose proof (b_sim _ _ _ _ _ _ _ _ _ HJ') as S'.
  pose proof (b_good _ _ _ _ _ _ _ _ _ HJ) as G. pose proof (b_full _ _ _ _ _ _ _ _ _ HJ) as F.
  pose proof (b_good _ _ _ _ _ _ _ _ _ HJ') as G'. pose proof (b_full _ _ _ _ _ _ _ _ _ HJ') as F'.
  rewrite (aValid_ok _ _ _ Hkc _ _ _ _ S it0 Hok) in Hv. destruct it0 as [a|]; [|discriminate].
  pose proof (positioned_in cmp Hc g G F dbg _ Hpos) as Hi. cbn in Hi.
  destruct (key_valid cmp g G a Hi) as (ka & Hka).
  assert (Ek : forall (gg : @ghost K) kk, key_of (g_mem gg) a = Ret kk -> iter_key dbg (g_mem gg) (Some a) = Ret kk).
  { intros gg kk E. unfold iter_key, iter_node, assert_, Valid. cbn [negb]. rewrite andb_false_r. exact E. }
  rewrite (akey_ok _ _ _ Hkc _ _ _ _ S dbg (Some a) ka (Ek _ _ Hka)) in Hk. injection Hk as ->.
  pose proof (m_key _ _ M a k Hka) as Hka'. pose proof (m_l _ _ M a Hi) as Hi'.
  assert (Ep : ptr addrs (Some a) = ptr (addrs ++ t) (Some a)).
  { cbn [ptr]. unfold addr. rewrite app_nth1; [reflexivity|exact Hok]. }
  rewrite Ep. assert (Hok' : ok_link (addrs ++ t) (Some a)) by (cbn [ok_link] in *; rewrite app_length; lia).
  split; [exact (akey_ok _ _ _ Hkc _ _ _ _ S' dbg (Some a) k (Ek _ _ Hka'))|].
  destruct (in_split _ _ Hi') as (p & s & Eg).
  pose proof (iNext_ok cmp g' G' F' dbg p a s Eg) as En.
  destruct (aNext0_ok _ _ _ Hkc _ _ _ _ S' dbg (Some a) _ Hok' En) as (EN & Hok2).
  exists (ptr (addrs ++ t) (hd_error s)). split; [exact EN|]. rewrite (aValid_ok _ _ _ Hkc _ _ _ _ S' _ Hok2).
  destruct (built_sorted _ _ _ _ _ _ _ _ _ HJ') as (sk & HK & P & Sd).
  pose proof HK as HK1. unfold keysof in HK1. rewrite Eg in HK1.
  destruct (forall2_app_inv _ _ _ _ HK1) as (k1 & kr & Esk & Q1 & Q2). inversion Q2 as [|a' ka' s' k2 Qa Qs]. subst a' s' kr.
  assert (ka' = k) by congruence. subst ka'.
  assert (Hin : forall k', In k' (w_keys w') <-> In k' k1 \/ k' = k \/ In k' k2).
  { intros k'. assert (X : In k' (w_keys w') <-> In k' sk) by (split; intros Hk'; (eapply Permutation_in; [|exact Hk']); [exact P|apply Permutation_sym; exact P]).
    rewrite X, Esk, in_app_iff. cbn [In]. intuition congruence. }
  assert (Hb : forall k', In k' k1 -> (cmp k' k < 0)%Z).
  { intros k' Hk'. rewrite Esk in Sd. clear - Sd Hk'. induction k1 as [|z k1 IH]; cbn [app] in *; [contradiction|].
    apply StronglySorted_inv in Sd as [Sd Hf]. rewrite Forall_forall in Hf. destruct Hk' as [->|Hk']; [|auto]. apply Hf, in_or_app. cbn. auto. }
  assert (Ss : StronglySorted (fun a b => (cmp a b < 0)%Z) (k :: k2)).
  { rewrite Esk in Sd. clear - Sd. induction k1 as [|z k1 IH]; cbn [app] in *; [exact Sd|]. apply StronglySorted_inv in Sd as [Sd _]. auto. }
  apply StronglySorted_inv in Ss as [Ss Hf2]. rewrite Forall_forall in Hf2. split.
  - intros Hv'. destruct s as [|b s]; [|discriminate]. inversion Qs; subst k2. intros k' Hk'. apply Hin in Hk' as [Hk'|[->|[]]].
    + specialize (Hb k' Hk'). lia.
    + rewrite (cmp_refl cmp Hc). lia.
  - intros Hv'. destruct s as [|b s]; [discriminate|]. inversion Qs as [|b' kb s' k3 Qb Qs']. subst. exists kb. split; [|split; [|split]].
    + apply (akey_ok _ _ _ Hkc _ _ _ _ S' dbg (Some b)). unfold iter_key, iter_node, assert_, Valid. cbn [negb]. rewrite andb_false_r. exact Qb.
    + apply Hin. right. right. left. reflexivity.
    + apply Hf2. left. reflexivity.
    + intros k' Hk' Hlt. apply Hin in Hk' as [Hk'|[->|[<-|Hk']]].
      * specialize (Hb k' Hk'). apply (cmp_neg cmp Hc) in Hb. lia.
      * rewrite (cmp_refl cmp Hc) in Hlt. lia.
      * rewrite (cmp_refl cmp Hc). lia.
      * apply StronglySorted_inv in Ss as [_ Hf3]. rewrite Forall_forall in Hf3. specialize (Hf3 k' Hk'). lia.
Qed.
Print Assumptions C99_iterator_kept.

(** A concrete program meets the hypotheses: it takes 5 bytes, builds a list of
    one-byte keys, inserts 7, writes its bytes, inserts 3. *)
Definition ex_cmp (a b : N) : Z := (Z.of_N a - Z.of_N b)%Z.
Definition ex_enc (k : N) : list N := [k].
Definition ex_dec (l : list N) : option N := match l with [k] => Some k | _ => None end.
Lemma ex_codec : key_codec 1 ex_enc ex_dec.
Proof. split; [reflexivity|split; reflexivity|reflexivity]. Qed.
Lemma ex_cmp_ok : comparator_ok ex_cmp.
Proof. split; unfold ex_cmp; intros; lia. Qed.
Definition ex_run {A} (d : A) (o : outcome A) : A := match o with Ret a => a | _ => d end.
Definition ex1 : amem * N := ex_run (amem0, 0%N) (arena_call true amem0 (OpAllocate 5) 4096%N).
Definition ex2 : amem * alist := ex_run (amem0, mk_alist 0 0 0) (aSkipList 1 ex_enc true (fst ex1) 0%N 0).
Definition ex3 : amem * alist := ex_run (amem0, mk_alist 0 0 0) (aInsert ex_cmp 1 ex_enc ex_dec true false 13 (fst ex2) (snd ex2) 7%N 0).
Definition ex4 : amem := ex_run amem0 (store_at (fst ex3) 4097 [255; 255; 255; 255]%N).
Definition ex5 : amem * alist := ex_run (amem0, mk_alist 0 0 0) (aInsert ex_cmp 1 ex_enc ex_dec true false 14 ex4 (snd ex3) 3%N 0).

Ltac no_new := let E := fresh in intros ? ? ? E; lazy in E; injection E as <- <- <-; exact Logic.I.
Example C99_hypotheses_satisfiable :
  let reach := reachable ex_cmp 1 ex_enc ex_dec true 0%N in
  reach (mk_world (fst ex5) (Some (snd ex5)) [(4096, 5)]%N [3; 7]%N) /\
  aContains ex_cmp 1 ex_dec 15 (fst ex5) (snd ex5) 3%N = Ret true /\
  aContains ex_cmp 1 ex_dec 15 (fst ex5) (snd ex5) 5%N = Ret false /\
  (let! it := ait_SeekToFirst 1 (fst ex5) (snd ex5) in let! k := ait_key 1 ex_dec true (fst ex5) it in
   let! it2 := ait_Next 1 true (fst ex5) it in let! k2 := ait_key 1 ex_dec true (fst ex5) it2 in
   let! it3 := ait_Next 1 true (fst ex5) it2 in Ret (k, k2, aValid it3)) = Ret (3%N, 7%N, false) /\
  map (m_bytes (fst ex5)) [4096; 4097; 4100; 4101]%N = [None; Some 255; Some 255; None]%N.
Proof.
  intros reach.
  assert (R1 : reach (mk_world (fst ex1) None [(4096, 5)]%N [])).
  { eapply many_snoc; [apply many_nil|]. apply (does_alloc _ _ _ _ _ _ _ None [] [] (OpAllocate 5) 4096 _ 4096%N).
    - split; reflexivity.
    - intros a p ev E. lazy in E. injection E as <- <- <-. split; [|exact Logic.I]. repeat split; try reflexivity; try constructor.
      vm_compute. discriminate.
    - reflexivity. }
  assert (R2 : reach (mk_world (fst ex2) (Some (snd ex2)) [(4096, 5)]%N [])).
  { eapply many_snoc; [exact R1|]. apply (does_construct _ _ _ _ _ _ _ _ 0).
    - no_new.
    - destruct (C99_construct_and_insert_return _ _ _ _ _ _ _ ex_cmp_ok ex_codec _ R1) as (H & _).
      destruct (H eq_refl 0%N) as (m' & l' & E & _); [no_new|]. cbn [w_mem] in E. unfold ex2. rewrite E. reflexivity. }
  assert (R3 : reach (mk_world (fst ex3) (Some (snd ex3)) [(4096, 5)]%N [7]%N)).
  { eapply many_snoc; [exact R2|]. assert (Hm : ~ member ex_cmp 7%N []) by (intros (k & [] & _)).
    assert (Hn : insert_new_ok 1 (fst ex2) (snd ex2) 0%N) by (intros r h E; lazy in E; injection E as <- <-; no_new).
    apply (does_insert _ _ _ _ _ _ 13 _ _ _ _ _ 0); [exact Hm|exact Hn|].
    destruct (C99_construct_and_insert_return _ _ _ _ _ _ _ ex_cmp_ok ex_codec _ R2) as (_ & H).
    destruct (H (snd ex2) 13 7%N 0%N eq_refl (le_n _) Hm Hn) as (m' & l' & E & _). cbn [w_mem] in E. unfold ex3. rewrite E. reflexivity. }
  assert (R4 : reach (mk_world ex4 (Some (snd ex3)) [(4096, 5)]%N [7]%N)).
  { eapply many_snoc; [exact R3|]. apply (does_write _ _ _ _ _ _ _ _ _ _ (4096, 5)%N 4097 [255; 255; 255; 255]%N).
    - left. reflexivity.
    - cbn. lia.
    - cbn. lia.
    - destruct (C99_program_served _ _ _ _ _ _ _ ex_cmp_ok ex_codec _ R3) as (_ & H & _).
      destruct (H (4096, 5)%N 4097%N [255; 255; 255; 255]%N) as (m' & E); [left; reflexivity|discriminate|cbn; lia|cbn; lia|].
      cbn [w_mem] in E. unfold ex4. rewrite E. reflexivity. }
  split.
  { eapply many_snoc; [exact R4|].
    assert (Hm : ~ member ex_cmp 3%N [7]%N) by (intros (k & [<-|[]] & E); discriminate).
    assert (Hn : insert_new_ok 1 ex4 (snd ex3) 0%N) by (intros r h E; lazy in E; injection E as <- <-; no_new).
    apply (does_insert _ _ _ _ _ _ 14 _ _ _ _ _ 0); [exact Hm|exact Hn|].
    destruct (C99_construct_and_insert_return _ _ _ _ _ _ _ ex_cmp_ok ex_codec _ R4) as (_ & H).
    destruct (H (snd ex3) 14 3%N 0%N eq_refl (le_n _) Hm Hn) as (m' & l' & E & _). cbn [w_mem] in E. unfold ex5. rewrite E. reflexivity. }
  split; [vm_compute; reflexivity|]. split; [vm_compute; reflexivity|]. split; vm_compute; reflexivity.
Qed.
