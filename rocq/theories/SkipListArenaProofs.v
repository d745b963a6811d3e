(** SkipListArenaProofs.v -- the list in arena memory does what the list of
    SkipList.v does: a simulation. *)
From Coq Require Import List Arith ZArith NArith Lia Bool Sorted Permutation.
From Verif Require Import Outcome Random Arena ArenaSpec ArenaProofs SkipList SkipListSpec SkipListProofs
  SkipListInsert SkipListSeq SkipListArena SkipListArenaSpec.
Import ListNotations.
Local Open Scope outcome_scope.
Local Opaque N.pow N.sub N.mul N.div N.modulo.

(** *** Bytes *)
Lemma le_bytes_length n : forall x, length (le_bytes n x) = n.
Proof. induction n as [|n IH]; intros x; cbn [le_bytes length]; [reflexivity|]. rewrite IH. reflexivity. Qed.
Lemma le_round n : forall x, (x < 256 ^ N.of_nat n)%N -> le_value (le_bytes n x) = x.
Proof.
  induction n as [|n IH]; intros x Hx; cbn [le_bytes le_value].
  - cbn in Hx. change (256 ^ 0)%N with 1%N in Hx. lia.
  - rewrite IH.
    + pose proof (N.div_mod x 256 ltac:(discriminate)). lia.
    + apply N.div_lt_upper_bound; [discriminate|]. rewrite <- N.pow_succ_r'. rewrite Nat2N.inj_succ in Hx. exact Hx.
Qed.
Lemma le_round8 x : (x < 2 ^ 64)%N -> le_value (le_bytes 8 x) = x.
Proof. intros H. apply le_round. exact H. Qed.

Definition holds (m : amem) (a : N) (d : list N) : Prop :=
  forall j, j < length d -> m_bytes m (a + N.of_nat j) = nth_error d j.

Lemma bytes_at_holds m d : forall a, holds m a d -> bytes_at m a (length d) = Ret d.
Proof.
  induction d as [|b d IH]; intros a H; [reflexivity|]. cbn [length bytes_at].
  pose proof (H 0 ltac:(cbn; lia)) as H0. rewrite N.add_0_r in H0. cbn [nth_error] in H0. rewrite H0.
  rewrite (IH (a + 1)%N); [reflexivity|]. intros j Hj. specialize (H (S j) ltac:(cbn; lia)). cbn [nth_error] in H.
  rewrite <- H. f_equal. lia.
Qed.

Definition blocks_ok (m : amem) : Prop := Forall (fun b => (0 < fst b /\ fst b + snd b <= 2 ^ 64)%N) (m_live m).

Lemma in_block_placed m r a n : placed (m_live m) r -> (0 < snd r)%N -> (fst r <= a)%N -> (a + n <= fst r + snd r)%N ->
  in_block m a n = true.
Proof.
  intros [H|(b & Hb & H1 & H2)] Hp Ha Hn; [lia|]. unfold in_block. apply existsb_exists. exists b. split; [exact Hb|].
  apply andb_true_iff. split; apply N.leb_le; lia.
Qed.
Lemma placed_bounds m r : blocks_ok m -> placed (m_live m) r -> (0 < snd r)%N -> (0 < fst r /\ fst r + snd r <= 2 ^ 64)%N.
Proof.
  intros B [H|(b & Hb & H1 & H2)] Hp; [lia|]. unfold blocks_ok in B. rewrite Forall_forall in B. destruct (B b Hb). lia.
Qed.

Lemma load_holds m r a d : placed (m_live m) r -> (0 < snd r)%N -> (fst r <= a)%N -> (a + N.of_nat (length d) <= fst r + snd r)%N ->
  holds m a d -> load m a (N.of_nat (length d)) = Ret d.
Proof. intros P Hp Ha Hn H. unfold load. rewrite (in_block_placed m r a _ P Hp Ha Hn), Nat2N.id. apply bytes_at_holds. exact H. Qed.
Lemma store_ret m r a d : placed (m_live m) r -> (0 < snd r)%N -> (fst r <= a)%N -> (a + N.of_nat (length d) <= fst r + snd r)%N ->
  store_at m a d = Ret (mk_amem (put_bytes (m_bytes m) a d) (m_live m) (m_arena m)).
Proof. intros P Hp Ha Hn. unfold store_at. rewrite (in_block_placed m r a _ P Hp Ha Hn). reflexivity. Qed.

Lemma put_out f a d x : ~ covers (a, N.of_nat (length d)) x -> put_bytes f a d x = f x.
Proof.
  intros H. unfold put_bytes, covers in *. cbn [fst snd] in H.
  destruct (N.leb_spec a x); destruct (N.ltb_spec x (a + N.of_nat (length d))); cbn [andb]; try reflexivity. lia.
Qed.
Lemma put_in f live ar a d : holds (mk_amem (put_bytes f a d) live ar) a d.
Proof.
  intros j Hj. cbn [m_bytes]. unfold put_bytes.
  destruct (N.leb_spec a (a + N.of_nat j)); [|lia]. destruct (N.ltb_spec (a + N.of_nat j) (a + N.of_nat (length d))); [|lia].
  cbn [andb]. f_equal. lia.
Qed.
Lemma holds_same m m' a d : (forall x, covers (a, N.of_nat (length d)) x -> m_bytes m' x = m_bytes m x) -> holds m a d -> holds m' a d.
Proof. intros E H j Hj. rewrite E; [apply H; exact Hj|]. unfold covers; cbn [fst snd]. lia. Qed.

(** *** Disjointness up to order *)
Lemma pd_app a b : pairwise_disjoint (a ++ b) <-> pairwise_disjoint a /\ pairwise_disjoint b /\ (forall x y, In x a -> In y b -> disjoint x y).
Proof.
  induction a as [|r a IH]; cbn [app pairwise_disjoint].
  - split; [intros H; split; [exact Logic.I|]; split; [exact H|intros x y []]|tauto].
  - rewrite IH, Forall_app. split.
    + intros ((H1 & H2) & H3 & H4 & H5). split; [auto|]. split; [auto|]. intros x y [<-|Hx] Hy; [|auto].
      rewrite Forall_forall in H2. auto.
    + intros ((H1 & H3) & H4 & H5). split; [split; [exact H1|]|split; [exact H3|split; [exact H4|]]].
      * apply Forall_forall. intros y Hy. apply H5; cbn; auto.
      * intros x y Hx Hy. apply H5; cbn; auto.
Qed.
Lemma pd_perm a b : Permutation a b -> pairwise_disjoint a -> pairwise_disjoint b.
Proof.
  induction 1 as [|x a b P IH|x y a|a b c _ IH1 _ IH2]; cbn [pairwise_disjoint]; auto.
  - intros [H1 H2]. split; [eapply Permutation_Forall; eauto|auto].
  - intros (H1 & H2 & H3). inversion H1; subst. split; [constructor; [apply disjoint_sym; assumption|assumption]|]. auto.
Qed.

(** *** The relation *)
Section Sim.
  Context {K : Type} (cmp : K -> K -> Z) (ksize : N) (enc : K -> list N) (dec : list N -> option K).
  Hypothesis Hkc : key_codec ksize enc dec.
  Notation mem := (mem K). Notation node := (node K).
  Notation next_off := (next_off ksize). Notation node_size := (node_size ksize).

  Lemma next_off_ge : (ksize <= next_off /\ next_off < 2 ^ 32 + 8)%N.
  Proof.
    unfold SkipListArena.next_off. pose proof (kc_bound _ _ _ Hkc) as [_ H].
    pose proof (N.div_mod (ksize + 7) 8 ltac:(discriminate)) as E. pose proof (N.mod_lt (ksize + 7) 8 ltac:(discriminate)) as L.
    revert H E L. generalize ((ksize + 7) / 8)%N ((ksize + 7) mod 8)%N (2 ^ 32)%N. clear. intros. lia.
  Qed.
  Lemma node_size_eq h : 1 <= h -> node_size h = (next_off + 8 * N.of_nat h)%N.
  Proof. intros H. unfold SkipListArena.node_size. lia. Qed.

  Definition addr (addrs : list N) (x : nat) : N := nth x addrs 0%N.
  Definition ptr (addrs : list N) (l : link) : N := match l with None => 0%N | Some y => addr addrs y end.
  Definition region (an : N * node) : N * N := (fst an, node_size (length (next_ (snd an)))).
  Definition regions (addrs : list N) (M : mem) : list (N * N) := map region (combine addrs (nodes M)).

  Record node_at (addrs : list N) (m : amem) (a : N) (nd : node) : Prop := {
    na_align : (a mod 8 = 0)%N;
    na_height : 1 <= length (next_ nd) <= 12;
    na_key : holds m a (enc (nkey nd));
    na_link : forall n l, nth_error (next_ nd) n = Some (Some l) ->
      holds m (a + next_off + 8 * N.of_nat n) (le_bytes 8 (ptr addrs l)) /\
      match l with None => True | Some y => y < length addrs end
  }.
  Record sim (addrs : list N) (M : mem) (m : amem) (others : list (N * N)) : Prop := {
    s_len : length addrs = length (nodes M);
    s_inv : exists rs, inv (m_arena m) (m_live m) rs /\ Permutation rs (regions addrs M ++ others);
    s_blocks : blocks_ok m;
    s_node : forall x a nd, nth_error addrs x = Some a -> nth_error (nodes M) x = Some nd -> node_at addrs m a nd
  }.

  Lemma regions_nth addrs M x a nd : nth_error addrs x = Some a -> nth_error (nodes M) x = Some nd ->
    nth_error (regions addrs M) x = Some (a, node_size (length (next_ nd))).
  Proof.
    unfold regions. generalize (nodes M). revert x. induction addrs as [|b addrs IH]; intros [|x] [|n l] H1 H2; cbn in *; try discriminate.
    - injection H1 as ->. injection H2 as ->. reflexivity.
    - apply IH; assumption.
  Qed.
  Lemma region_pos (nd : node) : (0 < node_size (length (next_ nd)))%N.
  Proof. unfold SkipListArena.node_size. pose proof (next_off_ge). pose proof (kc_bound _ _ _ Hkc). lia. Qed.

  Section Reads.
    Variables (addrs : list N) (M : mem) (m : amem) (others : list (N * N)).
    Hypothesis S : sim addrs M m others.

    Lemma addr_ex x nd : nth_error (nodes M) x = Some nd -> nth_error addrs x = Some (addr addrs x).
    Proof.
      intros H. apply nth_error_nth'. rewrite (s_len _ _ _ _ S). apply nth_error_Some. rewrite H. discriminate.
    Qed.
    Lemma all_placed r : In r (regions addrs M ++ others) -> placed (m_live m) r.
    Proof.
      destruct (s_inv _ _ _ _ S) as (rs & I & P). intros H. pose proof (i_placed _ _ _ I) as Hp.
      rewrite Forall_forall in Hp. apply Hp. eapply Permutation_in; [apply Permutation_sym; exact P|exact H].
    Qed.
    Lemma all_disjoint : pairwise_disjoint (regions addrs M ++ others).
    Proof. destruct (s_inv _ _ _ _ S) as (rs & I & P). eapply pd_perm; [exact P|]. apply I. Qed.
    Lemma node_placed x nd : nth_error (nodes M) x = Some nd ->
      placed (m_live m) (addr addrs x, node_size (length (next_ nd))).
    Proof.
      intros H. apply all_placed, in_or_app. left. eapply nth_error_In. apply regions_nth; [eapply addr_ex|]; exact H.
    Qed.
    Lemma addr_bounds x nd : nth_error (nodes M) x = Some nd -> (0 < addr addrs x < 2 ^ 64)%N.
    Proof.
      intros H. pose proof (placed_bounds m _ (s_blocks _ _ _ _ S) (node_placed x nd H) (region_pos nd)) as B.
      cbn [fst snd] in B. pose proof (region_pos nd). lia.
    Qed.
    Lemma addr_good x nd : nth_error (nodes M) x = Some nd -> bad_node (addr addrs x) = false.
    Proof.
      intros H. unfold bad_node. pose proof (addr_bounds x nd H). destruct (N.eqb_spec (addr addrs x) 0); [lia|].
      rewrite (na_align _ _ _ _ (s_node _ _ _ _ S x _ nd (addr_ex x nd H) H)). reflexivity.
    Qed.
    Lemma ptr_bound l : match l with None => True | Some y => y < length addrs end -> (ptr addrs l < 2 ^ 64)%N.
    Proof.
      destruct l as [y|]; intros H; cbn [ptr]; [|reflexivity].
      rewrite (s_len _ _ _ _ S) in H. apply nth_error_Some in H. destruct (nth_error (nodes M) y) as [nd|] eqn:E; [|congruence].
      apply (addr_bounds y nd E).
    Qed.
    Lemma addr_null x : x < length addrs -> (addr addrs x =? 0)%N = false.
    Proof.
      intros H. rewrite (s_len _ _ _ _ S) in H. apply nth_error_Some in H. destruct (nth_error (nodes M) x) as [nd|] eqn:E; [|congruence].
      apply N.eqb_neq. pose proof (addr_bounds x nd E). lia.
    Qed.
    Lemma addr_inj x y : x < length addrs -> y < length addrs -> addr addrs x = addr addrs y -> x = y.
    Proof.
      intros Hx Hy E. pose proof all_disjoint as D. apply pd_app in D as (D & _).
      rewrite (s_len _ _ _ _ S) in Hx, Hy. apply nth_error_Some in Hx, Hy.
      destruct (nth_error (nodes M) x) as [n1|] eqn:E1; [|congruence]. destruct (nth_error (nodes M) y) as [n2|] eqn:E2; [|congruence].
      pose proof (regions_nth addrs M x _ _ (addr_ex x n1 E1) E1) as R1. pose proof (regions_nth addrs M y _ _ (addr_ex y n2 E2) E2) as R2.
      assert (G : forall l i j (a b : N * N), pairwise_disjoint l -> i < j -> nth_error l i = Some a -> nth_error l j = Some b -> disjoint a b).
      { clear. induction l as [|r l IH]; intros [|i] [|j] a b Hd Hij Ha Hb; cbn in *; try discriminate; try lia.
        - injection Ha as ->. destruct Hd as [Hd _]. rewrite Forall_forall in Hd. apply Hd. eapply nth_error_In; eauto.
        - destruct Hd as [_ Hd]. eapply (IH i j); eauto. lia. }
      pose proof (region_pos n1). pose proof (region_pos n2).
      destruct (lt_eq_lt_dec x y) as [[L|L]|L]; [exfalso| exact L|exfalso].
      - apply (G _ _ _ _ _ D L R1 R2 (addr addrs x)); unfold covers; cbn [fst snd]; lia.
      - apply (G _ _ _ _ _ D L R2 R1 (addr addrs x)); unfold covers; cbn [fst snd]; lia.
    Qed.

    Lemma aKey_ok x k : key_of M x = Ret k -> aKey ksize dec m (addr addrs x) = Ret k.
    Proof.
      unfold key_of, get_node. destruct (nth_error (nodes M) x) as [nd|] eqn:E; cbn [bind]; [|discriminate].
      intros H. injection H as <-. unfold aKey. rewrite (addr_good x nd E).
      pose proof (s_node _ _ _ _ S x _ nd (addr_ex x nd E) E) as NA.
      pose proof (kc_size _ _ _ Hkc (nkey nd)) as Hs. pose proof next_off_ge.
      rewrite <- Hs. erewrite load_holds; [|apply (node_placed x nd E)|apply region_pos|cbn [fst]; lia| |apply NA].
      - cbn [bind]. rewrite (kc_dec _ _ _ Hkc). reflexivity.
      - cbn [fst snd]. rewrite node_size_eq by apply NA. lia.
    Qed.
    Lemma aNext_ok x n l : Next M x n = Ret l -> aNext ksize m (addr addrs x) n = Ret (ptr addrs l) /\ match l with None => True | Some y => y < length addrs end.
    Proof.
      unfold Next, get_node. destruct (nth_error (nodes M) x) as [nd|] eqn:E; cbn [bind]; [|discriminate].
      destruct (nth_error (next_ nd) n) as [[l'|]|] eqn:En; try discriminate. intros H. injection H as ->.
      pose proof (s_node _ _ _ _ S x _ nd (addr_ex x nd E) E) as NA. destruct (na_link _ _ _ _ NA n l En) as (Hh & Hl).
      split; [|exact Hl]. unfold aNext. rewrite (addr_good x nd E).
      assert (Hn : n < length (next_ nd)) by (apply nth_error_Some; congruence).
      change 8%N with (N.of_nat 8) at 2. rewrite <- (le_bytes_length 8 (ptr addrs l)) at 1.
      erewrite load_holds; [|apply (node_placed x nd E)|apply region_pos|cbn [fst]; lia| |exact Hh].
      - cbn [bind]. rewrite le_round8 by (apply ptr_bound; exact Hl). reflexivity.
      - cbn [fst snd]. rewrite le_bytes_length, node_size_eq by apply NA. lia.
    Qed.
  End Reads.

  (** *** Writes *)
  Lemma pd_nth l i j (a b : N * N) : pairwise_disjoint l -> i <> j -> nth_error l i = Some a -> nth_error l j = Some b -> disjoint a b.
  Proof.
    clear. revert i j. induction l as [|r l IH]; intros [|i] [|j] Hd Hij Ha Hb; cbn in *; try discriminate; try lia.
    - injection Ha as ->. destruct Hd as [Hd _]. rewrite Forall_forall in Hd. apply Hd. eapply nth_error_In; eauto.
    - injection Hb as ->. destruct Hd as [Hd _]. rewrite Forall_forall in Hd. apply disjoint_sym, Hd. eapply nth_error_In; eauto.
    - destruct Hd as [_ Hd]. eapply (IH i j); eauto.
  Qed.
  Lemma node_frame addrs addrs' m m' a nd :
    (forall z, covers (a, node_size (length (next_ nd))) z -> m_bytes m' z = m_bytes m z) ->
    (forall n y, nth_error (next_ nd) n = Some (Some (Some y)) -> y < length addrs -> addr addrs' y = addr addrs y /\ y < length addrs') ->
    node_at addrs m a nd -> node_at addrs' m' a nd.
  Proof.
    intros E Ea NA. pose proof next_off_ge. pose proof (na_height _ _ _ _ NA) as Hh.
    unfold covers in E. cbn [fst snd] in E. rewrite node_size_eq in E by lia.
    split; [apply NA|exact Hh| |].
    - eapply holds_same; [|apply NA]. intros z Hz. apply E. unfold covers in Hz. cbn [fst snd] in Hz.
      rewrite (kc_size _ _ _ Hkc) in Hz. lia.
    - intros n l En. destruct (na_link _ _ _ _ NA n l En) as (H1 & H2).
      assert (Hn : n < length (next_ nd)) by (apply nth_error_Some; congruence).
      assert (Ep : ptr addrs' l = ptr addrs l /\ match l with None => True | Some y => y < length addrs' end).
      { destruct l as [y|]; [|auto]. apply (Ea n y En H2). }
      destruct Ep as (-> & Hl). split; [|exact Hl]. eapply holds_same; [|exact H1]. intros z Hz. apply E.
      unfold covers in Hz. cbn [fst snd] in Hz. rewrite le_bytes_length in Hz. lia.
  Qed.
  (** writes outside the nodes *)
  Lemma sim_bytes addrs M m m' others : sim addrs M m others -> m_live m' = m_live m -> m_arena m' = m_arena m ->
    (forall r z, In r (regions addrs M) -> covers r z -> m_bytes m' z = m_bytes m z) -> sim addrs M m' others.
  Proof.
    intros S El Ea Eb. split.
    - apply S.
    - rewrite El, Ea. apply S.
    - unfold blocks_ok. rewrite El. apply S.
    - intros x a nd H1 H2. eapply node_frame; [|intros n y _ Hy; split; [reflexivity|exact Hy]|eapply (s_node _ _ _ _ S); eauto].
      intros z Hz. eapply Eb; [|exact Hz]. eapply nth_error_In. apply (regions_nth _ _ _ _ _ H1 H2).
  Qed.
  Lemma regions_set addrs M x nd nd' : nth_error (nodes M) x = Some nd -> length (next_ nd') = length (next_ nd) ->
    forall h, regions addrs {| nodes := set_nth (nodes M) x nd'; max_height_ := h |} = regions addrs M.
  Proof.
    intros E El h. unfold regions. cbn [nodes]. revert x addrs E. induction (nodes M) as [|n l IH]; intros [|x] [|a addrs] E; cbn in *; try discriminate; try reflexivity.
    - injection E as ->. unfold region. cbn [fst snd]. rewrite El. reflexivity.
    - f_equal. apply IH. exact E.
  Qed.

  Lemma aSetNext_ok addrs M m others b x n l M' : sim addrs M m others ->
    apply_store M (SLink b x n l) = Ret M' -> match l with None => True | Some y => y < length addrs end ->
    exists m', aSetNext ksize m (addr addrs x) n (ptr addrs l) = Ret m' /\ sim addrs M' m' others /\
      m_arena m' = m_arena m /\ m_live m' = m_live m /\ forall r, In r others -> same_bytes m m' r.
  Proof.
    intros S Ha Hl. cbn [apply_store] in Ha. unfold get_node in Ha.
    destruct (nth_error (nodes M) x) as [nd|] eqn:E; cbn [bind] in Ha; [|discriminate].
    destruct (Nat.ltb_spec n (length (next_ nd))) as [Hn|]; [|discriminate].
    injection Ha as <-.
    set (nd' := {| nkey := nkey nd; next_ := set_nth (next_ nd) n (Some l) |}).
    assert (El' : length (next_ nd') = length (next_ nd)) by (apply set_nth_length).
    pose proof (s_node _ _ _ _ S x _ nd (addr_ex _ _ _ _ S x nd E) E) as NA. pose proof (na_height _ _ _ _ NA) as Hh.
    pose proof next_off_ge as Ho.
    set (W := (addr addrs x + next_off + 8 * N.of_nat n)%N).
    set (m' := mk_amem (put_bytes (m_bytes m) W (le_bytes 8 (ptr addrs l))) (m_live m) (m_arena m)).
    assert (Eout : forall z, ~ covers (addr addrs x, node_size (length (next_ nd))) z -> m_bytes m' z = m_bytes m z).
    { intros z Hz. unfold m'. cbn [m_bytes]. apply put_out. intros Hc. apply Hz. unfold covers, W in *. cbn [fst snd] in *.
      rewrite le_bytes_length in Hc. rewrite node_size_eq by lia. lia. }
    assert (Dis := all_disjoint _ _ _ _ S).
    exists m'. split; [|split; [|split; [reflexivity|split; [reflexivity|]]]].
    - unfold aSetNext. rewrite (addr_good _ _ _ _ S x nd E). fold W.
      apply (store_ret m (addr addrs x, node_size (length (next_ nd)))).
      + apply (node_placed _ _ _ _ S x nd E).
      + apply region_pos.
      + cbn [fst]. unfold W. lia.
      + cbn [fst snd]. unfold W. rewrite le_bytes_length, node_size_eq by lia. lia.
    - split.
      + cbn [nodes]. rewrite set_nth_length. apply S.
      + rewrite (regions_set addrs M x nd nd' E El'). apply S.
      + apply S.
      + intros y a nd2 H1 H2. cbn [nodes] in H2. rewrite nth_error_set_nth in H2.
        assert (Hx : x < length (nodes M)) by (apply nth_error_Some; congruence).
        apply Nat.ltb_lt in Hx. rewrite Hx, andb_true_r in H2. destruct (Nat.eqb_spec y x) as [->|Hne].
        * injection H2 as <-. rewrite (addr_ex _ _ _ _ S x nd E) in H1. injection H1 as <-.
          split; [apply NA|rewrite El'; exact Hh| |].
          -- cbn [nkey nd']. eapply holds_same; [|apply NA]. intros z Hz. unfold m'. cbn [m_bytes]. apply put_out.
             unfold covers, W in *. cbn [fst snd] in *. rewrite le_bytes_length. rewrite (kc_size _ _ _ Hkc) in Hz. lia.
          -- intros j l' Hj. cbn [next_ nd'] in Hj. rewrite nth_error_set_nth in Hj. apply Nat.ltb_lt in Hn. rewrite Hn, andb_true_r in Hj.
             destruct (Nat.eqb_spec j n) as [->|Hjn].
             ++ injection Hj as <-. split; [|exact Hl]. apply put_in.
             ++ destruct (na_link _ _ _ _ NA j l' Hj) as (Q1 & Q2). split; [|exact Q2]. eapply holds_same; [|exact Q1].
                intros z Hz. unfold m'. cbn [m_bytes]. apply put_out. unfold covers, W in *. cbn [fst snd] in *.
                rewrite !le_bytes_length in *. lia.
        * eapply node_frame; [|intros n' y' _ Hy'; split; [reflexivity|exact Hy']|eapply (s_node _ _ _ _ S); eauto].
          intros z Hz. apply Eout. intros Hc. apply pd_app in Dis as (D & _).
          exact (pd_nth _ y x _ _ D Hne (regions_nth _ _ _ _ _ H1 H2) (regions_nth _ _ _ _ _ (addr_ex _ _ _ _ S x nd E) E) z Hz Hc).
    - intros r Hr z Hz. symmetry. apply Eout. intros Hc. apply pd_app in Dis as (_ & _ & D).
      eapply (D _ r); [eapply nth_error_In; apply (regions_nth _ _ _ _ _ (addr_ex _ _ _ _ S x nd E) E)|exact Hr|exact Hc|exact Hz].
  Qed.

  Lemma answers_bounds live ev : answers_ok live ev -> Forall (fun b => (0 < fst b /\ fst b + snd b <= 2 ^ 64)%N) (news ev).
  Proof.
    clear. revert live. induction ev as [|[n b|b] ev IH]; intros live H; cbn [answers_ok news flat_map app] in *; [constructor| |tauto].
    destruct H as ((H1 & _ & H2 & _) & H3). constructor; [cbn [fst snd]; auto|]. eapply IH; eauto.
  Qed.
  Lemma arena_call_ok dbg addrs M m others o ans : sim addrs M m others -> legal o -> new_ok m o ans ->
    exists m' p, arena_call dbg m o ans = Ret (m', p) /\ sim addrs M m' (others ++ [(p, op_bytes o)]) /\
      m_bytes m' = m_bytes m /\ (forall b, o = OpAllocateAligned b -> (p mod 8 = 0)%N).
  Proof.
    intros S Hl Hn. destruct (s_inv _ _ _ _ S) as (rs & I & P).
    destruct (astep_ok dbg _ _ rs o ans I Hl Hn) as (a1 & p & ev & E & I' & Hal & _).
    assert (Hok : answers_ok (m_live m) ev) by (eapply Hn; eapply astep_dbg; exact E).
    unfold arena_call. rewrite E. cbn [bind]. eexists _, p. split; [reflexivity|]. split; [|split; [reflexivity|exact Hal]].
    split; cbn [m_arena m_live m_bytes].
    - apply S.
    - exists (rs ++ [(p, op_bytes o)]). split; [exact I'|]. rewrite app_assoc. apply Permutation_app_tail. exact P.
    - unfold blocks_ok. cbn [m_live]. apply Forall_app. split; [apply S|]. apply (answers_bounds _ _ Hok).
    - intros x a nd H1 H2. apply (node_frame addrs addrs m); [intros z _; reflexivity|intros n y _ Hy; split; [reflexivity|exact Hy]|].
      eapply (s_node _ _ _ _ S); eauto.
  Qed.

  Lemma combine_snoc {A B} (l : list A) (l' : list B) a b : length l = length l' -> combine (l ++ [a]) (l' ++ [b]) = combine l l' ++ [(a, b)].
  Proof.
    clear. revert l'. induction l as [|x l IH]; intros [|y l'] H; cbn in *; try discriminate; [reflexivity|]. rewrite IH by lia. reflexivity.
  Qed.
  Lemma node_size_legal h : 1 <= h <= 12 -> legal (OpAllocateAligned (node_size h)).
  Proof.
    intros Hh. cbn [legal]. rewrite node_size_eq by lia. pose proof next_off_ge as [_ H].
    assert (E : (2 ^ 32 + 8 + 96 < 2 ^ 64 - 8)%N) by reflexivity.
    revert H E. generalize (2 ^ 32)%N (2 ^ 64 - 8)%N. intros. lia.
  Qed.

  Lemma aNewNode_ok dbg addrs M m others k h ans : sim addrs M m others -> 1 <= h <= 12 ->
    new_ok m (OpAllocateAligned (node_size h)) ans ->
    exists m' p, aNewNode ksize enc dbg m k h ans = Ret (m', p) /\
      (forall mh, sim (addrs ++ [p]) {| nodes := nodes M ++ [{| nkey := k; next_ := repeat None h |}]; max_height_ := mh |} m' others) /\
      forall r, In r others -> same_bytes m m' r.
  Proof.
    intros S Hh Hn. destruct (arena_call_ok dbg addrs M m others _ ans S (node_size_legal h Hh) Hn) as (m1 & p & E & S1 & Eb & Hal).
    specialize (Hal _ eq_refl). cbn [op_bytes] in S1. unfold aNewNode. rewrite E. cbn [bind].
    assert (Pos : (0 < node_size h)%N) by (rewrite node_size_eq by lia; pose proof next_off_ge; pose proof (kc_bound _ _ _ Hkc); lia).
    assert (Pl : placed (m_live m1) (p, node_size h)) by (apply (all_placed _ _ _ _ S1); rewrite !in_app_iff; cbn; auto).
    pose proof (placed_bounds m1 _ (s_blocks _ _ _ _ S1) Pl Pos) as B. cbn [fst snd] in B.
    assert (Bad : bad_node p = false). { unfold bad_node. rewrite Hal. destruct (N.eqb_spec p 0); [lia|reflexivity]. }
    rewrite Bad. pose proof next_off_ge as Ho.
    rewrite (store_ret m1 (p, node_size h)); [|exact Pl|exact Pos|cbn [fst]; lia|cbn [fst snd]; rewrite (kc_size _ _ _ Hkc), node_size_eq by lia; lia].
    cbn [bind]. eexists _, p. split; [reflexivity|].
    assert (Eout : forall z, ~ covers (p, node_size h) z -> put_bytes (m_bytes m1) p (enc k) z = m_bytes m z).
    { intros z Hz. rewrite put_out; [rewrite Eb; reflexivity|]. intros Hc. apply Hz. unfold covers in *. cbn [fst snd] in *.
      rewrite (kc_size _ _ _ Hkc) in Hc. rewrite node_size_eq by lia. lia. }
    assert (Dis := all_disjoint _ _ _ _ S1). rewrite app_assoc in Dis. apply pd_app in Dis as (Dis0 & _ & D).
    assert (Dp : forall r z, In r (regions addrs M ++ others) -> covers r z -> ~ covers (p, node_size h) z).
    { intros r z Hr Hz Hc. eapply (D r); [exact Hr|left; reflexivity|exact Hz|exact Hc]. }
    split.
    - intros mh. split; cbn [nodes m_arena m_live].
      + rewrite !app_length. rewrite (s_len _ _ _ _ S). reflexivity.
      + destruct (s_inv _ _ _ _ S1) as (rs & I & P). exists rs. split; [exact I|].
        unfold regions. cbn [nodes]. rewrite combine_snoc by apply S. rewrite map_app. cbn [map].
        unfold region at 2. cbn [fst snd next_]. rewrite repeat_length. etransitivity; [exact P|].
        rewrite <- app_assoc. apply Permutation_app_head. apply Permutation_app_comm.
      + apply S1.
      + intros x a nd H1 H2. destruct (Nat.lt_ge_cases x (length addrs)) as [Hx|Hx].
        * rewrite nth_error_app1 in H1 by exact Hx. rewrite nth_error_app1 in H2 by (rewrite <- (s_len _ _ _ _ S); exact Hx).
          eapply (node_frame addrs _ m); [| |eapply (s_node _ _ _ _ S); eauto].
          -- intros z Hz. cbn [m_bytes]. apply Eout. eapply Dp; [|exact Hz]. apply in_or_app. left. eapply nth_error_In.
             apply (regions_nth _ _ _ _ _ H1 H2).
          -- intros n y _ Hy. unfold addr. rewrite app_nth1 by exact Hy. split; [reflexivity|]. rewrite app_length. lia.
        * assert (Ex : x = length addrs).
          { assert (x < length (addrs ++ [p])) by (apply nth_error_Some; congruence). rewrite app_length in H. cbn in H. lia. }
          subst x. rewrite nth_error_app2, Nat.sub_diag in H1 by lia. cbn [nth_error] in H1. injection H1 as <-.
          rewrite (s_len _ _ _ _ S) in H2. rewrite nth_error_app2, Nat.sub_diag in H2 by lia. cbn [nth_error] in H2. injection H2 as <-.
          split; cbn [next_ nkey].
          -- exact Hal.
          -- rewrite repeat_length. exact Hh.
          -- apply put_in.
          -- intros n l Hnl. apply nth_error_In, repeat_spec in Hnl. discriminate.
    - intros r Hr z Hz. cbn [m_bytes]. symmetry. apply Eout. eapply Dp; [|exact Hz]. apply in_or_app. auto.
  Qed.

  (** *** Searches *)
  Definition ok_link (addrs : list N) (l : link) : Prop := match l with None => True | Some y => y < length addrs end.
  Definition prevs (addrs : list N) (prev : list (option nat)) : list (option N) := map (option_map (addr addrs)) prev.

  Lemma set_nth_map {A B} (f : A -> B) l n x : map f (set_nth l n x) = set_nth (map f l) n (f x).
  Proof. clear. revert n. induction l as [|y l IH]; intros [|n]; cbn; auto. rewrite IH. reflexivity. Qed.

  Section Searches.
    Variables (addrs : list N) (M : mem) (m : amem) (others : list (N * N)).
    Hypothesis S : sim addrs M m others.

    Lemma ptr_null l : ok_link addrs l -> (ptr addrs l =? 0)%N = match l with None => true | Some _ => false end.
    Proof. destruct l as [y|]; intros H; cbn [ptr]; [|reflexivity]. apply (addr_null _ _ _ _ S y H). Qed.
    Lemma aAfter_ok key l b : ok_link addrs l -> KeyIsAfterNode cmp M key l = Ret b ->
      aKeyIsAfterNode cmp ksize dec m key (ptr addrs l) = Ret b.
    Proof.
      intros Hl H. unfold aKeyIsAfterNode. rewrite (ptr_null l Hl). destruct l as [y|]; cbn [KeyIsAfterNode] in H; [|exact H].
      destruct (key_of M y) as [k| | |] eqn:E; cbn [bind] in H; try discriminate.
      cbn [ptr]. rewrite (aKey_ok _ _ _ _ S y k E). exact H.
    Qed.

    Lemma afge_ok fuel : forall fuel' key x level prev v prev',
      fge_loop cmp fuel M key x level prev = Ret (v, prev') -> fuel <= fuel' ->
      afge cmp ksize dec fuel' m key (addr addrs x) level (Some (prevs addrs prev)) = Ret (ptr addrs v, Some (prevs addrs prev')) /\
      afge cmp ksize dec fuel' m key (addr addrs x) level None = Ret (ptr addrs v, None) /\ ok_link addrs v.
    Proof.
      induction fuel as [|fuel IH]; intros [|fuel'] key x level prev v prev' H Hf; cbn [fge_loop] in H; try discriminate; [lia|].
      cbn [afge]. destruct (Next M x level) as [nx| | |] eqn:En; cbn [bind] in H; try discriminate.
      destruct (aNext_ok _ _ _ _ S x level nx En) as (-> & Hnx). cbn [bind].
      destruct (KeyIsAfterNode cmp M key nx) as [af| | |] eqn:Ea; cbn [bind] in H; try discriminate.
      rewrite (aAfter_ok key nx af Hnx Ea). cbn [bind].
      assert (Hs : prevs addrs (set_nth prev level (Some x)) = set_nth (prevs addrs prev) level (Some (addr addrs x)))
        by (unfold prevs; rewrite set_nth_map; reflexivity).
      destruct nx as [y|].
      - destruct af.
        + exact (IH fuel' key y level prev v prev' H ltac:(lia)).
        + cbn [option_map]. destruct level as [|level].
          * injection H as <- <-. rewrite Hs. auto.
          * rewrite <- Hs. apply (IH fuel' key x level _ v prev' H). lia.
      - destruct af; [cbn [KeyIsAfterNode] in Ea; discriminate|]. cbn [option_map]. destruct level as [|level].
        + injection H as <- <-. rewrite Hs. auto.
        + rewrite <- Hs. apply (IH fuel' key x level _ v prev' H). lia.
    Qed.

    Lemma aflt_ok dbg fuel : forall fuel' key x level r, 0 < length addrs ->
      flt_loop cmp dbg fuel M key x level = Ret r -> fuel <= fuel' ->
      aflt cmp ksize dec dbg fuel' m (addr addrs 0) key (addr addrs x) level = Ret (addr addrs r) /\ r < length addrs.
    Proof.
      induction fuel as [|fuel IH]; intros [|fuel'] key x level r H0 H Hf; cbn [flt_loop] in H; try discriminate; [lia|].
      cbn [aflt]. destruct (key_of M x) as [kx| | |] eqn:Ek; cbn [bind] in H; try discriminate.
      assert (Hx : x < length addrs) by (rewrite (s_len _ _ _ _ S); eapply key_of_lt; exact Ek).
      assert (Ha : (addr addrs x =? addr addrs 0)%N = (x =? 0)).
      { destruct (Nat.eqb_spec x 0) as [->|Hne]; [apply N.eqb_refl|]. apply N.eqb_neq. intros E. apply Hne.
        exact (addr_inj _ _ _ _ S x 0 Hx H0 E). }
      rewrite Ha.
      assert (Hchk : (if x =? 0 then Ret tt else if dbg then let! kx0 := aKey ksize dec m (addr addrs x) in assert_ dbg (cmp kx0 key <? 0)%Z else Ret tt) = Ret tt).
      { rewrite (aKey_ok _ _ _ _ S x kx Ek). cbn [bind]. destruct (x =? 0); [reflexivity|]. destruct dbg; [|reflexivity].
        destruct (assert_ true (false || (cmp kx key <? 0)%Z)) as [[]| | |] eqn:Es; cbn [bind] in H; try discriminate. exact Es. }
      rewrite Hchk. cbn [bind].
      destruct (assert_ dbg ((x =? 0) || (cmp kx key <? 0)%Z)) as [[]| | |]; cbn [bind] in H; try discriminate.
      destruct (Next M x level) as [nx| | |] eqn:En; cbn [bind] in H; try discriminate.
      destruct (aNext_ok _ _ _ _ S x level nx En) as (-> & Hnx). cbn [bind]. rewrite (ptr_null nx Hnx).
      destruct nx as [y|]; cbn [bind ptr] in *.
      - destruct (key_of M y) as [ky| | |] eqn:Eky; cbn [bind] in H; try discriminate. rewrite (aKey_ok _ _ _ _ S y ky Eky). cbn [bind].
        destruct (0 <=? cmp ky key)%Z.
        + destruct level as [|level]; [injection H as <-; auto|]. apply (IH fuel' key x level r H0 H). lia.
        + apply (IH fuel' key y level r H0 H). lia.
      - destruct level as [|level]; [injection H as <-; auto|]. apply (IH fuel' key x level r H0 H). lia.
    Qed.

    Lemma aflast_ok fuel : forall fuel' x level r, x < length addrs ->
      flast_loop fuel M x level = Ret r -> fuel <= fuel' ->
      aflast ksize fuel' m (addr addrs x) level = Ret (addr addrs r) /\ r < length addrs.
    Proof.
      induction fuel as [|fuel IH]; intros [|fuel'] x level r Hx H Hf; cbn [flast_loop] in H; try discriminate; [lia|].
      cbn [aflast]. destruct (Next M x level) as [nx| | |] eqn:En; cbn [bind] in H; try discriminate.
      destruct (aNext_ok _ _ _ _ S x level nx En) as (-> & Hnx). cbn [bind]. rewrite (ptr_null nx Hnx).
      destruct nx as [y|]; cbn [ptr] in *.
      - apply (IH fuel' y level r Hnx H). lia.
      - destruct level as [|level]; [injection H as <-; auto|]. apply (IH fuel' x level r Hx H). lia.
    Qed.

    (** the list object *)
    Variable l : alist.
    Hypotheses (Hhead : a_head l = addr addrs 0) (Hmax : a_max l = max_height_ M) (Hpos : 0 < length addrs).
    Variable fuel : nat.
    Hypothesis Hfuel : search_fuel M <= fuel.

    Lemma aFGE_ok key v prev' : FindGreaterOrEqual cmp M key = Ret (v, prev') ->
      aFindGreaterOrEqual cmp ksize dec fuel m l key (Some (repeat None kMaxHeight)) = Ret (ptr addrs v, Some (prevs addrs prev')) /\
      aFindGreaterOrEqual cmp ksize dec fuel m l key None = Ret (ptr addrs v, None) /\ ok_link addrs v.
    Proof.
      intros H. unfold aFindGreaterOrEqual. rewrite Hhead, Hmax. apply (afge_ok _ _ _ _ _ _ _ _ H Hfuel).
    Qed.
    Lemma aContains_ok key b : Contains cmp M key = Ret b -> aContains cmp ksize dec fuel m l key = Ret b.
    Proof.
      unfold Contains, aContains. destruct (FindGreaterOrEqual cmp M key) as [[v pv]| | |] eqn:E; cbn [bind]; try discriminate.
      destruct (aFGE_ok key v pv E) as (_ & -> & Hv). cbn [bind]. rewrite (ptr_null v Hv). destruct v as [y|]; [|auto].
      destruct (key_of M y) as [k| | |] eqn:Ek; cbn [bind ptr]; try discriminate. rewrite (aKey_ok _ _ _ _ S y k Ek). auto.
    Qed.
    Lemma aValid_ok it : ok_link addrs it -> aValid (ptr addrs it) = Valid it.
    Proof. intros H. unfold aValid. rewrite (ptr_null it H). destruct it; reflexivity. Qed.
    Lemma iter_node_ret dbg it x : iter_node dbg it = Ret x -> it = Some x.
    Proof. unfold iter_node, assert_. destruct (dbg && negb (Valid it)); cbn [bind]; [discriminate|]. destruct it; congruence. Qed.
    Lemma assert_valid dbg x : x < length addrs -> assert_ dbg (aValid (addr addrs x)) = Ret tt.
    Proof. intros H. unfold assert_, aValid. rewrite (addr_null _ _ _ _ S x H). cbn [negb]. rewrite andb_false_r. reflexivity. Qed.
    Lemma akey_ok dbg it k : iter_key dbg M it = Ret k -> ait_key ksize dec dbg m (ptr addrs it) = Ret k.
    Proof.
      unfold iter_key. destruct (iter_node dbg it) as [x| | |] eqn:E; cbn [bind]; try discriminate. apply iter_node_ret in E as ->.
      intros H. unfold ait_key. cbn [ptr]. rewrite assert_valid; [cbn [bind]; apply (aKey_ok _ _ _ _ S); exact H|].
      rewrite (s_len _ _ _ _ S). eapply key_of_lt; exact H.
    Qed.
    Lemma aNext0_ok dbg it it' : ok_link addrs it -> iter_Next dbg M it = Ret it' -> ait_Next ksize dbg m (ptr addrs it) = Ret (ptr addrs it') /\ ok_link addrs it'.
    Proof.
      intros Hit. unfold iter_Next. destruct (iter_node dbg it) as [x| | |] eqn:E; cbn [bind]; try discriminate. apply iter_node_ret in E as ->.
      intros H. unfold ait_Next. cbn [ptr]. rewrite assert_valid by exact Hit. cbn [bind]. apply (aNext_ok _ _ _ _ S). exact H.
    Qed.
    Lemma head_test x : x < length addrs -> (if (addr addrs x =? a_head l)%N then 0%N else addr addrs x) = ptr addrs (if x =? 0 then None else Some x).
    Proof.
      intros Hx. rewrite Hhead. destruct (Nat.eqb_spec x 0) as [->|Hne]; [rewrite N.eqb_refl; reflexivity|].
      destruct (N.eqb_spec (addr addrs x) (addr addrs 0)) as [E|_]; [|reflexivity].
      exfalso. apply Hne. exact (addr_inj _ _ _ _ S x 0 Hx Hpos E).
    Qed.
    Lemma aPrev_ok dbg it it' : ok_link addrs it -> iter_Prev cmp dbg M it = Ret it' ->
      ait_Prev cmp ksize dec dbg fuel m l (ptr addrs it) = Ret (ptr addrs it') /\ ok_link addrs it'.
    Proof.
      intros Hit. unfold iter_Prev. destruct (iter_node dbg it) as [x| | |] eqn:E; cbn [bind]; try discriminate. apply iter_node_ret in E as ->.
      destruct (key_of M x) as [k| | |] eqn:Ek; cbn [bind]; try discriminate.
      destruct (FindLessThan cmp dbg M k) as [r| | |] eqn:Er; cbn [bind]; try discriminate. intros H. injection H as <-.
      unfold ait_Prev. cbn [ptr]. rewrite assert_valid by exact Hit. cbn [bind]. rewrite (aKey_ok _ _ _ _ S x k Ek). cbn [bind].
      unfold aFindLessThan. rewrite Hhead, Hmax.
      destruct (aflt_ok dbg _ fuel _ _ _ r Hpos Er Hfuel) as (-> & Hr). cbn [bind]. rewrite <- Hhead, head_test by exact Hr.
      split; [reflexivity|]. destruct (r =? 0); [exact Logic.I|exact Hr].
    Qed.
    Lemma aSeek_ok t it : iter_Seek cmp M t = Ret it -> ait_Seek cmp ksize dec fuel m l t = Ret (ptr addrs it) /\ ok_link addrs it.
    Proof.
      unfold iter_Seek, ait_Seek. destruct (FindGreaterOrEqual cmp M t) as [[v pv]| | |] eqn:E; cbn [bind]; try discriminate.
      intros H. injection H as <-. destruct (aFGE_ok t v pv E) as (_ & -> & Hv). auto.
    Qed.
    Lemma aFirst_ok it : iter_SeekToFirst M = Ret it -> ait_SeekToFirst ksize m l = Ret (ptr addrs it) /\ ok_link addrs it.
    Proof. intros H. unfold ait_SeekToFirst. rewrite Hhead. apply (aNext_ok _ _ _ _ S). exact H. Qed.
    Lemma aLast_ok it : iter_SeekToLast M = Ret it -> ait_SeekToLast ksize fuel m l = Ret (ptr addrs it) /\ ok_link addrs it.
    Proof.
      unfold iter_SeekToLast. destruct (FindLast M) as [r| | |] eqn:E; cbn [bind]; try discriminate. intros H. injection H as <-.
      unfold ait_SeekToLast, aFindLast. rewrite Hhead, Hmax.
      destruct (aflast_ok _ fuel _ _ r Hpos E Hfuel) as (-> & Hr). cbn [bind]. rewrite <- Hhead, head_test by exact Hr.
      split; [reflexivity|]. destruct (r =? 0); [exact Logic.I|exact Hr].
    Qed.
    Lemma aWalk_ok dbg step astep : (forall it it', ok_link addrs it -> step it = Ret it' -> astep (ptr addrs it) = Ret (ptr addrs it') /\ ok_link addrs it') ->
      forall it ks, ok_link addrs it -> visits (iter_key dbg M) step it ks -> walks (ait_key ksize dec dbg m) astep (ptr addrs it) ks.
    Proof.
      intros Hs it ks Hit V. revert Hit. induction V as [it Hv|it k it' ks Hv Hk Hst V IH]; intros Hit.
      - constructor. rewrite aValid_ok by exact Hit. exact Hv.
      - destruct (Hs _ _ Hit Hst) as (H1 & H2). eapply walks_step; [rewrite aValid_ok by exact Hit; exact Hv|apply akey_ok; exact Hk|exact H1|exact (IH H2)].
    Qed.
  End Searches.

  (** *** Construction and insertion *)
  Lemma aclear_ok addrs k mh : forall n i m others, sim addrs {| nodes := [{| nkey := k; next_ := repeat (Some None) i ++ repeat None n |}]; max_height_ := mh |} m others ->
    exists m', aclear ksize m (addr addrs 0) n i = Ret m' /\
      sim addrs {| nodes := [{| nkey := k; next_ := repeat (Some None) (i + n) |}]; max_height_ := mh |} m' others /\
      forall r, In r others -> same_bytes m m' r.
  Proof.
    induction n as [|n IH]; intros i m others Sm; cbn [aclear].
    - exists m. split; [reflexivity|]. cbn [repeat] in Sm. rewrite app_nil_r in Sm. rewrite Nat.add_0_r. split; [exact Sm|]. intros r _ z _. reflexivity.
    - destruct (aSetNext_ok addrs _ m others true 0 i None
        {| nodes := [{| nkey := k; next_ := repeat (Some None) (S i) ++ repeat None n |}]; max_height_ := mh |} Sm) as (m1 & E1 & S1 & _ & _ & F1).
      + cbn [apply_store]. unfold get_node. cbn [nodes nth_error bind next_ nkey max_height_ set_nth].
        rewrite app_length, !repeat_length. destruct (Nat.ltb_spec i (i + S n)); [|lia]. do 4 f_equal.
        clear. induction i as [|i IHi]; [reflexivity|]. cbn [repeat app set_nth]. f_equal. exact IHi.
      + exact Logic.I.
      + cbn [ptr] in E1. rewrite E1. cbn [bind]. destruct (IH (S i) m1 others S1) as (m' & E2 & S2 & F2).
        exists m'. split; [exact E2|]. replace (i + S n) with (S i + n) by lia. split; [exact S2|].
        intros r Hr z Hz. rewrite (F1 r Hr z Hz). apply (F2 r Hr z Hz).
  Qed.
  Definition none : mem := {| nodes := []; max_height_ := 1 |}.
  Lemma sim_start : sim [] none amem0 [].
  Proof.
    split; [reflexivity|exists []; split; [exact inv0|constructor]|constructor|]. intros x a nd H. destruct x; discriminate.
  Qed.
  Lemma aSkipList_ok dbg m others k0 ans : sim [] none m others -> new_ok m (OpAllocateAligned (node_size 12)) ans ->
    exists m' p, aSkipList ksize enc dbg m k0 ans = Ret (m', mk_alist p 1 (Random_new 0xdeadbeef)) /\ sim [p] (mem0 k0) m' others /\
      forall r, In r others -> same_bytes m m' r.
  Proof.
    intros S Hn. destruct (aNewNode_ok dbg [] none m others k0 12 ans S ltac:(lia) Hn) as (m1 & p & E1 & S1 & F1).
    unfold aSkipList. change kMaxHeight with 12. rewrite E1. cbn [bind].
    destruct (aclear_ok [p] k0 1 12 0 m1 others (S1 1)) as (m2 & E2 & S2 & F2). change (addr [p] 0) with p in E2.
    rewrite E2. cbn [bind]. exists m2, p. split; [reflexivity|]. split; [exact S2|].
    intros r Hr z Hz. rewrite (F1 r Hr z Hz). apply (F2 r Hr z Hz).
  Qed.

  Lemma alink_ok addrs others : forall n i s m x prev s', sim addrs (sl_mem s) m others -> x < length addrs ->
    link_loop n i s x prev = Ret s' ->
    exists m', alink ksize n i m (addr addrs x) (prevs addrs prev) = Ret m' /\ sim addrs (sl_mem s') m' others /\
      max_height_ (sl_mem s') = max_height_ (sl_mem s) /\ forall r, In r others -> same_bytes m m' r.
  Proof.
    induction n as [|n IH]; intros i s m x prev s' S Hx H; cbn [link_loop alink] in *.
    - injection H as <-. exists m. split; [reflexivity|]. split; [exact S|]. split; [reflexivity|]. intros r _ z _. reflexivity.
    - unfold get_prev in H. unfold prevs. rewrite nth_error_map.
      destruct (nth_error prev i) as [[p|]|]; cbn [bind] in H; try discriminate. cbn [option_map bind].
      destruct (Next (sl_mem s) p i) as [nx| | |] eqn:En; cbn [bind] in H; try discriminate.
      destruct (aNext_ok _ _ _ _ S p i nx En) as (-> & Hnx). cbn [bind].
      unfold do_store in H. destruct (apply_store (sl_mem s) (SLink false x i nx)) as [M1| | |] eqn:E1; cbn [bind] in H; try discriminate.
      destruct (aSetNext_ok _ _ _ _ _ _ _ _ _ S E1 Hnx) as (m1 & -> & S1 & _ & _ & F1). cbn [bind].
      cbn [sl_mem] in H. destruct (apply_store M1 (SLink true p i (Some x))) as [M2| | |] eqn:E2; cbn [bind] in H; try discriminate.
      destruct (aSetNext_ok addrs _ _ _ _ p i (Some x) _ S1 E2 Hx) as (m2 & Em2 & S2 & _ & _ & F2). cbn [ptr] in Em2. rewrite Em2. cbn [bind].
      match type of H with link_loop _ _ ?s0 _ _ = _ => destruct (IH _ s0 m2 x prev s' S2 Hx H) as (m' & Em' & S' & Emax & F') end.
      fold (prevs addrs prev). rewrite Em'.
      exists m'. split; [reflexivity|]. split; [exact S'|]. split.
      + rewrite Emax. cbn [sl_mem]. clear - E1 E2. cbn [apply_store] in *. unfold get_node in *.
        destruct (nth_error (nodes (sl_mem s)) x); cbn [bind] in E1; [|discriminate]. destruct (i <? _); [|discriminate]. injection E1 as <-.
        cbn [nodes] in E2. destruct (nth_error _ p); cbn [bind] in E2; [|discriminate]. destruct (i <? _); [|discriminate]. injection E2 as <-. reflexivity.
      + intros r Hr z Hz. rewrite (F1 r Hr z Hz), (F2 r Hr z Hz). apply (F' r Hr z Hz).
  Qed.
  Lemma afill_ok addrs : forall n prev from prev', fill_prev prev from n = Ret prev' ->
    afill (prevs addrs prev) (addr addrs 0) from n = Ret (prevs addrs prev').
  Proof.
    induction n as [|n IH]; intros prev from prev' H; cbn [fill_prev afill] in *; [congruence|].
    unfold prevs at 1. rewrite map_length. destruct (from <? length prev); [|discriminate]. rewrite <- (IH _ _ _ H). f_equal.
    unfold prevs. rewrite set_nth_map. reflexivity.
  Qed.

  Lemma prevs_app addrs p prev : Forall (fun q => match q with Some x => x < length addrs | None => True end) prev ->
    prevs (addrs ++ [p]) prev = prevs addrs prev.
  Proof.
    intros H. unfold prevs. apply map_ext_in. intros [x|] Hin; [|reflexivity]. rewrite Forall_forall in H. specialize (H _ Hin). cbn in H.
    cbn [option_map]. unfold addr. rewrite app_nth1 by exact H. reflexivity.
  Qed.
  Lemma fge_prev_bound M fuel : forall key x level prev v prev', fge_loop cmp fuel M key x level prev = Ret (v, prev') ->
    Forall (fun q => match q with Some y => y < length (nodes M) | None => True end) prev ->
    Forall (fun q => match q with Some y => y < length (nodes M) | None => True end) prev'.
  Proof.
    assert (Hset : forall (P : option nat -> Prop) l n q, Forall P l -> P q -> Forall P (set_nth l n q)).
    { clear. intros P l. induction l as [|y l IH]; intros [|n] q H Hq; cbn [set_nth]; inversion H; subst; constructor; auto. }
    induction fuel as [|fuel IH]; intros key x level prev v prev' H Hp; cbn [fge_loop] in H; [discriminate|].
    destruct (Next M x level) as [nx| | |] eqn:En; cbn [bind] in H; try discriminate.
    assert (Hx : x < length (nodes M)).
    { unfold Next, get_node in En. destruct (nth_error (nodes M) x) eqn:E; cbn [bind] in En; [|discriminate]. apply nth_error_Some. congruence. }
    destruct (KeyIsAfterNode cmp M key nx) as [af| | |]; cbn [bind] in H; try discriminate.
    assert (Hr : forall l', l' = set_nth prev level (Some x) ->
      (match level with O => Ret (nx, l') | S level' => fge_loop cmp fuel M key x level' l' end) = Ret (v, prev') ->
      Forall (fun q => match q with Some y => y < length (nodes M) | None => True end) prev').
    { intros l' -> E. pose proof (Hset _ prev level (Some x) Hp Hx) as Q. destruct level as [|level]; [injection E as _ <-; exact Q|]. eapply IH; eauto. }
    destruct nx as [y|]; [destruct af|].
    - eapply IH; eauto.
    - eapply Hr; eauto.
    - eapply Hr; eauto.
  Qed.
  Lemma fill_prev_bound k : 0 < k -> forall n prev from prev', fill_prev prev from n = Ret prev' ->
    Forall (fun q => match q with Some y => y < k | None => True end) prev ->
    Forall (fun q => match q with Some y => y < k | None => True end) prev'.
  Proof.
    intros Hk. assert (Hset : forall (P : option nat -> Prop) l n q, Forall P l -> P q -> Forall P (set_nth l n q)).
    { clear. intros P l. induction l as [|y l IH]; intros [|n] q H Hq; cbn [set_nth]; inversion H; subst; constructor; auto. }
    induction n as [|n IH]; intros prev from prev' H Hp; cbn [fill_prev] in H; [congruence|].
    destruct (from <? length prev); [|discriminate]. eapply IH; [exact H|]. apply Hset; auto.
  Qed.

  Lemma aInsert_ok dbg fuel addrs s m others l key ans h rnd s' :
    sim addrs (sl_mem s) m others -> 0 < length addrs ->
    a_head l = addr addrs 0 -> a_max l = max_height_ (sl_mem s) -> search_fuel (sl_mem s) <= fuel ->
    RandomHeight dbg false (a_rnd l) = Ret (rnd, h) -> 1 <= h <= 12 ->
    new_ok m (OpAllocateAligned (node_size h)) ans ->
    InsertH cmp dbg s key h = Ret s' ->
    exists m' p, aInsert cmp ksize enc dec dbg false fuel m l key ans = Ret (m', mk_alist (a_head l) (max_height_ (sl_mem s')) rnd) /\
      sim (addrs ++ [p]) (sl_mem s') m' others /\ forall r, In r others -> same_bytes m m' r.
  Proof.
    intros S Hpos Hhead Hmax Hfuel Hr Hh Hn H. unfold InsertH in H.
    destruct (FindGreaterOrEqual cmp (sl_mem s) key) as [[v pv]| | |] eqn:E; cbn [bind] in H; try discriminate.
    destruct (aFGE_ok _ _ _ _ S l Hhead Hmax fuel Hfuel key v pv E) as (E1 & _ & Hv).
    assert (Bp : Forall (fun q => match q with Some y => y < length addrs | None => True end) pv).
    { rewrite (s_len _ _ _ _ S). unfold FindGreaterOrEqual in E. eapply fge_prev_bound; [exact E|].
      apply Forall_forall. intros q Hq. apply repeat_spec in Hq. subst q. exact Logic.I. }
    unfold aInsert. rewrite E1. cbn [bind]. rewrite (ptr_null _ _ _ _ S v Hv).
    assert (Hc : (if (match v with None => true | Some _ => false end) || negb dbg then Ret tt
                  else let! k := aKey ksize dec m (ptr addrs v) in assert_ dbg (negb (cmp key k =? 0)%Z)) = Ret tt /\ insert_linked s key h pv = Ret s').
    { destruct v as [y|]; cbn [orb]; [|auto]. destruct (key_of (sl_mem s) y) as [ka| | |] eqn:Ek; cbn [bind] in H; try discriminate.
      cbn [ptr]. rewrite (aKey_ok _ _ _ _ S y ka Ek). cbn [bind]. unfold assert_ in *.
      destruct dbg; cbn [negb andb bind] in *; [|auto]. destruct (negb (negb (cmp key ka =? 0)%Z)); cbn [bind] in H; [discriminate|]. auto. }
    destruct Hc as (-> & Hi). cbn [bind]. rewrite Hr. cbn [bind]. rewrite Hmax, Hhead. clear H.
    unfold insert_linked in Hi.
    set (mh := max_height_ (sl_mem s)) in *.
    (* the two ways to get max_height and prev *)
    assert (HM : exists M2 pv2 s2, sl_mem s2 = M2 /\ nodes M2 = nodes (sl_mem s) /\
        (let! (max, prev) := (if mh <? h then let! prev := afill (prevs addrs pv) (addr addrs 0) mh (h - mh) in Ret (h, prev) else Ret (mh, prevs addrs pv)) in
         Ret (max, prev)) = Ret (max_height_ M2, prevs addrs pv2) /\
        Forall (fun q => match q with Some y => y < length addrs | None => True end) pv2 /\
        (let! s := do_store s2 (SNew key h) in link_loop h 0 s (length (nodes M2)) pv2) = Ret s').
    { destruct (mh <? h).
      - destruct (fill_prev pv mh (h - mh)) as [pv2| | |] eqn:Ef; cbn [bind] in Hi; try discriminate.
        rewrite (afill_ok addrs _ _ _ _ Ef). cbn [bind].
        cbn [do_store apply_store bind] in Hi.
        exists {| nodes := nodes (sl_mem s); max_height_ := h |}, pv2,
          {| sl_mem := {| nodes := nodes (sl_mem s); max_height_ := h |}; rnd_ := rnd_ s; sl_log := sl_log s ++ [SMax h] |}. split; [reflexivity|]. split; [reflexivity|]. split; [reflexivity|]. split; [|exact Hi].
        eapply (fill_prev_bound (length addrs)); [lia|exact Ef|exact Bp].
      - cbn [bind] in Hi. exists (sl_mem s), pv, s. split; [reflexivity|]. split; [reflexivity|]. split; [reflexivity|]. split; [exact Bp|exact Hi]. }
    destruct HM as (M2 & pv2 & s2 & Es2 & En & Em & Bp2 & Hl). clear Hi.
    destruct (if mh <? h then _ else _) as [[mx prv]| | |] eqn:Eif in Em |- *; cbn [bind] in Em; try discriminate.
    injection Em as -> ->. cbn [bind].
    destruct (aNewNode_ok dbg addrs (sl_mem s) m others key h ans S Hh Hn) as (m1 & p & E2 & S2 & F2). rewrite E2. cbn [bind].
    unfold do_store in Hl. cbn [apply_store bind] in Hl. rewrite Es2, En in Hl.
    assert (Hx : length (nodes (sl_mem s)) < length (addrs ++ [p])) by (rewrite app_length, (s_len _ _ _ _ S); cbn; lia).
    match type of Hl with link_loop _ _ ?s0 _ _ = _ =>
      destruct (alink_ok (addrs ++ [p]) others h 0 s0 m1 _ pv2 s' (S2 _) Hx Hl) as (m' & E3 & S3 & Emax & F3) end.
    assert (Ep : addr (addrs ++ [p]) (length (nodes (sl_mem s))) = p).
    { unfold addr. rewrite <- (s_len _ _ _ _ S), app_nth2, Nat.sub_diag by lia. reflexivity. }
    rewrite Ep, prevs_app in E3 by exact Bp2. rewrite E3. cbn [bind]. cbn [sl_mem max_height_] in Emax.
    exists m', p. split; [rewrite Emax; reflexivity|]. split; [exact S3|].
    intros r Hr' z Hz. rewrite (F2 r Hr' z Hz). apply (F3 r Hr' z Hz).
  Qed.
End Sim.
