(** SkipListBytesProofs.v -- readers of arena bytes do what the readers of
    SkipListConc.v do: a simulation. *)
From Coq Require Import List Arith ZArith NArith Lia Bool Sorted Permutation.
From Verif Require Import Outcome Random Arena ArenaSpec ArenaProofs SkipList SkipListSpec SkipListProofs
  SkipListInsert SkipListSeq SkipListArena SkipListArenaSpec SkipListArenaProofs
  SkipListConc SkipListConcSpec SkipListConcProofs SkipListBytes SkipListBytesSpec.
Import ListNotations.
Local Open Scope outcome_scope.
Local Opaque N.pow N.sub N.mul N.div N.modulo.

Lemma firstn_S_nth {A} (l : list A) : forall n e, nth_error l n = Some e -> firstn (S n) l = firstn n l ++ [e].
Proof.
  induction l as [|x l IH]; intros [|n] e H; cbn in *; try discriminate; [congruence|]. f_equal. apply IH. exact H.
Qed.
Lemma in_skipn_nth {A} (l : list A) n x : In x (skipn n l) -> exists i, n <= i /\ nth_error l i = Some x.
Proof.
  intros H. apply In_nth_error in H as (j & Hj). exists (n + j). split; [lia|]. rewrite <- Hj. clear.
  revert l. induction n as [|n IH]; intros l; [reflexivity|]. destruct l as [|y l]; [destruct j; reflexivity|]. apply IH.
Qed.
Lemma overlap_false a n b k : overlap a n b k = false <-> (b + k <= a \/ a + n <= b \/ n = 0 \/ k = 0)%N.
Proof. unfold overlap. rewrite N.ltb_ge. lia. Qed.
Lemma last_rel_snoc : forall ws w i acc a, last_rel (ws ++ [w]) i acc a =
  match w with
  | BPut o b d => if overlap a 8 b (N.of_nat (length d)) then match o with Release => S (i + length ws) | _ => 0 end else last_rel ws i acc a
  | _ => last_rel ws i acc a
  end.
Proof.
  induction ws as [|w' ws IH]; intros w i acc a; cbn [app last_rel length].
  - destruct w; cbn [last_rel]; auto. rewrite Nat.add_0_r. reflexivity.
  - destruct w'; cbn [last_rel]; rewrite IH, <- Nat.add_succ_comm; reflexivity.
Qed.
Lemma last_rel_zero ws i a : (forall o b d, In (BPut o b d) ws -> overlap a 8 b (N.of_nat (length d)) = false) -> last_rel ws i 0 a = 0.
Proof.
  revert i. induction ws as [|w ws IH]; intros i H; [reflexivity|].
  assert (H' : forall o b d, In (BPut o b d) ws -> overlap a 8 b (N.of_nat (length d)) = false) by (intros; eapply H; right; eassumption).
  destruct w as [ar bl|o b d|h]; cbn [last_rel]; try (apply IH; exact H'). rewrite (H o b d) by (left; reflexivity). apply IH. exact H'.
Qed.
Lemma last_release_zero {K} (ws : list (store K)) i x l : (forall b n v, ~ In (SLink b x n v) ws) -> last_release ws i 0 x l = 0.
Proof.
  revert i. induction ws as [|w ws IH]; intros i H; [reflexivity|].
  assert (H' : forall b n v, ~ In (SLink b x n v) ws) by (intros b n v Hin; eapply H; right; exact Hin).
  destruct w as [k h|h|b x' l' v]; cbn [last_release]; try (apply IH; exact H').
  destruct (Nat.eqb_spec x' x) as [->|]; [exfalso; eapply H; left; reflexivity|]. apply IH. exact H'.
Qed.

Section Tr.
  Context {K : Type} (cmp : K -> K -> Z) (ksize : N) (enc : K -> list N) (dec : list N -> option K).
  Hypothesis Hkc : key_codec ksize enc dec.
  Notation mem := (mem K). Notation node := (node K). Notation store := (store K).
  Notation next_off := (next_off ksize). Notation node_size := (node_size ksize).
  Notation sim := (sim ksize enc). Notation regions := (@regions K ksize).
  Notation ev := (bact * option store)%type.

  Definition stores (t : list ev) : list store := flat_map (fun e => match snd e with Some s => [s] | None => [] end) t.
  Lemma stores_app a b : stores (a ++ b) = stores a ++ stores b.
  Proof. apply flat_map_app. Qed.

  (** Both lists side by side: addresses of the nodes, nodes, bytes, what the rest of
      the program has from the arena, memory allocated for a node not yet written. *)
  Record bst := mk_bst { t_addrs : list N; t_M : mem; t_m : amem; t_os : list (N * N); t_pend : list (N * N) }.
  Definition t_sh (s : bst) : shared := mk_shared (t_m s) (max_height_ (t_M s)).
  Definition gsim (s : bst) : Prop := sim (t_addrs s) (t_M s) (t_m s) (t_os s ++ t_pend s).
  Definition put (m : amem) (a : N) (d : list N) : amem := mk_amem (put_bytes (m_bytes m) a d) (m_live m) (m_arena m).
  Definition cell (addrs : list N) (x n : nat) : N := (addr addrs x + next_off + 8 * N.of_nat n)%N.

  Inductive est : bst -> bact -> option store -> bst -> Prop :=
  | e_arena addrs M m os pend a bl os' pend' :
      (exists r, os' = os /\ pend' = pend ++ [r]) \/ (exists r, os' = os ++ [r] /\ pend' = pend) ->
      est (mk_bst addrs M m os pend) (BArena a bl) None (mk_bst addrs M (mk_amem (m_bytes m) (m_live m ++ bl) a) os' pend')
  | e_other addrs M m os pend o a d r :
      In r os -> (fst r <= a)%N -> (a + N.of_nat (length d) <= fst r + snd r)%N ->
      est (mk_bst addrs M m os pend) (BPut o a d) None (mk_bst addrs M (put m a d) os pend)
  | e_max addrs M m os pend h :
      est (mk_bst addrs M m os pend) (BMax h) (Some (SMax h)) (mk_bst addrs {| nodes := nodes M; max_height_ := h |} m os pend)
  | e_key addrs M m os p k h :
      1 <= h <= 12 ->
      est (mk_bst addrs M m os [(p, node_size h)]) (BPut Plain p (enc k)) (Some (SNew k h))
        (mk_bst (addrs ++ [p]) {| nodes := nodes M ++ [{| nkey := k; next_ := repeat None h |}]; max_height_ := max_height_ M |} (put m p (enc k)) os [])
  | e_link addrs M m os pend (b : bool) x n l M' d :
      apply_store M (SLink b x n l) = Ret M' -> d = le_bytes 8 (ptr addrs l) ->
      est (mk_bst addrs M m os pend) (BPut (if b then Release else Relaxed) (cell addrs x n) d) (Some (SLink b x n l))
        (mk_bst addrs M' (put m (cell addrs x n) d) os pend).

  Definition tr (t : list ev) (st : nat -> bst) : Prop :=
    (forall i, i <= length t -> gsim (st i)) /\
    forall i w so, nth_error t i = Some (w, so) -> est (st i) w so (st (S i)).

  Lemma tr_snoc t st w so s' : tr t st -> est (st (length t)) w so s' -> gsim s' ->
    exists st', tr (t ++ [(w, so)]) st' /\ st' (length (t ++ [(w, so)])) = s' /\ forall i, i <= length t -> st' i = st i.
  Proof.
    intros (G & E) Es Gs. exists (fun i => if i <=? length t then st i else s'). rewrite app_length. cbn [length].
    split; [split|split].
    - intros i Hi. destruct (Nat.leb_spec i (length t)); [apply G; assumption|exact Gs].
    - intros i w' so' H. destruct (Nat.lt_ge_cases i (length t)) as [L|L].
      + rewrite nth_error_app1 in H by exact L. destruct (Nat.leb_spec i (length t)); [|lia]. destruct (Nat.leb_spec (S i) (length t)); [|lia]. apply E. exact H.
      + assert (i = length t). { assert (i < length (t ++ [(w, so)])) by (apply nth_error_Some; congruence). rewrite app_length in *. cbn in *. lia. }
        subst i. rewrite nth_error_app2, Nat.sub_diag in H by lia. cbn in H. injection H as <- <-.
        destruct (Nat.leb_spec (length t) (length t)); [|lia]. destruct (Nat.leb_spec (S (length t)) (length t)); [lia|]. exact Es.
    - destruct (Nat.leb_spec (length t + 1) (length t)); [lia|reflexivity].
    - intros i Hi. destruct (Nat.leb_spec i (length t)); [reflexivity|lia].
  Qed.

  (** *** What stays *)
  Record ext (s s' : bst) : Prop := {
    x_addrs : exists a, t_addrs s' = t_addrs s ++ a;
    x_os : incl (t_os s) (t_os s');
    x_nodes : forall x nd, nth_error (nodes (t_M s)) x = Some nd -> exists nd', nth_error (nodes (t_M s')) x = Some nd' /\
      nkey nd' = nkey nd /\ length (next_ nd') = length (next_ nd)
  }.
  Lemma ext_refl s : ext s s.
  Proof. split; [exists []; rewrite app_nil_r; reflexivity|intros r H; exact H|eauto]. Qed.
  Lemma ext_trans a b c : ext a b -> ext b c -> ext a c.
  Proof.
    intros [(l1 & A1) O1 N1] [(l2 & A2) O2 N2]. split.
    - exists (l1 ++ l2). rewrite A2, A1, app_assoc. reflexivity.
    - intros r H. auto.
    - intros x nd H. destruct (N1 x nd H) as (nd1 & H1 & E1 & L1). destruct (N2 x nd1 H1) as (nd2 & H2 & E2 & L2).
      exists nd2. split; [exact H2|]. split; congruence.
  Qed.
  Lemma link_nodes (M M' : mem) b x n l : apply_store M (SLink b x n l) = Ret M' ->
    exists nd, nth_error (nodes M) x = Some nd /\ n < length (next_ nd) /\
      M' = {| nodes := set_nth (nodes M) x {| nkey := nkey nd; next_ := set_nth (next_ nd) n (Some l) |}; max_height_ := max_height_ M |}.
  Proof.
    cbn [apply_store]. unfold get_node. destruct (nth_error (nodes M) x) as [nd|]; cbn [bind]; [|discriminate].
    destruct (Nat.ltb_spec n (length (next_ nd))); [|discriminate]. intros H0. injection H0 as <-. eauto.
  Qed.
  Lemma est_ext s w so s' : est s w so s' -> ext s s'.
  Proof.
    intros H. destruct H as [addrs M m os pend a bl os' pend' H|addrs M m os pend o a d r H1 H2 H3|addrs M m os pend h|addrs M m os p k h Hh|addrs M m os pend b x n l M' d H Ed].
    - split; cbn [t_addrs t_os t_M]; [exists []; rewrite app_nil_r; reflexivity| |eauto].
      destruct H as [(r & -> & _)|(r & -> & _)]; [intros q Hq; exact Hq|apply incl_appl, incl_refl].
    - split; cbn [t_addrs t_os t_M]; [exists []; rewrite app_nil_r; reflexivity|apply incl_refl|eauto].
    - split; cbn [t_addrs t_os t_M nodes]; [exists []; rewrite app_nil_r; reflexivity|apply incl_refl|eauto].
    - split; cbn [t_addrs t_os t_M nodes]; [eauto|apply incl_refl|]. intros x nd Hx. exists nd. split; [|auto].
      rewrite nth_error_app1; [exact Hx|]. apply nth_error_Some. congruence.
    - destruct (link_nodes _ _ _ _ _ _ H) as (nd & En & Hn & ->).
      split; cbn [t_addrs t_os t_M nodes]; [exists []; rewrite app_nil_r; reflexivity|apply incl_refl|].
      intros y nd2 Hy. rewrite nth_error_set_nth. destruct (Nat.eqb_spec y x) as [->|]; cbn [andb]; [|eauto].
      assert (Hx : x < length (nodes M)) by (apply nth_error_Some; congruence). apply Nat.ltb_lt in Hx. rewrite Hx.
      eexists. split; [reflexivity|]. cbn [nkey next_]. rewrite set_nth_length. assert (nd2 = nd) by congruence. subst. auto.
  Qed.

  Section Run.
    Variables (t : list ev) (st : nat -> bst).
    Hypothesis R : tr t st.
    Notation Wb := (map fst t).
    Notation Wn := (stores t).
    Notation fin := (st (length t)).
    Definition phi (n : nat) : nat := length (stores (firstn n t)).

    Lemma step_at i : i < length t -> exists w so, nth_error t i = Some (w, so) /\ est (st i) w so (st (S i)).
    Proof.
      intros Hi. destruct (nth_error t i) as [[w so]|] eqn:E; [|apply nth_error_None in E; lia]. exists w, so. split; [reflexivity|]. apply R. exact E.
    Qed.
    Lemma st_ext i j : i <= j -> j <= length t -> ext (st i) (st j).
    Proof.
      intros H. induction H as [|j H IH]; intros Hj; [apply ext_refl|].
      destruct (step_at j ltac:(lia)) as (w & so & _ & E). eapply ext_trans; [apply IH; lia|]. eapply est_ext. exact E.
    Qed.
    Lemma fst_firstn n : firstn n Wb = map fst (firstn n t).
    Proof. apply firstn_map. Qed.

    (** the two memories at every point *)
    Lemma sh_step s w so s' : est s w so s' -> bapply (t_sh s) w = t_sh s'.
    Proof.
      intros H. destruct H; cbn [bapply t_sh h_mem h_max t_m t_M max_height_]; try reflexivity.
      destruct (link_nodes _ _ _ _ _ _ H) as (nd & _ & _ & ->). reflexivity.
    Qed.
    Lemma shared_ok n : n <= length t -> shared_at (t_sh (st 0)) Wb n = t_sh (st n).
    Proof.
      unfold shared_at. rewrite fst_firstn. induction n as [|n IH]; intros Hn; [reflexivity|].
      destruct (step_at n ltac:(lia)) as (w & so & E & Es). rewrite (firstn_S_nth _ _ _ E), map_app, fold_left_app. cbn [map fold_left fst].
      rewrite IH by lia. eapply sh_step. exact Es.
    Qed.
    Lemma replay_app (m : mem) a b : replay m (a ++ b) = let! m' := replay m a in replay m' b.
    Proof.
      revert m. induction a as [|w a IH]; intros m; [reflexivity|]. cbn [app replay]. destruct (apply_store m w); cbn [bind]; auto.
    Qed.
    Lemma est_store s w so s' : est s w so s' -> replay (t_M s) (match so with Some x => [x] | None => [] end) = Ret (t_M s').
    Proof.
      intros H. destruct H as [| | | |? ? ? ? ? ? ? ? ? ? ? H ?]; try reflexivity. cbn [replay t_M]. rewrite H. reflexivity.
    Qed.
    Lemma stores_firstn n : firstn (phi n) Wn = stores (firstn n t).
    Proof.
      unfold phi. rewrite <- (firstn_skipn n t) at 2. rewrite stores_app, firstn_app, Nat.sub_diag, firstn_all. cbn [firstn]. apply app_nil_r.
    Qed.
    Lemma mem_ok n : n <= length t -> mem_at (t_M (st 0)) Wn (phi n) = Ret (t_M (st n)).
    Proof.
      unfold mem_at. rewrite stores_firstn. induction n as [|n IH]; intros Hn; [reflexivity|].
      destruct (step_at n ltac:(lia)) as (w & so & E & Es). rewrite (firstn_S_nth _ _ _ E), stores_app, replay_app, IH by lia. cbn [bind].
      unfold stores. cbn [flat_map snd]. rewrite app_nil_r. eapply est_store. exact Es.
    Qed.
    Lemma phi_S n w so : nth_error t n = Some (w, so) -> phi (S n) = phi n + match so with Some _ => 1 | None => 0 end.
    Proof.
      intros E. unfold phi. rewrite (firstn_S_nth _ _ _ E), stores_app, app_length. unfold stores at 2. cbn [flat_map snd]. destruct so; reflexivity.
    Qed.
    Lemma phi_mono a b : a <= b -> phi a <= phi b.
    Proof.
      intros H. induction H as [|b H IH]; [lia|]. destruct (nth_error t b) as [[w so]|] eqn:E.
      - rewrite (phi_S _ _ _ E). lia.
      - unfold phi in *. apply nth_error_None in E. rewrite (firstn_all2 (n := S b) t) by lia. rewrite (firstn_all2 (n := b) t) in IH by lia. exact IH.
    Qed.
    Lemma phi_0 : phi 0 = 0.
    Proof. reflexivity. Qed.
    Lemma phi_all : phi (length t) = length Wn.
    Proof. unfold phi. rewrite firstn_all. reflexivity. Qed.

    (** *** Where stores go *)
    Lemma node_in s x nd : gsim s -> nth_error (nodes (t_M s)) x = Some nd -> In (addr (t_addrs s) x, node_size (length (next_ nd))) (regions (t_addrs s) (t_M s)).
    Proof. intros G H. eapply nth_error_In. apply (regions_nth ksize); [eapply (addr_ex ksize enc _ _ _ _ G); exact H|exact H]. Qed.
    Lemma node_h s x nd : gsim s -> nth_error (nodes (t_M s)) x = Some nd -> 1 <= length (next_ nd) <= 12.
    Proof. intros G H. eapply na_height. eapply (s_node _ _ _ _ _ _ G); [eapply (addr_ex ksize enc _ _ _ _ G); exact H|exact H]. Qed.
    Lemma nodes_apart s x y nd nd' : gsim s -> nth_error (nodes (t_M s)) x = Some nd -> nth_error (nodes (t_M s)) y = Some nd' -> x <> y ->
      disjoint (addr (t_addrs s) x, node_size (length (next_ nd))) (addr (t_addrs s) y, node_size (length (next_ nd'))).
    Proof.
      intros G Hx Hy Hne. pose proof (all_disjoint _ _ _ _ _ _ G) as D. apply pd_app in D as (D & _).
      eapply (pd_nth _ x y _ _ D Hne); apply (regions_nth ksize); try assumption; eapply (addr_ex ksize enc _ _ _ _ G); eassumption.
    Qed.
    Lemma disj_overlap (r1 r2 : N * N) a n b k : disjoint r1 r2 -> (fst r1 <= a)%N -> (a + n <= fst r1 + snd r1)%N ->
      (fst r2 <= b)%N -> (b + k <= fst r2 + snd r2)%N -> overlap a n b k = false.
    Proof.
      intros D H1 H2 H3 H4. unfold overlap. apply N.ltb_ge. destruct (N.le_gt_cases (N.min (a + n) (b + k)) (N.max a b)); [assumption|].
      exfalso. apply (D (N.max a b)); unfold covers; lia.
    Qed.

    (** a store and a node that exists *)
    Lemma put_node s o a d so s' x nd : est s (BPut o a d) so s' -> gsim s -> nth_error (nodes (t_M s)) x = Some nd ->
      overlap (addr (t_addrs s) x) ksize a (N.of_nat (length d)) = false /\
      forall n, n < length (next_ nd) ->
        (overlap (cell (t_addrs s) x n) 8 a (N.of_nat (length d)) = false /\ (forall b l, so <> Some (SLink b x n l))) \/
        (a = cell (t_addrs s) x n /\ length d = 8 /\ exists b l, so = Some (SLink b x n l) /\ o = if b then Release else Relaxed).
    Proof.
      intros E G Hx. pose proof (node_in _ _ _ G Hx) as Hin. pose proof (node_h _ _ _ G Hx) as Hh.
      pose proof (all_disjoint _ _ _ _ _ _ G) as D. apply pd_app in D as (_ & _ & D).
      pose proof (next_off_ge _ _ _ Hkc) as (Ho & _). pose proof (kc_bound _ _ _ Hkc) as (Hk & _).
      assert (Hsz : node_size (length (next_ nd)) = (next_off + 8 * N.of_nat (length (next_ nd)))%N) by (apply node_size_eq; lia).
      assert (Apart : forall r, In r (t_os s ++ t_pend s) -> (fst r <= a)%N -> (a + N.of_nat (length d) <= fst r + snd r)%N ->
        overlap (addr (t_addrs s) x) ksize a (N.of_nat (length d)) = false /\
        forall n, n < length (next_ nd) -> overlap (cell (t_addrs s) x n) 8 a (N.of_nat (length d)) = false).
      { intros r Hr H1 H2. specialize (D _ r Hin Hr). split.
        - eapply disj_overlap; [exact D| | | |]; cbn [fst snd]; try assumption; lia.
        - intros n Hn. eapply disj_overlap; [exact D| | | |]; cbn [fst snd]; try assumption; unfold cell; lia. }
      inversion E; subst.
      - destruct (Apart r) as (A1 & A2); [apply in_or_app; left; assumption|assumption|assumption|]. split; [exact A1|]. intros n Hn. left. split; [apply A2; exact Hn|discriminate].
      - destruct (Apart (a, node_size h)) as (A1 & A2); [apply in_or_app; right; left; reflexivity|cbn [fst]; lia| |].
        + cbn [fst snd]. rewrite (kc_size _ _ _ Hkc), node_size_eq by lia. lia.
        + split; [exact A1|]. intros n Hn. left. split; [apply A2; exact Hn|discriminate].
      - cbn [t_addrs t_M] in *. rewrite le_bytes_length. match goal with HA : apply_store _ _ = Ret _ |- _ => destruct (link_nodes _ _ _ _ _ _ HA) as (nd' & En & Hn & _) end.
        destruct (Nat.eq_dec x x0) as [<-|Hne].
        + assert (nd' = nd) by congruence. subst nd'. split.
          * apply overlap_false. right. unfold cell. lia.
          * intros j Hj. destruct (Nat.eq_dec j n) as [->|Hjn].
            -- right. split; [reflexivity|]. split; [reflexivity|]. eauto.
            -- left. split; [apply overlap_false; unfold cell; lia|]. intros b' l' X. injection X as _ X _. lia.
        + pose proof (nodes_apart _ _ _ _ _ G Hx En Hne) as Da. cbn [t_addrs] in Da.
          pose proof (node_h _ _ _ G En) as Hh'. assert (Hsz' : node_size (length (next_ nd')) = (next_off + 8 * N.of_nat (length (next_ nd')))%N) by (apply node_size_eq; lia).
          split.
          * eapply disj_overlap; [exact Da| | | |]; cbn [fst snd]; unfold cell; lia.
          * intros j Hj. left. split; [|intros b' l' X; injection X as _ X _; congruence].
            eapply disj_overlap; [exact Da| | | |]; cbn [fst snd]; unfold cell; lia.
    Qed.

    (** all stores so far went to nodes and to the program's regions *)
    Definition inside (s : bst) (b k : N) : Prop := exists r, In r (regions (t_addrs s) (t_M s) ++ t_os s) /\ (fst r <= b)%N /\ (b + k <= fst r + snd r)%N.
    Lemma ext_region s s' r : gsim s -> gsim s' -> ext s s' -> In r (regions (t_addrs s) (t_M s) ++ t_os s) -> In r (regions (t_addrs s') (t_M s') ++ t_os s').
    Proof.
      intros G G' X Hr. apply in_app_or in Hr as [Hr|Hr]; apply in_or_app; [left|right; apply (x_os _ _ X); exact Hr].
      apply In_nth_error in Hr as (x & Hx). unfold SkipListArenaProofs.regions in Hx. rewrite nth_error_map in Hx.
      destruct (nth_error (combine (t_addrs s) (nodes (t_M s))) x) as [[a nd]|] eqn:Ec; [|discriminate]. injection Hx as <-.
      assert (Ea : nth_error (t_addrs s) x = Some a /\ nth_error (nodes (t_M s)) x = Some nd).
      { clear - Ec. revert x Ec. generalize (nodes (t_M s)). generalize (t_addrs s). intros l. induction l as [|b l IH]; intros l' x H; [destruct x; discriminate|].
        destruct l' as [|n l']; [destruct x; discriminate|]. destruct x as [|x]; cbn [combine nth_error] in *; [split; congruence|]. apply IH. exact H. }
      destruct Ea as (Ea & En). destruct (x_nodes _ _ X x nd En) as (nd' & En' & _ & Ln). destruct (x_addrs _ _ X) as (l & El).
      unfold region. cbn [fst snd]. rewrite <- Ln. eapply nth_error_In. apply (regions_nth ksize); [|exact En']. rewrite El, nth_error_app1; [exact Ea|]. apply nth_error_Some. congruence.
    Qed.
    Lemma inside_ext s s' b k : gsim s -> gsim s' -> ext s s' -> inside s b k -> inside s' b k.
    Proof. intros G G' X (r & Hr & H1 & H2). exists r. split; [exact (ext_region s s' r G G' X Hr)|split; assumption]. Qed.
    Lemma est_inside s o b d so s' : est s (BPut o b d) so s' -> gsim s -> gsim s' -> inside s' b (N.of_nat (length d)).
    Proof.
      intros Es G G'. pose proof (est_ext _ _ _ _ Es) as X. inversion Es; subst.
      - exists r. split; [apply in_or_app; right; assumption|split; assumption].
      - exists (b, node_size h). split.
        + apply in_or_app. left. pose proof (s_len _ _ _ _ _ _ G) as Ls. cbn [t_addrs t_M] in *. unfold SkipListArenaProofs.regions. cbn [nodes].
          rewrite combine_snoc by exact Ls. rewrite map_app. apply in_or_app. right. left. unfold region. cbn [fst snd next_]. rewrite repeat_length. reflexivity.
        + cbn [fst snd]. split; [lia|]. rewrite (kc_size _ _ _ Hkc), node_size_eq by lia. pose proof (next_off_ge _ _ _ Hkc). lia.
      - match goal with HA : apply_store _ _ = Ret _ |- _ => destruct (link_nodes _ _ _ _ _ _ HA) as (nd & En & Hj & _) end.
        exists (addr addrs x, node_size (length (next_ nd))). split.
        + refine (ext_region _ _ _ G G' X _). apply in_or_app. left. exact (node_in _ _ _ G En).
        + pose proof (node_h _ _ _ G En) as Hh. cbn [fst snd]. rewrite le_bytes_length. unfold cell. rewrite node_size_eq by lia. lia.
    Qed.
    Lemma puts_inside n : n <= length t -> forall o b d, In (BPut o b d) (firstn n Wb) -> inside (st n) b (N.of_nat (length d)).
    Proof.
      rewrite fst_firstn. induction n as [|n IH]; intros Hn o b d H; [contradiction|].
      destruct (step_at n ltac:(lia)) as (w & so & E & Es). rewrite (firstn_S_nth _ _ _ E), map_app in H.
      pose proof (proj1 R n ltac:(lia)) as G. pose proof (proj1 R (S n) Hn) as G'. pose proof (est_ext _ _ _ _ Es) as X.
      apply in_app_or in H as [H|[H|[]]].
      - eapply inside_ext; [exact G|exact G'|exact X|]. eapply IH; [lia|exact H].
      - cbn [fst] in H. subst w. eapply est_inside; eassumption.
    Qed.
    Lemma links_bound n : n <= length t -> forall b x j l, In (SLink b x j l) (stores (firstn n t)) -> x < length (nodes (t_M (st n))).
    Proof.
      induction n as [|n IH]; intros Hn b x j l H; [contradiction|].
      destruct (step_at n ltac:(lia)) as (w & so & E & Es). rewrite (firstn_S_nth _ _ _ E), stores_app in H.
      pose proof (est_ext _ _ _ _ Es) as X.
      assert (Hx : x < length (nodes (t_M (st n)))).
      { apply in_app_or in H as [H|H]; [eapply IH; [lia|exact H]|]. unfold stores in H. cbn [flat_map snd] in H. rewrite app_nil_r in H.
        destruct so as [s0|]; [|contradiction]. destruct H as [->|[]]. inversion Es; subst.
        match goal with HA : apply_store _ _ = Ret _ |- _ => destruct (link_nodes _ _ _ _ _ _ HA) as (nd & En & _) end. cbn [t_M]. apply nth_error_Some. congruence. }
      apply nth_error_Some in Hx. destruct (nth_error (nodes (t_M (st n))) x) as [nd|] eqn:En; [|congruence].
      destruct (x_nodes _ _ X x nd En) as (nd' & En' & _). apply nth_error_Some. congruence.
    Qed.

    (** *** Which store a load reads from *)
    Lemma addr_ext s s' x : ext s s' -> x < length (t_addrs s) -> addr (t_addrs s') x = addr (t_addrs s) x.
    Proof. intros X H. destruct (x_addrs _ _ X) as (l & ->). unfold addr. apply app_nth1. exact H. Qed.
    Lemma node_lt_addrs s x nd : gsim s -> nth_error (nodes (t_M s)) x = Some nd -> x < length (t_addrs s).
    Proof. intros G H. rewrite (s_len _ _ _ _ _ _ G). apply nth_error_Some. congruence. Qed.
    Lemma est_new s w so s' : est s w so s' -> length (nodes (t_M s)) < length (nodes (t_M s')) ->
      exists k h p M, w = BPut Plain p (enc k) /\ so = Some (SNew k h) /\ t_pend s = [(p, node_size h)] /\ 1 <= h <= 12 /\
        s' = mk_bst (t_addrs s ++ [p]) M (t_m s') (t_os s) [] /\ nodes M = nodes (t_M s) ++ [{| nkey := k; next_ := repeat None h |}].
    Proof.
      intros Es Hx. destruct Es as [| | |addrs M m os p k h Hh|addrs M m os pend b x n l M' d HA _]; cbn [t_M nodes] in Hx; try lia.
      - exists k, h, p. eexists. cbn [t_addrs t_M t_os t_pend t_m]. split; [reflexivity|]. split; [reflexivity|]. split; [reflexivity|]. split; [exact Hh|]. split; reflexivity.
      - destruct (link_nodes _ _ _ _ _ _ HA) as (nd2 & _ & _ & ->). cbn [nodes] in Hx. rewrite set_nth_length in Hx. lia.
    Qed.
    Lemma last_ok n : n <= length t -> forall x nd j, nth_error (nodes (t_M (st n))) x = Some nd -> j < length (next_ nd) ->
      last_rel (firstn n Wb) 0 0 (cell (t_addrs (st n)) x j) <= n /\
      phi (last_rel (firstn n Wb) 0 0 (cell (t_addrs (st n)) x j)) = last_release (stores (firstn n t)) 0 0 x j.
    Proof.
      induction n as [|n IH]; intros Hn x nd j Hx Hj; [split; [apply Nat.le_refl|reflexivity]|].
      destruct (step_at n ltac:(lia)) as (w & so & E & Es).
      pose proof (proj1 R n ltac:(lia)) as G. pose proof (proj1 R (S n) Hn) as G'. pose proof (est_ext _ _ _ _ Es) as X.
      pose proof (puts_inside n ltac:(lia)) as PI. pose proof (links_bound n ltac:(lia)) as LB.
      specialize (IH ltac:(lia)).
      rewrite fst_firstn, (firstn_S_nth _ _ _ E), map_app, stores_app, <- fst_firstn. cbn [map fst]. rewrite last_rel_snoc.
      unfold stores at 2. cbn [flat_map snd]. rewrite app_nil_r.
      assert (Lw : length (firstn n Wb) = n) by (rewrite firstn_length, map_length; lia).
      destruct (Nat.lt_ge_cases x (length (nodes (t_M (st n))))) as [Hold|Hnew].
      - (* a node that was there *)
        destruct (nth_error (nodes (t_M (st n))) x) as [nd0|] eqn:E0; [|apply nth_error_None in E0; lia].
        destruct (x_nodes _ _ X x nd0 E0) as (nd1 & E1 & _ & L1). assert (nd1 = nd) by congruence. subst nd1.
        assert (Ec : cell (t_addrs (st (S n))) x j = cell (t_addrs (st n)) x j).
        { unfold cell. rewrite (addr_ext _ _ _ X); [reflexivity|]. eapply node_lt_addrs; [exact G|exact E0]. }
        rewrite Ec. specialize (IH x nd0 j E0 ltac:(lia)). destruct IH as (I1 & I2).
        destruct w as [ar bl|o a d|h].
        + assert (so = None) by (inversion Es; reflexivity). subst so. rewrite app_nil_r. split; [lia|exact I2].
        + destruct (put_node _ _ _ _ _ _ _ _ Es G E0) as (_ & HP). destruct (HP j ltac:(lia)) as [(H1 & H2)|(-> & H2 & b & l & -> & ->)].
          * rewrite H1. split; [lia|]. rewrite I2. destruct so as [[k0 h0|h0|b x' j' l]|]; try (rewrite last_release_app; reflexivity); [|rewrite app_nil_r; reflexivity].
            rewrite last_release_app. destruct (Nat.eqb_spec x' x) as [->|]; cbn [andb]; [|reflexivity]. destruct (Nat.eqb_spec j' j) as [->|]; [|reflexivity].
            exfalso. apply (H2 b l). reflexivity.
          * assert (Ov : overlap (cell (t_addrs (st n)) x j) 8 (cell (t_addrs (st n)) x j) (N.of_nat (length d)) = true).
            { destruct (overlap _ _ _ _) eqn:Eo; [reflexivity|]. apply overlap_false in Eo. rewrite H2 in Eo. lia. }
            rewrite Ov, last_release_app, !Nat.eqb_refl. cbn [andb]. destruct b; [|split; [lia|reflexivity]].
            rewrite Lw. cbn [Nat.add]. split; [lia|]. rewrite (phi_S _ _ _ E). unfold phi. rewrite Nat.add_1_r. reflexivity.
        + assert (so = Some (SMax h)) by (inversion Es; reflexivity). subst so. rewrite last_release_app. split; [lia|exact I2].
      - (* the node just made *)
        assert (Hx' : length (nodes (t_M (st n))) < length (nodes (t_M (st (S n))))) by (apply Nat.le_lt_trans with x; [exact Hnew|apply nth_error_Some; congruence]).
        pose proof (est_new _ _ _ _ Es Hx') as Hw.
        destruct Hw as (k & h & p & M & -> & -> & Ep & Hh & Es' & EM). rewrite Es' in *. cbn [t_addrs t_M] in *.
        assert (x = length (nodes (t_M (st n)))).
        { assert (x < length (nodes M)) by (apply nth_error_Some; congruence). rewrite EM, app_length in H. cbn in H. lia. }
        subst x. rewrite EM, nth_error_app2, Nat.sub_diag in Hx by lia. cbn in Hx. injection Hx as <-. cbn [next_] in Hj. rewrite repeat_length in Hj.
        assert (Ec : cell (t_addrs (st n) ++ [p]) (length (nodes (t_M (st n)))) j = (p + next_off + 8 * N.of_nat j)%N).
        { unfold cell, addr. rewrite <- (s_len _ _ _ _ _ _ G), app_nth2, Nat.sub_diag by lia. reflexivity. }
        rewrite Ec, last_release_app.
        pose proof (next_off_ge _ _ _ Hkc) as (Ho & _).
        assert (Ov : overlap (p + next_off + 8 * N.of_nat j) 8 p (N.of_nat (length (enc k))) = false).
        { apply overlap_false. left. rewrite (kc_size _ _ _ Hkc). lia. }
        rewrite Ov. rewrite last_rel_zero, last_release_zero; [split; [lia|reflexivity]| |].
        + intros b j' l H. specialize (LB _ _ _ _ H). lia.
        + intros o b d H. destruct (PI _ _ _ H) as (r & Hr & H1 & H2).
          pose proof (all_disjoint _ _ _ _ _ _ G) as D. rewrite Ep, app_assoc in D. apply pd_app in D as (_ & _ & D).
          specialize (D r (p, node_size h) Hr (or_introl eq_refl)). pose proof (disj_overlap _ _ (p + next_off + 8 * N.of_nat j) 8 b (N.of_nat (length d)) (fun z Z1 Z2 => D z Z2 Z1)) as DO.
          cbn [fst snd] in DO. rewrite node_size_eq in DO by lia. apply DO; lia.
    Qed.

    (** *** Loads *)
    Notation A := (t_addrs fin).
    Notation sh0 := (t_sh (st 0)).
    Lemma mem_of_ok n : n <= length t -> mem_of sh0 Wb n = t_m (st n).
    Proof. intros H. unfold mem_of. rewrite (shared_ok n H). reflexivity. Qed.
    Lemma addr_A i x nd : i <= length t -> nth_error (nodes (t_M (st i))) x = Some nd -> addr (t_addrs (st i)) x = addr A x.
    Proof.
      intros Hi Hx. symmetry. apply addr_ext; [apply st_ext; lia|]. eapply node_lt_addrs; [apply (proj1 R i Hi)|exact Hx].
    Qed.
    Lemma bound_A i x : i <= length t -> x < length (t_addrs (st i)) -> x < length A /\ addr (t_addrs (st i)) x = addr A x.
    Proof.
      intros Hi Hx. pose proof (st_ext i (length t) Hi (le_n _)) as X. split; [|symmetry; apply addr_ext; assumption].
      destruct (x_addrs _ _ X) as (l & ->). rewrite app_length. lia.
    Qed.
    Lemma later_put T x nd o a d : T <= length t -> nth_error (nodes (t_M (st T))) x = Some nd -> In (BPut o a d) (skipn T Wb) ->
      overlap (addr A x) ksize a (N.of_nat (length d)) = false /\
      forall n, n < length (next_ nd) -> overlap (cell A x n) 8 a (N.of_nat (length d)) = false \/
        (a = cell A x n /\ length d = 8 /\ o <> Plain).
    Proof.
      intros HT Hx Hin. apply in_skipn_nth in Hin as (i & Hi & E). rewrite nth_error_map in E.
      destruct (nth_error t i) as [[w so]|] eqn:Et; [|discriminate]. injection E as E. cbn [fst] in E. subst w.
      assert (Li : i < length t) by (apply nth_error_Some; congruence).
      pose proof (proj2 R _ _ _ Et) as Es. pose proof (st_ext T i Hi ltac:(lia)) as X.
      destruct (x_nodes _ _ X x nd Hx) as (nd' & Hx' & _ & Ln).
      destruct (put_node _ _ _ _ _ _ _ _ Es (proj1 R i ltac:(lia)) Hx') as (P1 & P2).
      unfold cell in *. rewrite (addr_A i x nd' ltac:(lia) Hx') in *. split; [exact P1|]. intros n Hn.
      destruct (P2 n ltac:(lia)) as [(H1 & _)|(H1 & H2 & b & l & _ & H3)]; [left; exact H1|right]. split; [exact H1|]. split; [exact H2|].
      rewrite H3. destruct b; discriminate.
    Qed.
    Lemma untouched_ok T x nd : T <= length t -> nth_error (nodes (t_M (st T))) x = Some nd -> untouched Wb T (addr A x) ksize = true.
    Proof.
      intros HT Hx. unfold untouched. apply forallb_forall. intros w Hw. destruct w as [ar bl|o a d|h]; try reflexivity.
      destruct (later_put _ _ _ _ _ _ HT Hx Hw) as (-> & _). reflexivity.
    Qed.
    Lemma only_atomic_ok T x nd n : T <= length t -> nth_error (nodes (t_M (st T))) x = Some nd -> n < length (next_ nd) -> only_atomic Wb T (cell A x n) = true.
    Proof.
      intros HT Hx Hn. unfold only_atomic. apply forallb_forall. intros w Hw. destruct w as [ar bl|o a d|h]; try reflexivity.
      destruct (later_put _ _ _ _ _ _ HT Hx Hw) as (_ & P). destruct (P n Hn) as [->|(-> & -> & Ho)]; [reflexivity|].
      rewrite N.eqb_refl. cbn [Nat.eqb andb]. destruct o; [congruence|apply orb_true_r|apply orb_true_r].
    Qed.
    Lemma key_node (M : mem) x k : key_of M x = Ret k -> exists nd, nth_error (nodes M) x = Some nd.
    Proof. unfold key_of, get_node. destruct (nth_error (nodes M) x) as [nd|]; [eauto|discriminate]. Qed.
    Lemma Next_node (M : mem) x n l : Next M x n = Ret l -> exists nd, nth_error (nodes M) x = Some nd /\ n < length (next_ nd).
    Proof.
      unfold Next, get_node. destruct (nth_error (nodes M) x) as [nd|]; [|discriminate]. cbn [bind]. intros H. exists nd. split; [reflexivity|].
      apply nth_error_Some. destruct (nth_error (next_ nd) n); discriminate.
    Qed.
    Lemma key_ok T x k : T <= length t -> key_of (t_M (st T)) x = Ret k -> bKey ksize dec sh0 Wb T (addr A x) = Ret k /\ x < length A.
    Proof.
      intros HT Hk. destruct (key_node _ _ _ Hk) as (nd & Hx). pose proof (proj1 R T HT) as G.
      pose proof (aKey_ok _ _ _ Hkc _ _ _ _ G x k Hk) as E. rewrite (addr_A T x nd HT Hx) in E.
      split; [|apply (bound_A T x HT); eapply node_lt_addrs; [exact G|exact Hx]].
      unfold bKey, plain_load. rewrite (untouched_ok T x nd HT Hx), (mem_of_ok T HT). exact E.
    Qed.
    Lemma phi_max a b : phi (Nat.max a b) = Nat.max (phi a) (phi b).
    Proof.
      destruct (Nat.max_spec a b) as [(H & ->)|(H & ->)].
      - pose proof (phi_mono a b ltac:(lia)). lia.
      - pose proof (phi_mono b a H). lia.
    Qed.
    Lemma load_ok T n x l v V : T <= n -> n <= length t -> load_link (t_M (st 0)) Wn (phi T) (phi n) x l = Ret (v, V) ->
      exists T', bNext ksize sh0 Wb T n (addr A x) l = Ret (ptr A v, T') /\ phi T' = V /\ T <= T' <= n /\ ok_link A v /\ x < length A.
    Proof.
      intros HT Hn H. unfold load_link in H. rewrite (mem_ok T), (mem_ok n) in H by lia. cbn [bind] in H.
      destruct (Next (t_M (st T)) x l) as [v0| | |] eqn:E0; cbn [bind] in H; try discriminate.
      destruct (Next (t_M (st n)) x l) as [v1| | |] eqn:E1; cbn [bind] in H; try discriminate. injection H as -> <-.
      destruct (Next_node _ _ _ _ E0) as (nd0 & Hx0 & L0). destruct (Next_node _ _ _ _ E1) as (nd1 & Hx1 & L1).
      pose proof (proj1 R T ltac:(lia)) as GT. pose proof (proj1 R n Hn) as Gn.
      destruct (aNext_ok _ _ _ Hkc _ _ _ _ GT x l v0 E0) as (A0 & _). destruct (aNext_ok _ _ _ Hkc _ _ _ _ Gn x l v E1) as (A1 & Hv).
      rewrite (addr_A T x nd0 ltac:(lia) Hx0) in A0. rewrite (addr_A n x nd1 Hn Hx1) in A1.
      destruct (last_ok n Hn x nd1 l Hx1 L1) as (P1 & P2). unfold cell in P1, P2. rewrite (addr_A n x nd1 Hn Hx1) in P1, P2.
      assert (Ep : ptr (t_addrs (st n)) v = ptr A v /\ ok_link A v).
      { destruct v as [y|]; [|split; reflexivity]. destruct (bound_A n y Hn Hv) as (H1 & H2). split; [exact H2|exact H1]. }
      destruct Ep as (Ep & Hok). rewrite Ep in A1.
      exists (Nat.max T (last_rel (firstn n Wb) 0 0 (addr A x + next_off + 8 * N.of_nat l))). split; [|split; [|split; [lia|split; [exact Hok|]]]].
      - unfold bNext, aNext in *. destruct (bad_node (addr A x)); [discriminate|]. unfold acquire.
        pose proof (only_atomic_ok T x nd0 l ltac:(lia) Hx0 L0) as OA. unfold cell in OA. rewrite OA, (mem_of_ok T), (mem_of_ok n) by lia.
        destruct (load (t_m (st T)) (addr A x + next_off + 8 * N.of_nat l) 8); cbn [bind] in A0 |- *; try discriminate.
        destruct (load (t_m (st n)) (addr A x + next_off + 8 * N.of_nat l) 8); cbn [bind] in A1 |- *; try discriminate. injection A1 as ->. reflexivity.
      - rewrite phi_max, P2, stores_firstn. reflexivity.
      - apply (bound_A n x Hn). eapply node_lt_addrs; [exact Gn|exact Hx1].
    Qed.

    (** *** Readers *)
    Variable dbg : bool.
    Notation hd := (addr A 0).
    Definition pc_rel (p : pc K) (q : bpc K) : Prop :=
      match p, q with
      | PIdle, QIdle | PHeight, QHeight | PDone, QDone => True
      | PFge k x l, QFge k' x' l' => k = k' /\ x' = addr A x /\ l = l'
      | PFlt k x l, QFlt k' x' l' => k = k' /\ x' = addr A x /\ l = l' /\ x < length A
      | PFlast x l, QFlast x' l' => x' = addr A x /\ l = l'
      | PNext0 x, QNext0 x' => x' = addr A x
      | _, _ => False
      end.
    Record rel (now : nat) (r : reader K) (b : breader K) : Prop := {
      l_view : r_view r = phi (b_view b);
      l_le : b_view b <= now;
      l_pc : pc_rel (r_pc r) (b_pc b);
      l_op : r_op r = b_op b;
      l_it : b_it b = ptr A (r_it r) /\ ok_link A (r_it r);
      l_res : r_res r = b_res b;
      l_from : b_from b = ptr A (r_from r) /\ ok_link A (r_from r);
      l_start : r_start r = phi (b_start b);
      l_start_le : b_start b <= now;
      l_end : r_end r = phi (b_end b) /\ b_end b <= now;
      l_steps : r_steps r = b_steps b
    }.
    Lemma G_fin : gsim fin. Proof. apply (proj1 R). lia. Qed.
    Lemma len_A : 0 < length A -> forall v, ok_link A v -> (ptr A v =? 0)%N = match v with None => true | Some _ => false end.
    Proof. intros _ v Hv. apply (ptr_null _ _ _ Hkc _ _ _ _ G_fin). exact Hv. Qed.
    Lemma null_ok v : ok_link A v -> (ptr A v =? 0)%N = match v with None => true | Some _ => false end.
    Proof. intros Hv. apply (ptr_null _ _ _ Hkc _ _ _ _ G_fin). exact Hv. Qed.
    Lemma valid_ok v : ok_link A v -> aValid (ptr A v) = Valid v.
    Proof. intros Hv. unfold aValid. rewrite null_ok by exact Hv. destruct v; reflexivity. Qed.
    Lemma head_ok x : 0 < length A -> x < length A -> (addr A x =? hd)%N = (x =? 0).
    Proof.
      intros H0 Hx. destruct (N.eqb_spec (addr A x) hd) as [E|E].
      - apply (addr_inj _ _ _ Hkc _ _ _ _ G_fin _ _ Hx H0) in E. subst x. reflexivity.
      - destruct (Nat.eqb_spec x 0) as [->|]; [congruence|reflexivity].
    Qed.
    Lemma not_head_ok x : 0 < length A -> x < length A -> not_headp hd (addr A x) = ptr A (not_head x) /\ ok_link A (not_head x).
    Proof.
      intros H0 Hx. unfold not_headp, not_head. rewrite head_ok by assumption. destruct (x =? 0); split; try reflexivity. exact Hx.
    Qed.

    Lemma rel_start now r b o r' : rel now r b -> start dbg r o = Ret r' -> may_start r o ->
      exists b', bstart dbg hd b o = Ret b' /\ rel now r' b' /\ b_may_start b o.
    Proof.
      intros L E (Hop & Hv). destruct L as [V LE PC OP (IT & OK) RES (FR & FOK) ST STL (EN & ENL) SP].
      assert (HB : b_in_op b = false).
      { unfold in_op, b_in_op in *. unfold pc_rel in PC. destruct (r_pc r), (b_pc b); try contradiction; try reflexivity; discriminate. }
      assert (HV : match o with ONext | OPrev => aValid (b_it b) = true | _ => True end).
      { destruct o; try exact Logic.I; rewrite IT, valid_ok by exact OK; exact Hv. }
      unfold start in E. unfold bstart.
      assert (HE : phi 0 = 0) by reflexivity.
      destruct o; try (injection E as <-; eexists; split; [reflexivity|]; split; [|split; [exact HB|exact HV]];
        split; cbn [r_view r_pc r_op r_it r_res r_from r_start r_end r_steps b_view b_pc b_op b_it b_res b_from b_start b_end b_steps pc_rel]; try (split; [reflexivity|lia]); auto; fail).
      - destruct (r_it r) as [a|] eqn:Er; rewrite ?Er in Hv, E; [|discriminate Hv]. unfold iter_node, assert_ in E. cbn [Valid negb] in E. rewrite andb_false_r in E. cbn [bind] in E. injection E as <-.
        unfold assert_. rewrite HV. cbn [negb]. rewrite andb_false_r. cbn [bind]. eexists. split; [reflexivity|]. split; [|split; [exact HB|exact HV]].
        split; cbn [r_view r_pc r_op r_it r_res r_from r_start r_end r_steps b_view b_pc b_op b_it b_res b_from b_start b_end b_steps pc_rel]; try (split; [reflexivity|lia]); rewrite ?Er; auto.
      - destruct (r_it r) as [a|] eqn:Er; rewrite ?Er in Hv, E; [|discriminate Hv]. unfold iter_node, assert_ in E. cbn [Valid negb] in E. rewrite andb_false_r in E. cbn [bind] in E. injection E as <-.
        unfold assert_. rewrite HV. cbn [negb]. rewrite andb_false_r. cbn [bind]. eexists. split; [reflexivity|]. split; [|split; [exact HB|exact HV]].
        split; cbn [r_view r_pc r_op r_it r_res r_from r_start r_end r_steps b_view b_pc b_op b_it b_res b_from b_start b_end b_steps pc_rel]; try (split; [reflexivity|lia]); rewrite ?Er; auto.
    Qed.

    Lemma rel_goto now r b V T p q : rel now r b -> V = phi T -> T <= now -> pc_rel p q -> rel now (goto r V p) (bgoto b T q).
    Proof. intros L -> HT Hp. destruct L. split; cbn [goto bgoto r_view r_pc r_op r_it r_res r_from r_start r_end r_steps b_view b_pc b_op b_it b_res b_from b_start b_end b_steps]; auto. Qed.
    Lemma rel_finish now r b V T it res : rel now r b -> V = phi T -> T <= now -> ok_link A it ->
      rel now (finish r V (phi now) it res) (bfinish b T now (ptr A it) res).
    Proof. intros L -> HT Hi. destruct L. split; cbn [finish bfinish r_view r_pc r_op r_it r_res r_from r_start r_end r_steps b_view b_pc b_op b_it b_res b_from b_start b_end b_steps pc_rel]; auto. Qed.

    Lemma rel_read now n r b r' : rel now r b -> 0 < length A -> now <= length t -> n <= now -> (b_pc b <> QHeight -> b_view b <= n) ->
      rstep cmp dbg (t_M (st 0)) Wn (phi now) (phi n) r = Ret r' ->
      exists b', brstep cmp ksize dec dbg hd sh0 Wb now n b = Ret b' /\ rel now r' b'.
    Proof.
      intros L H0 Hnow Hn Hv E. pose proof (l_pc _ _ _ L) as PC. pose proof (l_view _ _ _ L) as V. pose proof (l_le _ _ _ L) as LE.
      pose proof (l_op _ _ _ L) as OP. destruct (l_it _ _ _ L) as (IT & IOK). pose proof (l_res _ _ _ L) as RES.
      unfold rstep in E. unfold brstep. unfold pc_rel in PC.
      destruct (r_pc r) as [| |key x level|key x level|x level|x|] eqn:Ep; try discriminate;
        destruct (b_pc b) as [| |key' x' level'|key' x' level'|x' level'|x'|] eqn:Eq; try contradiction.
      - (* max_height_ *)
        rewrite (mem_ok n) in E by lia. cbn [bind] in E. rewrite (shared_ok n) by lia. cbn [t_sh h_max]. rewrite <- OP.
        set (lv := max_height_ (t_M (st n)) - 1) in *.
        destruct (r_op r) eqn:Eop; try discriminate.
        + injection E as <-. eexists. split; [reflexivity|]. apply rel_goto; auto. cbn. auto.
        + injection E as <-. eexists. split; [reflexivity|]. apply rel_goto; auto. cbn. auto.
        + injection E as <-. eexists. split; [reflexivity|]. apply rel_goto; auto. cbn. auto.
        + destruct (iter_node dbg (r_it r)) as [a| | |] eqn:Ei; cbn [bind] in E; try discriminate.
          assert (Er : r_it r = Some a).
          { unfold iter_node in Ei. destruct (assert_ dbg (Valid (r_it r))); cbn [bind] in Ei; try discriminate. destruct (r_it r); congruence. }
          rewrite V, (mem_ok (b_view b)) in E by lia. cbn [bind] in E.
          destruct (key_of (t_M (st (b_view b))) a) as [k| | |] eqn:Ek; cbn [bind] in E; try discriminate. injection E as <-.
          destruct (key_ok (b_view b) a k ltac:(lia) Ek) as (EK & _). rewrite IT, Er. cbn [ptr]. rewrite EK. cbn [bind].
          eexists. split; [reflexivity|]. apply rel_goto; auto. cbn. auto.
      - (* FindGreaterOrEqual *)
        destruct PC as (-> & -> & ->). specialize (Hv ltac:(discriminate)). rewrite V in E.
        destruct (load_link _ _ _ _ _ _) as [[v VV]| | |] eqn:El; cbn [bind] in E; try discriminate.
        destruct (load_ok (b_view b) n x level' v VV Hv ltac:(lia) El) as (T & -> & <- & HT & Hok & Hx). cbn [bind].
        rewrite (mem_ok T) in E by lia. cbn [bind] in E.
        destruct (KeyIsAfterNode cmp (t_M (st T)) key' v) as [af| | |] eqn:Ea; cbn [bind] in E; try discriminate.
        assert (EA : bAfter cmp ksize dec sh0 Wb T key' (ptr A v) = Ret af).
        { unfold bAfter. rewrite null_ok by exact Hok. unfold KeyIsAfterNode in Ea. destruct v as [y|]; [|exact Ea].
          destruct (key_of (t_M (st T)) y) as [k| | |] eqn:Ek; cbn [bind] in Ea; try discriminate.
          cbn [ptr]. destruct (key_ok T y k ltac:(lia) Ek) as (-> & _). exact Ea. }
        rewrite EA. cbn [bind].
        assert (Hdown : (match level' with O => found cmp r (phi T) (phi now) (t_M (st T)) v | S l => Ret (goto r (phi T) (PFge key' x l)) end) = Ret r' ->
          exists b', (match level' with O => bfound cmp ksize dec sh0 Wb b T now (ptr A v) | S l => Ret (bgoto b T (QFge key' (addr A x) l)) end) = Ret b' /\ rel now r' b').
        { clear E. intros E. destruct level' as [|lv].
          - unfold found in E. unfold bfound. rewrite <- OP, <- RES.
            destruct (r_op r) eqn:Eop; try (injection E as <-; eexists; split; [reflexivity|]; apply rel_finish; auto; lia).
            rewrite null_ok by exact Hok. destruct v as [y|].
            + destruct (key_of (t_M (st T)) y) as [k1| | |] eqn:Ek; cbn [bind] in E; try discriminate. injection E as <-.
              cbn [ptr]. destruct (key_ok T y k1 ltac:(lia) Ek) as (-> & _). cbn [bind]. eexists. split; [reflexivity|]. rewrite IT. apply rel_finish; auto; lia.
            + injection E as <-. eexists. split; [reflexivity|]. rewrite IT. apply rel_finish; auto; lia.
          - injection E as <-. eexists. split; [reflexivity|]. apply rel_goto; auto; [lia|]. cbn. auto. }
        destruct v as [y|]; [destruct af|].
        + injection E as <-. eexists. split; [reflexivity|]. apply rel_goto; auto; [lia|]. cbn. auto.
        + exact (Hdown E).
        + unfold KeyIsAfterNode in Ea. injection Ea as <-. exact (Hdown E).
      - (* FindLessThan *)
        destruct PC as (-> & -> & -> & Hx). specialize (Hv ltac:(discriminate)). rewrite V, (mem_ok (b_view b)) in E by lia. cbn [bind] in E.
        destruct (key_of (t_M (st (b_view b))) x) as [kx| | |] eqn:Ekx; cbn [bind] in E; try discriminate.
        destruct (assert_ dbg ((x =? 0) || (cmp kx key' <? 0)%Z)) eqn:Eas; cbn [bind] in E; try discriminate.
        rewrite (head_ok x H0 Hx).
        assert (EAS : (if x =? 0 then Ret tt else if dbg then let! k := bKey ksize dec sh0 Wb (b_view b) (addr A x) in assert_ dbg (cmp k key' <? 0)%Z else Ret tt) = Ret tt).
        { destruct (x =? 0); [reflexivity|]. destruct dbg; [|reflexivity]. destruct (key_ok (b_view b) x kx ltac:(lia) Ekx) as (-> & _). cbn [bind orb] in *.
          unfold assert_ in *. destruct (cmp kx key' <? 0)%Z; [reflexivity|discriminate]. }
        rewrite EAS. cbn [bind].
        destruct (load_link _ _ _ _ _ _) as [[v VV]| | |] eqn:El; cbn [bind] in E; try discriminate.
        destruct (load_ok (b_view b) n x level' v VV Hv ltac:(lia) El) as (T & -> & <- & HT & Hok & _). cbn [bind].
        rewrite (mem_ok T) in E by lia. cbn [bind] in E.
        destruct (match v with None => Ret true | Some y => let! ky := key_of (t_M (st T)) y in Ret (0 <=? cmp ky key')%Z end) as [ge| | |] eqn:Eg; cbn [bind] in E; try discriminate.
        assert (EG : (if (ptr A v =? 0)%N then Ret true else let! k := bKey ksize dec sh0 Wb T (ptr A v) in Ret (0 <=? cmp k key')%Z) = Ret ge).
        { rewrite null_ok by exact Hok. destruct v as [y|]; [|exact Eg].
          destruct (key_of (t_M (st T)) y) as [k| | |] eqn:Ek; cbn [bind] in Eg; try discriminate.
          cbn [ptr]. destruct (key_ok T y k ltac:(lia) Ek) as (-> & _). exact Eg. }
        rewrite EG. cbn [bind].
        assert (Hdown : (match level' with O => Ret (finish r (phi T) (phi now) (not_head x) (r_res r)) | S l => Ret (goto r (phi T) (PFlt key' x l)) end) = Ret r' ->
          exists b', (match level' with O => Ret (bfinish b T now (not_headp hd (addr A x)) (b_res b)) | S l => Ret (bgoto b T (QFlt key' (addr A x) l)) end) = Ret b' /\ rel now r' b').
        { clear E. intros E. destruct level' as [|lv]; injection E as <-; eexists; (split; [reflexivity|]).
          - destruct (not_head_ok x H0 Hx) as (-> & NO). rewrite <- RES. apply rel_finish; auto; lia.
          - apply rel_goto; auto; [lia|]. cbn. auto. }
        destruct v as [y|]; [destruct ge|].
        + exact (Hdown E).
        + injection E as <-. eexists. split; [reflexivity|]. apply rel_goto; auto; [lia|]. cbn. auto.
        + injection Eg as <-. exact (Hdown E).
      - (* FindLast *)
        destruct PC as (-> & ->). specialize (Hv ltac:(discriminate)). rewrite V in E.
        destruct (load_link _ _ _ _ _ _) as [[v VV]| | |] eqn:El; cbn [bind] in E; try discriminate.
        destruct (load_ok (b_view b) n x level' v VV Hv ltac:(lia) El) as (T & -> & <- & HT & Hok & Hx). cbn [bind].
        rewrite null_ok by exact Hok. destruct v as [y|].
        + injection E as <-. eexists. split; [reflexivity|]. apply rel_goto; auto; [lia|]. cbn. auto.
        + destruct level' as [|lv]; injection E as <-; eexists; (split; [reflexivity|]).
          * destruct (not_head_ok x H0 Hx) as (-> & NO). rewrite <- RES. apply rel_finish; auto; lia.
          * apply rel_goto; auto; [lia|]. cbn. auto.
      - (* Next(0) *)
        subst x'. specialize (Hv ltac:(discriminate)). rewrite V in E.
        destruct (load_link _ _ _ _ _ _) as [[v VV]| | |] eqn:El; cbn [bind] in E; try discriminate.
        destruct (load_ok (b_view b) n x 0 v VV Hv ltac:(lia) El) as (T & -> & <- & HT & Hok & Hx). cbn [bind].
        injection E as <-. eexists. split; [reflexivity|]. rewrite <- RES. apply rel_finish; auto; lia.
    Qed.

    Lemma rel_now now now' r b : rel now r b -> now <= now' -> rel now' r b.
    Proof. intros [? ? ? ? ? ? ? ? ? (? & ?) ?] Hle. split; auto; try lia. Qed.
    Lemma rel_new now : rel now (@new_reader K) (@new_breader K).
    Proof. split; cbn; auto; try lia; split; solve [reflexivity|lia|exact Logic.I]. Qed.
    Lemma rel_set_view now r b v : rel now r b -> v <= now -> rel now (set_view r (phi v)) (b_set_view b v).
    Proof. intros [] Hle. split; auto. Qed.
    Lemma rel_in_op now r b : rel now r b -> in_op r = b_in_op b.
    Proof.
      intros L. pose proof (l_pc _ _ _ L) as PC. unfold in_op, b_in_op, pc_rel in *. destruct (r_pc r), (b_pc b); try contradiction; reflexivity.
    Qed.
    Lemma rel_height now r b : rel now r b -> (r_pc r = PHeight <-> b_pc b = QHeight).
    Proof.
      intros L. pose proof (l_pc _ _ _ L) as PC. unfold pc_rel in PC. destruct (r_pc r), (b_pc b); try contradiction; split; intros; try discriminate; reflexivity.
    Qed.

    Lemma forall2_nth {X Y} (P : X -> Y -> Prop) l l' : Forall2 P l l' -> forall i y, nth_error l' i = Some y -> exists x, nth_error l i = Some x /\ P x y.
    Proof.
      induction 1 as [|x y l l' H _ IH]; intros [|i] z E; cbn in *; try discriminate; [injection E as <-; eauto|]. apply IH. exact E.
    Qed.
    Lemma forall2_set {X Y} (P : X -> Y -> Prop) l l' : Forall2 P l l' -> forall i x y, P x y -> Forall2 P (set_nth l i x) (set_nth l' i y).
    Proof.
      induction 1 as [|x y l l' H HF IH]; intros [|i] x' y' Hxy; cbn [set_nth]; constructor; auto.
    Qed.
    (** Every run of readers of the bytes is a run of readers of the nodes. *)
    Hypothesis Hpos : 0 < length A.
    Hypothesis Hsafe : forall nr c, reachable cmp dbg (t_M (st 0)) Wn nr c -> forall i r, nth_error (c_readers c) i = Some r ->
      (in_op r = true -> forall n, may_read (c_now c) n r -> exists r', rstep cmp dbg (t_M (st 0)) Wn (c_now c) n r = Ret r') /\
      (forall o, may_start r o -> exists r', start dbg r o = Ret r').
    Definition crel (c : config K) (k : bconfig K) : Prop :=
      c_now c = phi (k_now k) /\ k_now k <= length t /\ Forall2 (rel (k_now k)) (c_readers c) (k_readers k).
    Lemma b_may_start_rel now r b o : rel now r b -> b_may_start b o -> may_start r o.
    Proof.
      intros L (H1 & H2). split; [rewrite (rel_in_op _ _ _ L); exact H1|]. destruct (l_it _ _ _ L) as (E & OK).
      destruct o; auto; rewrite E, valid_ok in H2 by exact OK; exact H2.
    Qed.
    Lemma b_may_read_rel now r b n : rel now r b -> b_may_read now n b -> may_read (phi now) (phi n) r.
    Proof.
      intros L (H1 & H2). split; [apply phi_mono; exact H1|]. intros Hne. rewrite (l_view _ _ _ L). apply phi_mono, H2.
      intros X. apply Hne. apply (rel_height _ _ _ L). exact X.
    Qed.
    Lemma bsim nr k : breachable cmp ksize dec dbg hd sh0 Wb nr k -> exists c, reachable cmp dbg (t_M (st 0)) Wn nr c /\ crel c k.
    Proof.
      intros HR. induction HR as [|k k' _ (c & Rc & Cn & Ck & CF) Hstep].
      - exists {| c_now := 0; c_readers := repeat new_reader nr |}. split; [apply reach_init|]. split; [reflexivity|]. split; [apply Nat.le_0_l|].
        cbn [c_readers k_readers k_now]. induction nr; cbn [repeat]; constructor; auto. apply rel_new.
      - destruct c as [cn crs]. cbn [c_now c_readers] in *. inversion Hstep; subst; cbn [k_now k_readers] in *.
        + (* the writer *)
          match goal with H : now < length Wb |- _ => rewrite map_length in H; rename H into Hlt end.
          destruct (step_at now Hlt) as (w & so & E & _). pose proof (phi_S _ _ _ E) as EP.
          assert (HF : Forall2 (rel (S now)) crs rs).
          { clear - CF. induction CF as [|a b la lb L _ IH]; constructor; [|exact IH]. eapply rel_now; [exact L|lia]. }
          destruct so as [s0|].
          * exists {| c_now := S (phi now); c_readers := crs |}. split; [|split; [cbn [c_now k_now]; lia|split; [cbn [k_now]; lia|exact HF]]].
            eapply reach_step; [exact Rc|]. apply cs_write. pose proof (phi_mono (S now) (length t) ltac:(lia)). rewrite phi_all in H. lia.
          * exists {| c_now := phi now; c_readers := crs |}. split; [exact Rc|split; [cbn [c_now k_now]; lia|split; [cbn [k_now]; lia|exact HF]]].
        + destruct (forall2_nth _ _ _ CF _ _ H) as (r0 & Hr0 & L).
          exists {| c_now := phi now; c_readers := set_nth crs i (set_view r0 (phi v)) |}. split.
          * eapply reach_step; [exact Rc|]. eapply cs_sync; [exact Hr0|]. rewrite (l_view _ _ _ L). split; apply phi_mono; lia.
          * split; [reflexivity|]. split; [exact Ck|]. cbn [c_readers k_readers k_now]. apply forall2_set; [exact CF|]. apply rel_set_view; [exact L|lia].
        + destruct (forall2_nth _ _ _ CF _ _ H) as (r0 & Hr0 & L).
          destruct (proj2 (Hsafe _ _ Rc i r0 Hr0) o (b_may_start_rel _ _ _ _ L H0)) as (r1 & E1).
          destruct (rel_start _ _ _ _ _ L E1 (b_may_start_rel _ _ _ _ L H0)) as (b1 & E2 & L2 & _). assert (b1 = r') by congruence. subst b1.
          exists {| c_now := phi now; c_readers := set_nth crs i r1 |}. split.
          * eapply reach_step; [exact Rc|]. eapply cs_start; [exact Hr0|eapply b_may_start_rel; eassumption|exact E1].
          * split; [reflexivity|]. split; [exact Ck|]. cbn [c_readers k_readers k_now]. apply forall2_set; assumption.
        + destruct (forall2_nth _ _ _ CF _ _ H) as (r0 & Hr0 & L). pose proof (b_may_read_rel _ _ _ _ L H1) as MR.
          rewrite <- (rel_in_op _ _ _ L) in H0. destruct (proj1 (Hsafe _ _ Rc i r0 Hr0) H0 _ MR) as (r1 & E1). cbn [c_now] in E1.
          destruct H1 as (M1 & M2). destruct (rel_read now n r0 r r1 L Hpos Ck M1 M2 E1) as (b1 & E2 & L2). assert (b1 = r') by congruence. subst b1.
          exists {| c_now := phi now; c_readers := set_nth crs i r1 |}. split.
          * eapply reach_step; [exact Rc|]. eapply cs_read; [exact Hr0|exact H0|exact MR|exact E1].
          * split; [reflexivity|]. split; [exact Ck|]. cbn [c_readers k_readers k_now]. apply forall2_set; assumption.
    Qed.
  End Run.
End Tr.
