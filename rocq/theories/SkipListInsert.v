(** SkipListInsert.v -- every single store of Insert preserves the ghost
    invariant; Insert as a whole. *)
From Coq Require Import List Arith ZArith NArith Lia Bool Sorted Permutation.
From Verif Require Import Outcome Random SkipList SkipListSpec SkipListProofs.
Import ListNotations.
Local Open Scope outcome_scope.

Section Insert.
  Context {K : Type} (cmp : K -> K -> Z) (Hc : comparator_ok cmp).
  Notation mem := (mem K). Notation store := (store K). Notation skiplist := (skiplist K).
  Notation ghost := (@ghost K).
  Notation Good := (Good cmp).
  Notation lt_nodes := (lt_nodes cmp).
  Notation node_lt := (node_lt cmp).
  Notation node_ge := (node_ge cmp).

  Definition updf (f : nat -> nat) (a v : nat) : nat -> nat := fun b => if b =? a then v else f b.

  (** Ghost transition for each store. *)
  Inductive gstep : ghost -> store -> ghost -> Prop :=
  | gs_max g h :
      max_height_ (g_mem g) <= h <= kMaxHeight ->
      gstep g (SMax h)
        {| g_mem := {| nodes := nodes (g_mem g); max_height_ := h |};
           g_l := g_l g; g_lv := g_lv g |}
  | gs_new g k h p s :
      1 <= h <= max_height_ (g_mem g) ->
      g_l g = p ++ s ->
      Forall (fun a => node_lt (g_mem g) a k) p ->
      Forall (fun a => exists ka, key_of (g_mem g) a = Ret ka /\ (cmp k ka < 0)%Z) s ->
      gstep g (SNew k h)
        {| g_mem := {| nodes := nodes (g_mem g) ++ [{| nkey := k; next_ := repeat None h |}];
                       max_height_ := max_height_ (g_mem g) |};
           g_l := p ++ length (nodes (g_mem g)) :: s; g_lv := g_lv g |}
  | gs_rlx g x i v m' :
      In x (g_l g) -> g_lv g x <= i -> i < height_of (g_mem g) x ->
      apply_store (g_mem g) (SLink false x i v) = Ret m' ->
      gstep g (SLink false x i v) {| g_mem := m'; g_l := g_l g; g_lv := g_lv g |}
  | gs_rel g q i x p1 p2 s m' :
      0 :: g_l g = p1 ++ q :: p2 ++ x :: s ->
      i < g_lv g q -> g_lv g x = i -> i < height_of (g_mem g) x ->
      Forall (fun z => g_lv g z <= i) p2 ->
      Next (g_mem g) x i = Ret (find (fun y => i <? g_lv g y) s) ->
      apply_store (g_mem g) (SLink true q i (Some x)) = Ret m' ->
      gstep g (SLink true q i (Some x))
        {| g_mem := m'; g_l := g_l g; g_lv := updf (g_lv g) x (S i) |}.

  (** What never changes / only grows. *)
  Record mono (g g' : ghost) : Prop := {
    m_lv : forall a, g_lv g a <= g_lv g' a;
    m_l : incl (g_l g) (g_l g');
    m_key : forall a k, key_of (g_mem g) a = Ret k -> key_of (g_mem g') a = Ret k;
    m_len : length (nodes (g_mem g)) <= length (nodes (g_mem g'))
  }.

  Lemma mono_refl g : mono g g.
  Proof. split; auto. apply incl_refl. Qed.
  Lemma mono_trans a b c : mono a b -> mono b c -> mono a c.
  Proof.
    intros [A1 A2 A3 A4] [B1 B2 B3 B4]. split.
    - intros x. specialize (A1 x). specialize (B1 x). lia.
    - eapply incl_tran; eauto.
    - auto.
    - lia.
  Qed.

  (** ** Effect of stores on reads *)
  Lemma apply_link (m m' : mem) b x i v : apply_store m (SLink b x i v) = Ret m' ->
    max_height_ m' = max_height_ m /\ length (nodes m') = length (nodes m) /\
    (forall a, key_of m' a = key_of m a) /\
    (forall a, height_of m' a = height_of m a) /\
    i < height_of m x /\
    (forall a j, Next m' a j = if (a =? x) && (j =? i) then Ret v else Next m a j).
  Proof.
    cbn [apply_store]. unfold get_node.
    destruct (nth_error (nodes m) x) as [nd|] eqn:En; cbn [bind]; [|discriminate].
    destruct (Nat.ltb_spec i (length (next_ nd))) as [Hi|]; [|discriminate].
    intros H; inversion H; subst m'; clear H. cbn [nodes max_height_].
    assert (Hx : x < length (nodes m)) by (apply nth_error_Some; congruence).
    assert (Hxb : x <? length (nodes m) = true) by (apply Nat.ltb_lt; exact Hx).
    split; [reflexivity|]. split; [apply set_nth_length|]. split; [|split; [|split]].
    - intros a. unfold key_of, get_node. cbn [nodes]. rewrite nth_error_set_nth, Hxb.
      destruct (a =? x) eqn:E; cbn [andb]; [|reflexivity].
      apply Nat.eqb_eq in E; subst. rewrite En. reflexivity.
    - intros a. unfold height_of. cbn [nodes]. rewrite nth_error_set_nth, Hxb.
      destruct (a =? x) eqn:E; cbn [andb]; [|reflexivity].
      apply Nat.eqb_eq in E; subst. rewrite En. cbn. apply set_nth_length.
    - unfold height_of. now rewrite En.
    - intros a j. unfold Next, get_node. cbn [nodes]. rewrite nth_error_set_nth, Hxb.
      destruct (a =? x) eqn:E; cbn [andb]; [|reflexivity].
      apply Nat.eqb_eq in E; subst. rewrite En. cbn [bind next_].
      rewrite nth_error_set_nth.
      destruct (j =? i) eqn:Ej; cbn [andb]; [|reflexivity].
      destruct (Nat.ltb_spec i (length (next_ nd))); [reflexivity|lia].
  Qed.

  Lemma lt_nodes_ext (m m' : mem) :
    (forall a k, key_of m a = Ret k -> key_of m' a = Ret k) ->
    forall a b, lt_nodes m a b -> lt_nodes m' a b.
  Proof. intros H a b (ka & kb & H1 & H2 & H3). exists ka, kb. auto. Qed.

  Lemma node_ge_ext (m m' : mem) :
    (forall a k, key_of m a = Ret k -> key_of m' a = Ret k) ->
    forall a b, node_ge m a b -> node_ge m' a b.
  Proof. intros H a b (ka & H1 & H2). exists ka. auto. Qed.

  Lemma node_lt_ext (m m' : mem) :
    (forall a k, key_of m a = Ret k -> key_of m' a = Ret k) ->
    forall a b, node_lt m a b -> node_lt m' a b.
  Proof. intros H a b (ka & H1 & H2). exists ka. auto. Qed.

  Lemma sorted_ext (m m' : mem) l :
    (forall a k, key_of m a = Ret k -> key_of m' a = Ret k) ->
    StronglySorted (lt_nodes m) l -> StronglySorted (lt_nodes m') l.
  Proof.
    intros H. induction 1; constructor; auto.
    eapply Forall_impl; [|eassumption]. intros; eapply lt_nodes_ext; eauto.
  Qed.

  Lemma sorted_insert (m : mem) p x s :
    StronglySorted (lt_nodes m) (p ++ s) ->
    Forall (fun a => lt_nodes m a x) p -> Forall (lt_nodes m x) s ->
    StronglySorted (lt_nodes m) (p ++ x :: s).
  Proof.
    induction p as [|a t IH]; cbn; intros H Hp Hs.
    - constructor; auto.
    - inversion H; subst. inversion Hp; subst. constructor; auto.
      apply Forall_app in H3 as [H6 H7]. apply Forall_app. split; auto.
  Qed.

  Lemma new_node_reads (m : mem) k h a :
    let m' := {| nodes := nodes m ++ [{| nkey := k; next_ := repeat None h |}];
                 max_height_ := max_height_ m |} in
    (a < length (nodes m) -> key_of m' a = key_of m a /\ height_of m' a = height_of m a /\
                             forall j, Next m' a j = Next m a j) /\
    (a = length (nodes m) -> key_of m' a = Ret k /\ height_of m' a = h) /\
    (length (nodes m) < a -> height_of m' a = 0).
  Proof.
    intros m'. split; [|split].
    - intros Ha. unfold key_of, height_of, Next, get_node, m'. cbn [nodes].
      rewrite nth_error_app1 by exact Ha. auto.
    - intros ->. unfold key_of, height_of, get_node, m'. cbn [nodes].
      rewrite nth_error_app2 by lia. rewrite Nat.sub_diag. cbn. rewrite repeat_length. auto.
    - intros Ha. unfold height_of, m'. cbn [nodes].
      assert (E : nth_error (nodes m ++ [{| nkey := k; next_ := repeat None h |}]) a = None)
        by (apply nth_error_None; rewrite app_length; cbn; lia).
      now rewrite E.
  Qed.

  Lemma key_of_lt (m : mem) a k : key_of m a = Ret k -> a < length (nodes m).
  Proof.
    unfold key_of, get_node. destruct (nth_error (nodes m) a) eqn:E; cbn; [|discriminate].
    intros _. apply nth_error_Some. congruence.
  Qed.

  Lemma lv_none g : Good g -> forall a, length (nodes (g_mem g)) <= a -> g_lv g a = 0.
  Proof.
    intros G a Ha. pose proof (G_lv _ _ G a) as H. unfold height_of in H.
    apply nth_error_None in Ha. rewrite Ha in H. lia.
  Qed.

  (** ** Preservation *)
  Lemma gstep_good g w g' : Good g -> gstep g w g' ->
    Good g' /\ apply_store (g_mem g) w = Ret (g_mem g') /\ mono g g'.
  Proof.
    intros G Hs. destruct Hs as [g h Hh|g k h p s Hh El Hp Hsuf|g x i v m' Hx Hlv Hi Ha
                                 |g q i x p1 p2 s m' E Hq Hx Hi Hp2 Hn Ha].
    - (* max *)
      split; [|split; [reflexivity|split; cbn; auto using incl_refl]].
      pose proof (G_max _ _ G) as GM. split; cbn [g_mem g_l g_lv nodes max_height_].
      + apply (G_nodes _ _ G).
      + apply (G_head _ _ G).
      + apply (G_lv _ _ G).
      + lia.
      + intros a Ha. pose proof (G_ht _ _ G a Ha).
        change (height_of {| nodes := nodes (g_mem g); max_height_ := h |} a)
          with (height_of (g_mem g) a). lia.
      + apply (G_sorted _ _ G).
      + apply (G_links _ _ G).
    - (* new *)
      set (new := length (nodes (g_mem g))).
      pose proof (new_node_reads (g_mem g) k h) as HR. cbv zeta in HR.
      set (m' := {| nodes := nodes (g_mem g) ++ [{| nkey := k; next_ := repeat None h |}];
                    max_height_ := max_height_ (g_mem g) |}) in *.
      assert (Hkey : forall a ka, key_of (g_mem g) a = Ret ka -> key_of m' a = Ret ka).
      { intros a ka Hk. destruct (HR a) as [H _]. apply key_of_lt in Hk as Hlt.
        destruct (H Hlt) as [-> _]. exact Hk. }
      assert (Hnew : key_of m' new = Ret k /\ height_of m' new = h) by (apply HR; reflexivity).
      assert (Hlen : length (nodes m') = S new)
        by (unfold m', new; cbn; rewrite app_length; cbn; lia).
      split; [|split; [reflexivity|]].
      2:{ split; cbn [g_mem g_l g_lv]; auto; try lia.
          rewrite El. intros a Hin. apply in_app_or in Hin. apply in_or_app; cbn; tauto. }
      pose proof (lv_none g G) as Hnone.
      pose proof (G_nodes _ _ G) as GN. pose proof (G_head _ _ G) as (GH1 & GH2 & GH3).
      pose proof (G_max _ _ G) as GM.
      split; cbn [g_mem g_l g_lv].
      + intros a Hin. rewrite Hlen. assert (Hold : In a (g_l g) -> 0 < a < S new)
          by (intros Ho; apply GN in Ho; unfold new; lia).
        rewrite El in Hold. apply in_app_or in Hin. destruct Hin as [Hin|[<-|Hin]].
        * apply Hold. apply in_or_app; auto.
        * unfold new; lia.
        * apply Hold. apply in_or_app; auto.
      + rewrite Hlen. split; [lia|]. split; [exact GH2|].
        destruct (HR 0) as [H _]. destruct (H GH1) as (_ & -> & _). exact GH3.
      + intros a. destruct (lt_eq_lt_dec a new) as [[Hlt|Heq]|Hgt].
        * destruct (HR a) as [H _]. destruct (H Hlt) as (_ & -> & _). apply (G_lv _ _ G).
        * rewrite (Hnone a) by (unfold new in Heq; lia). lia.
        * rewrite (Hnone a) by (unfold new in Hgt; lia). lia.
      + exact GM.
      + intros a Hin. change (max_height_ m') with (max_height_ (g_mem g)).
        assert (Hold : In a (g_l g) -> height_of m' a <= max_height_ (g_mem g)).
        { intros Ho. pose proof (GN a Ho). destruct (HR a) as [H' _].
          destruct H' as (_ & -> & _); [lia|]. apply (G_ht _ _ G); auto. }
        rewrite El in Hold. apply in_app_or in Hin. destruct Hin as [Hin|[<-|Hin]].
        * apply Hold. apply in_or_app; auto.
        * destruct Hnew as [_ ->]. lia.
        * apply Hold. apply in_or_app; auto.
      + apply sorted_insert.
        * rewrite <- El. eapply sorted_ext; [exact Hkey|]. apply (G_sorted _ _ G).
        * eapply Forall_impl; [|exact Hp]. intros a (ka & H1 & H2).
          exists ka, k. split; auto. split; [apply Hnew|auto].
        * eapply Forall_impl; [|exact Hsuf]. intros a (ka & H1 & H2).
          exists k, ka. split; [apply Hnew|]. auto.
      + intros p0 x s0 i E Hi.
        assert (Hx : x < new).
        { destruct (le_lt_dec new x) as [Hge|]; auto. rewrite (Hnone x) in Hi by exact Hge. lia. }
        destruct (HR x) as [H _]. destruct (H Hx) as (_ & _ & ->).
        (* remove new from the list *)
        assert (Hsplit : exists p1 s1, 0 :: g_l g = p1 ++ x :: s1 /\
                  find (fun y => i <? g_lv g y) s1 = find (fun y => i <? g_lv g y) s0).
        { assert (Hnf : (i <? g_lv g new) = false)
            by (rewrite Hnone by (unfold new; lia); reflexivity).
          assert (E' : (0 :: p) ++ new :: s = p0 ++ x :: s0) by exact E.
          assert (G' : exists p1 s1, (0 :: p) ++ s = p1 ++ x :: s1 /\
                  find (fun y => i <? g_lv g y) s1 = find (fun y => i <? g_lv g y) s0);
            [|rewrite El; exact G'].
          clear E. revert p0 E'. generalize (0 :: p) as pp.
          induction pp as [|a t IH]; intros p0 E; cbn [app] in E.
          - destruct p0 as [|b u]; cbn [app] in E; injection E as E1 E2; [lia|].
            subst s. exists u, s0. auto.
          - destruct p0 as [|b u]; cbn [app] in E; injection E as E1 E2.
            + subst x. exists [], (t ++ s). split; [reflexivity|].
              rewrite <- E2. rewrite !find_app. cbn [find]. rewrite Hnf. reflexivity.
            + destruct (IH u E2) as (p1 & s1 & E3 & E4). exists (a :: p1), s1.
              cbn [app]. rewrite E3. auto. }
        destruct Hsplit as (p1 & s1 & E1 & E2). rewrite <- E2.
        eapply (G_links _ _ G); eauto.
    - (* relaxed link of the new node *)
      destruct (apply_link _ _ _ _ _ _ Ha) as (A1 & A2 & A3 & A4 & A5 & A6).
      split; [|split; [exact Ha|]].
      2:{ split; cbn [g_mem g_l g_lv]; auto using incl_refl; try lia.
          intros a k Hk. now rewrite A3. }
      pose proof (G_head _ _ G) as (GH1 & GH2 & GH3).
      split; cbn [g_mem g_l g_lv]; rewrite ?A1, ?A2.
      + apply (G_nodes _ _ G).
      + rewrite A4. auto.
      + intros a. rewrite A4. apply (G_lv _ _ G).
      + apply (G_max _ _ G).
      + intros a Hin. rewrite A4. apply (G_ht _ _ G); auto.
      + eapply sorted_ext; [|apply (G_sorted _ _ G)]. intros a k Hk. now rewrite A3.
      + intros p0 y s0 j E Hj. rewrite A6.
        destruct (y =? x) eqn:Ey; destruct (j =? i) eqn:Ej; cbn [andb];
          try (eapply (G_links _ _ G); eauto).
        apply Nat.eqb_eq in Ey, Ej. subst. lia.
    - (* release link: publish x at level i *)
      destruct (apply_link _ _ _ _ _ _ Ha) as (A1 & A2 & A3 & A4 & A5 & A6).
      pose proof (Good_nodup _ Hc g G) as Hnd.
      assert (Hxin : In x (g_l g)).
      { destruct p1 as [|a t]; cbn in E; injection E as _ E.
        - rewrite E. apply in_or_app; cbn; auto.
        - rewrite E. apply in_or_app. right. cbn. right. apply in_or_app; cbn; auto. }
      assert (Hxu : forall p0 s0, 0 :: g_l g = p0 ++ x :: s0 -> s0 = s).
      { intros p0 s0 E0. rewrite E in Hnd.
        replace (p1 ++ q :: p2 ++ x :: s) with ((p1 ++ q :: p2) ++ x :: s) in Hnd
          by (rewrite <- app_assoc; reflexivity).
        destruct (nodup_split_unique (p1 ++ q :: p2) p0 s s0 x Hnd) as [_ H]; auto.
        rewrite <- E0, E, <- app_assoc. reflexivity. }
      assert (Hx_s : ~ In x s).
      { rewrite E in Hnd. intros Hin. apply NoDup_remove_2 in Hnd as H0.
        replace (p1 ++ q :: p2 ++ x :: s) with ((p1 ++ q :: p2) ++ x :: s) in Hnd
          by (rewrite <- app_assoc; reflexivity).
        apply NoDup_remove_2 in Hnd. apply Hnd. apply in_or_app; auto. }
      assert (Hx_p : ~ In x (p1 ++ q :: p2)).
      { rewrite E in Hnd. intros Hin.
        replace (p1 ++ q :: p2 ++ x :: s) with ((p1 ++ q :: p2) ++ x :: s) in Hnd
          by (rewrite <- app_assoc; reflexivity).
        apply NoDup_remove_2 in Hnd. apply Hnd. apply in_or_app; auto. }
      assert (Hqx : q <> x) by (intros ->; apply Hx_p; apply in_or_app; cbn; auto).
      split; [|split; [exact Ha|]].
      2:{ split; cbn [g_mem g_l g_lv]; auto using incl_refl; try lia.
          - intros a. unfold updf. destruct (a =? x) eqn:Ea; [|lia].
            apply Nat.eqb_eq in Ea; subst. lia.
          - intros a k Hk. now rewrite A3. }
      pose proof (G_head _ _ G) as (GH1 & GH2 & GH3).
      assert (Hx0 : x <> 0) by (apply (G_nodes _ _ G) in Hxin; lia).
      split; cbn [g_mem g_l g_lv]; rewrite ?A1, ?A2.
      + apply (G_nodes _ _ G).
      + rewrite A4. unfold updf. destruct (0 =? x) eqn:E0; [apply Nat.eqb_eq in E0; lia|auto].
      + intros a. rewrite A4. unfold updf. destruct (a =? x) eqn:Ea; [|apply (G_lv _ _ G)].
        apply Nat.eqb_eq in Ea; subst a. lia.
      + apply (G_max _ _ G).
      + intros a Hin. rewrite A4. apply (G_ht _ _ G); auto.
      + eapply sorted_ext; [|apply (G_sorted _ _ G)]. intros a k Hk. now rewrite A3.
      + intros p0 y s0 j E0 Hj. rewrite A6.
        assert (Hfind : forall l, (j <> i \/ ~ In x l) ->
           find (fun z => j <? updf (g_lv g) x (S i) z) l = find (fun z => j <? g_lv g z) l).
        { intros l Hl. apply find_ext. intros z Hz. unfold updf.
          destruct (z =? x) eqn:Ez; auto. apply Nat.eqb_eq in Ez; subst z.
          destruct Hl as [Hl|Hl]; [|tauto]. rewrite Hx.
          destruct (Nat.ltb_spec j (S i)), (Nat.ltb_spec j i); auto; lia. }
        destruct (Nat.eq_dec y x) as [->|Hyx].
        * assert (s0 = s) by eauto. subst s0.
          destruct (x =? q) eqn:Exq; [apply Nat.eqb_eq in Exq; congruence|]. cbn [andb].
          rewrite Hfind by auto. unfold updf in Hj. rewrite Nat.eqb_refl in Hj.
          destruct (Nat.eq_dec j i) as [->|Hji].
          -- exact Hn.
          -- eapply (G_links _ _ G); eauto. lia.
        * assert (Hjl : j < g_lv g y).
          { unfold updf in Hj. destruct (y =? x) eqn:Ey; [apply Nat.eqb_eq in Ey; congruence|auto]. }
          pose proof (G_links _ _ G p0 y s0 j E0 Hjl) as HN.
          destruct (Nat.eq_dec j i) as [->|Hji].
          -- rewrite Nat.eqb_refl, Bool.andb_true_r.
             destruct (y =? q) eqn:Eyq.
             ++ apply Nat.eqb_eq in Eyq; subst y.
                assert (Es0 : s0 = p2 ++ x :: s).
                { rewrite E in Hnd. rewrite E in E0.
                  destruct (nodup_split_unique p1 p0 (p2 ++ x :: s) s0 q Hnd E0); auto. }
                rewrite Es0, find_app.
                assert (Hp2n : ~ In x p2)
                  by (intros Hin; apply Hx_p; apply in_or_app; cbn; auto).
                rewrite Hfind by auto.
                assert (Ef : find (fun z => i <? g_lv g z) p2 = None).
                { clear - Hp2. induction Hp2 as [|z t Hz Ht IH]; cbn [find]; auto.
                  destruct (Nat.ltb_spec i (g_lv g z)); [lia|auto]. }
                rewrite Ef. cbn [find]. unfold updf. rewrite Nat.eqb_refl.
                destruct (Nat.ltb_spec i (S i)); [reflexivity|lia].
             ++ apply Nat.eqb_neq in Eyq.
                rewrite HN. f_equal.
                (* x is in s0 only behind q *)
                destruct (in_dec Nat.eq_dec x s0) as [Hin|Hnin]; [|symmetry; apply Hfind; auto].
                assert (Hy : In y (p1 ++ q :: p2 ++ x :: s))
                  by (rewrite <- E, E0; apply in_or_app; cbn; auto).
                assert (Hyp : In y p1).
                { apply in_app_or in Hy. destruct Hy as [Hy|[Hy|Hy]]; auto; [congruence|].
                  exfalso. apply in_app_or in Hy. destruct Hy as [Hy|[Hy|Hy]].
                  - rewrite Forall_forall in Hp2. specialize (Hp2 y Hy). lia.
                  - congruence.
                  - (* y after x: then x not in s0 *)
                    apply in_split in Hy. destruct Hy as (u1 & u2 & Eu).
                    rewrite E, Eu in Hnd. rewrite E, Eu in E0.
                    replace (p1 ++ q :: p2 ++ x :: u1 ++ y :: u2)
                      with ((p1 ++ q :: p2 ++ x :: u1) ++ y :: u2) in E0, Hnd
                      by (rewrite <- ?app_assoc; cbn; rewrite <- ?app_assoc; reflexivity).
                    destruct (nodup_split_unique _ p0 u2 s0 y Hnd E0) as [_ Hu]. subst u2.
                    apply Hx_s. rewrite Eu. apply in_or_app; cbn; auto. }
                apply in_split in Hyp. destruct Hyp as (a1 & a2 & Ea).
                assert (Es0 : s0 = a2 ++ q :: p2 ++ x :: s).
                { rewrite E, Ea in Hnd. rewrite E, Ea in E0.
                  replace ((a1 ++ y :: a2) ++ q :: p2 ++ x :: s)
                    with (a1 ++ y :: (a2 ++ q :: p2 ++ x :: s)) in E0, Hnd
                    by (rewrite <- app_assoc; reflexivity).
                  destruct (nodup_split_unique a1 p0 _ s0 y Hnd E0); auto. }
                rewrite Es0. rewrite !find_app. cbn [find].
                rewrite (Hfind a2).
                2:{ right. intros Hin2. apply Hx_p. rewrite Ea. rewrite <- app_assoc. cbn.
                    apply in_or_app. right. cbn. right. apply in_or_app. auto. }
                unfold updf at 1. destruct (q =? x) eqn:Eq; [apply Nat.eqb_eq in Eq; congruence|].
                destruct (Nat.ltb_spec i (g_lv g q)); [reflexivity|lia].
          -- destruct (j =? i) eqn:Eji; [apply Nat.eqb_eq in Eji; congruence|].
             rewrite Bool.andb_false_r. rewrite Hfind by auto. exact HN.
  Qed.

  (** ** Traces of ghost steps *)
  Fixpoint trace (g : ghost) (tr : list (store * ghost)) : Prop :=
    match tr with
    | [] => True
    | (w, g') :: r => gstep g w g' /\ trace g' r
    end.

  Definition final (g : ghost) (tr : list (store * ghost)) : ghost := last (map snd tr) g.

  Lemma final_cons g w g' r : final g ((w, g') :: r) = final g' r.
  Proof.
    unfold final. cbn [map snd]. generalize (map snd r) as t.
    assert (H : forall t d d' (x : ghost), last (x :: t) d = last t x /\ last (x :: t) d = last (x :: t) d').
    { induction t as [|z t IH]; intros d d' x; [auto|].
      change (last (x :: z :: t) d) with (last (z :: t) d).
      change (last (x :: z :: t) d') with (last (z :: t) d').
      split; [apply (IH d x z)|apply (IH d d' z)]. }
    intros t. apply (H t g g).
  Qed.

  Lemma final_app g a b : final g (a ++ b) = final (final g a) b.
  Proof.
    revert g; induction a as [|[w g'] r IH]; intros g; [reflexivity|].
    cbn [app]. rewrite !final_cons. apply IH.
  Qed.

  Lemma trace_app g a b : trace g (a ++ b) <-> trace g a /\ trace (final g a) b.
  Proof.
    revert g; induction a as [|[w g'] r IH]; intros g; cbn [app trace].
    - cbn. tauto.
    - rewrite final_cons, IH. tauto.
  Qed.

  Lemma trace_good g tr : Good g -> trace g tr -> Good (final g tr) /\ mono g (final g tr).
  Proof.
    revert g; induction tr as [|[w g'] r IH]; intros g G T.
    - split; [exact G|apply mono_refl].
    - destruct T as [Hs T]. rewrite final_cons.
      destruct (gstep_good g w g' G Hs) as (G' & _ & M).
      destruct (IH g' G' T) as [G2 M2]. split; auto. eapply mono_trans; eauto.
  Qed.

  (** A skiplist object at the end of a trace. *)
  Definition at_ghost (s : skiplist) (g : ghost) : Prop := sl_mem s = g_mem g.

  Lemma do_store_ok s g w g' : Good g -> at_ghost s g -> gstep g w g' ->
    exists s', do_store s w = Ret s' /\ at_ghost s' g' /\ rnd_ s' = rnd_ s /\
               sl_log s' = sl_log s ++ [w].
  Proof.
    intros G Ha Hs. destruct (gstep_good g w g' G Hs) as (_ & Hap & _).
    unfold do_store. rewrite Ha, Hap. cbn [bind]. eexists. split; [reflexivity|]. unfold at_ghost. cbn. auto.
  Qed.

  (** ** The insertion loop *)

  (** prev[j] in terms of positions: the last node at level >= j before x. *)
  Definition prev_at (g : ghost) (p : list nat) (j q : nat) : Prop :=
    exists p1 p2, 0 :: p = p1 ++ q :: p2 /\ j < g_lv g q /\ Forall (fun z => g_lv g z <= j) p2.

  Lemma link_loop_ok : forall n i s g x p sf prev,
    Good g -> at_ghost s g ->
    g_l g = p ++ x :: sf -> g_lv g x = i -> height_of (g_mem g) x = i + n ->
    (forall j, i <= j -> j < i + n -> exists q, nth_error prev j = Some (Some q) /\ prev_at g p j q) ->
    exists s' tr, link_loop n i s x prev = Ret s' /\ trace g tr /\
      at_ghost s' (final g tr) /\ sl_log s' = sl_log s ++ map fst tr /\ rnd_ s' = rnd_ s /\
      g_l (final g tr) = g_l g /\
      (forall a, g_lv (final g tr) a = if a =? x then i + n else g_lv g a) /\
      length (nodes (g_mem (final g tr))) = length (nodes (g_mem g)) /\
      (forall a, height_of (g_mem (final g tr)) a = height_of (g_mem g) a) /\
      (forall a, key_of (g_mem (final g tr)) a = key_of (g_mem g) a).
  Proof.
    induction n as [|n IH]; intros i s g x p sf prev G Hat El Hlv Hht Hprev.
    - exists s, []. cbn. rewrite app_nil_r. split; [reflexivity|]. split; [exact I|].
      split; [exact Hat|]. split; [reflexivity|]. split; [reflexivity|]. split; [reflexivity|].
      split; [|auto]. intros a. destruct (a =? x) eqn:E; auto. apply Nat.eqb_eq in E; subst.
      now rewrite Nat.add_0_r.
    - cbn [link_loop]. destruct (Hprev i ltac:(lia) ltac:(lia)) as (q & Hq & p1 & p2 & Ep & Hqi & Hp2).
      unfold get_prev. rewrite Hq. cbn [bind].
      assert (E0 : 0 :: g_l g = p1 ++ q :: (p2 ++ x :: sf)).
      { rewrite El. change (0 :: p ++ x :: sf) with ((0 :: p) ++ x :: sf). rewrite Ep.
        rewrite <- app_assoc. reflexivity. }
      pose proof (G_links _ _ G p1 q (p2 ++ x :: sf) i E0 Hqi) as Hn.
      rewrite Hat, Hn. cbn [bind].
      assert (Hnv : find (fun y => i <? g_lv g y) (p2 ++ x :: sf) = find (fun y => i <? g_lv g y) sf).
      { rewrite find_app.
        assert (Ef : find (fun z => i <? g_lv g z) p2 = None).
        { clear - Hp2. induction Hp2 as [|z t Hz Ht IH]; cbn [find]; auto.
          destruct (Nat.ltb_spec i (g_lv g z)); [lia|auto]. }
        rewrite Ef. cbn [find]. rewrite Hlv, Nat.ltb_irrefl. reflexivity. }
      rewrite Hnv. set (v := find (fun y => i <? g_lv g y) sf) in *.
      assert (Hxin : In x (g_l g)) by (rewrite El; apply in_or_app; cbn; auto).
      pose proof (G_nodes _ _ G x Hxin) as Hxn.
      (* relaxed store *)
      assert (Hap : exists m1, apply_store (g_mem g) (SLink false x i v) = Ret m1).
      { cbn [apply_store]. unfold get_node, height_of in *.
        destruct (nth_error (nodes (g_mem g)) x) as [nd|] eqn:En; [|lia].
        cbn [bind]. destruct (Nat.ltb_spec i (length (next_ nd))); [eauto|lia]. }
      destruct Hap as [m1 Hm1].
      set (g1 := {| g_mem := m1; g_l := g_l g; g_lv := g_lv g |}).
      assert (Hs1 : gstep g (SLink false x i v) g1) by (apply gs_rlx; auto; lia).
      destruct (do_store_ok s g _ g1 G Hat Hs1) as (s1 & Hd1 & Hat1 & Hr1 & Hl1).
      rewrite Hd1. cbn [bind].
      destruct (gstep_good g _ g1 G Hs1) as (G1 & _ & _).
      destruct (apply_link _ _ _ _ _ _ Hm1) as (A1 & A2 & A3 & A4 & A5 & A6).
      (* release store *)
      assert (Hap2 : exists m2, apply_store m1 (SLink true q i (Some x)) = Ret m2).
      { assert (Hqh : i < height_of m1 q) by (rewrite A4; pose proof (G_lv _ _ G q); lia).
        cbn [apply_store]. unfold get_node, height_of in *.
        destruct (nth_error (nodes m1) q) as [nd|] eqn:En; [|lia].
        cbn [bind]. destruct (Nat.ltb_spec i (length (next_ nd))); [eauto|lia]. }
      destruct Hap2 as [m2 Hm2].
      set (g2 := {| g_mem := m2; g_l := g_l g1; g_lv := updf (g_lv g1) x (S i) |}).
      assert (Hs2 : gstep g1 (SLink true q i (Some x)) g2).
      { apply (gs_rel g1 q i x p1 p2 sf m2); auto.
        - unfold g1; cbn [g_mem]. rewrite A4. lia.
        - unfold g1; cbn [g_mem g_lv]. rewrite A6, !Nat.eqb_refl. cbn. reflexivity. }
      destruct (do_store_ok s1 g1 _ g2 G1 Hat1 Hs2) as (s2 & Hd2 & Hat2 & Hr2 & Hl2).
      rewrite Hd2. cbn [bind].
      destruct (gstep_good g1 _ g2 G1 Hs2) as (G2 & _ & _).
      destruct (apply_link _ _ _ _ _ _ Hm2) as (B1 & B2 & B3 & B4 & B5 & B6).
      destruct (IH (S i) s2 g2 x p sf prev) as (s' & tr & C1 & C2 & C3 & C4 & C5 & C6 & C7 & C8 & C9 & C10); auto.
      { unfold g2; cbn [g_lv]. unfold updf. now rewrite Nat.eqb_refl. }
      { unfold g2; cbn [g_mem]. rewrite B4. unfold g1; cbn [g_mem]. rewrite A4. lia. }
      { intros j Hj1 Hj2. destruct (Hprev j ltac:(lia) ltac:(lia)) as (q' & Hq' & u1 & u2 & Eu & Hqj & Hu2).
        exists q'. split; auto. exists u1, u2. split; auto. unfold g2, g1; cbn [g_lv].
        assert (Hxp : ~ In x (0 :: p)).
        { pose proof (Good_nodup _ Hc g G) as Hnd. rewrite El in Hnd.
          change (0 :: p ++ x :: sf) with ((0 :: p) ++ x :: sf) in Hnd.
          apply NoDup_remove_2 in Hnd. intros Hin. apply Hnd. apply in_or_app; auto. }
        split.
        - unfold updf. destruct (q' =? x) eqn:Ex; auto. apply Nat.eqb_eq in Ex; subst q'.
          exfalso. apply Hxp. rewrite Eu. apply in_or_app; cbn; auto.
        - rewrite Forall_forall in *. intros z Hz. unfold updf.
          destruct (z =? x) eqn:Ex; [lia|auto]. }
      exists s', ((SLink false x i v, g1) :: (SLink true q i (Some x), g2) :: tr).
      rewrite !final_cons. split; [exact C1|]. split; [cbn [trace]; auto|].
      split; [exact C3|]. split.
      { rewrite C4, Hl2, Hl1. cbn [map fst]. rewrite <- !app_assoc. reflexivity. }
      split; [congruence|]. split; [exact C6|]. split.
      { intros a. rewrite C7. unfold g2, g1; cbn [g_lv]. unfold updf.
        destruct (a =? x); auto. lia. }
      split; [rewrite C8; unfold g2; cbn [g_mem]; congruence|].
      split; [intros a; rewrite C9; unfold g2; cbn [g_mem]; now rewrite B4, A4|].
      intros a. rewrite C10. unfold g2; cbn [g_mem]. now rewrite B3, A3.
  Qed.

  (** Splitting the sorted list at a key. *)
  Lemma split_at_key g key : Good g ->
    exists P S, g_l g = P ++ S /\ Forall (fun a => node_lt (g_mem g) a key) P /\
                Forall (fun a => node_ge (g_mem g) a key) S.
  Proof.
    intros G. pose proof (G_sorted _ _ G) as Hs. pose proof (G_nodes _ _ G) as Hn.
    revert Hs Hn. generalize (g_l g) as l. induction l as [|a t IH]; intros Hs Hn.
    - exists [], []. auto.
    - inversion Hs; subst. destruct IH as (P & S & E & HP & HS); auto.
      { intros b Hb. apply Hn; cbn; auto. }
      destruct (node_lt_ge_dec cmp (g_mem g) a key) as [Hlt|Hge]; [apply Hn; cbn; auto| |].
      + exists (a :: P), S. rewrite E. cbn. auto.
      + exists [], (a :: t). split; [reflexivity|]. split; [constructor|]. constructor; auto.
        rewrite Forall_forall in H2. apply Forall_forall. intros z Hz.
        eapply ge_lt_trans; eauto.
  Qed.

  Lemma prev_ok_prev_at g key P S i q : Good g ->
    g_l g = P ++ S -> Forall (fun a => node_lt (g_mem g) a key) P ->
    Forall (fun a => node_ge (g_mem g) a key) S ->
    prev_ok cmp g key i q -> prev_at g P i q.
  Proof.
    intros G El HP HS (Hb & Hlv & Hnext).
    assert (Hin : In q (0 :: P)).
    { destruct Hb as [->|[Hq (kq & Hk & Hlt)]]; [cbn; auto|]. right.
      rewrite El in Hq. apply in_app_or in Hq. destruct Hq as [|Hq]; auto. exfalso.
      rewrite Forall_forall in HS. destruct (HS q Hq) as (k' & Hk' & Hge).
      rewrite Hk in Hk'; inversion Hk'; subst. lia. }
    apply in_split in Hin. destruct Hin as (p1 & p2 & E).
    exists p1, p2. split; auto. split; auto. apply Forall_forall. intros z Hz.
    destruct (le_lt_dec (g_lv g z) i) as [|Hgt]; auto. exfalso.
    assert (E2 : 0 :: g_l g = p1 ++ q :: (p2 ++ S)).
    { rewrite El. change (0 :: P ++ S) with ((0 :: P) ++ S). rewrite E, <- app_assoc. reflexivity. }
    destruct (split_nodes cmp g _ _ _ G E2) as (S1 & S2 & _).
    assert (Hz2 : In z (p2 ++ S)) by (apply in_or_app; auto).
    assert (Hqz : q = 0 \/ lt_nodes (g_mem g) q z).
    { destruct (Nat.eq_dec q 0); auto. }
    destruct (Hnext z (S1 z Hz2) Hgt Hqz) as (kz & Hk & Hge).
    assert (HzP : In z P).
    { assert (In z (0 :: P)) by (rewrite E; apply in_or_app; cbn; auto).
      destruct H as [<-|]; auto. exfalso. specialize (S1 0 Hz2). apply (G_nodes _ _ G) in S1. lia. }
    rewrite Forall_forall in HP. destruct (HP z HzP) as (kz' & Hk' & Hlt).
    rewrite Hk in Hk'; inversion Hk'; subst. lia.
  Qed.

  Lemma fill_prev_ok : forall n prev from, length prev = kMaxHeight -> from + n <= kMaxHeight ->
    exists prev', fill_prev prev from n = Ret prev' /\ length prev' = kMaxHeight /\
      (forall j, nth_error prev' j =
         if (from <=? j) && (j <? from + n) then Some (Some 0) else nth_error prev j).
  Proof.
    induction n as [|n IH]; intros prev from Hl Hn; cbn [fill_prev].
    - exists prev. split; auto. split; auto. intros j.
      destruct (Nat.leb_spec from j), (Nat.ltb_spec j (from + 0)); cbn; auto; lia.
    - destruct (Nat.ltb_spec from (length prev)); [|lia].
      destruct (IH (set_nth prev from (Some 0)) (S from)) as (prev' & H1 & H2 & H3);
        [now rewrite set_nth_length|lia|].
      exists prev'. split; auto. split; auto. intros j. rewrite H3, nth_error_set_nth.
      destruct (Nat.leb_spec (S from) j), (Nat.ltb_spec j (S from + n)), (Nat.leb_spec from j),
        (Nat.ltb_spec j (from + S n)), (j =? from) eqn:Ej, (Nat.ltb_spec from (length prev));
        cbn; auto; rewrite ?Nat.eqb_eq, ?Nat.eqb_neq in Ej; try lia.
  Qed.

  (** Everything Insert does after the search, for any height. *)
  Lemma insert_linked_ok s g key h prev P S :
    Good g -> full g -> at_ghost s g -> 1 <= h <= kMaxHeight ->
    g_l g = P ++ S -> Forall (fun a => node_lt (g_mem g) a key) P ->
    Forall (fun a => exists ka, key_of (g_mem g) a = Ret ka /\ (cmp key ka < 0)%Z) S ->
    length prev = kMaxHeight ->
    (forall i, i < max_height_ (g_mem g) ->
               exists q, nth_error prev i = Some (Some q) /\ prev_at g P i q) ->
    exists s' tr, insert_linked s key h prev = Ret s' /\ trace g tr /\
      at_ghost s' (final g tr) /\ sl_log s' = sl_log s ++ map fst tr /\ rnd_ s' = rnd_ s /\
      full (final g tr) /\
      g_l (final g tr) = P ++ length (nodes (g_mem g)) :: S /\
      key_of (g_mem (final g tr)) (length (nodes (g_mem g))) = Ret key /\
      height_of (g_mem (final g tr)) (length (nodes (g_mem g))) = h /\
      length (nodes (g_mem (final g tr))) = Datatypes.S (length (nodes (g_mem g))).
  Proof.
    intros G Hfull Hat Hh El HP HS Hpl Hprev. unfold insert_linked. rewrite Hat.
    pose proof (G_max _ _ G) as GM. pose proof (G_head _ _ G) as (GH1 & GH2 & GH3).
    (* step 1: maybe raise the height *)
    assert (H1 : exists s1 prev1 g1 tr1,
      (if max_height_ (g_mem g) <? h then
                         let! prev := fill_prev prev (max_height_ (g_mem g)) (h - max_height_ (g_mem g)) in
                         let! s := do_store s (SMax h) in
                         Ret (s, prev)
                       else Ret (s, prev)) = Ret (s1, prev1) /\
      trace g tr1 /\ final g tr1 = g1 /\ at_ghost s1 g1 /\ sl_log s1 = sl_log s ++ map fst tr1 /\
      rnd_ s1 = rnd_ s /\ h <= max_height_ (g_mem g1) /\
      nodes (g_mem g1) = nodes (g_mem g) /\ g_l g1 = g_l g /\ g_lv g1 = g_lv g /\
      (forall i, i < h -> exists q, nth_error prev1 i = Some (Some q) /\ prev_at g P i q)).
    { destruct (Nat.ltb_spec (max_height_ (g_mem g)) h) as [Hlt|Hge].
      - destruct (fill_prev_ok (h - max_height_ (g_mem g)) prev (max_height_ (g_mem g)) Hpl ltac:(lia))
          as (prev1 & F1 & F2 & F3).
        rewrite F1. cbn [bind].
        set (g1 := {| g_mem := {| nodes := nodes (g_mem g); max_height_ := h |};
                      g_l := g_l g; g_lv := g_lv g |}).
        assert (Hs : gstep g (SMax h) g1) by (apply gs_max; lia).
        destruct (do_store_ok s g _ g1 G Hat Hs) as (s1 & Hd & Hat1 & Hr & Hl).
        rewrite Hd. cbn [bind]. exists s1, prev1, g1, [(SMax h, g1)].
        split; [reflexivity|]. split; [cbn [trace]; auto|]. split; [reflexivity|].
        split; [exact Hat1|]. split; [exact Hl|]. split; [exact Hr|]. split; [cbn; lia|].
        split; [reflexivity|]. split; [reflexivity|]. split; [reflexivity|].
        intros i Hi. rewrite F3. destruct (Nat.leb_spec (max_height_ (g_mem g)) i) as [Hmi|Hmi].
        + destruct (Nat.ltb_spec i (max_height_ (g_mem g) + (h - max_height_ (g_mem g)))); [|lia].
          cbn [andb]. exists 0. split; auto. exists [], P. split; [reflexivity|].
          split; [rewrite GH2; lia|]. apply Forall_forall. intros z Hz.
          assert (Hzl : In z (g_l g)) by (rewrite El; apply in_or_app; auto).
          pose proof (G_lv _ _ G z). pose proof (G_ht _ _ G z Hzl). lia.
        + cbn [andb]. apply Hprev. exact Hmi.
      - exists s, prev, g, []. split; [reflexivity|]. cbn. rewrite app_nil_r.
        split; [exact I|]. split; [reflexivity|]. split; [exact Hat|]. split; [reflexivity|].
        split; [reflexivity|]. split; [exact Hge|]. split; [reflexivity|]. split; [reflexivity|].
        split; [reflexivity|]. intros i Hi. apply Hprev. lia. }
    destruct H1 as (s1 & prev1 & g1 & tr1 & E1 & T1 & F1 & A1 & L1 & R1 & M1 & N1 & GL1 & GV1 & P1).
    rewrite E1. cbn [bind].
    destruct (trace_good g tr1 G T1) as [G1 _]. rewrite F1 in G1.
    rewrite A1, N1.
    set (x := length (nodes (g_mem g))).
    assert (Hkeys : forall a, key_of (g_mem g1) a = key_of (g_mem g) a)
      by (intros a; unfold key_of, get_node; now rewrite N1).
    assert (Hhts : forall a, height_of (g_mem g1) a = height_of (g_mem g) a)
      by (intros a; unfold height_of; now rewrite N1).
    (* step 2: new node *)
    set (g2 := {| g_mem := {| nodes := nodes (g_mem g1) ++ [{| nkey := key; next_ := repeat None h |}];
                       max_height_ := max_height_ (g_mem g1) |};
                  g_l := P ++ length (nodes (g_mem g1)) :: S; g_lv := g_lv g1 |}).
    assert (Hs2 : gstep g1 (SNew key h) g2).
    { apply gs_new; auto; [lia|congruence| |].
      - eapply Forall_impl; [|exact HP]. intros a (ka & B1 & B2). exists ka. now rewrite Hkeys.
      - eapply Forall_impl; [|exact HS]. intros a (ka & B1 & B2). exists ka. now rewrite Hkeys. }
    destruct (do_store_ok s1 g1 _ g2 G1 A1 Hs2) as (s2 & Hd2 & Hat2 & Hr2 & Hl2).
    rewrite Hd2. cbn [bind].
    destruct (gstep_good g1 _ g2 G1 Hs2) as (G2 & _ & _).
    pose proof (new_node_reads (g_mem g1) key h) as HR. cbv zeta in HR.
    assert (Hx1 : length (nodes (g_mem g1)) = x) by (unfold x; now rewrite N1).
    destruct (HR x) as (_ & HRx & _). specialize (HRx (eq_sym Hx1)).
    (* step 3: link *)
    destruct (link_loop_ok h 0 s2 g2 x P S prev1) as
        (s' & tr & C1 & C2 & C3 & C4 & C5 & C6 & C7 & C8 & C9 & C10); auto.
    { unfold g2; cbn [g_l]. now rewrite Hx1. }
    { unfold g2; cbn [g_lv]. rewrite GV1. apply (lv_none g G). unfold x; lia. }
    { unfold g2; cbn [g_mem]. apply HRx. }
    { intros j Hj1 Hj2. destruct (P1 j ltac:(lia)) as (q & Hq & p1 & p2 & B1 & B2 & B3).
      exists q. split; auto. exists p1, p2. unfold g2; cbn [g_lv]. rewrite GV1. auto. }
    exists s', (tr1 ++ (SNew key h, g2) :: tr).
    rewrite final_app, F1, final_cons.
    split; [exact C1|]. split.
    { apply trace_app. split; auto. rewrite F1. cbn [trace]. auto. }
    split; [exact C3|]. split.
    { rewrite C4, Hl2, L1, map_app. cbn [map fst]. rewrite <- !app_assoc. reflexivity. }
    split; [congruence|].
    assert (Hhx : height_of (g_mem (final g2 tr)) x = h).
    { rewrite C9. unfold g2; cbn [g_mem]. apply HRx. }
    assert (Hlen2 : length (nodes (g_mem g2)) = Datatypes.S x)
      by (unfold g2; cbn [g_mem nodes]; rewrite app_length, Hx1; cbn; lia).
    split; [|split; [|split; [|split]]].
    - destruct Hfull as [HF1 HF2]. split.
      + intros a Hin. rewrite C6 in Hin. unfold g2 in Hin; cbn [g_l] in Hin. rewrite Hx1 in Hin.
        rewrite C7, C9. destruct (a =? x) eqn:Ea.
        * apply Nat.eqb_eq in Ea; subst a. rewrite C9 in Hhx. rewrite Hhx. lia.
        * apply Nat.eqb_neq in Ea.
          assert (Hin' : In a (g_l g)).
          { rewrite El. apply in_app_or in Hin. apply in_or_app. destruct Hin as [|[|]]; auto; congruence. }
          unfold g2; cbn [g_mem g_lv]. rewrite GV1. destruct (HF1 a Hin') as [E2 E3].
          destruct (HR a) as (Hold & _). pose proof (G_nodes _ _ G a Hin').
          destruct Hold as (_ & -> & _); [lia|]. rewrite Hhts. auto.
      + intros a Ha. rewrite C8, Hlen2 in Ha. rewrite C6. unfold g2; cbn [g_l]. rewrite Hx1.
        destruct (Nat.eq_dec a x) as [->|Hne]; [apply in_or_app; cbn; auto|].
        assert (Hin : In a (g_l g)) by (apply HF2; unfold x in *; lia).
        rewrite El in Hin. apply in_app_or in Hin. apply in_or_app. cbn. tauto.
    - rewrite C6. unfold g2; cbn [g_l]. now rewrite Hx1.
    - rewrite C10. unfold g2; cbn [g_mem]. apply HRx.
    - exact Hhx.
    - rewrite C8. exact Hlen2.
  Qed.

  (** Keys of a ghost list. *)
  Definition keys_are (g : ghost) (ks : list K) : Prop :=
    Forall2 (fun a k => key_of (g_mem g) a = Ret k) (g_l g) ks.

  (** Insert of a new key. *)
  Lemma InsertH_ok dbg s g key h :
    Good g -> full g -> at_ghost s g -> 1 <= h <= kMaxHeight ->
    (forall a ka, In a (g_l g) -> key_of (g_mem g) a = Ret ka -> cmp key ka <> 0%Z) ->
    exists s' tr P S, InsertH cmp dbg s key h = Ret s' /\ trace g tr /\
      at_ghost s' (final g tr) /\ sl_log s' = sl_log s ++ map fst tr /\ rnd_ s' = rnd_ s /\
      full (final g tr) /\ g_l g = P ++ S /\
      g_l (final g tr) = P ++ length (nodes (g_mem g)) :: S /\
      key_of (g_mem (final g tr)) (length (nodes (g_mem g))) = Ret key /\
      height_of (g_mem (final g tr)) (length (nodes (g_mem g))) = h /\
      length (nodes (g_mem (final g tr))) = Datatypes.S (length (nodes (g_mem g))).
  Proof.
    intros G Hfull Hat Hh Hnew.
    assert (Hpos : forall a, In a (g_l g) -> 1 <= g_lv g a) by (intros a Ha; apply Hfull; auto).
    destruct (FGE_ok cmp Hc g key G Hpos) as (v & prev & F1 & F2 & F3 & F4).
    destruct (split_at_key g key G) as (P & S & El & HP & HS).
    assert (HS' : Forall (fun a => exists ka, key_of (g_mem g) a = Ret ka /\ (cmp key ka < 0)%Z) S).
    { rewrite Forall_forall in *. intros a Ha. destruct (HS a Ha) as (ka & H1 & H2).
      exists ka. split; auto.
      assert (Hne : cmp key ka <> 0%Z)
        by (apply (Hnew a ka); auto; rewrite El; apply in_or_app; auto).
      pose proof (cmp_opp _ Hc key ka). destruct (cmp key ka), (cmp ka key); cbn in *; lia. }
    assert (Hprev : forall i, i < max_height_ (g_mem g) ->
               exists q, nth_error prev i = Some (Some q) /\ prev_at g P i q).
    { intros i Hi. destruct (F3 i Hi) as (q & Hq & Hok). exists q. split; auto.
      eapply prev_ok_prev_at; eauto. }
    destruct (insert_linked_ok s g key h prev P S G Hfull Hat Hh El HP HS' F2 Hprev)
      as (s' & tr & C1 & C2 & C3 & C4 & C5 & C6 & C7 & C8 & C9 & C10).
    exists s', tr, P, S.
    assert (Hchk : match v with
         | None => True
         | Some a => exists ka, key_of (sl_mem s) a = Ret ka /\ (cmp key ka =? 0)%Z = false
         end).
    { destruct v as [a|]; auto. destruct F4 as (Ha & (ka & Hk & _) & _).
      exists ka. rewrite Hat. split; auto. apply Z.eqb_neq. eapply Hnew; eauto. }
    split.
    { unfold InsertH. rewrite Hat, F1. cbn [bind].
      destruct v as [a|].
      - destruct Hchk as (ka & Hk & Hne). rewrite Hk. cbn [bind].
        unfold assert_. rewrite Hne. cbn [negb]. rewrite Bool.andb_false_r. exact C1.
      - exact C1. }
    split; [exact C2|]. split; [exact C3|]. split; [exact C4|]. split; [exact C5|].
    split; [exact C6|]. split; [exact El|]. split; [exact C7|]. split; [exact C8|].
    split; [exact C9|]. exact C10.
  Qed.

  (** Insert draws a height and then does what InsertH does with it. *)
  Lemma Insert_InsertH dbg dbg249 s key rnd h :
    RandomHeight dbg dbg249 (rnd_ s) = Ret (rnd, h) ->
    Insert cmp dbg dbg249 s key =
    InsertH cmp dbg {| sl_mem := sl_mem s; rnd_ := rnd; sl_log := sl_log s |} key h.
  Proof.
    intros Hr. unfold Insert, InsertH. cbn [sl_mem].
    destruct (FindGreaterOrEqual cmp (sl_mem s) key) as [[x prev]| | |]; cbn [bind]; auto.
    destruct x as [a|]; [|cbn [bind]; now rewrite Hr].
    destruct (key_of (sl_mem s) a) as [ka| | |]; cbn [bind]; auto.
    destruct (assert_ dbg (negb (cmp key ka =? 0)%Z)); cbn [bind]; auto. now rewrite Hr.
  Qed.
End Insert.
