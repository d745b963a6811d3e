(** ArenaProofs.v *)
From Coq Require Import List Arith NArith Lia Bool.
From Verif Require Import Outcome Arena ArenaSpec.
Import ListNotations.
Local Open Scope N_scope.
Local Open Scope outcome_scope.
Local Opaque N.pow N.sub.

(** Blocks of a delete-free event sequence. *)
Definition news (evs : list event) : list (N * N) :=
  flat_map (fun e => match e with New n b => [(b, n)] | Del _ => [] end) evs.

Definition inside (r blk : N * N) : Prop :=
  fst blk <= fst r /\ fst r + snd r <= fst blk + snd blk.

(** A returned region is inside a live block, or empty. *)
Definition placed (live : list (N * N)) (r : N * N) : Prop :=
  snd r = 0 \/ exists blk, In blk live /\ inside r blk.

Definition free_region (s : arena) : N * N := (alloc_ptr s, alloc_bytes_remaining s).

Ltac reg := unfold inside, covers, free_region in *;
  cbn [fst snd alloc_ptr alloc_bytes_remaining] in *; lia.

Record inv (s : arena) (live : list (N * N)) (rs : list (N * N)) : Prop := {
  i_free : placed live (free_region s);
  i_rem : alloc_bytes_remaining s <= 4096;
  i_align : (alloc_ptr s + alloc_bytes_remaining s) mod 8 = 0;
  i_placed : Forall (placed live) rs;
  i_disj : pairwise_disjoint rs;
  i_freed : Forall (disjoint (free_region s)) rs;
  i_blocks : blocks s = map fst live;
  i_livedisj : pairwise_disjoint live;
  i_pos : Forall (fun b => 0 < snd b) live;
  i_usage : memory_usage s = u64 (sum (map (fun b : N * N => snd b + 8) live));
  i_total : sum (map snd rs) + alloc_bytes_remaining s <= sum (map snd live)
}.

Lemma inv0 : inv arena0 [] [].
Proof. split; cbn; auto; try lia; try constructor; try reflexivity. Qed.

Lemma placed_mono live l2 r : placed live r -> placed (live ++ l2) r.
Proof.
  intros [H|[b [Hb Hi]]]; [now left|]. right. exists b. split; auto. apply in_or_app; auto.
Qed.

Lemma disjoint_sym a b : disjoint a b -> disjoint b a.
Proof. unfold disjoint; eauto. Qed.

Lemma pd_app_one rs r : pairwise_disjoint rs -> Forall (disjoint r) rs -> pairwise_disjoint (rs ++ [r]).
Proof.
  induction rs as [|a t IH]; cbn; intros H F.
  - repeat constructor.
  - destruct H as [H1 H2]. inversion F; subst. split; auto.
    apply Forall_app. split; auto. constructor; auto. now apply disjoint_sym.
Qed.

Lemma inside_disjoint r blk blk' :
  inside r blk -> disjoint blk blk' -> disjoint r blk'.
Proof.
  unfold inside, disjoint, covers. intros [H1 H2] H x Hx Hx'. apply (H x); auto. lia.
Qed.

Lemma placed_disjoint_new live r nb :
  placed live r -> Forall (disjoint nb) live -> disjoint nb r.
Proof.
  intros [H|[b [Hb Hi]]] Hf.
  - intros x _ Hx. unfold covers in Hx. lia.
  - rewrite Forall_forall in Hf. apply disjoint_sym. eapply inside_disjoint; eauto.
    apply disjoint_sym. auto.
Qed.

Lemma u64_small x : x < 2 ^ 64 -> u64 x = x.
Proof. intros; unfold u64; now apply N.mod_small. Qed.

Lemma land7 x : N.land x (8 - 1) = x mod 8.
Proof.
  change (8 - 1) with (N.ones 3). rewrite N.land_ones. reflexivity.
Qed.

(** slop in terms of what remains: the block end is aligned. *)
Lemma slop_eq p rem : (p + rem) mod 8 = 0 ->
  (if p mod 8 =? 0 then 0 else 8 - p mod 8) = rem mod 8.
Proof.
  intros H.
  assert (Hp := N.div_mod p 8 ltac:(lia)). assert (Hr := N.div_mod rem 8 ltac:(lia)).
  assert (Hs := N.div_mod (p + rem) 8 ltac:(lia)). rewrite H in Hs.
  assert (Hpb := N.mod_lt p 8 ltac:(lia)). assert (Hrb := N.mod_lt rem 8 ltac:(lia)).
  remember (p mod 8) as a. remember (rem mod 8) as b.
  remember (p / 8) as pa. remember (rem / 8) as ra. remember ((p + rem) / 8) as q.
  clear Heqa Heqb Heqpa Heqra Heqq H.
  destruct (N.eqb_spec a 0); lia.
Qed.

Lemma sum_app a b : sum (a ++ b) = sum a + sum b.
Proof. induction a as [|x t IH]; cbn; auto. unfold sum in *. rewrite IH. lia. Qed.

Lemma u64_add_l a b : u64 (u64 a + b) = u64 (a + b).
Proof. unfold u64. apply N.add_mod_idemp_l. discriminate. Qed.
Lemma u64_add_r a b : u64 (a + u64 b) = u64 (a + b).
Proof. unfold u64. apply N.add_mod_idemp_r. discriminate. Qed.

Lemma usage_new live b n :
  u64 (u64 (sum (map (fun b : N * N => snd b + 8) live)) + u64 (n + 8)) =
  u64 (sum (map (fun b : N * N => snd b + 8) (live ++ [(b, n)]))).
Proof.
  rewrite u64_add_l, u64_add_r, map_app, sum_app. cbn. f_equal. lia.
Qed.

(** New blocks. *)
Lemma fallback_ok s live rs bytes ans s1 p ev :
  inv s live rs -> 0 < bytes ->
  AllocateFallback s bytes ans = (s1, p, ev) ->
  answers_ok live ev ->
  inv s1 (live ++ news ev) (rs ++ [(p, bytes)]) /\ p mod 8 = 0 /\
  exists n, ev = [New n ans] /\ (n = 4096 /\ bytes <= 1024 \/ n = bytes /\ 1024 < bytes).
Proof.
  intros I Hb Hf Ha. unfold AllocateFallback, AllocateNewBlock in Hf.
  change (kBlockSize / 4) with 1024 in Hf.
  destruct (N.ltb_spec 1024 bytes) as [Hlt|Hge].
  - inversion Hf; subst s1 p ev; clear Hf. cbn [answers_ok] in Ha.
    destruct Ha as [(H0 & H8 & Htop & Hd) _]. cbn [news flat_map app].
    split; [|split; [assumption|]].
    2:{ exists bytes. split; auto. }
    destruct I. split; cbn [alloc_ptr alloc_bytes_remaining blocks memory_usage]; auto.
    + apply placed_mono; auto.
    + apply Forall_app. split.
      * eapply Forall_impl; [|exact i_placed0]. intros; now apply placed_mono.
      * constructor; auto. right. exists (ans, bytes). split; [apply in_or_app; cbn; auto|].
        reg.
    + apply pd_app_one; auto. eapply Forall_impl; [|exact i_placed0].
      intros r Hr. eapply placed_disjoint_new; eauto.
    + apply Forall_app. split; auto. constructor; auto. apply disjoint_sym.
      eapply placed_disjoint_new; eauto.
    + rewrite map_app, i_blocks0. reflexivity.
    + apply pd_app_one; auto.
    + apply Forall_app; split; auto.
    + rewrite i_usage0. apply usage_new.
    + rewrite !map_app, !sum_app. cbn [map snd sum fold_right]. lia.
  - inversion Hf; subst s1 p ev; clear Hf. cbn [answers_ok] in Ha.
    change kBlockSize with 4096 in *.
    destruct Ha as [(H0 & H8 & Htop & Hd) _]. cbn [news flat_map app].
    split; [|split; [assumption|]].
    2:{ exists 4096. split; auto. }
    destruct I. split; cbn [alloc_ptr alloc_bytes_remaining blocks memory_usage]; auto.
    + right. exists (ans, 4096). split; [apply in_or_app; cbn; auto|].
      reg.
    + lia.
    + replace (ans + bytes + (4096 - bytes)) with (ans + 512 * 8) by lia.
      rewrite N.mod_add by lia. assumption.
    + apply Forall_app. split.
      * eapply Forall_impl; [|exact i_placed0]. intros; now apply placed_mono.
      * constructor; auto. right. exists (ans, 4096). split; [apply in_or_app; cbn; auto|].
        reg.
    + apply pd_app_one; auto. eapply Forall_impl; [|exact i_placed0].
      intros r Hr. apply (inside_disjoint _ (ans, 4096)); [reg|].
      eapply placed_disjoint_new; eauto.
    + apply Forall_app. split.
      * eapply Forall_impl; [|exact i_placed0]. intros r Hr.
        apply (inside_disjoint _ (ans, 4096)); [reg|].
        eapply placed_disjoint_new; eauto.
      * constructor; auto. intros x. reg.
    + rewrite map_app, i_blocks0. reflexivity.
    + apply pd_app_one; auto.
    + apply Forall_app; split; auto. constructor; auto. cbn; lia.
    + rewrite i_usage0. exact (usage_new live ans 4096).
    + rewrite !map_app, !sum_app. cbn [map snd sum fold_right]. lia.
Qed.

(** Carving [skip + bytes] bytes off the current block. *)
Lemma carve_ok s live rs skip bytes :
  inv s live rs -> skip + bytes <= alloc_bytes_remaining s ->
  inv {| alloc_ptr := alloc_ptr s + (skip + bytes);
         alloc_bytes_remaining := alloc_bytes_remaining s - (skip + bytes);
         blocks := blocks s; memory_usage := memory_usage s |}
      live (rs ++ [(alloc_ptr s + skip, bytes)]).
Proof.
  intros I Hle. destruct I.
  assert (Hin : placed live (alloc_ptr s + skip, bytes)).
  { destruct i_free0 as [H|[b [Hb Hi]]].
    - left. unfold free_region in H; cbn in *. lia.
    - right. exists b. split; auto. reg. }
  assert (Hcov : forall x, covers (alloc_ptr s + skip, bytes) x -> covers (free_region s) x)
    by (reg).
  split; cbn [alloc_ptr alloc_bytes_remaining blocks memory_usage]; auto.
  - destruct i_free0 as [H|[b [Hb Hi]]].
    + left. unfold free_region in *; cbn in *. lia.
    + right. exists b. split; auto. reg.
  - lia.
  - rewrite <- i_align0. f_equal. lia.
  - apply Forall_app; auto.
  - apply pd_app_one; auto. eapply Forall_impl; [|exact i_freed0].
    intros r Hr x Hx Hx2. apply (Hr x); auto.
  - apply Forall_app. split.
    + eapply Forall_impl; [|exact i_freed0]. intros r Hr x Hx Hx2. apply (Hr x); auto.
      reg.
    + constructor; auto. intros x. reg.
  - rewrite map_app, sum_app. cbn [map snd sum fold_right]. lia.
Qed.

Lemma answers_ok_app live a b :
  answers_ok live (a ++ b) -> answers_ok live a /\ answers_ok (live ++ news a) b.
Proof.
  revert live; induction a as [|e r IH]; intros live H; cbn in *.
  - rewrite app_nil_r. auto.
  - destruct e as [n bb|bb]; [|tauto]. destruct H as [H1 H2]. apply IH in H2 as [H2 H3].
    rewrite <- app_assoc in H3. auto.
Qed.

(** One call.  Also: what is left over when a standard block is started. *)
Lemma astep_ok dbg s live rs o ans :
  inv s live rs -> legal o ->
  (forall s1 p ev, astep false s o ans = Ret (s1, p, ev) -> answers_ok live ev) ->
  exists s1 p ev,
    astep dbg s o ans = Ret (s1, p, ev) /\
    inv s1 (live ++ news ev) (rs ++ [(p, op_bytes o)]) /\
    (forall b, o = OpAllocateAligned b -> p mod 8 = 0) /\
    (ev = [] \/ exists n, ev = [New n ans] /\
         (n = 4096 /\ alloc_bytes_remaining s <= 1023 \/
          n = op_bytes o /\ 1024 < n)).
Proof.
  intros I Hl Hans. destruct o as [bytes|bytes]; cbn [astep op_bytes legal] in *.
  - unfold Allocate in *. unfold assert_ in *.
    destruct (N.ltb_spec 0 bytes) as [Hpos|]; [|lia]. cbn [negb andb] in *.
    rewrite Bool.andb_false_r. cbn [bind] in *.
    destruct (N.leb_spec bytes (alloc_bytes_remaining s)) as [Hle|Hgt].
    + eexists _, _, _. split; [reflexivity|]. cbn [news flat_map]. rewrite app_nil_r.
      split; [|split; [discriminate|now left]].
      pose proof (carve_ok s live rs 0 bytes I ltac:(lia)) as H.
      rewrite N.add_0_l, N.add_0_r in H. exact H.
    + destruct (AllocateFallback s bytes ans) as [[s1 p] ev] eqn:Ef.
      specialize (Hans s1 p ev eq_refl).
      destruct (fallback_ok s live rs bytes ans s1 p ev I Hpos Ef Hans) as (H1 & H2 & n & H3 & H4).
      eexists _, _, _. split; [reflexivity|]. split; [exact H1|]. split; [discriminate|].
      right. exists n. split; auto. destruct H4 as [[? ?]|[? ?]]; [left|right]; split; auto; lia.
  - unfold AllocateAligned in *. rewrite !land7 in *.
    pose proof (slop_eq _ _ (i_align _ _ _ I)) as Hslop. rewrite Hslop in *.
    set (rem := alloc_bytes_remaining s) in *. set (slop := rem mod 8) in *.
    assert (Hs7 : slop < 8) by (apply N.mod_lt; lia).
    assert (Hsr : slop <= rem) by (apply N.mod_le; lia).
    rewrite (u64_small (bytes + slop)) in * by lia.
    destruct (N.leb_spec (bytes + slop) rem) as [Hle|Hgt].
    + assert (Hal : (alloc_ptr s + slop) mod 8 = 0).
      { pose proof (i_align _ _ _ I) as Ha. fold rem in Ha.
        assert (Hd := N.div_mod rem 8 ltac:(lia)). fold slop in Hd.
        rewrite Hd in Ha. replace (alloc_ptr s + (8 * (rem / 8) + slop)) with
          (alloc_ptr s + slop + (rem / 8) * 8) in Ha by lia.
        rewrite N.mod_add in Ha by lia. exact Ha. }
      unfold assert_. rewrite land7, Hal. cbn [N.eqb negb andb bind].
      rewrite Bool.andb_false_r. cbn [bind].
      eexists _, _, _. split; [reflexivity|]. cbn [news flat_map]. rewrite app_nil_r.
      split; [|split; [auto|now left]].
      pose proof (carve_ok s live rs slop bytes I ltac:(fold rem; lia)) as H.
      rewrite (N.add_comm bytes slop). exact H.
    + assert (Hpos : 0 < bytes) by lia.
      destruct (AllocateFallback s bytes ans) as [[s1 p] ev] eqn:Ef.
      unfold assert_ in *. cbn [andb bind] in Hans.
      specialize (Hans s1 p ev eq_refl).
      destruct (fallback_ok s live rs bytes ans s1 p ev I Hpos Ef Hans) as (H1 & H2 & n & H3 & H4).
      rewrite land7, H2. cbn [N.eqb negb]. rewrite Bool.andb_false_r. cbn [bind].
      eexists _, _, _. split; [reflexivity|]. split; [exact H1|]. split; [auto|].
      right. exists n. split; auto. destruct H4 as [[? ?]|[? ?]]; [left|right]; split; auto; [|lia].
      assert (Hd := N.div_mod rem 8 ltac:(lia)). fold slop in Hd.
      assert (bytes > 8 * (rem / 8)) by lia.
      assert (8 * (rem / 8) < 1024) by lia.
      assert (rem / 8 <= 127) by lia. lia.
Qed.

Lemma astep_dbg dbg s o ans r : astep dbg s o ans = Ret r -> astep false s o ans = Ret r.
Proof.
  destruct dbg; auto. destruct o as [b|b]; cbn [astep]; unfold Allocate, AllocateAligned, assert_.
  - destruct (0 <? b); cbn [andb negb bind]; [auto|discriminate].
  - match goal with |- context [let '(_, _) := ?X in _] => destruct X as [[s1 p] ev] end.
    destruct (N.land p (8 - 1) =? 0); cbn [andb negb bind]; [auto|discriminate].
Qed.

Lemma arun_dbg dbg ops : forall s r, arun dbg s ops = Ret r -> arun false s ops = Ret r.
Proof.
  induction ops as [|[o ans] t IH]; intros s r H; cbn in *; auto.
  destruct (astep dbg s o ans) as [[[s1 p] ev]| | |] eqn:E; cbn in H; try discriminate.
  rewrite (astep_dbg _ _ _ _ _ E). cbn.
  destruct (arun dbg s1 t) as [[[s2 rs] evs]| | |] eqn:E2; cbn in H; try discriminate.
  rewrite (IH _ _ E2). exact H.
Qed.

(** Whole histories.  The release-mode run always returns, so it can name the
    event trace whose answers the hypothesis constrains. *)
Lemma astep_ret s o ans : exists r, astep false s o ans = Ret r.
Proof.
  destruct o as [b|b]; cbn [astep]; unfold Allocate, AllocateAligned, assert_;
    cbn [andb negb bind].
  - destruct (b <=? alloc_bytes_remaining s); eauto.
  - match goal with |- context [let '(_, _) := ?X in _] => destruct X as [[s1 p] ev] end.
    cbn. eauto.
Qed.

Lemma arun_ret ops : forall s, exists r, arun false s ops = Ret r.
Proof.
  induction ops as [|[o ans] t IH]; intros s; cbn; eauto.
  destruct (astep_ret s o ans) as [[[s1 p] ev] E]. rewrite E. cbn.
  destruct (IH s1) as [[[s2 rs] evs] E2]. rewrite E2. cbn. eauto.
Qed.

Lemma arun_inv dbg ops : forall s live rs0 s' rs evs,
  inv s live rs0 ->
  Forall (fun oa => legal (fst oa)) ops ->
  arun false s ops = Ret (s', rs, evs) ->
  answers_ok live evs ->
  arun dbg s ops = Ret (s', rs, evs) /\ inv s' (live ++ news evs) (rs0 ++ rs).
Proof.
  induction ops as [|[o ans] t IH]; intros s live rs0 s' rs evs I Hl Hr Ha; cbn [arun] in *.
  - inversion Hr; subst. cbn [news flat_map]. rewrite !app_nil_r. auto.
  - inversion Hl; subst. cbn [fst] in *.
    destruct (astep_ret s o ans) as [[[s1 p] ev] E]. rewrite E in Hr. cbn [bind] in Hr.
    destruct (arun false s1 t) as [[[s2 rs2] evs2]| | |] eqn:E2; cbn [bind] in Hr; try discriminate.
    inversion Hr; subst s' rs evs; clear Hr.
    apply answers_ok_app in Ha as [Ha1 Ha2].
    destruct (astep_ok dbg s live rs0 o ans I) as (s1' & p' & ev' & Hs & Hi & _ & _); auto.
    { intros s1' p' ev' E'. rewrite E in E'. inversion E'; subst. exact Ha1. }
    pose proof (astep_dbg _ _ _ _ _ Hs) as Hs'. rewrite E in Hs'. inversion Hs'; subst s1' p' ev'.
    rewrite Hs. cbn [bind].
    destruct (IH s1 _ _ s2 rs2 evs2 Hi) as [H3' H4]; auto.
    rewrite H3'. cbn [bind]. split; [reflexivity|].
    unfold news in *. rewrite flat_map_app, app_assoc.
    replace (rs0 ++ (p, op_bytes o) :: rs2) with ((rs0 ++ [(p, op_bytes o)]) ++ rs2)
      by now rewrite <- app_assoc.
    exact H4.
Qed.

Lemma arun_app dbg ops1 ops2 s :
  arun dbg s (ops1 ++ ops2) =
  let! (s1, rs1, ev1) := arun dbg s ops1 in
  let! (s2, rs2, ev2) := arun dbg s1 ops2 in
  Ret (s2, rs1 ++ rs2, ev1 ++ ev2).
Proof.
  revert s; induction ops1 as [|[o ans] t IH]; intros s; cbn [app arun bind].
  - destruct (arun dbg s ops2) as [[[s2 rs2] ev2]| | |]; reflexivity.
  - destruct (astep dbg s o ans) as [[[s1 p] ev]| | |]; cbn [bind]; auto.
    rewrite IH. destruct (arun dbg s1 t) as [[[s2 rs2] ev2]| | |]; cbn [bind]; auto.
    destruct (arun dbg s2 ops2) as [[[s3 rs3] ev3]| | |]; cbn [bind]; auto.
    now rewrite app_assoc.
Qed.

Lemma news_answers live evs : answers_ok live evs -> replay live evs = Some (live ++ news evs).
Proof.
  revert live; induction evs as [|e r IH]; intros live H; cbn in *.
  - now rewrite app_nil_r.
  - destruct e as [n b|b]; [|tauto]. destruct H as [_ H]. rewrite IH by assumption.
    now rewrite <- app_assoc.
Qed.

Lemma replay_app live a b : replay live (a ++ b) =
  match replay live a with Some l => replay l b | None => None end.
Proof.
  revert live; induction a as [|e r IH]; intros live; cbn; auto.
  destruct e as [n x|x]; auto. destruct (remove_block x live); auto.
Qed.

Lemma replay_delete_all live : replay live (map Del (map fst live)) = Some [].
Proof.
  induction live as [|[b n] t IH]; cbn; auto. rewrite N.eqb_refl. exact IH.
Qed.

Lemma news_sizes evs : map snd (news evs) = block_sizes evs.
Proof.
  unfold news, block_sizes. induction evs as [|[n b|b] r IH]; cbn; auto. now rewrite IH.
Qed.

Lemma sum_plus8 live : sum (map (fun b : N * N => snd b + 8) live) =
  sum (map snd live) + 8 * N.of_nat (length live).
Proof.
  induction live as [|[b n] t IH]; [reflexivity|].
  cbn [map sum fold_right length] in *. unfold sum in *. rewrite IH. cbn [snd]. lia.
Qed.

Lemma astep_big s o ans s' p n b :
  astep false s o ans = Ret (s', p, [New n b]) -> n = op_bytes o -> 1024 < n ->
  alloc_ptr s' = alloc_ptr s /\ alloc_bytes_remaining s' = alloc_bytes_remaining s.
Proof.
  intros Hs H4 H5.
  destruct o as [bytes|bytes]; cbn [astep op_bytes] in *; subst bytes;
    unfold Allocate, AllocateAligned, AllocateFallback, assert_ in Hs; cbv zeta in Hs;
    change (kBlockSize / 4) with 1024 in Hs; (destruct (N.ltb_spec 1024 n) as [Hn|]; [|lia]).
  - cbn [andb bind] in Hs.
    destruct (n <=? alloc_bytes_remaining s); [discriminate|]. inversion Hs; subst. auto.
  - match type of Hs with context [?x <=? alloc_bytes_remaining s] => set (c := x) in Hs end.
    destruct (c <=? alloc_bytes_remaining s); cbn [andb bind] in Hs.
    + discriminate.
    + unfold AllocateNewBlock in Hs. cbn [bind] in Hs. inversion Hs; subst. auto.
Qed.
