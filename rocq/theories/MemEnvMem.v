(** MemEnvMem.v -- the memory side of the in-memory environment: every FileState
    operation against abstract contents and reference counts. *)
From Coq Require Import List Arith NArith ZArith Lia Bool.
From Verif Require Import Outcome Heap Status StatusProofs MemEnv.
Import ListNotations.
Local Open Scope outcome_scope.

Definition BS : nat := N.to_nat kBlockSize.
Lemma BS_pos : 0 < BS.
Proof. unfold BS, kBlockSize. lia. Qed.
Lemma kBS : kBlockSize = N.of_nat BS.
Proof. unfold BS. now rewrite N2Nat.id. Qed.
Global Opaque BS kBlockSize.

(** What a FileState's arrays say. *)
Definition frep (bh : heap block) (bl : list nat) (c : list N) : Prop :=
  exists blks, map (hget bh) bl = map Some blks /\ Forall (fun b => length b = BS) blks /\
    firstn (length c) (concat blks) = map Some c /\
    length c <= length blks * BS /\ length blks * BS < length c + BS.

Lemma frep_frame bh bh' bl c : (forall a, In a bl -> hget bh' a = hget bh a) -> frep bh bl c -> frep bh' bl c.
Proof.
  intros E (blks & H1 & H2). exists blks. split; [|exact H2]. rewrite <- H1. apply map_ext_in. exact E.
Qed.
Lemma concat_length (blks : list block) : Forall (fun b => length b = BS) blks -> length (concat blks) = length blks * BS.
Proof. induction 1 as [|b l Hb Hl IH]; cbn [concat length]; [reflexivity|]. rewrite app_length, Hb, IH. lia. Qed.

Lemma concat_firstn (blks : list block) k : Forall (fun b => length b = BS) blks ->
  firstn (k * BS) (concat blks) = concat (firstn k blks).
Proof.
  intros F. revert k. induction F as [|b l Hb Hl IH]; intros k.
  - cbn [concat]. now rewrite !firstn_nil.
  - destruct k as [|k]; [reflexivity|]. cbn [concat firstn Nat.mul]. rewrite firstn_app, Hb. replace (BS + k * BS - BS) with (k * BS) by lia.
    rewrite firstn_all2 by lia. now rewrite IH.
Qed.
Lemma concat_skipn (blks : list block) k : Forall (fun b => length b = BS) blks ->
  skipn (k * BS) (concat blks) = concat (skipn k blks).
Proof.
  intros F. revert k. induction F as [|b l Hb Hl IH]; intros k.
  - cbn [concat]. now rewrite !skipn_nil.
  - destruct k as [|k]; [reflexivity|]. cbn [concat skipn Nat.mul]. rewrite skipn_app, Hb. replace (BS + k * BS - BS) with (k * BS) by lia.
    rewrite skipn_all2 by lia. cbn [app]. apply IH.
Qed.

(** ** Reading *)
Lemma bread_n_firstn (m : block) : forall p n bs, firstn n (skipn p m) = map Some bs -> length bs = n -> bread_n m p n = Ret bs.
Proof.
  intros p n. revert p. induction n as [|n IH]; intros p bs E L; cbn [bread_n].
  - destruct bs; [reflexivity|discriminate].
  - destruct bs as [|b bs]; [discriminate|]. unfold bread.
    destruct (skipn p m) as [|x t] eqn:Es; cbn [firstn map] in E; [discriminate|]. inversion E; subst x.
    assert (Hn : nth_error m p = Some (Some b)).
    { rewrite <- (firstn_skipn p m) at 1. rewrite Es. destruct (le_lt_dec (length m) p) as [Hle|Hlt].
      - rewrite skipn_all2 in Es by auto. discriminate.
      - rewrite nth_error_app2; rewrite firstn_length_le by lia; [|lia]. now rewrite Nat.sub_diag. }
    rewrite Hn. cbn [bind]. rewrite (IH (S p) bs).
    + reflexivity.
    + assert (E2 : skipn (S p) m = t).
      { clear - Es. revert m Es. induction p as [|p IH]; intros m Es; destruct m as [|y m]; cbn [skipn] in *; try discriminate.
        - inversion Es. reflexivity.
        - rewrite <- (IH m Es). destruct m; reflexivity. }
      rewrite E2. auto.
    + cbn in L. lia.
Qed.

Lemma skipn_add {A} (l : list A) a b : skipn a (skipn b l) = skipn (b + a) l.
Proof.
  revert l. induction b as [|b IH]; intros l; cbn [Nat.add]; [reflexivity|]. destruct l; cbn [skipn]; [now rewrite skipn_nil|apply IH].
Qed.

Lemma firstn_le {A} (l m : list A) a b : a <= b -> firstn b l = m -> firstn a l = firstn a m.
Proof. intros Hab <-. rewrite firstn_firstn. now rewrite Nat.min_l. Qed.

Lemma read_loop_ok (bh : heap block) bl (blks : list block) n0 : map (hget bh) bl = map Some blks -> Forall (fun b => length b = BS) blks ->
  forall fuel k off todo dst (bs : list N), off < BS ->
    N.to_nat todo <= fuel * BS - off ->
    (N.of_nat dst + todo <= n0)%N ->
    firstn (N.to_nat todo) (skipn (k * BS + off) (concat blks)) = map Some bs -> length bs = N.to_nat todo ->
    read_loop fuel bh bl n0 k (N.of_nat off) todo (N.of_nat dst) = Ret bs.
Proof.
  intros Em Fb. induction fuel as [|fuel IH]; intros k off todo dst bs Ho Hf Hd E L; cbn [read_loop].
  - destruct (N.eqb_spec todo 0) as [->|Hn]; [destruct bs; [reflexivity|discriminate]|lia].
  - destruct (N.eqb_spec todo 0) as [->|Hn]; [destruct bs; [reflexivity|discriminate]|].
    set (av := N.min (kBlockSize - N.of_nat off) todo).
    assert (Eav : av = N.of_nat (Nat.min (BS - off) (N.to_nat todo))) by (unfold av; rewrite kBS; lia).
    set (v := Nat.min (BS - off) (N.to_nat todo)) in *.
    assert (Hv : 0 < v <= N.to_nat todo /\ v <= BS - off) by (unfold v; lia).
    assert (Lb : length bl = length blks) by (rewrite <- (map_length (hget bh)), Em, map_length; reflexivity).
    assert (Hk : k < length blks).
    { destruct (le_lt_dec (length blks) k) as [Hle|]; auto. exfalso.
      rewrite skipn_all2 in E. 2:{ rewrite concat_length by auto. apply Nat.mul_le_mono_r with (p := BS) in Hle. eapply Nat.le_trans; [exact Hle|apply Nat.le_add_r]. }
      rewrite firstn_nil in E. destruct bs; [cbn in L; lia|discriminate]. }
    destruct (nth_error bl k) as [b|] eqn:Eb; [|apply nth_error_None in Eb; lia].
    destruct (nth_error blks k) as [arr|] eqn:Ea; [|apply nth_error_None in Ea; lia].
    assert (Hg : hget bh b = Some arr).
    { assert (K := map_nth_error (hget bh) _ _ Eb). rewrite Em in K. rewrite (map_nth_error Some _ _ Ea) in K. congruence. }
    rewrite Hg. rewrite Eav. replace (N.of_nat dst + N.of_nat v <=? n0)%N with true by (symmetry; apply N.leb_le; lia).
    rewrite !Nat2N.id.
    assert (Hsk : skipn (k * BS + off) (concat blks) = skipn off arr ++ skipn ((S k) * BS) (concat blks)).
    { assert (Hla : length arr = BS) by (rewrite Forall_forall in Fb; apply Fb; eapply nth_error_In; eauto).
      rewrite <- skipn_add. rewrite !concat_skipn by auto.
      assert (Esk : skipn k blks = arr :: skipn (S k) blks).
      { clear - Ea. revert blks Ea. induction k as [|k IH]; intros [|y l] Ea; cbn [nth_error skipn] in *; try discriminate.
        - inversion Ea. reflexivity.
        - now rewrite IH. }
      rewrite Esk. cbn [concat]. rewrite skipn_app. f_equal. rewrite Hla. replace (off - BS) with 0 by lia. reflexivity. }
    assert (Hla : length arr = BS) by (rewrite Forall_forall in Fb; apply Fb; eapply nth_error_In; eauto).
    assert (E1 : firstn v (skipn off arr) = map Some (firstn v bs)).
    { rewrite <- firstn_map, <- E, firstn_firstn, Nat.min_l by lia. rewrite Hsk, firstn_app.
      rewrite skipn_length, Hla. replace (v - (BS - off)) with 0 by lia. cbn [firstn]. now rewrite app_nil_r. }
    rewrite (bread_n_firstn arr off v (firstn v bs) E1) by (rewrite firstn_length_le; lia). cbn [bind].
    assert (Rest : read_loop fuel bh bl n0 (S k) 0 (todo - N.of_nat v) (N.of_nat dst + N.of_nat v) = Ret (skipn v bs)).
    { rewrite <- Nat2N.inj_add. change 0%N with (N.of_nat 0). apply IH.
      - apply BS_pos.
      - assert (Hf2 : N.to_nat todo <= BS + fuel * BS - off) by exact Hf. unfold v. revert Hf2. generalize (fuel * BS). clear. intros q Hf2. lia.
      - lia.
      - rewrite Nat.add_0_r.
        replace (N.to_nat (todo - N.of_nat v)) with (N.to_nat todo - v) by lia.
        destruct (Nat.eq_dec v (N.to_nat todo)) as [Hvt|Hvt].
        + rewrite Hvt, Nat.sub_diag. cbn [firstn]. rewrite skipn_all2 by lia. reflexivity.
        + assert (Hvb : v = BS - off) by (unfold v in *; lia).
          rewrite <- skipn_map, <- E, Hsk. rewrite firstn_app, skipn_length, Hla, <- Hvb.
          assert (Ef : firstn (N.to_nat todo) (skipn off arr) = skipn off arr) by (apply firstn_all2; rewrite skipn_length, Hla; lia).
          rewrite Ef, skipn_app, skipn_length, Hla, <- Hvb, Nat.sub_diag.
          rewrite (skipn_all2 (n := v)) by (rewrite skipn_length, Hla; lia). reflexivity.
      - rewrite skipn_length. lia. }
    rewrite Rest. cbn [bind]. now rewrite firstn_skipn.
Qed.

Lemma frep_length bh bl c : frep bh bl c -> length c <= length bl * BS /\ length bl * BS < length c + BS.
Proof.
  intros (blks & E & _ & _ & L1 & L2). assert (L : length bl = length blks).
  { rewrite <- (map_length (hget bh)), E, map_length. reflexivity. }
  rewrite L. auto.
Qed.
Lemma frep_live bh bl c a : frep bh bl c -> In a bl -> exists x, hget bh a = Some x.
Proof.
  intros (blks & E & _) H. apply (in_map (hget bh)) in H. rewrite E in H. apply in_map_iff in H as (x & Hx & _). eauto.
Qed.

Lemma read_ok m a f c off n : hget (m_files m) a = Some f -> frep (m_blocks m) (fs_blocks f) c ->
  fs_size f = N.of_nat (length c) ->
  read m a off n = Ret (if (N.of_nat (length c) <? off)%N then (SErr IOError msg_offset [], [])
                        else (SOk, firstn (N.to_nat n) (skipn (N.to_nat off) c))).
Proof.
  intros Hf Hr Hs. unfold read, getf. rewrite Hf. cbn [bind]. rewrite Hs.
  destruct (N.ltb_spec (N.of_nat (length c)) off) as [H|H]; [reflexivity|].
  set (n' := if (N.of_nat (length c) - off <? n)%N then (N.of_nat (length c) - off)%N else n).
  assert (Hn' : n' = N.min n (N.of_nat (length c) - off)) by (unfold n'; destruct (N.ltb_spec (N.of_nat (length c) - off) n); lia).
  assert (Ef : firstn (N.to_nat n) (skipn (N.to_nat off) c) = firstn (N.to_nat n') (skipn (N.to_nat off) c)).
  { rewrite Hn'. destruct (N.le_ge_cases n (N.of_nat (length c) - off)) as [K|K]; [now rewrite N.min_l|].
    rewrite N.min_r by auto. rewrite !firstn_all2; [reflexivity| |]; rewrite skipn_length; lia. }
  rewrite Ef. destruct (N.eqb_spec n' 0) as [E0|E0]; [rewrite E0; reflexivity|].
  destruct (frep_length _ _ _ Hr) as [_ Lb].
  destruct Hr as (blks & E & Fb & Ec & L1 & L2).
  assert (L : length (fs_blocks f) = length blks) by (rewrite <- (map_length (hget (m_blocks m))), E, map_length; reflexivity).
  set (o := N.to_nat off). assert (Eo : off = N.of_nat o) by (unfold o; lia).
  rewrite kBS, Eo. rewrite <- Nat2N.inj_div, <- Nat2N.inj_mod, Nat2N.id.
  pose proof BS_pos as BP. pose proof (Nat.div_mod o BS ltac:(lia)) as DM. pose proof (Nat.mod_upper_bound o BS ltac:(lia)) as MU.
  change 0%N with (N.of_nat 0).
  rewrite (read_loop_ok (m_blocks m) (fs_blocks f) blks n E Fb _ _ _ n' 0 (firstn (N.to_nat n') (skipn o c))).
  - reflexivity.
  - exact MU.
  - rewrite L. assert (N.to_nat n' <= length c) by lia. rewrite Nat.mul_add_distr_r, Nat.mul_1_l. lia.
  - lia.
  - replace (o / BS * BS + o mod BS) with o by lia.
    rewrite <- firstn_map, <- skipn_map, <- Ec. rewrite skipn_firstn_comm, firstn_firstn. f_equal. lia.
  - rewrite firstn_length_le; [reflexivity|]. rewrite skipn_length. lia.
Qed.

(** ** Appending *)
Lemma bput_bytes_mid (arr : block) off bs : off + length bs <= length arr ->
  bput_bytes arr off bs = Ret (firstn off arr ++ map Some bs ++ skipn (off + length bs) arr).
Proof.
  intros H. rewrite <- (firstn_skipn off arr) at 1. rewrite <- (firstn_skipn (length bs) (skipn off arr)).
  rewrite skipn_add. apply bput_bytes_at'; [rewrite firstn_length_le; lia|].
  rewrite firstn_length_le; [reflexivity|]. rewrite skipn_length. lia.
Qed.

Lemma nodup_snoc {A} (l : list A) b : NoDup l -> ~ In b l -> NoDup (l ++ [b]).
Proof.
  intros N1 N2. apply (NoDup_Add (a := b) (l := l)); [|auto].
  replace l with (l ++ []) at 1 by apply app_nil_r. apply Add_app.
Qed.
Lemma write_last (bh : heap block) bl0 b (blks0 : list block) (arr : block) c off bs :
  NoDup (bl0 ++ [b]) -> map (hget bh) bl0 = map Some blks0 -> Forall (fun x => length x = BS) blks0 -> length arr = BS ->
  length c = length blks0 * BS + off -> firstn (length c) (concat (blks0 ++ [arr])) = map Some c ->
  bs <> [] -> off + length bs <= BS ->
  exists arr', bput_bytes arr off bs = Ret arr' /\ frep (hput bh b arr') (bl0 ++ [b]) (c ++ bs).
Proof.
  intros ND E0 F0 La Lc Ec Hne Hfit. eexists. split; [apply bput_bytes_mid; lia|].
  set (arr' := firstn off arr ++ map Some bs ++ skipn (off + length bs) arr).
  assert (La' : length arr' = BS).
  { unfold arr'. rewrite !app_length, map_length, firstn_length_le, skipn_length by lia. lia. }
  assert (Hpos : 0 < length bs) by (destruct bs; [contradiction|cbn; lia]).
  exists (blks0 ++ [arr']). split; [|split; [|split; [|split]]].
  - rewrite !map_app. cbn [map]. rewrite hget_hput_eq. f_equal. rewrite <- E0. apply map_ext_in. intros x Hx.
    apply hget_hput_ne. intros ->. apply NoDup_remove_2 in ND. rewrite app_nil_r in ND. auto.
  - apply Forall_app. split; auto.
  - rewrite concat_app. cbn [concat]. rewrite app_nil_r.
    assert (Ec1 : concat blks0 ++ firstn off arr = map Some c).
    { rewrite <- Ec, concat_app. cbn [concat]. rewrite app_nil_r, firstn_app, concat_length by auto.
      rewrite (firstn_all2 (concat blks0)) by (rewrite concat_length by auto; lia). f_equal. f_equal. lia. }
    unfold arr'. rewrite app_assoc, Ec1, map_app, app_assoc, <- map_app. rewrite firstn_app, map_length.
    rewrite Nat.sub_diag. cbn [firstn]. rewrite app_nil_r. apply firstn_all2. rewrite map_length. lia.
  - rewrite !app_length. cbn [length]. lia.
  - rewrite !app_length. cbn [length]. lia.
Qed.

Lemma u64_small x : (x < 2 ^ 64)%N -> u64 x = x.
Proof. intros H. unfold u64. now apply N.mod_small. Qed.

Section Alc.
  Variable alb : allocator.
  Hypothesis Halb : allocator_ok alb.

  Lemma append_loop_ok : forall fuel bh refs bl src c,
    NoDup bl -> frep bh bl c -> length src <= fuel -> (N.of_nat (length c + length src) < 2 ^ 64)%N ->
    exists bh' new, append_loop alb fuel bh (mk_fstate refs bl (N.of_nat (length c))) src =
        Ret (bh', mk_fstate refs (bl ++ new) (N.of_nat (length (c ++ src)))) /\
      frep bh' (bl ++ new) (c ++ src) /\ NoDup (bl ++ new) /\
      (forall a, In a new -> hget bh a = None) /\
      (forall a, ~ In a (bl ++ new) -> hget bh' a = hget bh a).
  Proof.
    pose proof BS_pos as BP.
    induction fuel as [|fuel IH]; intros bh refs bl src c ND R Hf Hlt.
    - destruct src; [|cbn in Hf; lia]. exists bh, []. cbn [append_loop]. rewrite !app_nil_r.
        split; [reflexivity|]. split; [exact R|]. split; [exact ND|]. split; [intros a []|reflexivity].
    - destruct src as [|s0 src0] eqn:Es.
      { exists bh, []. cbn [append_loop]. rewrite !app_nil_r.
        split; [reflexivity|]. split; [exact R|]. split; [exact ND|]. split; [intros a []|reflexivity]. }
      cbn [append_loop fs_size fs_blocks fs_refs]. rewrite <- Es in *.
      rewrite kBS, <- Nat2N.inj_mod. set (off := length c mod BS).
      assert (Ho : off < BS) by (apply Nat.mod_upper_bound; lia).
      pose proof (Nat.div_mod (length c) BS ltac:(lia)) as DM. fold off in DM.
      set (q := length c / BS) in *.
      destruct (frep_length _ _ _ R) as [Lb1 Lb2].
      set (v := Nat.min (BS - off) (length src)).
      assert (Hv : 0 < v <= length src /\ off + v <= BS) by (unfold v; rewrite Es; cbn [length]; lia).
      (* the array to write into *)
      assert (P : exists bh1 bl0 b blks0 arr new0,
        (if (N.of_nat off =? 0)%N then (hput bh (alb (dom bh)) (repeat None (N.to_nat (N.of_nat BS))), bl ++ [alb (dom bh)], N.of_nat BS)
         else (bh, bl, (N.of_nat BS - N.of_nat off)%N)) = (bh1, bl0 ++ [b], (N.of_nat BS - N.of_nat off)%N) /\
        bl0 ++ [b] = bl ++ new0 /\ hget bh1 b = Some arr /\ NoDup (bl0 ++ [b]) /\ map (hget bh1) bl0 = map Some blks0 /\
        Forall (fun x => length x = BS) blks0 /\ length arr = BS /\ length c = length blks0 * BS + off /\
        firstn (length c) (concat (blks0 ++ [arr])) = map Some c /\
        (forall a, In a new0 -> hget bh a = None) /\ (forall a, ~ In a (bl0 ++ [b]) -> hget bh1 a = hget bh a)).
      { destruct R as (blks & E & Fb & Ec & L1 & L2).
        assert (Ll : length bl = length blks) by (rewrite <- (map_length (hget bh)), E, map_length; reflexivity).
        destruct (N.eqb_spec (N.of_nat off) 0) as [Z|Z].
        - assert (off = 0) by lia.
          assert (Hq : length blks = q).
          { apply Nat.le_antisymm.
            - destruct (le_lt_dec (length blks) q) as [|Hlt']; auto. exfalso.
              assert (S q * BS <= length blks * BS) by (apply Nat.mul_le_mono_r; lia). cbn [Nat.mul] in H0. lia.
            - destruct (le_lt_dec q (length blks)) as [|Hlt']; auto. exfalso.
              assert (S (length blks) * BS <= q * BS) by (apply Nat.mul_le_mono_r; lia). cbn [Nat.mul] in H0. lia. }
          set (b := alb (dom bh)). destruct (Halb (dom bh)) as [Hfr _]. fold b in Hfr.
          assert (Hfr' := proj1 (not_dom_hget bh b) Hfr).
          assert (Hnb : ~ In b bl).
          { intros K. destruct (frep_live bh bl c b) as (x & Hx); auto; [exists blks; auto|]. congruence. }
          exists (hput bh b (repeat None BS)), bl, b, blks, (repeat None BS), [b].
          split; [rewrite H, N.sub_0_r, Nat2N.id; reflexivity|]. split; [reflexivity|].
          split; [apply hget_hput_eq|]. split.
          { now apply nodup_snoc. }
          split.
          { rewrite <- E. apply map_ext_in. intros x Hx. apply hget_hput_ne. intros ->. auto. }
          split; [exact Fb|]. split; [apply repeat_length|].
          assert (Lc : length c = length blks * BS) by (rewrite Hq; lia).
          split; [lia|]. split.
          { rewrite concat_app, firstn_app, concat_length by auto. rewrite Lc, Nat.sub_diag. cbn [firstn]. rewrite app_nil_r.
            rewrite <- Lc. exact Ec. }
          split.
          { intros a [<-|[]]. exact Hfr'. }
          intros a Ha. apply hget_hput_ne. intros <-. apply Ha. rewrite in_app_iff. cbn. auto.
        - assert (Hnil : bl <> []). { intros ->. cbn [length] in Lb1. cbn [Nat.mul] in Lb1. lia. }
          destruct (exists_last Hnil) as (bl0 & b & ->).
          rewrite map_app in E. cbn [map] in E.
          destruct blks as [|x0 blks1] eqn:Eb. { destruct bl0; discriminate. }
          assert (Hnb : blks <> []) by (rewrite Eb; discriminate). rewrite <- Eb in *. clear Eb x0 blks1.
          destruct (exists_last Hnb) as (blks0 & arr & ->). rewrite map_app in E. cbn [map] in E.
          apply app_inj_tail in E as [E1 E2]. apply Forall_app in Fb as [Fb1 Fb2]. inversion Fb2; subst.
          rewrite app_length in L1, L2. cbn [length] in L1, L2.
          exists bh, bl0, b, blks0, arr, []. split; [reflexivity|]. split; [now rewrite app_nil_r|].
          split; [exact E2|]. split; [exact ND|]. split; [exact E1|]. split; [exact Fb1|]. split; [assumption|].
          assert (Hq : length blks0 = q).
          { apply Nat.le_antisymm.
            - destruct (le_lt_dec (length blks0) q) as [|Hlt']; auto. exfalso.
              assert (S q * BS <= length blks0 * BS) by (apply Nat.mul_le_mono_r; lia). cbn [Nat.mul] in H. lia.
            - destruct (le_lt_dec q (length blks0)) as [|Hlt']; auto. exfalso.
              assert (S (length blks0) * BS <= q * BS) by (apply Nat.mul_le_mono_r; lia). cbn [Nat.mul] in H. lia. }
          split; [rewrite Hq; lia|]. split; [exact Ec|]. split; [intros a []|auto]. }
      destruct P as (bh1 & bl0 & b & blks0 & arr & new0 & E1 & E2 & E3 & ND1 & E4 & F4 & La & Lc & Ec & Fr & Fo).
      rewrite E1. rewrite rev_app_distr. cbn [rev app]. rewrite E3.
      replace (N.min (N.of_nat BS - N.of_nat off) (N.of_nat (length src))) with (N.of_nat v) by (unfold v; lia).
      rewrite !Nat2N.id.
      assert (Lv : length (firstn v src) = v) by (apply firstn_length_le; lia).
      destruct (write_last bh1 bl0 b blks0 arr c off (firstn v src) ND1 E4 F4 La Lc Ec) as (arr' & W1 & W2).
      { intros K. rewrite K in Lv. cbn in Lv. lia. }
      { lia. }
      rewrite W1. cbn [bind]. rewrite u64_small by lia.
      replace (N.of_nat (length c) + N.of_nat v)%N with (N.of_nat (length (c ++ firstn v src))) by (rewrite app_length; lia).
      destruct (IH (hput bh1 b arr') refs (bl0 ++ [b]) (skipn v src) (c ++ firstn v src) ND1 W2) as (bh' & new & R1 & R2 & R3 & R4 & R5).
      { rewrite skipn_length. lia. }
      { rewrite app_length, skipn_length. lia. }
      exists bh', (new0 ++ new). rewrite E2 in R1, R2, R3, R5. rewrite <- !app_assoc, firstn_skipn in *.
      rewrite E2. rewrite R1. split; [reflexivity|]. split; [exact R2|]. split; [exact R3|]. 
      assert (Hb : In b (bl ++ new0)) by (rewrite <- E2, in_app_iff; cbn; auto).
      split.
      + intros a Ha. rewrite in_app_iff in Ha. destruct Ha as [Ha|Ha]; [now apply Fr|].
        specialize (R4 a Ha). rewrite hget_hput in R4. destruct (a =? b) eqn:Eab; [discriminate|].
        rewrite <- R4. symmetry. apply Fo. rewrite E2. intros K.
        rewrite app_assoc in R3. clear - R3 K Ha. induction (bl ++ new0) as [|x l IH]; [destruct K|].
        cbn [app] in R3. apply NoDup_cons_iff in R3 as [N1 N2]. destruct K as [->|K]; [|auto].
        apply N1. rewrite in_app_iff. auto.
      + intros a Ha. rewrite (R5 a Ha). rewrite hget_hput_ne.
        * apply Fo. rewrite E2. intros K. apply Ha. rewrite app_assoc, in_app_iff. auto.
        * intros <-. apply Ha. rewrite app_assoc, in_app_iff. auto.
  Qed.
End Alc.

(** ** The whole memory: contents [C] and reference counts [R] per address *)
Definition alive (m : mem) (a : nat) : Prop := exists f, hget (m_files m) a = Some f.

Record MInv (m : mem) (C : nat -> list N) (R : nat -> nat) : Prop := {
  mi_null : hget (m_files m) 0 = None;
  mi_file : forall a f, hget (m_files m) a = Some f ->
     fs_refs f = Z.of_nat (R a) /\ fs_size f = N.of_nat (length (C a)) /\ frep (m_blocks m) (fs_blocks f) (C a) /\ NoDup (fs_blocks f);
  mi_disj : forall a a' f f' b, hget (m_files m) a = Some f -> hget (m_files m) a' = Some f' ->
     In b (fs_blocks f) -> In b (fs_blocks f') -> a = a';
  mi_cover : forall b x, hget (m_blocks m) b = Some x -> exists a f, hget (m_files m) a = Some f /\ In b (fs_blocks f) }.

Lemma MInv_ext m C R C' R' : MInv m C R ->
  (forall a, alive m a -> C' a = C a) -> (forall a, alive m a -> R' a = R a) -> MInv m C' R'.
Proof.
  intros I EC ER. constructor; try apply I.
  intros a f Hf. assert (alive m a) by (exists f; auto). rewrite EC, ER by auto. now apply (mi_file _ _ _ I).
Qed.
Definition upn {A} (F : nat -> A) (a : nat) (x : A) : nat -> A := fun b => if b =? a then x else F b.
Lemma upn_eq {A} (F : nat -> A) a x : upn F a x a = x.
Proof. unfold upn. now rewrite Nat.eqb_refl. Qed.
Lemma upn_ne {A} (F : nat -> A) a x b : b <> a -> upn F a x b = F b.
Proof. intros H. unfold upn. apply Nat.eqb_neq in H. now rewrite H. Qed.

Lemma MInv_init : MInv (mk_mem [] []) (fun _ => []) (fun _ => 0).
Proof. constructor; cbn; auto; try discriminate. Qed.

Lemma free_blocks_ok l : forall bh, NoDup l -> (forall a, In a l -> exists x, hget bh a = Some x) ->
  exists bh', free_blocks bh l = Ret bh' /\ (forall a, In a l -> hget bh' a = None) /\ (forall a, ~ In a l -> hget bh' a = hget bh a).
Proof.
  induction l as [|b l IH]; intros bh ND Hl.
  - exists bh. cbn [free_blocks]. split; [reflexivity|]. split; [intros a []|auto].
  - apply NoDup_cons_iff in ND as [N1 N2]. destruct (Hl b) as (x & Hx); [cbn; auto|]. cbn [free_blocks]. rewrite Hx.
    destruct (IH (hdel bh b) N2) as (bh' & E & H1 & H2).
    { intros a Ha. destruct (Hl a) as (y & Hy); [cbn; auto|]. exists y. rewrite hget_hdel_ne by (intros ->; auto). auto. }
    exists bh'. split; [exact E|]. split.
    + intros a [<-|Ha]; [|auto]. rewrite H2 by auto. apply hget_hdel_eq.
    + intros a Ha. cbn [In] in Ha. rewrite H2 by tauto. apply hget_hdel_ne. intros ->. tauto.
Qed.

(** Changing one file's record: its arrays become [bl'] in [bh']. *)
Lemma MInv_put m C R a f f' bh' c' r' :
  MInv m C R -> hget (m_files m) a = Some f ->
  fs_refs f' = Z.of_nat r' -> fs_size f' = N.of_nat (length c') -> frep bh' (fs_blocks f') c' -> NoDup (fs_blocks f') ->
  (forall b, In b (fs_blocks f') -> In b (fs_blocks f) \/ hget (m_blocks m) b = None) ->
  (forall b, ~ In b (fs_blocks f) -> ~ In b (fs_blocks f') -> hget bh' b = hget (m_blocks m) b) ->
  (forall b, In b (fs_blocks f) -> ~ In b (fs_blocks f') -> hget bh' b = None) ->
  MInv (mk_mem (hput (m_files m) a f') bh') (upn C a c') (upn R a r').
Proof.
  intros I Ha Er Es Rp ND Hsub Hout Hgone.
  assert (N0 : a <> 0). { intros ->. rewrite (mi_null _ _ _ I) in Ha. discriminate. }
  assert (Oth : forall a1 f1 b, a1 <> a -> hget (m_files m) a1 = Some f1 -> In b (fs_blocks f1) ->
                 ~ In b (fs_blocks f) /\ ~ In b (fs_blocks f')).
  { intros a1 f1 b Hne H1 Hb. assert (K : ~ In b (fs_blocks f)).
    { intros K. apply Hne. eapply (mi_disj _ _ _ I); eauto. }
    split; [exact K|]. intros K'. apply Hsub in K' as [K'|K']; [auto|].
    destruct (mi_file _ _ _ I a1 f1 H1) as (_ & _ & Rp1 & _). destruct (frep_live _ _ _ _ Rp1 Hb) as (x & Hx). congruence. }
  constructor; cbn [m_files m_blocks].
  - rewrite hget_hput_ne by auto. apply (mi_null _ _ _ I).
  - intros a1 f1 H1. rewrite hget_hput in H1. destruct (a1 =? a) eqn:E.
    + apply Nat.eqb_eq in E. subst a1. inversion H1; subst f1. rewrite !upn_eq. auto.
    + apply Nat.eqb_neq in E. rewrite !upn_ne by auto. destruct (mi_file _ _ _ I a1 f1 H1) as (K1 & K2 & K3 & K4).
      split; [auto|]. split; [auto|]. split; [|auto]. eapply frep_frame; [|exact K3]. intros b Hb.
      destruct (Oth a1 f1 b E H1 Hb). now apply Hout.
  - intros a1 a2 f1 f2 b H1 H2 B1 B2. rewrite hget_hput in H1, H2. destruct (a1 =? a) eqn:E1, (a2 =? a) eqn:E2.
    + apply Nat.eqb_eq in E1, E2. congruence.
    + apply Nat.eqb_neq in E2. inversion H1; subst f1. destruct (Oth a2 f2 b E2 H2 B2). contradiction.
    + apply Nat.eqb_neq in E1. inversion H2; subst f2. destruct (Oth a1 f1 b E1 H1 B1). contradiction.
    + eapply (mi_disj _ _ _ I); eauto.
  - intros b x Hx. destruct (in_dec Nat.eq_dec b (fs_blocks f')) as [Hin|Hout'].
    + exists a, f'. rewrite hget_hput_eq. auto.
    + destruct (in_dec Nat.eq_dec b (fs_blocks f)) as [Hin|Hnf]; [rewrite Hgone in Hx by auto; discriminate|].
      rewrite Hout in Hx by auto. destruct (mi_cover _ _ _ I b x Hx) as (a1 & f1 & H1 & Hb).
      exists a1, f1. split; [|auto]. rewrite hget_hput_ne; [auto|]. intros <-. assert (f1 = f) by congruence. subst f1. contradiction.
Qed.

Lemma frep_nil bh : frep bh [] [].
Proof. exists []. cbn. pose proof BS_pos. repeat split; auto; lia. Qed.

Lemma alive_put m a f f' bh' : hget (m_files m) a = Some f -> forall b, alive (mk_mem (hput (m_files m) a f') bh') b <-> alive m b.
Proof.
  intros Ha b. unfold alive. cbn [m_files]. rewrite hget_hput. destruct (b =? a) eqn:E; [|tauto].
  apply Nat.eqb_eq in E. subst b. split; eauto.
Qed.

Lemma truncate_ok m C R a : MInv m C R -> alive m a ->
  exists m', truncate m a = Ret m' /\ MInv m' (upn C a []) R /\ (forall b, alive m' b <-> alive m b) /\
    (forall f, hget (m_files m') a = Some f -> fs_blocks f = []).
Proof.
  intros I (f & Hf). unfold truncate, getf. rewrite Hf. cbn [bind].
  destruct (mi_file _ _ _ I a f Hf) as (K1 & K2 & K3 & K4).
  destruct (free_blocks_ok (fs_blocks f) (m_blocks m) K4) as (bh' & E & G1 & G2).
  { intros b Hb. eapply frep_live; eauto. }
  rewrite E. cbn [bind]. eexists. split; [reflexivity|]. split; [|split].
  - eapply MInv_ext; [eapply (MInv_put m C R a f _ bh' [] (R a) I Hf); cbn [fs_refs fs_size fs_blocks length]; auto using frep_nil|auto|].
    + constructor.
    + intros b [].
    + intros b Hb. unfold upn. destruct (b =? a) eqn:Eb; [|reflexivity]. apply Nat.eqb_eq in Eb. now subst.
  - now apply alive_put with (f := f).
  - cbn [m_files]. rewrite hget_hput_eq. intros f0 E0. inversion E0. reflexivity.
Qed.

Lemma ref_ok m C R a : MInv m C R -> alive m a -> (Z.of_nat (R a) < 2 ^ 31 - 1)%Z ->
  exists m', ref m a = Ret m' /\ MInv m' C (upn R a (S (R a))) /\ (forall b, alive m' b <-> alive m b).
Proof.
  intros I (f & Hf) Hlt. unfold ref, getf. rewrite Hf. cbn [bind].
  destruct (mi_file _ _ _ I a f Hf) as (K1 & K2 & K3 & K4). rewrite K1.
  apply Z.ltb_lt in Hlt. rewrite Hlt. eexists. split; [reflexivity|]. split.
  - unfold putf. eapply MInv_ext; [eapply (MInv_put m C R a f _ (m_blocks m) (C a) (S (R a)) I Hf); cbn [fs_refs fs_size fs_blocks]; auto| |auto].
    + lia.
    + intros b Hb1 Hb2. contradiction.
    + intros b Hb. unfold upn. destruct (b =? a) eqn:Eb; [|reflexivity]. apply Nat.eqb_eq in Eb. now subst.
  - unfold putf. now apply alive_put with (f := f).
Qed.

Lemma unref_dec_ok dbg m C R a : MInv m C R -> alive m a -> 0 < R a ->
  exists m', unref_dec dbg m a = Ret (m', R a =? 1) /\ MInv m' C (upn R a (R a - 1)) /\ (forall b, alive m' b <-> alive m b).
Proof.
  intros I (f & Hf) Hpos. unfold unref_dec, getf. rewrite Hf. cbn [bind].
  destruct (mi_file _ _ _ I a f Hf) as (K1 & K2 & K3 & K4). rewrite K1.
  assert (Hge : (0 <=? Z.of_nat (R a) - 1)%Z = true) by (apply Z.leb_le; lia). rewrite Hge.
  unfold assert_. rewrite andb_false_r. cbn [bind].
  set (m1 := putf m a _). exists m1.
  split; [|split].
  - do 2 f_equal. destruct (Z.leb_spec (Z.of_nat (R a) - 1) 0), (Nat.eqb_spec (R a) 1); auto; lia.
  - unfold m1, putf. eapply MInv_ext; [eapply (MInv_put m C R a f _ (m_blocks m) (C a) (R a - 1) I Hf); cbn [fs_refs fs_size fs_blocks]; auto| |auto].
    + lia.
    + intros b Hb1 Hb2. contradiction.
    + intros b Hb. unfold upn. destruct (b =? a) eqn:Eb; [|reflexivity]. apply Nat.eqb_eq in Eb. now subst.
  - unfold m1, putf. now apply alive_put with (f := f).
Qed.

Lemma destroy_ok m C R a : MInv m C R -> alive m a ->
  exists m', destroy m a = Ret m' /\ MInv m' C R /\ (forall b, alive m' b <-> alive m b /\ b <> a).
Proof.
  intros I Ha. unfold destroy.
  destruct (truncate_ok m C _ a I Ha) as (m2 & E2 & I2 & A2 & B2).
  rewrite E2. cbn [bind]. eexists. split; [reflexivity|].
  assert (Ha2 : exists f2, hget (m_files m2) a = Some f2) by (apply A2, Ha). destruct Ha2 as (f2 & Hf2).
  specialize (B2 f2 Hf2). split.
  - constructor; cbn [m_files m_blocks].
    + rewrite hget_hdel. destruct (0 =? a); [reflexivity|]. apply (mi_null _ _ _ I2).
    + intros b fb Hb. rewrite hget_hdel in Hb. destruct (b =? a) eqn:Eb; [discriminate|]. apply Nat.eqb_neq in Eb.
      pose proof (mi_file _ _ _ I2 b fb Hb) as K. rewrite (upn_ne C) in K by auto. exact K.
    + intros b b' fb fb' x Hb Hb'. rewrite hget_hdel in Hb, Hb'.
      destruct (b =? a); [discriminate|]. destruct (b' =? a); [discriminate|]. eapply (mi_disj _ _ _ I2); eauto.
    + intros b x Hx. destruct (mi_cover _ _ _ I2 b x Hx) as (a1 & f1 & H1 & Hb1). exists a1, f1. split; [|auto].
      rewrite hget_hdel_ne; [auto|]. intros <-. assert (f1 = f2) by congruence. subst f1. rewrite B2 in Hb1. destruct Hb1.
  - intros b. unfold alive. cbn [m_files]. rewrite hget_hdel. destruct (b =? a) eqn:Eb.
    + apply Nat.eqb_eq in Eb. subst b. split; [intros (x & Hx); discriminate|]. intros [_ K]. contradiction.
    + apply Nat.eqb_neq in Eb. rewrite <- (A2 b). unfold alive. tauto.
Qed.

Lemma unref_ok dbg m C R a : MInv m C R -> alive m a -> 0 < R a ->
  exists m', unref dbg m a = Ret m' /\ MInv m' C (upn R a (R a - 1)) /\
    (forall b, alive m' b <-> alive m b /\ (b <> a \/ 1 < R a)).
Proof.
  intros I Ha Hpos. destruct (unref_dec_ok dbg m C R a I Ha Hpos) as (m1 & E1 & I1 & A1).
  unfold unref. rewrite E1. cbn [bind fst snd]. destruct (Nat.eqb_spec (R a) 1) as [Hr|Hr].
  - destruct (destroy_ok m1 C _ a I1) as (m2 & E2 & I2 & A2); [now apply A1|].
    exists m2. split; [exact E2|]. split; [exact I2|]. intros b. rewrite A2, A1. split; [tauto|].
    intros (Hb & [Q|Q]); [auto|lia].
  - exists m1. split; [reflexivity|]. split; [exact I1|]. intros b. rewrite A1. split; [|tauto].
    intros Hb. split; [auto|]. right. lia.
Qed.

Lemma new_file_ok alc m C R : allocator_ok alc -> MInv m C R ->
  exists m' a, new_file alc m = (m', a) /\ a <> 0 /\ ~ alive m a /\ MInv m' (upn C a []) (upn R a 0) /\
    (forall b, alive m' b <-> alive m b \/ b = a).
Proof.
  intros Ha I. unfold new_file. set (a := alc (dom (m_files m))). destruct (Ha (dom (m_files m))) as [F1 F2]. fold a in F1, F2.
  apply not_dom_hget in F1. do 2 eexists. split; [reflexivity|]. split; [exact F2|].
  split; [intros (f & Hf); congruence|]. split.
  - constructor; unfold putf; cbn [m_files m_blocks].
    + rewrite hget_hput_ne by auto. apply (mi_null _ _ _ I).
    + intros b fb Hb. rewrite hget_hput in Hb. destruct (b =? a) eqn:Eb.
      * apply Nat.eqb_eq in Eb. subst b. inversion Hb; subst fb. rewrite !upn_eq. cbn. split; [auto|]. split; [auto|]. split; [apply frep_nil|constructor].
      * apply Nat.eqb_neq in Eb. rewrite !upn_ne by auto. now apply (mi_file _ _ _ I).
    + intros b b' fb fb' x Hb Hb' B1 B2. rewrite hget_hput in Hb, Hb'. destruct (b =? a).
      * inversion Hb; subst fb. destruct B1.
      * destruct (b' =? a); [inversion Hb'; subst fb'; destruct B2|]. eapply (mi_disj _ _ _ I); eauto.
    + intros b x Hx. destruct (mi_cover _ _ _ I b x Hx) as (a1 & f1 & H1 & Hb1). exists a1, f1. split; [|auto].
      rewrite hget_hput_ne; [auto|]. intros <-. congruence.
  - intros b. unfold alive, putf. cbn [m_files]. rewrite hget_hput. destruct (b =? a) eqn:Eb.
    + apply Nat.eqb_eq in Eb. split; eauto.
    + apply Nat.eqb_neq in Eb. split; [auto|]. intros [K|K]; [auto|contradiction].
Qed.

Lemma append_ok alb m C R a d : allocator_ok alb -> MInv m C R -> alive m a ->
  (N.of_nat (length (C a)) + N.of_nat (length d) < 2 ^ 64)%N ->
  exists m', append alb m a d = Ret m' /\ MInv m' (upn C a (C a ++ d)) R /\ (forall b, alive m' b <-> alive m b).
Proof.
  intros Halb I (f & Hf) Hlt. unfold append, getf. rewrite Hf. cbn [bind].
  destruct (mi_file _ _ _ I a f Hf) as (K1 & K2 & K3 & K4).
  destruct (append_loop_ok alb Halb (length d) (m_blocks m) (fs_refs f) (fs_blocks f) d (C a) K4 K3 (le_n _))
    as (bh' & new & E & R1 & R2 & R3 & R4).
  { lia. }
  assert (Ef : f = mk_fstate (fs_refs f) (fs_blocks f) (N.of_nat (length (C a)))) by (rewrite <- K2; destruct f; reflexivity).
  rewrite <- Ef in E. rewrite E. cbn [bind fst snd]. eexists. split; [reflexivity|]. split.
  - eapply MInv_ext; [eapply (MInv_put m C R a f _ bh' (C a ++ d) (R a) I Hf); cbn [fs_refs fs_size fs_blocks]; auto|auto|].
    + intros b Hb. rewrite in_app_iff in Hb. destruct Hb as [Hb|Hb]; auto.
    + intros b Hb1 Hb2. exfalso. apply Hb2. rewrite in_app_iff. auto.
    + intros b Hb. unfold upn. destruct (b =? a) eqn:Eb; [|reflexivity]. apply Nat.eqb_eq in Eb. now subst.
  - now apply alive_put with (f := f).
Qed.

Lemma size_ok m C R a : MInv m C R -> alive m a -> size m a = Ret (N.of_nat (length (C a))).
Proof.
  intros I (f & Hf). unfold size, getf. rewrite Hf. cbn [bind]. now destruct (mi_file _ _ _ I a f Hf) as (_ & -> & _).
Qed.
Lemma read_full m C R a off n : MInv m C R -> alive m a ->
  read m a off n = Ret (if (N.of_nat (length (C a)) <? off)%N then (SErr IOError msg_offset [], [])
                        else (SOk, firstn (N.to_nat n) (skipn (N.to_nat off) (C a)))).
Proof.
  intros I (f & Hf). destruct (mi_file _ _ _ I a f Hf) as (_ & K2 & K3 & _). eapply read_ok; eauto.
Qed.
