(** PosixConcWr.v -- what the programs of a WritableFile in PosixConc.v do with the
    bytes. *)
From Coq Require Import List Arith NArith ZArith Lia Bool Permutation.
From Verif Require Import Outcome Status MemEnv MemEnvMem PosixOs PosixWritable PosixWritableSpec PosixWritableProofs PosixRead PosixEnv PosixFs PosixEnvSpec PosixConc PosixConcSpec PosixConcSafe PosixConcWriteSpec.
Import ListNotations.

(** Of one call: the bytes accepted so far, whether the object's descriptor is
    open, whether a write() failed for good, what was accepted before the last
    fsync() that succeeded. *)
Record ghost := mk_ghost { g_acc : list N; g_open : bool; g_err : bool; g_safe : option (list N) }.
Definition failed (a : answer) : bool := (a_ret a <? 0)%Z && negb (a_errno a =? EINTR)%Z.
Definition gstep (fd : Z) (g : ghost) (c : syscall) (a : answer) : ghost :=
  match c with
  | CWrite _ _ => mk_ghost (g_acc g ++ took c a) (g_open g) (g_err g || failed a) (g_safe g)
  | CClose fd' => mk_ghost (g_acc g) (g_open g && negb (fd' =? fd)%Z) (g_err g) (g_safe g)
  | CFsync fd' => if (fd' =? fd)%Z && g_open g && (a_ret a =? 0)%Z then mk_ghost (g_acc g) (g_open g) (g_err g) (Some (g_acc g)) else g
  | _ => g
  end.
Definition is_write (c : syscall) : bool := match c with CWrite _ _ => true | _ => false end.
Definition legal (fd : Z) (g : ghost) (c : syscall) : Prop :=
  match c with
  | CWrite fd' _ => fd' = fd /\ (g_open g = true \/ fd = (-1)%Z)
  | CFsync fd' => fd' = fd -> g_open g = true \/ fd = (-1)%Z
  | COpen _ fl => fl = RdOnly
  | CRead _ _ | CLseek _ _ => False
  | _ => True
  end.
Definition answers_to (fd : Z) (g : ghost) (c : syscall) (a : answer) : Prop :=
  match c with
  | CWrite _ d => (a_ret a <= Z.of_nat (length d))%Z /\ (g_open g = false -> (a_ret a < 0)%Z)
  | COpen _ _ => g_open g = true -> a_ret a <> fd
  | CFsync fd' => a_ret a = 0%Z -> fd' = fd -> g_open g = true
  | _ => True
  end.

Fixpoint wr {A} (fd : Z) (J : list N -> Prop) (Q : A -> ghost -> Prop) (g : ghost) (p : prog A) : Prop :=
  match p with
  | PDone a => Q a g
  | PBad _ => True
  | PSys c k => legal fd g c /\ forall a, answers_to fd g c a -> (is_write c = true -> J (g_acc (gstep fd g c a))) /\ wr fd J Q (gstep fd g c a) (k a)
  | PSub l k => forall z, wr fd J Q g (k z)
  | PAdd l k => wr fd J Q g k
  end.
Lemma wr_impl {A} fd (J : list N -> Prop) (Q Q' : A -> ghost -> Prop) p : (forall a g, Q a g -> Q' a g) -> forall g, wr fd J Q g p -> wr fd J Q' g p.
Proof.
  intros HQ. induction p as [a|o|c k IH|l k IH|l k IH]; intros g; cbn [wr]; auto.
  intros (L & H). split; [exact L|]. intros a Ha. destruct (H a Ha) as (H1 & H2). auto.
Qed.
Lemma wr_bind {A C} fd (J : list N -> Prop) (Q : C -> ghost -> Prop) (f : A -> prog C) p : forall g,
  wr fd J (fun a g' => wr fd J Q g' (f a)) g p -> wr fd J Q g (pbind p f).
Proof.
  induction p as [a|o|c k IH|l k IH|l k IH]; intros g; cbn [wr pbind]; auto.
  intros (L & H). split; [exact L|]. intros a Ha. destruct (H a Ha) as (H1 & H2). auto.
Qed.

Section Wr.
  Variable dbg : bool.
  Variable B : nat.
  Variable strerror : Z -> str.
  Notation PosixError := (PosixError strerror).
  Notation posix_error := (posix_error strerror).

  (** WriteUnbuffered, when everything before the [rest] has been given and
      [J] holds of every beginning. *)
  Definition wrote (g : ghost) (data : list N) (st : status) (g' : ghost) : Prop :=
    g_open g' = g_open g /\ g_safe g' = g_safe g /\ (exists k, g_acc g' = g_acc g ++ firstn k data) /\
    (st = SOk -> g_acc g' = g_acc g ++ data) /\ (st <> SOk -> g_err g' = true) /\ (g_err g = true -> g_err g' = true).
  Lemma wrote_cons g data k a st g' : (k <= length data) -> wrote (mk_ghost (g_acc g ++ firstn k data) (g_open g) (g_err g || failed a) (g_safe g)) (skipn k data) st g' -> wrote g data st g'.
  Proof.
    intros L (W1 & W2 & (j & W3) & W4 & W5 & W6). cbn [g_acc g_open g_err g_safe] in *. split; [exact W1|]. split; [exact W2|]. split; [|split; [|split]].
    - exists (k + j). rewrite W3, <- app_assoc. f_equal. rewrite <- (firstn_skipn k data) at 3. rewrite firstn_app, firstn_length_le by exact L. rewrite firstn_firstn. f_equal; f_equal; lia.
    - intros E. rewrite (W4 E), <- app_assoc, firstn_skipn. reflexivity.
    - exact W5.
    - intros E. apply W6. rewrite E. reflexivity.
  Qed.
  Lemma wr_write fd (J : list N -> Prop) name : forall fuel data g,
    (g_open g = true \/ fd = (-1)%Z) -> (forall k, J (g_acc g ++ firstn k data)) ->
    wr fd J (wrote g data) g (pwrite_unbuffered strerror fuel fd name data).
  Proof.
    intros fuel. induction fuel as [|fuel IH]; intros data g Ho HJ; destruct data as [|b data0]; cbn [pwrite_unbuffered]; try exact Logic.I.
    - cbn [wr]. unfold wrote. rewrite !app_nil_r. repeat split; auto; try congruence. exists 0. now rewrite app_nil_r.
    - cbn [wr]. unfold wrote. rewrite !app_nil_r. repeat split; auto; try congruence. exists 0. now rewrite app_nil_r.
    - remember (b :: data0) as data eqn:Ed. clear b data0 Ed. unfold psys. cbn [pbind wr legal]. split; [split; [reflexivity|exact Ho]|]. intros a (Ha & Hc).
      cbn [gstep took g_acc]. split; [intros _; apply HJ|].
      destruct (Z.ltb_spec (a_ret a) 0) as [L|L].
      + replace (Z.to_nat (a_ret a)) with 0 by lia. cbn [firstn]. rewrite app_nil_r. destruct (a_errno a =? EINTR)%Z eqn:Ei.
        * assert (Ef : failed a = false) by (unfold failed; rewrite Ei; apply andb_false_r). rewrite Ef, orb_false_r. destruct g as [g1 g2 g3 g4]. cbn [g_acc g_open g_err g_safe] in *. apply IH; assumption.
        * assert (Ef : failed a = true) by (unfold failed; rewrite Ei; replace (a_ret a <? 0)%Z with true by (symmetry; apply Z.ltb_lt; exact L); reflexivity).
          cbn [wr]. unfold wrote. cbn [g_acc g_open g_err g_safe]. rewrite Ef, orb_true_r. repeat split; auto.
          -- exists 0. now rewrite app_nil_r.
          -- intros E. contradiction (posix_error _ _ E).
      + destruct (Z.ltb_spec (Z.of_nat (length data)) (a_ret a)); [lia|].
        eapply wr_impl; [|apply IH].
        * intros st g'. apply wrote_cons. lia.
        * exact Ho.
        * cbn [g_acc]. intros k. rewrite <- app_assoc. specialize (HJ (Z.to_nat (a_ret a) + k)).
          replace (firstn (Z.to_nat (a_ret a)) data ++ firstn k (skipn (Z.to_nat (a_ret a)) data)) with (firstn (Z.to_nat (a_ret a) + k) data); [exact HJ|].
          rewrite <- (firstn_skipn (Z.to_nat (a_ret a)) data) at 1. rewrite firstn_app, firstn_length_le by lia. rewrite firstn_firstn. f_equal; f_equal; lia.
  Qed.
  Lemma wr_flush fd (J : list N -> Prop) f b fuel g : brep B f b -> f_fd f = fd -> (g_open g = true \/ fd = (-1)%Z) -> (forall k, J (g_acc g ++ firstn k b)) ->
    wr fd J (fun r g' => fst r = set_buf f (f_buf f) 0 /\ wrote g b (snd r) g') g (pflush_buffer strerror fuel f).
  Proof.
    intros Rb Ef Ho HJ. unfold pflush_buffer. rewrite (read_buf B f b Rb). cbn [plift pbind]. apply wr_bind.
    rewrite Ef. eapply wr_impl; [|apply wr_write; assumption]. intros st g' W. cbn [wr fst snd]. auto.
  Qed.

  (** What a call on the object leaves.  [T]: everything given to the object with
      this call; [b]: the buffer before. *)
  Definition left_over (fl : bool) (g : ghost) (T : list N) (f' : wfile) (st : status) (g' : ghost) : Prop :=
    exists b', brep B f' b' /\ subseq (g_acc g' ++ b') (g_acc g ++ T) /\
      (st = SOk -> g_acc g' ++ b' = g_acc g ++ T /\ (fl = true -> b' = [])).
  Lemma sub_first {A} (l d r : list A) k : subseq (l ++ firstn k d) (l ++ d ++ r).
  Proof. apply subseq_app; [apply subseq_refl|]. rewrite <- (app_nil_r (firstn k d)). apply subseq_app; [apply subseq_firstn|apply subseq_nil]. Qed.
  Lemma firstn_app_le {A} k (l r : list A) : k <= length l -> firstn k (l ++ r) = firstn k l.
  Proof. intros H. rewrite firstn_app. replace (k - length l) with 0 by lia. cbn [firstn]. apply app_nil_r. Qed.
  Lemma J_part (J : list N -> Prop) (l d r : list N) : (forall k, J (l ++ firstn k (d ++ r))) -> forall k, J (l ++ firstn k d).
  Proof.
    intros H k. destruct (le_lt_dec k (length d)).
    - rewrite <- (firstn_app_le k d r) by assumption. apply H.
    - rewrite firstn_all2 by lia. specialize (H (length d)). rewrite firstn_app, Nat.sub_diag, firstn_all, app_nil_r in H. exact H.
  Qed.
  Lemma J_rest (J : list N -> Prop) (l d r : list N) : (forall k, J (l ++ firstn k (d ++ r))) -> forall k, J ((l ++ d) ++ firstn k r).
  Proof. intros H k. specialize (H (length d + k)). rewrite firstn_app_2 in H. rewrite <- app_assoc. exact H. Qed.

  Lemma wr_append fd (J : list N -> Prop) f b d fuel g : brep B f b -> f_fd f = fd -> (g_open g = true \/ fd = (-1)%Z) -> (forall k, J (g_acc g ++ firstn k (b ++ d))) ->
    wr fd J (fun r g' => f_fd (fst r) = fd /\ g_open g' = g_open g /\ g_safe g' = g_safe g /\ left_over false g (b ++ d) (fst r) (snd r) g') g (pappend B strerror fuel f d).
  Proof.
    intros Rb Ef Ho HJ. pose proof Rb as (H1 & H2 & H3 & H4). unfold pappend. rewrite H2.
    replace (B <? length b) with false by (symmetry; apply Nat.ltb_ge; lia).
    set (k := Nat.min (length d) (B - length b)) in *.
    assert (Lk : length (firstn k d) = k) by (apply firstn_length_le; unfold k; lia).
    destruct (bput_bytes (f_buf f) (length b) (firstn k d)) as [buf| | |] eqn:Eb;
      [|rewrite bput_bytes_mid in Eb by (rewrite Lk, H1; unfold k; lia); discriminate..].
    cbn [plift pbind]. assert (R1 := put_brep B f b buf (firstn k d) Rb). rewrite Lk in R1.
    specialize (R1 ltac:(unfold k; lia) Eb). set (f1 := set_buf f buf (length b + k)) in *.
    assert (Ed : firstn k d ++ skipn k d = d) by apply firstn_skipn.
    remember (skipn k d) as rest eqn:Es. destruct rest as [|x rest].
    - cbn [wr fst snd]. split; [exact Ef|]. split; [reflexivity|]. split; [reflexivity|]. exists (b ++ firstn k d). rewrite app_nil_r in Ed. rewrite Ed in *. split; [exact R1|]. split; [apply subseq_refl|].
      split; [reflexivity|discriminate].
    - remember (x :: rest) as wd eqn:Ew. clear x rest Ew.
      assert (HJ1 : forall j, J (g_acc g ++ firstn j (b ++ firstn k d))).
      { apply J_part with (r := wd). rewrite <- app_assoc, Ed. exact HJ. }
      assert (EdT : b ++ d = (b ++ firstn k d) ++ wd) by (rewrite <- app_assoc, Ed; reflexivity).
      apply wr_bind. eapply wr_impl; [|exact (wr_flush fd J f1 (b ++ firstn k d) fuel g R1 Ef Ho HJ1)].
      intros [f2 st] g1 (E & W1 & W2 & (j & W3) & W4 & W5 & W6). cbn [fst snd] in *. subst f2. assert (Lb : length buf = B) by exact (proj1 R1).
      assert (E0 := brep_empty B f1 buf Lb). destruct st as [|kd m1 m2].
      + specialize (W4 eq_refl). destruct (Nat.ltb_spec (length wd) B) as [Hlt|Hge].
        * cbn [set_buf f_buf f1]. destruct (bput_bytes buf 0 wd) as [buf2| | |] eqn:Eb2; [|rewrite bput_bytes_mid in Eb2 by lia; discriminate..].
          cbn [plift pbind wr fst snd]. assert (R2 := put_brep B (set_buf f1 buf 0) [] buf2 wd E0 ltac:(cbn [length]; lia) Eb2).
          split; [exact Ef|]. split; [exact W1|]. split; [exact W2|]. exists wd. split; [exact R2|]. rewrite W4, <- app_assoc, EdT. split; [apply subseq_refl|]. split; [reflexivity|discriminate].
        * apply wr_bind. change (f_fd (set_buf f1 (f_buf f1) 0)) with (f_fd f). rewrite Ef. eapply wr_impl; [|apply wr_write].
          -- intros st g2 (X1 & X2 & (j2 & X3) & X4 & X5 & X6). cbn [wr fst snd]. split; [exact Ef|]. split; [congruence|]. split; [congruence|]. exists []. rewrite app_nil_r. split; [exact E0|]. split.
             ++ rewrite X3, W4, EdT, <- app_assoc. apply subseq_app; [apply subseq_refl|]. apply subseq_app; [apply subseq_refl|apply subseq_firstn].
             ++ intros E. rewrite (X4 E), W4, EdT, <- app_assoc. split; [reflexivity|discriminate].
          -- rewrite W1. exact Ho.
          -- rewrite W4. apply J_rest. rewrite <- EdT. exact HJ.
      + cbn [wr fst snd]. split; [exact Ef|]. split; [exact W1|]. split; [exact W2|]. exists []. rewrite app_nil_r. split; [exact E0|]. split; [|discriminate].
        rewrite W3, EdT. apply sub_first.
  Qed.
  Lemma wr_flush_all fd (J : list N -> Prop) f b fuel g : brep B f b -> f_fd f = fd -> (g_open g = true \/ fd = (-1)%Z) -> (forall k, J (g_acc g ++ firstn k b)) ->
    wr fd J (fun r g' => f_fd (fst r) = fd /\ g_open g' = g_open g /\ g_safe g' = g_safe g /\ (snd r <> SOk -> g_err g' = true) /\ (g_err g = true -> g_err g' = true) /\ fst r = set_buf f (f_buf f) 0 /\
      left_over true g b (fst r) (snd r) g') g (pflush_buffer strerror fuel f).
  Proof.
    intros Rb Ef Ho HJ. eapply wr_impl; [|exact (wr_flush fd J f b fuel g Rb Ef Ho HJ)]. intros [f2 st] g1 (E & W1 & W2 & (j & W3) & W4 & W5 & W6). cbn [fst snd] in *. subst f2.
    split; [exact Ef|]. split; [exact W1|]. split; [exact W2|]. split; [exact W5|]. split; [exact W6|]. split; [reflexivity|]. exists []. rewrite app_nil_r. split; [exact (brep_empty B f (f_buf f) (proj1 Rb))|]. split.
    - rewrite W3. apply subseq_app; [apply subseq_refl|apply subseq_firstn].
    - intros E. split; [exact (W4 E)|reflexivity].
  Qed.
  Lemma wr_close fd (J : list N -> Prop) f b fuel g : brep B f b -> f_fd f = fd -> (g_open g = true \/ fd = (-1)%Z) -> (forall k, J (g_acc g ++ firstn k b)) ->
    wr fd J (fun r g' => f_fd (fst r) = (-1)%Z /\ g_open g' = false /\ (g_err g' = false -> g_acc g' = g_acc g ++ b) /\ left_over true g b (fst r) (snd r) g') g (pclose strerror fuel f).
  Proof.
    intros Rb Ef Ho HJ. unfold pclose. apply wr_bind. eapply wr_impl; [|exact (wr_flush_all fd J f b fuel g Rb Ef Ho HJ)].
    intros [f2 st] g1 (E1 & E2 & E3 & Er1 & Er2 & Es & (b' & L1 & L2 & L3)). cbn [fst snd] in *. unfold psys. cbn [pbind wr legal is_write]. split; [exact Logic.I|]. intros a _. split; [discriminate|]. cbn [gstep g_acc].
    assert (Bn : b' = []). { subst f2. destruct L1 as (_ & L1 & _). cbn [set_buf f_pos] in L1. destruct b'; [reflexivity|discriminate]. } subst b'.
    split; [reflexivity|]. split; [cbn [g_open]; rewrite E1, Z.eqb_refl; apply andb_false_r|]. split.
    - cbn [g_err g_acc]. intros Ee. destruct st as [|kd m1 m2]; [rewrite <- (proj1 (L3 eq_refl)), app_nil_r; reflexivity|]. rewrite Er1 in Ee by discriminate. discriminate.
    - exists []. cbn [g_acc fst snd]. split; [exact L1|]. split; [exact L2|]. intros E. split; [|reflexivity]. destruct st as [|kd m1 m2]; [apply (L3 eq_refl)|discriminate].
  Qed.
  Lemma wr_sync_dir fd (J : list N -> Prop) f g : (g_open g = true \/ fd = (-1)%Z) ->
    wr fd J (fun st g' => g' = g) g (psync_dir strerror f).
  Proof.
    intros Ho. unfold psync_dir. destruct (f_manifest f); cbn [negb]; [|reflexivity]. unfold psys at 1. cbn [pbind wr legal is_write]. split; [reflexivity|]. intros a Ha. split; [discriminate|]. cbn [gstep].
    destruct (Z.ltb_spec (a_ret a) 0) as [L|L]; [reflexivity|].
    assert (N : a_ret a <> fd) by (destruct Ho as [Ho|Ho]; [apply Ha; exact Ho|lia]).
    assert (Nb : (a_ret a =? fd)%Z = false) by (apply Z.eqb_neq; exact N).
    unfold psync_fd, psys. cbn [pbind wr legal is_write]. split; [intros X; contradiction (N X)|]. intros a1 _. split; [discriminate|]. cbn [gstep]. rewrite Nb. cbn [andb]. split; [exact Logic.I|]. intros a2 _. split; [discriminate|].
    cbn [gstep]. try rewrite Nb. cbn [negb]. try rewrite andb_true_r. destruct g; reflexivity.
  Qed.
  Lemma wr_sync fd (J : list N -> Prop) f b fuel g : brep B f b -> f_fd f = fd -> (g_open g = true \/ fd = (-1)%Z) -> (forall k, J (g_acc g ++ firstn k b)) ->
    wr fd J (fun r g' => f_fd (fst r) = fd /\ g_open g' = g_open g /\ (g_safe g' = g_safe g \/ g_safe g' = Some (g_acc g')) /\ (snd r = SOk -> g_safe g' = Some (g_acc g')) /\ left_over true g b (fst r) (snd r) g') g (psync strerror fuel f).
  Proof.
    intros Rb Ef Ho HJ. unfold psync. apply wr_bind. eapply wr_impl; [|exact (wr_sync_dir fd J f g Ho)]. intros st g1 ->. destruct st as [|kd m1 m2].
    - apply wr_bind. eapply wr_impl; [|exact (wr_flush_all fd J f b fuel g Rb Ef Ho HJ)]. intros [f2 st] g1 (E1 & E2 & E3 & Er1 & Er2 & Es & L). cbn [fst snd] in *. destruct st as [|kd m1 m2].
      + unfold psync_fd, psys. cbn [pbind wr legal is_write fst snd]. split; [intros _; rewrite E2; exact Ho|]. intros a Ha. split; [discriminate|]. cbn [gstep]. rewrite E1, Z.eqb_refl. cbn [andb].
        destruct (Z.eqb_spec (a_ret a) 0) as [E|E].
        * assert (Eo : g_open g1 = true) by (apply Ha; [exact E|exact E1]). rewrite Eo. cbn [andb g_open g_safe g_acc]. split; [reflexivity|]. split; [congruence|]. split; [auto|]. split; [auto|].
          destruct L as (b' & L1 & L2 & L3). exists b'. cbn [g_acc]. auto.
        * rewrite andb_false_r. split; [reflexivity|]. split; [exact E2|]. split; [auto|]. split; [intros X; contradiction (posix_error _ _ X)|].
          destruct L as (b' & L1 & L2 & L3). exists b'. split; [exact L1|]. split; [exact L2|]. intros X. contradiction (posix_error _ _ X).
      + cbn [wr fst snd]. split; [exact E1|]. split; [exact E2|]. split; [auto|]. split; [discriminate|]. exact L.
    - cbn [wr fst snd]. split; [exact Ef|]. split; [reflexivity|]. split; [auto|]. split; [discriminate|]. exists b. split; [exact Rb|]. split; [apply subseq_refl|discriminate].
  Qed.
  Lemma wr_destroy fd (J : list N -> Prop) f b fuel g : brep B f b -> f_fd f = fd -> (g_open g = true \/ fd = (-1)%Z) -> (forall k, J (g_acc g ++ firstn k b)) ->
    wr fd J (fun r g' => (0 <= fd)%Z -> g_err g' = false -> g_acc g' = g_acc g ++ b) g (pdestroy strerror fuel f).
  Proof.
    intros Rb Ef Ho HJ. unfold pdestroy. rewrite Ef. destruct (Z.leb_spec 0 fd) as [L|L].
    - apply wr_bind. eapply wr_impl; [|exact (wr_close fd J f b fuel g Rb Ef Ho HJ)]. intros r g' (_ & _ & X & _). cbn [wr]. auto.
    - cbn [wr]. lia.
  Qed.
  Lemma wr_all fd (J : list N -> Prop) fuel x f b g :
    brep B f b -> f_fd f = fd -> (g_open g = true \/ fd = (-1)%Z) ->
    let d := match x with PWAppend _ d => d | _ => [] end in
    (forall k, J (g_acc g ++ firstn k (b ++ d))) -> fits x (ObW f) -> shared x = false ->
    wr fd J (fun r g' =>
      match x with
      | PDelete _ => fst r = None /\ ((0 <= fd)%Z -> g_err g' = false -> g_acc g' = g_acc g ++ b)
      | _ => exists f' st, r = (Some (ObW f'), QStat st) /\ f_fd f' = (match x with PWClose _ => -1 | _ => fd end)%Z /\
               (syncing x = true -> st = SOk -> g_safe g' = Some (g_acc g')) /\ left_over (flushing x) g (b ++ d) f' st g'
      end) g (prog_of dbg B strerror fuel x (Some (ObW f))).
  Proof.
    intros Rb Ef Ho d HJ Fi Sx. destruct x; try contradiction Fi; subst d; cbn [prog_of]; unfold pw; apply wr_bind; try (assert (HJ' := HJ); rewrite app_nil_r in HJ').
    - eapply wr_impl; [|exact (wr_append fd J f b d0 fuel g Rb Ef Ho HJ)]. intros [f' st] g' (X1 & X2 & X3 & X4). cbn [fst snd] in *. exists f', st. cbn [syncing flushing]. split; [reflexivity|]. split; [exact X1|]. split; [discriminate|exact X4].
    - eapply wr_impl; [|exact (wr_close fd J f b fuel g Rb Ef Ho HJ')]. intros [f' st] g' (X1 & X2 & X3 & X4). cbn [fst snd] in *. exists f', st. cbn [syncing flushing]. rewrite app_nil_r. split; [reflexivity|]. split; [exact X1|]. split; [discriminate|exact X4].
    - eapply wr_impl; [|exact (wr_flush_all fd J f b fuel g Rb Ef Ho HJ')]. intros [f' st] g' (X1 & X2 & X3 & _ & _ & _ & X4). cbn [fst snd] in *. exists f', st. cbn [syncing flushing]. rewrite app_nil_r. split; [reflexivity|]. split; [exact X1|]. split; [discriminate|exact X4].
    - eapply wr_impl; [|exact (wr_sync fd J f b fuel g Rb Ef Ho HJ')]. intros [f' st] g' (X1 & X2 & X3 & X4 & X5). cbn [fst snd] in *. exists f', st. cbn [syncing flushing]. rewrite app_nil_r. split; [reflexivity|]. split; [exact X1|]. split; [auto|exact X5].
    - eapply wr_impl; [|exact (wr_destroy fd J f b fuel g Rb Ef Ho HJ')]. intros [] g' X. cbn [fst snd wr]. split; [reflexivity|exact X].
  Qed.
End Wr.
