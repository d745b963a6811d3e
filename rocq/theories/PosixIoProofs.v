(** PosixIoProofs.v -- the helpers of env.cc on the POSIX environment. *)
From Coq Require Import List Arith NArith ZArith Lia Bool.
From Verif Require Import Outcome Status MemEnv PosixOs PosixWritable PosixWritableSpec PosixWritableProofs PosixRead PosixEnv PosixFs PosixEnvSpec PosixFsProofs PosixEnvProofs PosixEnvSteps PosixEnvAcct PosixEnvResults PosixEnvFacts PosixEnvSafe EnvUtil PosixIoSpec.
Import ListNotations.
Local Open Scope outcome_scope.

Section Hist.
  Variable v0 : view.
  Hypothesis OLD : forall p i, (v_name v0) p = Some i -> i < (v_next v0).
  Notation names := (names (v_next v0) (v_name v0)).
  Notation bound := (bound (v_next v0) (v_name v0)).
  Notation opened := (opened (v_next v0) (v_name v0)).
  Notation writer := (writer (v_next v0) (v_name v0)).
  Notation writes := (writes (v_next v0) (v_name v0)).
  Notation truncates := (truncates (v_next v0) (v_name v0)).
  Notation contents := (contents (v_next v0) (v_name v0) (v_data v0)).
  Notation flushed := (flushed (v_next v0) (v_name v0) (v_data v0)).
  Notation synced_bytes := (synced_bytes (v_next v0) (v_name v0) (v_data v0)).
  Notation clean := (clean (v_next v0) (v_name v0) (v_data v0)).

  Lemma bound_lt H : forall f i, bound H f = Some i -> i < fst (names H).
  Proof.
    unfold PosixEnvSpec.bound. induction H as [|ev H IH]; intros f i; cbn [PosixEnvSpec.names]; [apply OLD|].
    destruct (names H) as [k nm]. cbn [fst snd] in *. destruct (negb (done ev)); [apply IH|].
    assert (U : forall g x j, (forall i, x = Some i -> i < j) -> k <= j -> upd eqs nm g x f = Some i -> i < j).
    { intros g x j Hx Hk. unfold upd. destruct (eqs f g); [auto|]. intros E. apply IH in E. lia. }
    destruct (pe_call ev); try apply IH; cbn [fst snd].
    - destruct (nm f0) eqn:E; cbn [fst snd]; [apply IH|]. apply U; [intros j Q; injection Q as <-; lia|lia].
    - destruct (nm f0) eqn:E; cbn [fst snd]; [apply IH|]. apply U; [intros j Q; injection Q as <-; lia|lia].
    - apply U; [discriminate|lia].
    - destruct (nm a) as [j|] eqn:Ea; cbn [fst snd]; [|apply IH]. destruct (match nm b with Some j0 => j0 =? j | None => false end); cbn [fst snd]; [apply IH|].
      unfold upd. destruct (eqs f a); [discriminate|]. destruct (eqs f b); [intros Q; injection Q as <-; eauto|apply IH].
    - destruct (nm d) eqn:E; cbn [fst snd]; [apply IH|]. apply U; [intros j Q; injection Q as <-; lia|lia].
    - apply U; [discriminate|lia].
  Qed.
  Lemma opened_num H : forall h k i f, opened H h = Some (k, i, f) -> i < fst (names H).
  Proof.
    induction H as [|ev H IH]; intros h k i f; cbn [PosixEnvSpec.opened]; [discriminate|]. pose proof (names_mono v0 ev H) as M.
    destruct (h =? length H).
    - destruct (done ev); [|discriminate]. destruct (opens (pe_call ev)) as [[k' f']|]; [|discriminate]. destruct (bound (ev :: H) f') as [j|] eqn:E; [|discriminate].
      intros Q. injection Q as <- <- <-. eapply bound_lt. exact E.
    - intros Q. apply IH in Q. lia.
  Qed.
  Lemma fresh H : forall i, fst (names H) <= i -> clean H i /\ writer H i = None.
  Proof.
    induction H as [|ev H IH]; intros i Hi; [split; [exact Logic.I|reflexivity]|]. pose proof (names_mono v0 ev H) as M. destruct (IH i ltac:(lia)) as (C & W).
    assert (Nb : forall f, bound (ev :: H) f <> Some i) by (intros f E; apply bound_lt in E; lia).
    assert (Nw : forall h, writes H h i = false).
    { intros h. unfold PosixEnvSpec.writes. destruct (opened H h) as [[[k j] f]|] eqn:E; [|reflexivity]. apply opened_num in E. destruct k; auto. apply Nat.eqb_neq. lia. }
    assert (Nf : forall f, is_file (bound (ev :: H) f) i = false).
    { intros f. destruct (is_file (bound (ev :: H) f) i) eqn:E; [|reflexivity]. apply is_file_iff in E. now apply Nb in E. }
    cbn [PosixEnvSpec.clean PosixEnvSpec.writer]. split.
    - split; [exact C|]. destruct (pe_call ev); auto; try (intros E; rewrite Nw in E; discriminate); try (intros _ E; now apply Nb in E).
      intros E. congruence.
    - destruct (pe_call ev); auto; try (rewrite Nf, andb_false_r; exact W); rewrite W; reflexivity.
  Qed.

  (** The file [f], numbered [i], is being written by [h], and has [c]. *)
  Record writing (H : history) (h i : nat) (f : str) (c : list N) : Prop := {
    wr_open : opened H h = Some (KWrite, i, f);
    wr_live : deleted H h = false;
    wr_clean : clean H i;
    wr_writer : writer H i = Some h;
    wr_has : contents H i = c }.
  Record written (H : history) (h i : nat) (f : str) (c : list N) : Prop := {
    wn_open : opened H h = Some (KWrite, i, f);
    wn_clean : clean H i;
    wn_writer : writer H i = None;
    wn_has : contents H i = c;
    wn_flushed : flushed H i = length c }.
  (** Nothing else changed. *)
  Definition else_same (f : str) (i : nat) (H H' : history) : Prop :=
    (forall g, g <> f -> bound H' g = bound H g) /\ (forall j, j <> i -> contents H' j = contents H j /\ flushed H' j = flushed H j /\ synced_bytes H' j = synced_bytes H j /\ (clean H' j <-> clean H j)).
  Lemma else_trans f i H1 H2 H3 : else_same f i H1 H2 -> else_same f i H2 H3 -> else_same f i H1 H3.
  Proof.
    intros (A1 & A2) (B1 & B2). split; [intros g Hg; rewrite B1, A1 by exact Hg; reflexivity|]. intros j Hj. destruct (A2 j Hj) as (A3 & A4 & A5 & A6), (B2 j Hj) as (B3 & B4 & B5 & B6).
    rewrite B3, A3, B4, A4, B5, A5. repeat split; tauto.
  Qed.

  Lemma start_writing H f i : (forall j, bound H f = Some j -> clean H j /\ writer H j = None) ->
    let ev := mk_pev (PNewWrite f) (RStat SOk) in
    bound (ev :: H) f = Some i -> deleted H (length H) = false ->
    writing (ev :: H) (length H) i f [] /\ else_same f i H (ev :: H).
  Proof.
    intros C ev Bi Dl.
    assert (Ci : clean H i /\ writer H i = None).
    { unfold PosixEnvSpec.bound in Bi. cbn [PosixEnvSpec.names ev done pe_res pe_call negb] in Bi. pose proof (fresh H) as Fr. unfold PosixEnvSpec.bound in C. destruct (names H) as [k nm]. cbn [fst snd] in *.
      destruct (nm f) as [j|] eqn:Ef; cbn [snd] in Bi; [apply C; congruence|]. apply Fr. unfold upd in Bi. destruct (eqs f f); [|congruence]. injection Bi as <-. lia. }
    destruct Ci as (Ci & Wi).
    assert (Op : opened (ev :: H) (length H) = Some (KWrite, i, f)) by (cbn [PosixEnvSpec.opened]; rewrite Nat.eqb_refl; cbn [ev done pe_res pe_call opens]; fold ev; rewrite Bi; reflexivity).
    assert (Tr : forall j, truncates ev H j = (i =? j)) by (intros j; unfold PosixEnvSpec.truncates; cbn [ev pe_call done pe_res]; fold ev; rewrite Bi; reflexivity).
    split.
    - constructor.
      + exact Op.
      + cbn [deleted ev pe_call deletes orb]. exact Dl.
      + cbn [PosixEnvSpec.clean]. split; [exact Ci|]. cbn [ev pe_call]. auto.
      + cbn [PosixEnvSpec.writer ev pe_call done pe_res andb]. fold ev. rewrite Bi. cbn [is_file]. rewrite Nat.eqb_refl. reflexivity.
      + cbn [PosixEnvSpec.contents]. rewrite Tr, Nat.eqb_refl. reflexivity.
    - split.
      + intros g Hg. unfold PosixEnvSpec.bound. cbn [PosixEnvSpec.names ev done pe_res pe_call negb]. destruct (names H) as [k nm]. destruct (nm f); [reflexivity|]. cbn [snd]. unfold upd. destruct (eqs g f); [contradiction|reflexivity].
      + intros j Hj. assert (Tj : truncates ev H j = false) by (rewrite Tr; apply Nat.eqb_neq; congruence). cbn [PosixEnvSpec.contents PosixEnvSpec.flushed PosixEnvSpec.synced_bytes PosixEnvSpec.clean]. rewrite Tj. cbn [ev pe_call]. fold ev.
        split; [reflexivity|]. split; [reflexivity|]. split; [reflexivity|]. split; [tauto|]. intros Cj. split; [exact Cj|]. intros _ E. congruence.
  Qed.
  Lemma step_bound H x r : (match x with PWAppend _ _ | PWSync _ | PWClose _ | PDelete _ | PSRead _ _ | PNewSeq _ => True | _ => False end) -> forall g, bound (mk_pev x r :: H) g = bound H g.
  Proof.
    intros Hx g. unfold PosixEnvSpec.bound. cbn [PosixEnvSpec.names]. destruct (names H) as [k nm]. destruct (negb _); [reflexivity|]. destruct x; try contradiction; reflexivity.
  Qed.
  Lemma writes_eq H h i f j : opened H h = Some (KWrite, i, f) -> writes H h j = (i =? j).
  Proof. intros E. unfold PosixEnvSpec.writes. rewrite E. reflexivity. Qed.
  Lemma append_writing H h i f c d : writing H h i f c -> let ev := mk_pev (PWAppend h d) (RStat SOk) in writing (ev :: H) h i f (c ++ d) /\ else_same f i H (ev :: H).
  Proof.
    intros [W1 W2 W3 W4 W5] ev. pose proof (writes_eq H h i f) as We. split.
    - constructor; [apply opened_keep; exact W1|cbn; exact W2| |cbn [PosixEnvSpec.writer ev pe_call]; exact W4|].
      + cbn [PosixEnvSpec.clean]. split; [exact W3|]. cbn [ev pe_call]. auto.
      + cbn [PosixEnvSpec.contents]. unfold PosixEnvSpec.truncates. cbn [ev pe_call done pe_res andb]. rewrite (We i W1), Nat.eqb_refl, W5. reflexivity.
    - split; [intros g _; apply step_bound; exact Logic.I|]. intros j Hj. cbn [PosixEnvSpec.contents PosixEnvSpec.flushed PosixEnvSpec.synced_bytes PosixEnvSpec.clean]. unfold PosixEnvSpec.truncates. cbn [ev pe_call done pe_res andb].
      rewrite (We j W1). replace (i =? j) with false by (symmetry; apply Nat.eqb_neq; congruence). repeat split; try tauto. discriminate.
  Qed.
  Lemma sync_writing H h i f c : writing H h i f c -> let ev := mk_pev (PWSync h) (RStat SOk) in writing (ev :: H) h i f c /\ synced_bytes (ev :: H) i = c /\ else_same f i H (ev :: H).
  Proof.
    intros [W1 W2 W3 W4 W5] ev. pose proof (writes_eq H h i f) as We. split; [|split].
    - constructor; [apply opened_keep; exact W1|cbn; exact W2| |cbn [PosixEnvSpec.writer ev pe_call]; exact W4|].
      + cbn [PosixEnvSpec.clean]. split; [exact W3|]. cbn [ev pe_call]. auto.
      + cbn [PosixEnvSpec.contents]. unfold PosixEnvSpec.truncates. cbn [ev pe_call]. exact W5.
    - cbn [PosixEnvSpec.synced_bytes]. unfold PosixEnvSpec.truncates. cbn [ev pe_call done pe_res andb]. rewrite (We i W1), Nat.eqb_refl. exact W5.
    - split; [intros g _; apply step_bound; exact Logic.I|]. intros j Hj. cbn [PosixEnvSpec.contents PosixEnvSpec.flushed PosixEnvSpec.synced_bytes PosixEnvSpec.clean]. unfold PosixEnvSpec.truncates. cbn [ev pe_call done pe_res andb].
      rewrite (We j W1). replace (i =? j) with false by (symmetry; apply Nat.eqb_neq; congruence). repeat split; try tauto. discriminate.
  Qed.
  Lemma close_writing H h i f c : writing H h i f c -> let ev := mk_pev (PWClose h) (RStat SOk) in
    written (ev :: H) h i f c /\ deleted (ev :: H) h = false /\ synced_bytes (ev :: H) i = synced_bytes H i /\ else_same f i H (ev :: H).
  Proof.
    intros [W1 W2 W3 W4 W5] ev. pose proof (writes_eq H h i f) as We. split; [|split; [exact W2|split]].
    - constructor; [apply opened_keep; exact W1| | | |].
      + cbn [PosixEnvSpec.clean]. split; [exact W3|]. cbn [ev pe_call]. auto.
      + cbn [PosixEnvSpec.writer ev pe_call]. rewrite W4. cbn [is_file]. rewrite Nat.eqb_refl. reflexivity.
      + cbn [PosixEnvSpec.contents]. unfold PosixEnvSpec.truncates. cbn [ev pe_call]. exact W5.
      + cbn [PosixEnvSpec.flushed]. unfold PosixEnvSpec.truncates. cbn [ev pe_call done pe_res andb]. rewrite (We i W1), Nat.eqb_refl, W5. reflexivity.
    - cbn [PosixEnvSpec.synced_bytes]. unfold PosixEnvSpec.truncates. cbn [ev pe_call]. reflexivity.
    - split; [intros g _; apply step_bound; exact Logic.I|]. intros j Hj. cbn [PosixEnvSpec.contents PosixEnvSpec.flushed PosixEnvSpec.synced_bytes PosixEnvSpec.clean]. unfold PosixEnvSpec.truncates. cbn [ev pe_call done pe_res andb].
      rewrite (We j W1). replace (i =? j) with false by (symmetry; apply Nat.eqb_neq; congruence). repeat split; try tauto. discriminate.
  Qed.
  Lemma delete_written H h i f c r : written H h i f c -> let ev := mk_pev (PDelete h) r in
    written (ev :: H) h i f c /\ synced_bytes (ev :: H) i = synced_bytes H i /\ else_same f i H (ev :: H).
  Proof.
    intros [W1 W3 W4 W5 W6] ev. pose proof (writes_eq H h i f) as We. split; [|split].
    - constructor; [apply opened_keep; exact W1| | | |].
      + cbn [PosixEnvSpec.clean]. split; [exact W3|]. cbn [ev pe_call]. congruence.
      + cbn [PosixEnvSpec.writer ev pe_call]. rewrite W4. reflexivity.
      + cbn [PosixEnvSpec.contents]. unfold PosixEnvSpec.truncates. cbn [ev pe_call]. exact W5.
      + cbn [PosixEnvSpec.flushed]. unfold PosixEnvSpec.truncates. cbn [ev pe_call]. exact W6.
    - cbn [PosixEnvSpec.synced_bytes]. unfold PosixEnvSpec.truncates. cbn [ev pe_call]. reflexivity.
    - split; [intros g _; apply step_bound; exact Logic.I|]. intros j Hj. cbn [PosixEnvSpec.contents PosixEnvSpec.flushed PosixEnvSpec.synced_bytes PosixEnvSpec.clean]. unfold PosixEnvSpec.truncates. cbn [ev pe_call].
      repeat split; try tauto. intros E. exfalso. apply writer_opened in E. rewrite (We j W1) in E. apply Nat.eqb_eq in E. congruence.
  Qed.
End Hist.

Section Hist2.
  Variable v0 : view.
  Notation names := (names (v_next v0) (v_name v0)).
  Notation bound := (bound (v_next v0) (v_name v0)).
  Notation opened := (opened (v_next v0) (v_name v0)).
  Notation writer := (writer (v_next v0) (v_name v0)).
  Notation writes := (writes (v_next v0) (v_name v0)).
  Notation truncates := (truncates (v_next v0) (v_name v0)).
  Notation contents := (contents (v_next v0) (v_name v0) (v_data v0)).
  Notation flushed := (flushed (v_next v0) (v_name v0) (v_data v0)).
  Notation synced_bytes := (synced_bytes (v_next v0) (v_name v0) (v_data v0)).
  Notation clean := (clean (v_next v0) (v_name v0) (v_data v0)).

  (** Calls on the writer of one file leave all others alone, whatever they return. *)
  Lemma writer_aside H x r h i f : opened H h = Some (KWrite, i, f) ->
    match x with PWAppend h' _ | PWSync h' | PWClose h' | PDelete h' => h' = h | _ => False end -> else_same v0 f i H (mk_pev x r :: H).
  Proof.
    intros Op Hx. pose proof (fun j => writes_eq v0 H h i f j Op) as We. split.
    - intros g _. apply step_bound. destruct x; auto.
    - intros j Hj. assert (Ej : (i =? j) = false) by (apply Nat.eqb_neq; congruence). cbn [PosixEnvSpec.contents PosixEnvSpec.flushed PosixEnvSpec.synced_bytes PosixEnvSpec.clean]. unfold PosixEnvSpec.truncates. cbn [pe_call].
      destruct x; try contradiction; subst h0; rewrite ?We, ?Ej, ?andb_false_r; repeat split; try tauto; try discriminate.
      intros E. exfalso. apply writer_opened in E. rewrite We in E. congruence.
  Qed.
  Lemma remove_aside H f i r : else_same v0 f i H (mk_pev (PRemove f) r :: H) /\ (r = RStat SOk -> bound (mk_pev (PRemove f) r :: H) f = None).
  Proof.
    split; [split|].
    - intros g Hg. unfold PosixEnvSpec.bound. cbn [PosixEnvSpec.names pe_call]. destruct (names H) as [k nm]. destruct (negb _); [reflexivity|]. cbn [snd]. unfold upd. destruct (eqs g f); [contradiction|reflexivity].
    - intros j _. cbn [PosixEnvSpec.contents PosixEnvSpec.flushed PosixEnvSpec.synced_bytes PosixEnvSpec.clean]. unfold PosixEnvSpec.truncates. cbn [pe_call]. repeat split; tauto.
    - intros ->. unfold PosixEnvSpec.bound. cbn [PosixEnvSpec.names done pe_res pe_call negb]. destruct (names H) as [k nm]. cbn [snd]. unfold upd. destruct (eqs f f); [reflexivity|congruence].
  Qed.
  Lemma failed_aside H f i s : s <> SOk -> else_same v0 f i H (mk_pev (PNewWrite f) (RStat s) :: H) /\ bound (mk_pev (PNewWrite f) (RStat s) :: H) f = bound H f.
  Proof.
    intros Hs. assert (Dn : done (mk_pev (PNewWrite f) (RStat s)) = false) by (destruct s; [congruence|reflexivity]).
    assert (Bn : forall g, bound (mk_pev (PNewWrite f) (RStat s) :: H) g = bound H g) by (intros g; unfold PosixEnvSpec.bound; cbn [PosixEnvSpec.names]; destruct (names H); rewrite Dn; reflexivity).
    split; [split|]; auto. intros j _. cbn [PosixEnvSpec.contents PosixEnvSpec.flushed PosixEnvSpec.synced_bytes PosixEnvSpec.clean]. unfold PosixEnvSpec.truncates. cbn [pe_call]. rewrite Dn. cbn [andb].
    repeat split; try tauto. discriminate.
  Qed.

  (** Reading changes nothing. *)
  Definition all_same (H H' : history) : Prop :=
    (forall g, bound H' g = bound H g) /\ (forall j, contents H' j = contents H j /\ flushed H' j = flushed H j /\ synced_bytes H' j = synced_bytes H j /\ writer H' j = writer H j /\ (clean H' j <-> clean H j)).
  Lemma all_refl H : all_same H H.
  Proof. split; [reflexivity|]. intros j. repeat split; tauto. Qed.
  Lemma all_trans H1 H2 H3 : all_same H1 H2 -> all_same H2 H3 -> all_same H1 H3.
  Proof.
    intros (A1 & A2) (B1 & B2). split; [intros g; rewrite B1, A1; reflexivity|]. intros j. destruct (A2 j) as (A3 & A4 & A5 & A6 & A7), (B2 j) as (B3 & B4 & B5 & B6 & B7).
    rewrite B3, A3, B4, A4, B5, A5, B6, A6. repeat split; tauto.
  Qed.
  Lemma read_aside H x r : match x with PNewSeq _ | PSRead _ _ => True | PDelete h => exists i f, opened H h = Some (KSeq, i, f) | _ => False end -> all_same H (mk_pev x r :: H).
  Proof.
    intros Hx. split.
    - intros g. apply step_bound. destruct x; auto.
    - intros j. cbn [PosixEnvSpec.contents PosixEnvSpec.flushed PosixEnvSpec.synced_bytes PosixEnvSpec.clean PosixEnvSpec.writer]. unfold PosixEnvSpec.truncates. cbn [pe_call].
      destruct x; try contradiction; try (repeat split; tauto). destruct Hx as (i & f & Op).
      assert (Nw : writer H j <> Some h) by (intros E; apply writer_opened in E; unfold PosixEnvSpec.writes in E; rewrite Op in E; discriminate).
      assert (Nf : is_file (writer H j) h = false) by (destruct (is_file (writer H j) h) eqn:E; [apply is_file_iff in E; contradiction|reflexivity]).
      rewrite Nf. repeat split; try tauto; intros; congruence.
  Qed.
End Hist2.

Section Run.
  Variable dbg : bool.
  Variable B : nat.
  Variable strerror : Z -> str.
  Variable S : Type.
  Variable os : S -> syscall -> S * answer.
  Variable v0 : view.
  Variable s0 : S.
  Variable lim0 : limits.
  Variable R : S -> view -> Prop.
  Hypothesis CONF : conforms os R.
  Variable fuel : nat.
  Notation bound := (bound (v_next v0) (v_name v0)).
  Notation opened := (opened (v_next v0) (v_name v0)).
  Notation live := (live (v_next v0) (v_name v0)).
  Notation legal := (legal (v_next v0) (v_name v0)).
  Notation truthful := (truthful (v_next v0) (v_name v0)).
  Notation writer := (writer (v_next v0) (v_name v0)).
  Notation contents := (contents (v_next v0) (v_name v0) (v_data v0)).
  Notation synced_bytes := (synced_bytes (v_next v0) (v_name v0) (v_data v0)).
  Notation clean := (clean (v_next v0) (v_name v0) (v_data v0)).
  Notation happens := (happens dbg B strerror S os v0 s0 lim0).
  Notation pcall_ := (pcall_ dbg B strerror S os).
  Notation io := (posix_io dbg B strerror S os fuel).

  Definition here (H : history) (e : penv S) : Prop := exists v, R (w_st (p_w e)) v /\ happens H e v.

  Lemma seq_read_plain w f n w' st r : seq_read strerror S os fuel w f n = Ret (w', st, r) -> r = Untouched \/ exists b, r = Bytes b.
  Proof.
    revert w. induction fuel as [|k IH]; intros w E; cbn [seq_read] in E; [discriminate|]. dosys E w1 a Ey Ls.
    destruct (_ <? _)%Z; [destruct (_ =? _)%Z; [eauto|injection E as _ _ <-; auto]|]. destruct (_ <? _)%Z; [discriminate|]. injection E as _ _ <-. eauto.
  Qed.
  Lemma plain_observe e n c e' q v : pcall_ fuel e n (as_pcall c) = Ret (e', q) -> observe v q = plain q.
  Proof.
    assert (W : forall h o, pwrite B strerror S os fuel e h o = Ret (e', q) -> observe v q = plain q).
    { intros h o E. unfold pwrite in E. destruct (oget (p_objs e) h) as [[f0|f0|f0]|]; try discriminate. destruct (wstep _ _ _ _ _ _ _ _) as [[[w f'] s1]| | |]; cbn [bind] in E; try discriminate. injection E as _ <-. reflexivity. }
    destruct c; cbn [as_pcall PosixEnv.pcall_]; intros E; eauto.
    - destruct (NewWritableFile dbg B strerror S os (p_w e) f) as [[[w o] st']| | |]; cbn [bind] in E; try discriminate. apply ret_inj in E. unfold pnew in E. injection E as _ <-. reflexivity.
    - destruct (new_sequential strerror S os (p_w e) f) as [[w o] st']. apply ret_inj in E. unfold pnew in E. injection E as _ <-. reflexivity.
    - destruct (remove_file strerror S os (p_w e) f) as [w b]. injection E as _ <-. reflexivity.
    - destruct (oget (p_objs e) o) as [[f|f|f]|]; try discriminate. destruct (seq_read strerror S os fuel (p_w e) f n0) as [[[w st'] r]| | |] eqn:Es; cbn [bind] in E; try discriminate.
      injection E as _ <-. apply seq_read_plain in Es as [->|(b & ->)]; reflexivity.
    - destruct (oget (p_objs e) o) as [[f|f|f]|]; try discriminate.
      + destruct (destroy strerror S os fuel (p_w e) f); cbn [bind] in E; try discriminate. injection E as _ <-. reflexivity.
      + injection E as _ <-. reflexivity.
      + destruct (ran_delete dbg S os (p_w e) (p_lim e) f) as [[w lim]| | |]; cbn [bind] in E; try discriminate. injection E as _ <-. reflexivity.
  Qed.
  (** Some call of the helpers with at most [n] bytes ran out of fuel. *)
  Definition io_size (c : io_call) : nat := match c with IAppend _ d => length d | _ => 0 end.
  Definition stuck (n : nat) : Prop := exists H e c, here H e /\ legal H (as_pcall c) /\ io_size c <= n /\ io (H, e) c = OutOfFuel.
  Lemma io_step H e c : here H e -> legal H (as_pcall c) ->
    io (H, e) c = OutOfFuel /\ stuck (io_size c) \/
    exists e' r, io (H, e) c = Ret ((mk_pev (as_pcall c) r :: H, e'), as_answer c (length H) r) /\ here (mk_pev (as_pcall c) r :: H) e' /\ truthful H (as_pcall c) r /\ r <> RFault.
  Proof.
    intros (v & Hr & OK & SN & P) Lg.
    assert (St : io (H, e) c = OutOfFuel -> io (H, e) c = OutOfFuel /\ stuck (io_size c)).
    { intros E. split; [exact E|]. exists H, e, c. split; [exists v; split; [exact Hr|]; split; [exact OK|]; split; auto|]. auto. }
    cbn [posix_io] in *.
    destruct (call_safe dbg B strerror S os v0 OK SN R CONF _ _ _ _ _ fuel (as_pcall c) P Hr Lg) as [E|(e' & q & v' & E & Hr' & P')]; rewrite E in *; cbn [bind] in *; [left; auto|right].
    rewrite (plain_observe _ _ _ _ _ v' E) in P'. exists e', (plain q). split; [reflexivity|]. split; [exists v'; split; [exact Hr'|split; [exact OK|split; [exact SN|exact P']]]|].
    split; [|destruct q as [| | | |? []]; discriminate].
    apply preach_last in P' as (e0 & v1 & fu & q0 & l & P0 & Lg0 & E0 & L0 & K0 & ->). eapply truthful_call; eauto. eapply preach_inv; eauto.
  Qed.
  (** Every call of the helpers but Read returns a status only. *)
  Lemma io_stat H e c : (forall o n, c <> IRead o n) -> here H e -> legal H (as_pcall c) ->
    io (H, e) c = OutOfFuel /\ stuck (io_size c) \/
    exists e' st, io (H, e) c = Ret ((mk_pev (as_pcall c) (RStat st) :: H, e'), as_answer c (length H) (RStat st)) /\ here (mk_pev (as_pcall c) (RStat st) :: H) e' /\ truthful H (as_pcall c) (RStat st).
  Proof.
    intros Nr Hh Lg. destruct (io_step H e c Hh Lg) as [E|(e' & r & E & Hh' & T & _)]; [auto|right].
    destruct c; cbn [as_pcall truthful] in *; try (destruct r; try contradiction; eauto; fail). exfalso. now apply (Nr o n).
  Qed.
  Lemma not_deleted H e : here H e -> deleted H (length H) = false.
  Proof.
    intros (v & _ & _ & _ & P). cut (forall h, length H <= h -> deleted H h = false); [auto|].
    induction P as [|H e v fu x e' q l v' P IH Lg E L K]; intros h Hl; [reflexivity|]. cbn [deleted pe_call length] in *. rewrite IH by lia. rewrite orb_false_r.
    destruct x; try reflexivity. cbn [deletes]. apply Nat.eqb_neq. destruct Lg as (k & i & g & (Lo & _)). apply opened_lt in Lo. lia.
  Qed.
  Lemma new_bound H f : bound (mk_pev (PNewWrite f) (RStat SOk) :: H) f <> None.
  Proof.
    unfold PosixEnvSpec.bound. cbn [PosixEnvSpec.names done pe_res pe_call negb]. destruct (names _ _ H) as [k nm]. destruct (nm f) eqn:E; cbn [snd]; [congruence|]. unfold upd. destruct (eqs f f); congruence.
  Qed.
  Lemma here_old H e : here H e -> forall p i, v_name v0 p = Some i -> i < v_next v0.
  Proof. intros (v & _ & _ & SN & _). apply SN. Qed.

  (** What the helpers leave behind. *)
  Definition wrote (sync : bool) (H H' : history) (f : str) (d : list N) : Prop :=
    exists h i, written v0 H' h i f d /\ bound H' f = Some i /\ (sync = true -> synced_bytes H' i = d) /\ else_same v0 f i H H'.
  Definition spoiled (H H' : history) (tr : trace) (f : str) : Prop :=
    exists i, else_same v0 f i H H' /\
      ((exists r, tr = [(INewWritable f, r)]) /\ bound H' f = bound H f \/
       (exists t r, tr = t ++ [(IRemove f, r)] /\ (io_status r = SOk -> bound H' f = None))).

  Lemma stuck_le n m : stuck n -> n <= m -> stuck m.
  Proof. intros (H & e & c & A & A2 & A3 & A4) Hl. exists H, e, c. split; [exact A|]. split; [exact A2|]. split; [lia|exact A4]. Qed.
  Lemma do_write_safe H e d f sync : here H e -> (forall j, bound H f = Some j -> clean H j /\ writer H j = None) ->
    do_write _ io (H, e) d f sync = OutOfFuel /\ stuck (length d) \/
    exists H' e' tr st, do_write _ io (H, e) d f sync = Ret ((H', e'), tr, st) /\ here H' e' /\ (st = SOk -> wrote sync H H' f d) /\ (st <> SOk -> spoiled H H' tr f).
  Proof.
    intros Hh Cl. pose proof (here_old _ _ Hh) as Old. unfold do_write, del, call.
    destruct (io_stat H e (INewWritable f) ltac:(discriminate) Hh Logic.I) as [(E & St)|(e1 & s1 & E & Hh1 & _)]; rewrite E; cbn [bind fst snd as_answer io_status app]; [left; split; [reflexivity|eapply stuck_le; [exact St|cbn; lia]]|]. clear E.
    destruct (ok s1) eqn:O1; cbn [negb].
    2:{ right. eexists _, _, _, _. split; [reflexivity|]. split; [exact Hh1|]. split; [intros ->; discriminate|]. intros Hs. destruct (failed_aside v0 H f 0 s1 Hs) as (A1 & A2).
        exists 0. split; [exact A1|]. left. split; [eauto|exact A2]. }
    assert (s1 = SOk) by (destruct s1; [reflexivity|discriminate]). subst s1. cbn [io_ptr deref bind]. clear O1.
    destruct (bound (mk_pev (PNewWrite f) (RStat SOk) :: H) f) as [i|] eqn:Bi; [|exfalso; now apply (new_bound H f)].
    destruct (start_writing v0 Old H f i Cl Bi (not_deleted _ _ Hh)) as (W1 & A1). set (H1 := mk_pev (as_pcall (INewWritable f)) (RStat SOk) :: H) in *.
    change (mk_pev (PNewWrite f) (RStat SOk) :: H) with H1 in *. set (h := length H) in *.
    assert (L1 : exists i f, live H1 h KWrite i f) by (exists i, f; split; apply W1).
    destruct (io_stat H1 e1 (IAppend h d) ltac:(discriminate) Hh1 L1) as [(E & St)|(e2 & s2 & E & Hh2 & _)]; rewrite E; cbn [bind fst snd as_answer io_status app]; [left; split; [reflexivity|eapply stuck_le; [exact St|cbn; lia]]|]. clear E.
    pose proof (writer_aside v0 H1 (PWAppend h d) (RStat s2) h i f (wr_open _ _ _ _ _ _ W1) eq_refl) as A2. cbn [as_pcall] in Hh2 |- *. set (H2 := mk_pev (PWAppend h d) (RStat s2) :: H1) in *.
    assert (Op2 : opened H2 h = Some (KWrite, i, f)) by (apply opened_keep; apply W1). assert (Dl2 : deleted H2 h = false) by (cbn; apply W1).
    assert (W2 : s2 = SOk -> writing v0 H2 h i f d) by (intros ->; apply (append_writing v0 H1 h i f [] d W1)).
    assert (B2 : bound H2 f = Some i) by (unfold H2; rewrite step_bound by exact Logic.I; exact Bi).
    pose proof (else_trans _ _ _ _ _ _ A1 A2) as A12.
    (* the end: deleting the object, and the file if something went wrong *)
    assert (Fin : forall H3 e3 tr r3 st, here H3 e3 -> opened H3 h = Some (KWrite, i, f) -> deleted H3 h = false -> else_same v0 f i H H3 -> bound H3 f = Some i ->
      (st = SOk -> written v0 H3 h i f d /\ (sync = true -> synced_bytes H3 i = d)) -> io_status r3 = st ->
      (let! (s, tr0) := let! (s, tr0) := (let! r := (let! r0 := io (H3, e3) (IDelete h) in Ret (fst r0, tr ++ [(IDelete h, snd r0)], snd r0)) in Ret (fst r)) in
         (if negb (ok (io_status r3)) then let! x := (let! r0 := io s (IRemove f) in Ret (fst r0, tr0 ++ [(IRemove f, snd r0)], snd r0)) in Ret (fst x) else Ret (s, tr0)) in Ret (s, tr0, io_status r3)) = OutOfFuel /\ stuck (length d) \/
      exists H' e' tr' st', (let! (s, tr0) := let! (s, tr0) := (let! r := (let! r0 := io (H3, e3) (IDelete h) in Ret (fst r0, tr ++ [(IDelete h, snd r0)], snd r0)) in Ret (fst r)) in
         (if negb (ok (io_status r3)) then let! x := (let! r0 := io s (IRemove f) in Ret (fst r0, tr0 ++ [(IRemove f, snd r0)], snd r0)) in Ret (fst x) else Ret (s, tr0)) in Ret (s, tr0, io_status r3)) = Ret ((H', e'), tr', st') /\
        here H' e' /\ (st' = SOk -> wrote sync H H' f d) /\ (st' <> SOk -> spoiled H H' tr' f)).
    { intros H3 e3 tr r3 st Hh3 Op3 Dl3 A3 B3 Wn Er. subst st.
      assert (L3 : exists k i f, live H3 h k i f) by (exists KWrite, i, f; split; auto).
      destruct (io_stat H3 e3 (IDelete h) ltac:(discriminate) Hh3 L3) as [(E & St)|(e4 & s4 & E & Hh4 & _)]; rewrite E; cbn [bind fst snd]; [left; split; [reflexivity|eapply stuck_le; [exact St|cbn; lia]]|]. clear E. cbn [as_pcall] in *.
      pose proof (writer_aside v0 H3 (PDelete h) (RStat s4) h i f Op3 eq_refl) as A4. destruct (ok (io_status r3)) eqn:O3; cbn [negb bind].
      - right. eexists _, _, _, _. split; [reflexivity|]. split; [exact Hh4|]. assert (E3 : io_status r3 = SOk) by (destruct (io_status r3); [reflexivity|discriminate]). split; [|congruence].
        intros _. destruct (Wn E3) as (W3 & Sy). destruct (delete_written v0 H3 h i f d (RStat s4) W3) as (W4 & Sy4 & _). exists h, i. split; [exact W4|]. split; [rewrite step_bound by exact Logic.I; exact B3|].
        split; [intros Hs; rewrite Sy4; auto|]. eapply else_trans; eauto.
      - destruct (io_stat _ _ (IRemove f) ltac:(discriminate) Hh4 Logic.I) as [(E & St)|(e5 & s5 & E & Hh5 & _)]; rewrite E; cbn [bind fst snd]; [left; split; [reflexivity|eapply stuck_le; [exact St|cbn; lia]]|]. clear E. cbn [as_pcall] in *.
        right. eexists _, _, _, _. split; [reflexivity|]. split; [exact Hh5|]. split; [intros X; rewrite X in O3; discriminate|]. intros _. destruct (remove_aside v0 (mk_pev (PDelete h) (RStat s4) :: H3) f i (RStat s5)) as (A5 & A6).
        exists i. split; [eapply else_trans; [|exact A5]; eapply else_trans; eauto|]. right. eexists _, _. split; [reflexivity|]. cbn [as_answer io_status]. intros ->. auto. }
    (* Close, unless something went wrong before *)
    assert (Clo : forall H3 e3 tr r3, here H3 e3 -> opened H3 h = Some (KWrite, i, f) -> deleted H3 h = false -> else_same v0 f i H H3 -> bound H3 f = Some i ->
      (io_status r3 = SOk -> writing v0 H3 h i f d /\ (sync = true -> synced_bytes H3 i = d)) ->
      let T := (let! (s, tr0, r) := if ok (io_status r3) then let! r := io (H3, e3) (IClose h) in Ret (fst r, tr ++ [(IClose h, snd r)], snd r) else Ret (H3, e3, tr, r3) in
       let! (s1, tr1) := (let! r := (let! r0 := io s (IDelete h) in Ret (fst r0, tr0 ++ [(IDelete h, snd r0)], snd r0)) in Ret (fst r)) in
       let! (s2, tr2) := if negb (ok (io_status r)) then let! x := (let! r0 := io s1 (IRemove f) in Ret (fst r0, tr1 ++ [(IRemove f, snd r0)], snd r0)) in Ret (fst x) else Ret (s1, tr1) in
       Ret (s2, tr2, io_status r)) in
      T = OutOfFuel /\ stuck (length d) \/ exists H' e' tr' st', T = Ret ((H', e'), tr', st') /\ here H' e' /\ (st' = SOk -> wrote sync H H' f d) /\ (st' <> SOk -> spoiled H H' tr' f)).
    { intros H3 e3 tr r3 Hh3 Op3 Dl3 A3 B3 Wn T. unfold T. clear T.
      assert (Asc : forall (X : outcome ((history * penv S) * trace)) (k1 : (history * penv S) -> trace -> outcome ((history * penv S) * trace)) (k2 : (history * penv S) -> trace -> outcome ((history * penv S) * trace * status)),
        (let! (a, b) := X in let! (c, t) := k1 a b in k2 c t) = (let! (c, t) := let! (a, b) := X in k1 a b in k2 c t)).
      { intros X k1 k2. destruct X as [[a b]| | |]; reflexivity. }
      destruct (ok (io_status r3)) eqn:O3.
      - assert (E3 : io_status r3 = SOk) by (destruct (io_status r3); [reflexivity|discriminate]). destruct (Wn E3) as (W3 & Sy).
        assert (L3 : exists i f, live H3 h KWrite i f) by (exists i, f; split; auto).
        destruct (io_stat H3 e3 (IClose h) ltac:(discriminate) Hh3 L3) as [(E & St)|(e4 & s4 & E & Hh4 & _)]; rewrite E; cbn [bind fst snd]; [left; split; [reflexivity|eapply stuck_le; [exact St|cbn; lia]]|]. clear E. cbn [as_pcall] in *. rewrite Asc.
        apply (Fin _ _ _ _ s4); auto.
        + apply opened_keep. exact Op3.
        + eapply else_trans; [exact A3|]. eapply writer_aside; [exact Op3|reflexivity].
        + rewrite step_bound by exact Logic.I. exact B3.
        + intros ->. destruct (close_writing v0 H3 h i f d W3) as (W4 & _ & Sy4 & _). split; [exact W4|]. intros Hs. rewrite Sy4. auto.
      - cbn [bind]. rewrite Asc. apply (Fin _ _ _ _ (io_status r3)); auto. intros X. rewrite X in O3. discriminate. }
    destruct (ok s2 && sync) eqn:Os.
    - apply andb_true_iff in Os as (O2 & ->). assert (s2 = SOk) by (destruct s2; [reflexivity|discriminate]). subst s2. specialize (W2 eq_refl).
      assert (L2 : exists i f, live H2 h KWrite i f) by (exists i, f; split; auto).
      destruct (io_stat H2 e2 (ISync h) ltac:(discriminate) Hh2 L2) as [(E & St)|(e3 & s3 & E & Hh3 & _)]; rewrite E; cbn [bind fst snd]; [left; split; [reflexivity|eapply stuck_le; [exact St|cbn; lia]]|]. clear E. cbn [as_pcall] in *.
      apply Clo; auto.
      + apply opened_keep. exact Op2.
      + eapply else_trans; [exact A12|]. eapply writer_aside; [exact Op2|reflexivity].
      + rewrite step_bound by exact Logic.I. exact B2.
      + cbn [as_answer io_status]. intros ->. destruct (sync_writing v0 H2 h i f d W2) as (W3 & Sy3 & _). auto.
    - cbn [bind]. apply Clo; auto. cbn [as_answer io_status]. intros ->. split; [auto|]. intros ->. discriminate.
  Qed.

  (** *** Reading *)
  Lemma io_read H e h n i f : here H e -> live H h KSeq i f -> (n < 2 ^ 64)%N -> clean H i -> writer H i = None ->
    io (H, e) (IRead h n) = OutOfFuel /\ stuck 0 \/
    exists e' st d, io (H, e) (IRead h n) = Ret ((mk_pev (PSRead h n) (RData st d) :: H, e'), mk_io st PUnset d) /\ here (mk_pev (PSRead h n) (RData st d) :: H) e' /\
      (st = SOk -> piece d (contents H i) (Z.to_nat (pos H h)) n).
  Proof.
    intros Hh L Hn Cl Wn. destruct (io_step H e (IRead h n) Hh (conj Hn (ex_intro _ i (ex_intro _ f L)))) as [E|(e' & r & E & Hh' & T & Nf)]; [auto|right]. cbn [as_pcall PosixEnvSpec.truthful] in *.
    destruct r as [| | | |st d|]; try contradiction. exists e', st, d. split; [exact E|]. split; [exact Hh'|]. intros ->.
    destruct Hh' as (v & _ & OK & SN & P). apply preach_last in P as (e0 & v1 & fu & q & l & P & Lg & E1 & Ll & K & Er).
    pose proof (preach_inv dbg B strerror S os v0 OK SN _ _ _ _ _ P) as Iv.
    assert (Vd : visible (v_next v0) (v_name v0) (v_data v0) B H i (v_data v1 i)) by (eapply visible_data; eauto; eapply (i_lt _ _ _ _ _ _ Iv); apply L).
    rewrite <- (visible_settled _ _ _ _ _ _ _ Vd Cl Wn).
    assert (Eq : q = QData SOk (Bytes d)).
    { pose proof E1 as E2. cbn [PosixEnv.pcall_] in E2. destruct (oget (p_objs e0) h) as [[f0|f0|f0]|] eqn:Eo; try discriminate.
      destruct (seq_read strerror S os fu (p_w e0) f0 n) as [[[w st] r]| | |] eqn:Es; cbn [bind] in E2; try discriminate. injection E2 as E2 <-.
      clear - Es Er. revert w st r Es Er. generalize (p_w e0). induction fu as [|fu IH]; intros w0 w st r Es Er; cbn [seq_read] in Es; [discriminate|]. dosys Es w1 a Ey Ls.
      destruct (_ <? _)%Z; [destruct (_ =? _)%Z; [eauto|]|]. { injection Es as _ <- <-. cbn [observe] in Er. injection Er as Ex _. symmetry in Ex. now apply error_not_ok' in Ex. }
      destruct (_ <? _)%Z; [discriminate|]. injection Es as _ <- <-. cbn [observe] in Er. congruence. }
    subst q. eapply seq_result; eauto.
  Qed.
  Lemma piece_grows (K d : list N) p n : piece d K p n -> p <= length K -> firstn p K ++ d = firstn (p + length d) K /\ p + length d <= length K.
  Proof.
    intros (P1 & _ & _) Hp. assert (Hl : length d <= length K - p) by (apply (f_equal (@length N)) in P1; rewrite firstn_length, skipn_length in P1; lia).
    split; [|lia]. rewrite P1 at 1. clear. revert K. induction p as [|p IH]; intros K; [reflexivity|]. destruct K as [|x K]; [now rewrite !firstn_nil|]. cbn [firstn app skipn Nat.add]. f_equal. apply IH.
  Qed.
  Lemma read_loop_safe rounds : forall H e tr h i f data, here H e -> live H h KSeq i f -> clean H i -> writer H i = None ->
    pos H h = Z.of_nat (length data) -> data = firstn (length data) (contents H i) ->
    read_loop _ io rounds (H, e) tr h data = OutOfFuel /\ (stuck 0 \/ rounds <= length (contents H i) - length data) \/
    exists H' e' tr' st data', read_loop _ io rounds (H, e) tr h data = Ret ((H', e'), tr', st, data') /\ here H' e' /\ live H' h KSeq i f /\ all_same v0 H H' /\
      data' = firstn (length data') (contents H i) /\ (st = SOk -> data' = contents H i).
  Proof.
    induction rounds as [|rounds IH]; intros H e tr h i f data Hh L Cl Wn Hp Hd; cbn [read_loop]; [left; split; [reflexivity|right; lia]|]. unfold call.
    destruct (io_read H e h 8192 i f Hh L ltac:(reflexivity) Cl Wn) as [(E & St)|(e' & st & d & E & Hh' & Pc)]; rewrite E; cbn [bind fst snd io_status io_data]; [auto|]. clear E.
    assert (A : all_same v0 H (mk_pev (PSRead h 8192) (RData st d) :: H)) by (apply read_aside; exact Logic.I).
    assert (L' : live (mk_pev (PSRead h 8192) (RData st d) :: H) h KSeq i f) by (split; [apply opened_keep; apply L|cbn; apply L]).
    destruct (ok st) eqn:Eo; cbn [negb].
    2:{ right. eexists _, _, _, _, _. split; [reflexivity|]. split; [exact Hh'|]. split; [exact L'|]. split; [exact A|]. split; [exact Hd|]. intros ->. discriminate. }
    assert (st = SOk) by (destruct st; [reflexivity|discriminate]). subst st. specialize (Pc eq_refl). rewrite Hp, Nat2Z.id in Pc.
    assert (Hlen : length data <= length (contents H i)) by (apply (f_equal (@length N)) in Hd; rewrite firstn_length in Hd; lia).
    destruct (piece_grows _ _ _ _ Pc Hlen) as (G1 & G2).
    destruct d as [|x d].
    - right. eexists _, _, _, _, _. split; [reflexivity|]. split; [exact Hh'|]. split; [exact L'|]. split; [exact A|]. rewrite app_nil_r. split; [exact Hd|]. intros _.
      destruct Pc as (_ & _ & P3). destruct (P3 eq_refl) as [X|X]; [discriminate|]. rewrite Hd. apply firstn_all2. lia.
    - destruct A as (A1 & A2). destruct (A2 i) as (A3 & _ & _ & A6 & A7).
      destruct (IH (mk_pev (PSRead h 8192) (RData SOk (x :: d)) :: H) e' (tr ++ [(IRead h 8192, mk_io SOk PUnset (x :: d))]) h i f (data ++ x :: d)) as [(E & St)|(H2 & e2 & tr2 & st2 & d2 & E & Hh2 & L2 & S2 & D2 & D3)]; auto.
      + apply A7. exact Cl.
      + cbn [pos pe_call pe_res]. destruct (Nat.eqb_spec h (length H)) as [Hx|_]; [destruct L as (Lo & _); apply opened_lt in Lo; lia|]. rewrite Nat.eqb_refl, app_length, Hp. lia.
      + rewrite A3, app_length. rewrite Hd at 1. exact G1.
      + left. split; [exact E|]. destruct St as [St|St]; [left; exact St|right]. rewrite A3, app_length in St. cbn [length] in *. lia.
      + right. exists H2, e2, tr2, st2, d2. rewrite E. rewrite A3 in D2, D3. split; [reflexivity|]. split; [exact Hh2|]. split; [exact L2|]. split; [|auto]. eapply all_trans; [|exact S2]. split; auto.
  Qed.
  Lemma read_file_safe rounds H e f : here H e -> (forall i, bound H f = Some i -> clean H i /\ writer H i = None) ->
    read_file _ io rounds (H, e) f = OutOfFuel /\ (stuck 0 \/ exists i, bound H f = Some i /\ rounds <= length (contents H i)) \/
    exists H' e' tr st data, read_file _ io rounds (H, e) f = Ret ((H', e'), tr, st, data) /\ here H' e' /\ all_same v0 H H' /\
      match bound H f with
      | Some i => data = firstn (length data) (contents H i) /\ (st = SOk -> data = contents H i)
      | None => st <> SOk /\ data = []
      end.
  Proof.
    intros Hh Cl. unfold read_file. unfold call.
    destruct (io_stat H e (INewSequential f) ltac:(discriminate) Hh Logic.I) as [(E & St)|(e1 & s1 & E & Hh1 & T)]; rewrite E; cbn [bind fst snd as_answer io_status io_ptr app]; [auto|]. clear E. cbn [as_pcall PosixEnvSpec.truthful] in *.
    assert (A1 : all_same v0 H (mk_pev (PNewSeq f) (RStat s1) :: H)) by (apply read_aside; exact Logic.I).
    destruct (ok s1) eqn:O1; cbn [negb].
    2:{ right. assert (Np : (match s1 with SOk => PObj (length H) | SErr _ _ _ => PNull end) = PNull) by (destruct s1; [discriminate|reflexivity]). rewrite Np. cbn [del bind].
        eexists _, _, _, _, _. split; [reflexivity|]. split; [exact Hh1|]. split; [exact A1|]. destruct (bound H f); [split; [reflexivity|intros ->; discriminate]|split; [intros ->; discriminate|reflexivity]]. }
    assert (s1 = SOk) by (destruct s1; [reflexivity|discriminate]). subst s1. clear O1. cbn [deref bind]. destruct T as (T & _). specialize (T eq_refl).
    destruct (bound H f) as [i|] eqn:Bi; [|congruence]. clear T. destruct (Cl i eq_refl) as (Ci & Wi). pose proof A1 as (A1b & A1c). destruct (A1c i) as (A3 & _ & _ & A6 & A7).
    set (h := length H) in *. set (H1 := mk_pev (PNewSeq f) (RStat SOk) :: H) in *.
    assert (L1 : live H1 h KSeq i f).
    { split; [|cbn; eapply not_deleted; exact Hh]. unfold H1, h. cbn [PosixEnvSpec.opened]. rewrite Nat.eqb_refl. cbn [done pe_res pe_call opens]. fold H1. rewrite A1b, Bi. reflexivity. }
    destruct (read_loop_safe rounds H1 e1 [(INewSequential f, mk_io SOk (PObj h) [])] h i f []) as [(E & St)|(H2 & e2 & tr2 & st2 & d2 & E & Hh2 & L2 & S2 & D2 & D3)]; auto.
    - apply A7. exact Ci.
    - unfold H1, h. cbn [pos]. rewrite Nat.eqb_refl. reflexivity.
    - rewrite E. cbn [bind]. left. split; [reflexivity|]. destruct St as [St|St]; [left; exact St|right]. exists i. split; [reflexivity|]. rewrite A3 in St. cbn [length] in St. lia.
    - rewrite E. cbn [bind del]. unfold call. clear E.
      assert (Ld : legal H2 (as_pcall (IDelete h))) by (exists KSeq, i, f; exact L2).
      destruct (io_stat H2 e2 (IDelete h) ltac:(discriminate) Hh2 Ld) as [(E & St)|(e3 & s3 & E & Hh3 & _)]; rewrite E; cbn [bind fst snd]; [auto|]. clear E. cbn [as_pcall] in *.
      right. eexists _, _, _, _, _. split; [reflexivity|]. split; [exact Hh3|]. split; [eapply all_trans; [exact A1|]; eapply all_trans; [exact S2|]; apply read_aside; exists i, f; apply L2|].
      rewrite A3 in D2, D3. auto.
  Qed.
End Run.
