(** PosixEnvProofs.v -- the invariant of the POSIX environment over all histories. *)
From Coq Require Import List Arith NArith ZArith Lia Bool.
From Verif Require Import Outcome Status MemEnv PosixOs PosixWritable PosixWritableSpec PosixWritableProofs PosixRead PosixEnv PosixFs PosixEnvSpec PosixFsProofs.
Import ListNotations.
Local Open Scope outcome_scope.

(** ** Objects *)
Lemma oget_odel l h h' : oget (odel l h) h' = if h =? h' then None else oget l h'.
Proof.
  induction l as [|[p o] l IH]; cbn [odel filter oget fst]; [now destruct (h =? h')|].
  destruct (Nat.eqb_spec p h) as [->|Hp]; cbn [negb].
  - fold (odel l h). rewrite IH. now destruct (h =? h').
  - cbn [oget]. destruct (Nat.eqb_spec p h') as [->|Hp'].
    + destruct (Nat.eqb_spec h h'); [congruence|reflexivity].
    + exact IH.
Qed.
Lemma oget_oset l h o h' : oget l h <> None -> oget (oset l h o) h' = if h =? h' then Some o else oget l h'.
Proof.
  induction l as [|[p x] l IH]; cbn [oset oget]; intros Hn; [congruence|].
  destruct (Nat.eqb_spec p h) as [->|Hp]; cbn [oget].
  - now destruct (h =? h').
  - rewrite IH by exact Hn. destruct (Nat.eqb_spec p h') as [->|Hp']; [|reflexivity].
    destruct (Nat.eqb_spec h h'); [congruence|reflexivity].
Qed.

Definition obj_fd (o : pobj) : option Z :=
  match o with
  | ObW f => if (0 <=? f_fd f)%Z then Some (f_fd f) else None
  | ObS f => Some (sq_fd f)
  | ObR (RPerm fd _) => Some fd
  | _ => None
  end.
Definition obj_map (o : pobj) : option N := match o with ObR (RMmap b _ _) => Some b | _ => None end.

Section Env.
  Variable dbg : bool.
  Variable B : nat.
  Variable strerror : Z -> str.
  Variable S : Type.
  Variable os : S -> syscall -> S * answer.
  Variable v0 : view.
  Hypothesis OK : os_ok os.
  Hypothesis SANE : sane v0.

  Notation names := (names (v_next v0) (v_name v0)).
  Notation bound := (bound (v_next v0) (v_name v0)).
  Notation opened := (opened (v_next v0) (v_name v0)).
  Notation live := (live (v_next v0) (v_name v0)).
  Notation truncates := (truncates (v_next v0) (v_name v0)).
  Notation writes := (writes (v_next v0) (v_name v0)).
  Notation contents := (contents (v_next v0) (v_name v0) (v_data v0)).
  Notation flushed := (flushed (v_next v0) (v_name v0) (v_data v0)).
  Notation synced_bytes := (synced_bytes (v_next v0) (v_name v0) (v_data v0)).
  Notation writer := (writer (v_next v0) (v_name v0)).
  Notation clean := (clean (v_next v0) (v_name v0) (v_data v0)).
  Notation truncated := (truncated (v_next v0) (v_name v0)).
  Notation entry_synced := (entry_synced (v_next v0) (v_name v0)).
  Notation visible := (visible (v_next v0) (v_name v0) (v_data v0)).
  Notation legal := (legal (v_next v0) (v_name v0)).
  Notation penv := (penv S).

  (** ** The specification's functions *)
  Lemma opened_lt H h x : opened H h = Some x -> h < length H.
  Proof.
    induction H as [|ev H IH]; cbn [PosixEnvSpec.opened]; [discriminate|]. cbn [length].
    destruct (Nat.eqb_spec h (length H)) as [->|Hn]; [lia|]. intros E. apply IH in E. lia.
  Qed.
  Lemma opened_old ev H h : h <> length H -> opened (ev :: H) h = opened H h.
  Proof. intros Hn. cbn [PosixEnvSpec.opened]. destruct (Nat.eqb_spec h (length H)); [congruence|reflexivity]. Qed.
  Lemma opened_keep ev H h x : opened H h = Some x -> opened (ev :: H) h = Some x.
  Proof. intros E. rewrite opened_old; [exact E|]. apply opened_lt in E. lia. Qed.
  Lemma names_mono ev H : fst (names H) <= fst (names (ev :: H)).
  Proof.
    cbn [PosixEnvSpec.names]. destruct (names H) as [k nm]. destruct (done ev); cbn [negb]; [|cbn; lia].
    destruct (pe_call ev); cbn [fst]; try lia; try (destruct (nm f); cbn [fst]; lia); try (destruct (nm d); cbn [fst]; lia).
    destruct (nm a) as [i|]; cbn [fst]; [|lia]. destruct (match nm b with Some j => j =? i | None => false end); cbn [fst]; lia.
  Qed.
  Lemma is_file_iff o i : is_file o i = true <-> o = Some i.
  Proof.
    unfold is_file. destruct o as [j|]; split; intros E; try discriminate; [apply Nat.eqb_eq in E; congruence|injection E as ->; apply Nat.eqb_refl].
  Qed.
  Lemma writes_iff H h i : writes H h i = true <-> exists f, opened H h = Some (KWrite, i, f).
  Proof.
    unfold PosixEnvSpec.writes. destruct (opened H h) as [[[k j] f]|].
    - destruct k; split; try discriminate; try (intros (g & E); congruence).
      + intros E. apply Nat.eqb_eq in E. subst j. eauto.
      + intros (g & E). injection E as -> _. apply Nat.eqb_refl.
    - split; [discriminate|intros (g & E); discriminate].
  Qed.

  (** ** The invariant *)
  Definition obj_ok (H : history) (v : view) (h : nat) (o : pobj) (k : kind) (i : nat) (g : str) : Prop :=
    match o with
    | ObW f => k = KWrite /\ (f_manifest f = true <-> names_manifest g) /\ in_dir g (f_dir f) /\ (exists b, brep B f b) /\
               ((f_fd f < 0)%Z \/ ((0 <= f_fd f)%Z /\ opens_ino v (f_fd f) i /\ (clean H i -> writer H i = Some h)))
    | ObS f => k = KSeq /\ (0 <= sq_fd f)%Z /\ v_fd v (sq_fd f) = Some (mk_fdesc i (pos H h) false)
    | ObR (RPerm fd g') => k = KRand /\ g' = g /\ (0 <= fd)%Z /\ opens_ino v fd i
    | ObR (RTemp g') => k = KRand /\ g' = g
    | ObR (RMmap b n g') => k = KRand /\ g' = g /\ v_map v b = Some (i, n) /\
               (truncated H h = false -> (n <= N.of_nat (length (v_data v i)))%N)
    end.
  Definition file_ok (H : history) (e : penv) (v : view) (i : nat) : Prop :=
    flushed H i <= length (v_data v i) /\
    match writer H i with
    | Some h => exists f b, oget (p_objs e) h = Some (ObW f) /\ writes H h i = true /\ (0 <= f_fd f)%Z /\ brep B f b /\
                  at_end v (f_fd f) i /\ contents H i = v_data v i ++ b
    | None => contents H i = v_data v i
    end.
  Record Inv (H : history) (e : penv) (v : view) : Prop := {
    i_sane : sane v;
    i_name : forall p, v_name v p = bound H p;
    i_next : v_next v = fst (names H);
    i_old : v_next v0 <= v_next v;
    i_lt : forall h k i g, opened H h = Some (k, i, g) -> i < v_next v;
    i_del : forall h, deleted H h = true -> h < length H;
    i_live : forall h, oget (p_objs e) h <> None <-> exists k i g, live H h k i g;
    i_obj : forall h o k i g, oget (p_objs e) h = Some o -> opened H h = Some (k, i, g) -> obj_ok H v h o k i g;
    i_fd : forall h1 h2 o1 o2 fd, oget (p_objs e) h1 = Some o1 -> oget (p_objs e) h2 = Some o2 ->
             obj_fd o1 = Some fd -> obj_fd o2 = Some fd -> h1 = h2;
    i_map : forall h1 h2 o1 o2 b, oget (p_objs e) h1 = Some o1 -> oget (p_objs e) h2 = Some o2 ->
             obj_map o1 = Some b -> obj_map o2 = Some b -> h1 = h2;
    i_fresh : forall i, v_next v <= i -> contents H i = [] /\ flushed H i = 0 /\ writer H i = None /\ synced_bytes H i = [];
    i_file : forall i, i < v_next v -> clean H i -> file_ok H e v i;
    i_sync : forall i, i < v_next v -> clean H i -> ext (synced_bytes H i) (v_safe v i);
    i_entry : forall p, entry_synced H p -> v_sure v p = true }.

  Lemma obj_open H e v h o : Inv H e v -> oget (p_objs e) h = Some o -> exists k i g, live H h k i g /\ obj_ok H v h o k i g.
  Proof.
    intros I E. destruct (proj1 (i_live _ _ _ I h)) as (k & i & g & L); [congruence|].
    exists k, i, g. split; [exact L|]. eapply i_obj; [exact I|exact E|apply L].
  Qed.
  (** The descriptor of a live object is open. *)
  Lemma fd_open H e v h o fd : Inv H e v -> oget (p_objs e) h = Some o -> obj_fd o = Some fd -> v_fd v fd <> None.
  Proof.
    intros I E F. destruct (obj_open _ _ _ _ _ I E) as (k & i & g & L & Q).
    destruct o as [f|f|[fd' g'|g'|b n g']]; cbn [obj_fd obj_ok] in F, Q; try discriminate.
    - destruct (Z.leb_spec 0 (f_fd f)); [|discriminate]. injection F as <-. destruct Q as (_ & _ & _ & _ & [Q|(_ & (x & Hx & _) & _)]); [lia|congruence].
    - injection F as <-. destruct Q as (_ & _ & Q). congruence.
    - injection F as <-. destruct Q as (_ & _ & _ & (x & Hx & _)). congruence.
  Qed.
  Lemma map_open H e v h o b : Inv H e v -> oget (p_objs e) h = Some o -> obj_map o = Some b -> v_map v b <> None.
  Proof.
    intros I E F. destruct (obj_open _ _ _ _ _ I E) as (k & i & g & L & Q).
    destruct o as [f|f|[fd' g'|g'|b' n g']]; cbn [obj_map obj_ok] in F, Q; try discriminate.
    injection F as <-. destruct Q as (_ & _ & Q & _). congruence.
  Qed.

  Lemma inv_start s0 lim0 : Inv [] (mk_penv (mk_world s0 []) lim0 []) v0.
  Proof.
    constructor; try (cbn; intros; discriminate); auto.
    - intros h. split; [cbn; congruence|]. intros (k & i & g & L & _). discriminate.
    - intros i Hi. cbn [PosixEnvSpec.contents PosixEnvSpec.flushed PosixEnvSpec.writer PosixEnvSpec.synced_bytes].
      destruct (Nat.ltb_spec i (v_next v0)) as [Hl|Hl]; [exfalso; lia|]. repeat split; reflexivity.
    - intros i Hi _. unfold file_ok. cbn [PosixEnvSpec.contents PosixEnvSpec.flushed PosixEnvSpec.writer].
      destruct (Nat.ltb_spec i (v_next v0)) as [Hl|Hl]; [|exfalso; lia]. split; [lia|reflexivity].
    - intros i _ _. apply ext_nil.
    - intros p E. inversion E.
  Qed.

  (** ** Calls that make no object and use no writer *)
  Definition quiet (ev : pevent) : Prop :=
    match pe_call ev with
    | PNewSeq _ | PNewRand _ | PNewWrite _ | PNewAppend _ => done ev = false
    | PWAppend _ _ | PWClose _ | PWFlush _ | PWSync _ | PDelete _ => False
    | _ => True
    end.
  Lemma quiet_spec ev H : quiet ev ->
    (forall h, opened (ev :: H) h = opened H h) /\ (forall h, deleted (ev :: H) h = deleted H h) /\
    (forall i, truncates ev H i = false) /\ (forall i, contents (ev :: H) i = contents H i) /\ (forall i, flushed (ev :: H) i = flushed H i) /\
    (forall i, synced_bytes (ev :: H) i = synced_bytes H i) /\ (forall i, writer (ev :: H) i = writer H i) /\
    (forall i, clean (ev :: H) i -> clean H i) /\ (forall i, clean H i -> clean (ev :: H) i) /\
    (forall h, opened H h <> None -> truncated (ev :: H) h = truncated H h).
  Proof.
    intros Q.
    assert (T : forall i, truncates ev H i = false).
    { intros i. unfold PosixEnvSpec.truncates. unfold quiet in Q. destruct (pe_call ev); auto. rewrite Q. reflexivity. }
    assert (O : forall h, opened (ev :: H) h = opened H h).
    { intros h. cbn [PosixEnvSpec.opened]. destruct (Nat.eqb_spec h (length H)) as [->|]; [|reflexivity].
      destruct (opened H (length H)) eqn:E; [apply opened_lt in E; lia|].
      unfold quiet in Q. destruct (done ev) eqn:Ed; [|reflexivity]. destruct (pe_call ev); cbn [opens]; try discriminate; reflexivity. }
    split; [exact O|]. split.
    { intros h. cbn [deleted]. unfold quiet in Q. destruct (pe_call ev); cbn [deletes]; try reflexivity. contradiction. }
    split; [exact T|].
    split. { intros i. cbn [PosixEnvSpec.contents]. rewrite T. unfold quiet in Q. destruct (pe_call ev); try reflexivity; contradiction. }
    split. { intros i. cbn [PosixEnvSpec.flushed]. rewrite T. unfold quiet in Q. destruct (pe_call ev); try reflexivity; contradiction. }
    split. { intros i. cbn [PosixEnvSpec.synced_bytes]. rewrite T. unfold quiet in Q. destruct (pe_call ev); try reflexivity; contradiction. }
    split. { intros i. cbn [PosixEnvSpec.writer]. unfold quiet in Q. destruct (pe_call ev); try reflexivity; try contradiction; rewrite Q; reflexivity. }
    split. { intros i C. apply C. }
    split. { intros i C. cbn [PosixEnvSpec.clean]. split; [exact C|]. unfold quiet in Q. destruct (pe_call ev); auto; try contradiction; intros; congruence. }
    intros h Hh. cbn [PosixEnvSpec.truncated]. destruct (opened H h) as [[[k i] g]|] eqn:E; [|congruence].
    apply opened_lt in E. destruct (Nat.eqb_spec h (length H)); [lia|]. rewrite T. apply orb_false_r.
  Qed.

  Lemma inv_quiet H e v ev e' v' :
    Inv H e v -> p_objs e' = p_objs e -> quiet ev -> sane v' ->
    (forall p, v_name v' p = bound (ev :: H) p) -> v_next v' = fst (names (ev :: H)) ->
    (forall i, i < v_next v -> v_data v' i = v_data v i /\ ext (v_safe v i) (v_safe v' i)) ->
    (forall i, v_next v <= i < v_next v' -> v_data v' i = []) ->
    (forall b, v_map v' b = v_map v b) ->
    (forall h o fd, oget (p_objs e) h = Some o -> obj_fd o = Some fd ->
       match o with
       | ObS f => forall x, v_fd v fd = Some x -> v_fd v' fd = Some (mk_fdesc (d_ino x) (d_off x + (pos (ev :: H) h - pos H h)) (d_app x))
       | _ => v_fd v' fd = v_fd v fd
       end) ->
    (forall p, v_sure v p = true -> bound (ev :: H) p = bound H p -> v_sure v' p = true) ->
    Inv (ev :: H) e' v'.
  Proof.
    intros I Eo Q Sn Nm Nx Dt Dn Mp Fd Su.
    destruct (quiet_spec ev H Q) as (Qo & Qd & Qt & Qc & Qf & Qs & Qw & Qcl & Qcl2 & Qtr).
    pose proof (names_mono ev H) as Mono. rewrite <- Nx, <- (i_next _ _ _ I) in Mono.
    constructor; auto.
    - pose proof (i_old _ _ _ I). lia.
    - intros h k i g E. rewrite Qo in E. apply (i_lt _ _ _ I) in E. lia.
    - intros h E. rewrite Qd in E. apply (i_del _ _ _ I) in E. cbn [length]. lia.
    - intros h. rewrite Eo, (i_live _ _ _ I). unfold PosixEnvSpec.live. rewrite Qo, Qd. tauto.
    - intros h o k i g E1 E2. rewrite Eo in E1. rewrite Qo in E2. pose proof (i_obj _ _ _ I _ _ _ _ _ E1 E2) as X.
      pose proof (i_lt _ _ _ I _ _ _ _ E2) as Hi. destruct (Dt i Hi) as (D1 & _).
      pose proof (fun fd => Fd h o fd E1) as Fo.
      destruct o as [f|f|[fd' g'|g'|b n g']]; cbn [obj_ok obj_fd] in X, Fo |- *.
      + destruct X as (X1 & X2 & X3 & X4 & X5). split; [exact X1|]. split; [exact X2|]. split; [exact X3|]. split; [exact X4|].
        destruct X5 as [X5|(X5 & X6 & X7)]; [left; exact X5|right]. split; [exact X5|]. split.
        * destruct X6 as (x & Hx & Hxi). exists x. split; [|exact Hxi]. rewrite (Fo (f_fd f)); [exact Hx|]. destruct (Z.leb_spec 0 (f_fd f)); [reflexivity|lia].
        * intros C. rewrite Qw. apply X7. apply Qcl. exact C.
      + destruct X as (X1 & X2 & X3). split; [exact X1|]. split; [exact X2|]. rewrite (Fo _ eq_refl _ X3). cbn [d_ino d_off d_app]. f_equal. f_equal. lia.
      + destruct X as (X1 & X2 & X3 & (x & Hx & Hxi)). split; [exact X1|]. split; [exact X2|]. split; [exact X3|]. exists x. split; [|exact Hxi].
        rewrite (Fo _ eq_refl). exact Hx.
      + exact X.
      + destruct X as (X1 & X2 & X3 & X4). split; [exact X1|]. split; [exact X2|]. rewrite Mp, D1. split; [exact X3|].
        intros T. apply X4. rewrite <- T. symmetry. apply Qtr. congruence.
    - intros h1 h2 o1 o2 fd. rewrite Eo. apply (i_fd _ _ _ I).
    - intros h1 h2 o1 o2 b. rewrite Eo. apply (i_map _ _ _ I).
    - intros i Hi. rewrite Qc, Qf, Qw, Qs. apply (i_fresh _ _ _ I). lia.
    - intros i Hi C. apply Qcl in C. unfold file_ok. rewrite Qf, Qw, Qc, Eo.
      destruct (Nat.lt_ge_cases i (v_next v)) as [Hlt|Hge].
      + destruct (Dt i Hlt) as (D1 & _). rewrite D1. destruct (i_file _ _ _ I i Hlt C) as (F1 & F2). split; [exact F1|].
        destruct (writer H i) as [h|]; [|exact F2]. destruct F2 as (f & b & G1 & G2 & G3 & G4 & (x & Hx & Hxi & He) & G6).
        exists f, b. split; [exact G1|]. split; [unfold PosixEnvSpec.writes; rewrite Qo; exact G2|]. split; [exact G3|]. split; [exact G4|]. split; [|exact G6].
        exists x. rewrite D1. split; [|auto]. rewrite (Fd h (ObW f) (f_fd f) G1); [exact Hx|]. cbn [obj_fd]. destruct (Z.leb_spec 0 (f_fd f)); [reflexivity|lia].
      + destruct (i_fresh _ _ _ I i Hge) as (F1 & F2 & F3 & F4). rewrite F3, F1, F2, (Dn i) by lia. split; [cbn; lia|reflexivity].
    - intros i Hi C. apply Qcl in C. rewrite Qs. destruct (Nat.lt_ge_cases i (v_next v)) as [Hlt|Hge].
      + eapply ext_trans; [apply (i_sync _ _ _ I i Hlt C)|apply Dt; exact Hlt].
      + destruct (i_fresh _ _ _ I i Hge) as (_ & _ & _ & F4). rewrite F4. apply ext_nil.
    - intros p E. inversion E as [? ? ? ? ? ? ? Ec|]; subst.
      + unfold quiet in Q. rewrite Ec in Q. contradiction.
      + apply Su; [|assumption]. apply (i_entry _ _ _ I). assumption.
  Qed.

  Lemma writer_opened H : forall i h, writer H i = Some h -> writes H h i = true.
  Proof.
    induction H as [|ev H IH]; cbn [PosixEnvSpec.writer]; [discriminate|]. intros i h E.
    assert (Keep : writer H i = Some h -> writes (ev :: H) h i = true).
    { intros E'. apply IH in E'. apply writes_iff in E' as (g & E'). apply writes_iff. exists g. now apply opened_keep. }
    assert (New : forall g, (pe_call ev = PNewWrite g \/ pe_call ev = PNewAppend g) ->
      (if done ev && is_file (bound (ev :: H) g) i then Some (length H) else writer H i) = Some h -> writes (ev :: H) h i = true).
    { intros g Hc E'. destruct (done ev && is_file (bound (ev :: H) g) i) eqn:Ed; [|auto].
      injection E' as <-. apply andb_true_iff in Ed as (Ed & Eb). apply is_file_iff in Eb. apply writes_iff. exists g.
      cbn [PosixEnvSpec.opened]. rewrite Nat.eqb_refl, Ed. destruct Hc as [-> | ->]; cbn [opens]; rewrite Eb; reflexivity. }
    assert (Cl : forall h', (if is_file (writer H i) h' then None else writer H i) = Some h -> writes (ev :: H) h i = true).
    { intros h' E'. destruct (is_file (writer H i) h'); [discriminate|auto]. }
    destruct (pe_call ev) eqn:Ec; eauto.
  Qed.

  (** ** Calls that make an object *)
  Definition new_ok (H : history) (v' : view) (h : nat) (o : pobj) (k : kind) (i : nat) (g : str) : Prop :=
    match o with
    | ObW f => k = KWrite /\ (f_manifest f = true <-> names_manifest g) /\ in_dir g (f_dir f) /\ brep B f [] /\ (0 <= f_fd f)%Z /\ at_end v' (f_fd f) i
    | _ => k <> KWrite /\ obj_ok H v' h o k i g
    end.
  Lemma inv_new H e v ev e' v' o k i g :
    Inv H e v -> done ev = true -> opens (pe_call ev) = Some (k, g) -> bound (ev :: H) g = Some i ->
    p_objs e' = (length H, o) :: p_objs e -> sane v' ->
    (forall p, v_name v' p = bound (ev :: H) p) -> v_next v' = fst (names (ev :: H)) ->
    (forall j, j < v_next v -> if truncates ev H j then v_data v' j = [] else v_data v' j = v_data v j /\ ext (v_safe v j) (v_safe v' j)) ->
    (forall j, v_next v <= j < v_next v' -> v_data v' j = []) ->
    (forall fd, obj_fd o = Some fd -> v_fd v fd = None) -> (forall fd, v_fd v fd <> None -> v_fd v' fd = v_fd v fd) ->
    (forall b, obj_map o = Some b -> v_map v b = None) -> (forall b, v_map v b <> None -> v_map v' b = v_map v b) ->
    new_ok (ev :: H) v' (length H) o k i g ->
    (forall p, v_sure v p = true -> bound (ev :: H) p = bound H p -> v_sure v' p = true) ->
    Inv (ev :: H) e' v'.
  Proof.
    intros I Hd Hop Hb Eo Sn Nm Nx Dt Dn Of Fd Om Mp No Su.
    pose proof (names_mono ev H) as Mono. rewrite <- Nx, <- (i_next _ _ _ I) in Mono.
    assert (Hn : oget (p_objs e) (length H) = None).
    { destruct (oget (p_objs e) (length H)) eqn:E; [|reflexivity]. destruct (proj1 (i_live _ _ _ I (length H))) as (k' & i' & g' & L & _); [congruence|].
      apply opened_lt in L. lia. }
    assert (Oo : opened (ev :: H) (length H) = Some (k, i, g)).
    { cbn [PosixEnvSpec.opened]. rewrite Nat.eqb_refl, Hd, Hop, Hb. reflexivity. }
    assert (Dl : forall h, deleted (ev :: H) h = deleted H h).
    { intros h. cbn [deleted]. destruct (pe_call ev); cbn [opens deletes] in Hop |- *; try discriminate; reflexivity. }
    assert (Hi : i < v_next v').
    { destruct Sn as (A1 & _). apply (A1 g). rewrite Nm. exact Hb. }
    assert (Tr : forall j, truncates ev H j = true -> j = i /\ k = KWrite /\ exists g', pe_call ev = PNewWrite g').
    { intros j T. unfold PosixEnvSpec.truncates in T. destruct (pe_call ev) eqn:Ec; try discriminate. cbn [opens] in Hop. injection Hop as <- <-.
      rewrite Hd in T. cbn [andb] in T. apply is_file_iff in T. rewrite Hb in T. injection T as ->. eauto. }
    assert (Wr : forall j, writer (ev :: H) j = if (match k with KWrite => true | _ => false end) && (j =? i) then Some (length H) else writer H j).
    { intros j. cbn [PosixEnvSpec.writer]. destruct (pe_call ev) eqn:Ec; cbn [opens] in Hop; try discriminate; injection Hop as <- <-; cbn [andb]; auto;
        rewrite Hd, Hb; cbn [andb is_file]; rewrite (Nat.eqb_sym i j); reflexivity. }
    assert (Co : forall j, contents (ev :: H) j = if truncates ev H j then [] else contents H j).
    { intros j. cbn [PosixEnvSpec.contents]. destruct (truncates ev H j); [reflexivity|]. destruct (pe_call ev); cbn [opens] in Hop; try discriminate; reflexivity. }
    assert (Fl : forall j, flushed (ev :: H) j = if truncates ev H j then 0 else flushed H j).
    { intros j. cbn [PosixEnvSpec.flushed]. destruct (truncates ev H j); [reflexivity|]. destruct (pe_call ev); cbn [opens] in Hop; try discriminate; reflexivity. }
    assert (Sy : forall j, synced_bytes (ev :: H) j = if truncates ev H j then [] else synced_bytes H j).
    { intros j. cbn [PosixEnvSpec.synced_bytes]. destruct (truncates ev H j); [reflexivity|]. destruct (pe_call ev); cbn [opens] in Hop; try discriminate; reflexivity. }
    assert (Cl : forall j, clean (ev :: H) j -> clean H j /\ (k = KWrite -> j = i -> writer H j = None)).
    { intros j C. split; [apply C|]. destruct C as (_ & C). intros -> ->.
      destruct (pe_call ev); cbn [opens] in Hop; try discriminate; injection Hop as <-; apply C; auto. }
    assert (Ob : forall h x, oget (p_objs e') h = Some x -> (h = length H /\ x = o) \/ (h <> length H /\ oget (p_objs e) h = Some x)).
    { intros h x E. rewrite Eo in E. cbn [oget] in E. destruct (Nat.eqb_spec (length H) h) as [<-|Hne]; [left; split; congruence|right; split; congruence]. }
    constructor; auto.
    - pose proof (i_old _ _ _ I). lia.
    - intros h k' j g' E. destruct (Nat.eq_dec h (length H)) as [->|Hne]; [rewrite Oo in E; injection E as <- <- <-; exact Hi|].
      rewrite opened_old in E by exact Hne. apply (i_lt _ _ _ I) in E. lia.
    - intros h E. rewrite Dl in E. apply (i_del _ _ _ I) in E. cbn [length]. lia.
    - intros h. unfold PosixEnvSpec.live. rewrite Dl. destruct (Nat.eq_dec h (length H)) as [->|Hne].
      + rewrite Eo. cbn [oget]. rewrite Nat.eqb_refl. split; [|congruence]. intros _. exists k, i, g. split; [exact Oo|].
        destruct (deleted H (length H)) eqn:E; [|reflexivity]. apply (i_del _ _ _ I) in E. lia.
      + rewrite opened_old by exact Hne. rewrite Eo. cbn [oget]. destruct (Nat.eqb_spec (length H) h); [congruence|]. apply (i_live _ _ _ I).
    - intros h x k' j g' E1 E2. destruct (Ob _ _ E1) as [(-> & ->)|(Hne & E1')].
      + rewrite Oo in E2. injection E2 as <- <- <-. unfold new_ok in No. destruct o as [f|f|r]; try apply No.
        destruct No as (N1 & N2 & N3 & N4 & N5 & N6). cbn [obj_ok]. split; [exact N1|]. split; [exact N2|]. split; [exact N3|].
        split; [exists []; exact N4|]. right. split; [exact N5|]. split; [destruct N6 as (x & X1 & X2 & _); exists x; auto|].
        intros _. rewrite Wr, N1, Nat.eqb_refl. reflexivity.
      + rewrite opened_old in E2 by exact Hne. pose proof (i_obj _ _ _ I _ _ _ _ _ E1' E2) as X. pose proof (i_lt _ _ _ I _ _ _ _ E2) as Hj.
        pose proof (opened_lt _ _ _ E2) as Hh.
        destruct x as [f|f|[fd' h'|h'|b n h']]; cbn [obj_ok] in X |- *.
        * destruct X as (X1 & X2 & X3 & X4 & X5). split; [exact X1|]. split; [exact X2|]. split; [exact X3|]. split; [exact X4|].
          destruct X5 as [X5|(X5 & (x & Hx & Hxi) & X7)]; [left; exact X5|right]. split; [exact X5|]. split.
          -- exists x. split; [|exact Hxi]. rewrite Fd; [exact Hx|congruence].
          -- intros C. destruct (Cl j C) as (C1 & C2). rewrite Wr. destruct k; cbn [andb]; auto.
             destruct (Nat.eqb_spec j i) as [->|]; auto. rewrite C2 in X7 by auto. specialize (X7 C1). discriminate.
        * destruct X as (X1 & X2 & X3). split; [exact X1|]. split; [exact X2|]. rewrite Fd by (rewrite X3; discriminate). rewrite X3. f_equal. f_equal.
          cbn [pos]. destruct (Nat.eqb_spec h (length H)); [lia|]. destruct (pe_call ev); cbn [opens] in Hop; try discriminate; reflexivity.
        * destruct X as (X1 & X2 & X3 & (x & Hx & Hxi)). split; [exact X1|]. split; [exact X2|]. split; [exact X3|]. exists x. split; [|exact Hxi].
          rewrite Fd; [exact Hx|congruence].
        * exact X.
        * destruct X as (X1 & X2 & X3 & X4). split; [exact X1|]. split; [exact X2|]. rewrite Mp by congruence. split; [exact X3|].
          intros T. cbn [PosixEnvSpec.truncated] in T. destruct (Nat.eqb_spec h (length H)); [lia|]. rewrite E2 in T. apply orb_false_iff in T as (T1 & T2).
          specialize (Dt j Hj). rewrite T2 in Dt. destruct Dt as (-> & _). auto.
    - intros h1 h2 o1 o2 fd E1 E2 F1 F2. destruct (Ob _ _ E1) as [(-> & ->)|(N1 & E1')]; destruct (Ob _ _ E2) as [(-> & ->)|(N2 & E2')]; auto.
      + exfalso. apply (fd_open _ _ _ _ _ _ I E2' F2). auto.
      + exfalso. apply (fd_open _ _ _ _ _ _ I E1' F1). auto.
      + eapply (i_fd _ _ _ I); eauto.
    - intros h1 h2 o1 o2 fd E1 E2 F1 F2. destruct (Ob _ _ E1) as [(-> & ->)|(N1 & E1')]; destruct (Ob _ _ E2) as [(-> & ->)|(N2 & E2')]; auto.
      + exfalso. apply (map_open _ _ _ _ _ _ I E2' F2). auto.
      + exfalso. apply (map_open _ _ _ _ _ _ I E1' F1). auto.
      + eapply (i_map _ _ _ I); eauto.
    - intros j Hj. rewrite Co, Fl, Sy, Wr. destruct (i_fresh _ _ _ I j) as (F1 & F2 & F3 & F4); [lia|]. rewrite F1, F2, F3, F4.
      destruct (Nat.eqb_spec j i); [lia|]. rewrite andb_false_r. destruct (truncates ev H j); auto.
    - intros j Hj C. destruct (Cl j C) as (C1 & C2). unfold file_ok. rewrite Co, Fl, Wr.
      assert (Base : (if truncates ev H j then 0 else flushed H j) <= length (v_data v' j) /\
                     (writer H j = None -> (if truncates ev H j then [] else contents H j) = v_data v' j)).
      { destruct (Nat.lt_ge_cases j (v_next v)) as [Hlt|Hge].
        - specialize (Dt j Hlt). destruct (truncates ev H j); [rewrite Dt; auto|]. destruct Dt as (-> & _).
          destruct (i_file _ _ _ I j Hlt C1) as (G1 & G2). split; [exact G1|]. intros E. rewrite E in G2. exact G2.
        - destruct (i_fresh _ _ _ I j Hge) as (F1 & F2 & F3 & F4). rewrite F1, F2, (Dn j) by lia. destruct (truncates ev H j); auto. }
      destruct Base as (B1 & B2). split; [exact B1|].
      destruct k; cbn [andb]; [| |destruct (Nat.eqb_spec j i) as [->|Hji]].
      3:{ unfold new_ok in No. destruct o as [f|f|r]; [|destruct No; congruence|destruct No; congruence].
          destruct No as (N1 & N2 & N3 & N4 & N5 & N6). exists f, []. rewrite Eo. cbn [oget]. rewrite Nat.eqb_refl. split; [reflexivity|].
          split; [apply writes_iff; exists g; exact Oo|]. split; [exact N5|]. split; [exact N4|]. split; [exact N6|]. rewrite app_nil_r. auto. }
      all: destruct (writer H j) as [h|] eqn:Ew; [|auto];
        destruct (Nat.lt_ge_cases j (v_next v)) as [Hlt|Hge]; [|destruct (i_fresh _ _ _ I j Hge) as (_ & _ & F3 & _); congruence];
        assert (Tf : truncates ev H j = false) by (destruct (truncates ev H j) eqn:T; [destruct (Tr j T) as (-> & Hk & _); try discriminate; congruence|reflexivity]);
        specialize (Dt j Hlt); rewrite Tf in *; destruct Dt as (D1 & D2);
        destruct (i_file _ _ _ I j Hlt C1) as (G1 & G2); rewrite Ew in G2;
        destruct G2 as (f & b & G2 & G3 & G4 & G5 & (x & Hx & Hxi & He) & G7);
        (exists f, b; rewrite Eo; cbn [oget]; destruct (Nat.eqb_spec (length H) h) as [<-|Hne]; [congruence|];
         split; [exact G2|]; split; [apply writes_iff in G3 as (g' & G3); apply writes_iff; exists g'; now apply opened_keep|];
         split; [exact G4|]; split; [exact G5|]; split; [exists x; rewrite D1, Fd; [auto|congruence]|rewrite D1; exact G7]).
    - intros j Hj C. destruct (Cl j C) as (C1 & C2). rewrite Sy. destruct (Nat.lt_ge_cases j (v_next v)) as [Hlt|Hge].
      + specialize (Dt j Hlt). destruct (truncates ev H j); [apply ext_nil|]. eapply ext_trans; [apply (i_sync _ _ _ I j Hlt C1)|apply Dt].
      + destruct (i_fresh _ _ _ I j Hge) as (_ & _ & _ & F4). rewrite F4. destruct (truncates ev H j); apply ext_nil.
    - intros p E. inversion E as [? ? ? ? ? ? ? Ec|]; subst.
      + rewrite Ec in Hop. discriminate.
      + apply Su; [|assumption]. apply (i_entry _ _ _ I). assumption.
  Qed.

  (** ** Calls on a writer *)
  Definition wcall (x : pcall) : option (nat * wop) :=
    match x with
    | PWAppend h d => Some (h, OpAppend d) | PWClose h => Some (h, OpClose)
    | PWFlush h => Some (h, OpFlush) | PWSync h => Some (h, OpSync)
    | _ => None
    end.
  Definition ok_st (st : status) : bool := match st with SOk => true | _ => false end.
  Definition flush_op (o : wop) : bool := match o with OpAppend _ => false | _ => true end.

  Lemma wcall_spec x h o st H : wcall x = Some (h, o) -> let ev := mk_pev x (RStat st) in
    (forall h', opened (ev :: H) h' = opened H h') /\ (forall h', deleted (ev :: H) h' = deleted H h') /\
    names (ev :: H) = names H /\ (forall p, bound (ev :: H) p = bound H p) /\
    (forall i, truncates ev H i = false) /\
    (forall i, contents (ev :: H) i = contents H i ++ (if ok_st st && writes H h i then op_data o else [])) /\
    (forall i, flushed (ev :: H) i = if ok_st st && writes H h i && flush_op o then length (contents H i) else flushed H i) /\
    (forall i, synced_bytes (ev :: H) i = if ok_st st && writes H h i && (match o with OpSync => true | _ => false end) then contents H i else synced_bytes H i) /\
    (forall i, writer (ev :: H) i = if is_close o && is_file (writer H i) h then None else writer H i) /\
    (forall i, clean (ev :: H) i -> clean H i /\ (writes H h i = true -> writer H i = Some h /\ st = SOk)) /\
    (forall h', opened H h' <> None -> truncated (ev :: H) h' = truncated H h') /\
    (forall h', opened H h' <> None -> pos (ev :: H) h' = pos H h').
  Proof.
    intros Hc ev.
    assert (T : forall i, truncates ev H i = false).
    { intros i. unfold PosixEnvSpec.truncates, ev. cbn [pe_call]. destruct x; try discriminate; reflexivity. }
    assert (O : forall h', opened (ev :: H) h' = opened H h').
    { intros h'. cbn [PosixEnvSpec.opened]. destruct (Nat.eqb_spec h' (length H)) as [->|]; [|reflexivity].
      destruct (opened H (length H)) eqn:E; [apply opened_lt in E; lia|]. unfold ev. cbn [pe_call].
      destruct (done _); [|reflexivity]. destruct x; cbn [opens wcall] in *; try discriminate; reflexivity. }
    assert (Hd : done ev = ok_st st) by (destruct st; reflexivity).
    assert (Nm : names (ev :: H) = names H).
    { cbn [PosixEnvSpec.names]. destruct (names H) as [k nm]. destruct (negb (done ev)); [reflexivity|]. unfold ev. cbn [pe_call].
      destruct x; cbn [wcall] in Hc; try discriminate; reflexivity. }
    split; [exact O|].
    split. { intros h'. cbn [deleted]. unfold ev. cbn [pe_call]. destruct x; cbn [deletes wcall] in *; try discriminate; reflexivity. }
    split; [exact Nm|]. split; [intros p; unfold PosixEnvSpec.bound; now rewrite Nm|]. split; [exact T|].
    split. { intros i. cbn [PosixEnvSpec.contents]. rewrite T, Hd. unfold ev. cbn [pe_call]. destruct x; cbn [wcall] in Hc; try discriminate; injection Hc as <- <-; cbn [op_data];
      destruct (ok_st st && _); cbn [app]; try rewrite app_nil_r; reflexivity. }
    split. { intros i. cbn [PosixEnvSpec.flushed]. rewrite T, Hd. unfold ev. cbn [pe_call]. destruct x; cbn [wcall] in Hc; try discriminate; injection Hc as <- <-; cbn [flush_op];
      destruct (ok_st st && _); cbn [andb]; reflexivity. }
    split. { intros i. cbn [PosixEnvSpec.synced_bytes]. rewrite T, Hd. unfold ev. cbn [pe_call]. destruct x; cbn [wcall] in Hc; try discriminate; injection Hc as <- <-;
      destruct (ok_st st && _); cbn [andb]; reflexivity. }
    split. { intros i. cbn [PosixEnvSpec.writer]. unfold ev. cbn [pe_call]. destruct x; cbn [wcall] in Hc; try discriminate; injection Hc as <- <-; cbn [is_close andb]; reflexivity. }
    split. { intros i (C1 & C2). split; [exact C1|]. unfold ev in C2. cbn [pe_call] in C2. intros Hw.
      assert (C3 : writer H i = Some h /\ done ev = true) by (destruct x; cbn [wcall] in Hc; try discriminate; injection Hc as <- <-; apply C2; exact Hw).
      destruct C3 as (C3 & C4). split; [exact C3|]. rewrite Hd in C4. destruct st; [reflexivity|discriminate]. }
    split. { intros h' Hh. cbn [PosixEnvSpec.truncated]. destruct (opened H h') as [[[k i] g]|] eqn:E; [|congruence].
      pose proof (opened_lt _ _ _ E). destruct (Nat.eqb_spec h' (length H)); [lia|]. rewrite T. apply orb_false_r. }
    intros h' Hh. destruct (opened H h') eqn:E; [|congruence]. pose proof (opened_lt _ _ _ E). cbn [pos]. destruct (Nat.eqb_spec h' (length H)); [lia|]. unfold ev. cbn [pe_call pe_res]. destruct x; cbn [wcall] in Hc; try discriminate; reflexivity.
  Qed.

  Lemma brep_fun f b b' : brep B f b -> brep B f b' -> b = b'.
  Proof.
    intros (_ & P1 & _ & F1) (_ & P2 & _ & F2). rewrite <- P1 in F1. rewrite <- P2 in F2. rewrite F1 in F2.
    revert F2. generalize b b'. clear. induction b as [|x b IH]; intros [|y b'] E; try discriminate; [reflexivity|].
    cbn in E. injection E as -> E. f_equal. auto.
  Qed.
  Lemma in_dir_parent p d : in_dir p d -> d <> [] -> parent p = d.
  Proof.
    intros [(Hn & ->)|(b & Hb & ->)] Hd; unfold parent.
    - apply rfind_none in Hn. now rewrite Hn.
    - rewrite (rfind_at _ _ _ Hb). destruct (length d) eqn:El; [destruct d; [congruence|discriminate]|]. rewrite <- El.
      rewrite firstn_app, Nat.sub_diag, firstn_all. cbn [firstn]. apply app_nil_r.
  Qed.
  Lemma ok_st_true st : ok_st st = true <-> st = SOk.
  Proof. destruct st; split; intros; congruence || discriminate || reflexivity. Qed.

  Lemma inv_write H e v x h o f b w' f' st l b' v' e' :
    Inv H e v -> wcall x = Some (h, o) -> oget (p_objs e) h = Some (ObW f) -> brep B f b ->
    op_ok B strerror S (p_w e) f b o w' f' st l b' -> ksteps v l v' ->
    p_objs e' = oset (p_objs e) h (ObW f') -> Inv (mk_pev x (RStat st) :: H) e' v'.
  Proof.
    intros I Hc Ho Hb Q K Eo. set (ev := mk_pev x (RStat st)).
    destruct (wcall_spec x h o st H Hc) as (So & Sd & Sn & Sb & St & Sc & Sf & Ss & Sw & Scl & Str & Sp). fold ev in So, Sd, Sn, Sb, St, Sc, Sf, Ss, Sw, Scl, Str, Sp.
    pose proof (i_sane _ _ _ I) as Sane. pose proof (ksteps_sane _ _ _ K Sane) as Sane'.
    destruct (obj_open _ _ _ _ _ I Ho) as (k & i & g & (L1 & L2) & Ok). cbn [obj_ok] in Ok. destruct Ok as (-> & Om & Od & _ & Ox).
    pose proof (i_lt _ _ _ I _ _ _ _ L1) as Hi.
    assert (Wi : forall j, writes H h j = (j =? i)) by (intros j; unfold PosixEnvSpec.writes; rewrite L1; apply Nat.eqb_sym).
    pose proof (so_name _ _ _ _ _ _ _ _ _ _ _ _ Q) as (Q1 & Q2 & Q3). pose proof (so_fd _ _ _ _ _ _ _ _ _ _ _ _ Q) as Q4.
    pose proof (so_brep _ _ _ _ _ _ _ _ _ _ _ _ Q) as Q5. pose proof (so_all _ _ _ _ _ _ _ _ _ _ _ _ Q) as Q6.
    assert (Og : forall h', oget (p_objs e') h' = if h =? h' then Some (ObW f') else oget (p_objs e) h').
    { intros h'. rewrite Eo. apply oget_oset. congruence. }
    (* what happens to the files *)
    assert (Fr : wframe (f_fd f) i v v').
    { destruct Ox as [Neg|(Pos & Op & _)].
      - apply same_frame. eapply op_view_dead; eauto.
      - eapply op_view; eauto. }
    assert (Live : clean (ev :: H) i -> (0 <= f_fd f)%Z /\ at_end v (f_fd f) i /\ contents H i = v_data v i ++ b /\ flushed H i <= length (v_data v i) /\ writer H i = Some h /\ st = SOk).
    { intros C. destruct (Scl i C) as (C1 & C2). rewrite Wi, Nat.eqb_refl in C2. destruct (C2 eq_refl) as (C3 & C4).
      destruct (i_file _ _ _ I i Hi C1) as (F1 & F2). rewrite C3 in F2. destruct F2 as (f0 & b0 & G1 & G2 & G3 & G4 & G5 & G6).
      assert (f0 = f) by congruence. subst f0. pose proof (brep_fun _ _ _ G4 Hb). subst b0. auto 7. }
    assert (Hfd : forall h' o' fd, h' <> h -> oget (p_objs e) h' = Some o' -> obj_fd o' = Some fd -> v_fd v' fd = v_fd v fd).
    { intros h' o' fd Hne E1 E2. destruct (Z.eq_dec fd (f_fd f)) as [->|Hx]; [|apply (wf_fd _ _ _ _ Fr); exact Hx].
      destruct Ox as [Neg|(Pos & _)].
      - assert (HS : same_files v v') by (eapply op_view_dead; eauto). apply (sf_fd _ _ HS).
      - exfalso. apply Hne. eapply (i_fd _ _ _ I); [exact E1|exact Ho|exact E2|]. cbn [obj_fd]. destruct (Z.leb_spec 0 (f_fd f)); [reflexivity|lia]. }
    assert (Wne : forall j h', j <> i -> writer H j = Some h' -> h' <> h).
    { intros j h' Hj E ->. apply writer_opened in E. rewrite Wi in E. apply Nat.eqb_eq in E. contradiction. }
    assert (Wk : forall j, j <> i -> writer (ev :: H) j = writer H j).
    { intros j Hj. rewrite Sw. destruct (is_file (writer H j) h) eqn:E; [|now rewrite andb_false_r]. apply is_file_iff in E. exfalso. eapply Wne; eauto. }
    constructor.
    - exact Sane'.
    - intros p. rewrite Sb, (wf_name _ _ _ _ Fr). apply (i_name _ _ _ I).
    - rewrite Sn, (wf_next _ _ _ _ Fr). apply (i_next _ _ _ I).
    - rewrite (wf_next _ _ _ _ Fr). apply (i_old _ _ _ I).
    - intros h' k j g' E. rewrite So in E. rewrite (wf_next _ _ _ _ Fr). eapply (i_lt _ _ _ I); eauto.
    - intros h' E. rewrite Sd in E. apply (i_del _ _ _ I) in E. cbn [length]. lia.
    - intros h'. unfold PosixEnvSpec.live. rewrite So, Sd, Og. destruct (Nat.eqb_spec h h') as [<-|Hne].
      + split; [|congruence]. intros _. exists KWrite, i, g. auto.
      + apply (i_live _ _ _ I).
    - intros h' o' k j g' E1 E2. rewrite Og in E1. rewrite So in E2. destruct (Nat.eqb_spec h h') as [<-|Hne].
      + injection E1 as <-. rewrite L1 in E2. injection E2 as <- <- <-. cbn [obj_ok]. rewrite Q3, Q2, Q4. split; [reflexivity|]. split; [exact Om|]. split; [exact Od|]. split; [eauto|].
        destruct (is_close o) eqn:Ec; [left; lia|]. destruct Ox as [Neg|(Pos & Op & Ow)]; [left; exact Neg|right]. split; [exact Pos|]. split.
        * edestruct op_view as (_ & Z1 & _); eauto.
        * intros C. rewrite Sw. destruct (is_close o); [discriminate|]. cbn [andb]. apply Ow. apply (Scl _ C).
      + pose proof (i_obj _ _ _ I _ _ _ _ _ E1 E2) as X.
        assert (Fo : forall fd, obj_fd o' = Some fd -> v_fd v' fd = v_fd v fd) by (intros fd; eapply Hfd; eauto).
        destruct o' as [f1|f1|[fd' g1|g1|b1 n1 g1]]; cbn [obj_ok obj_fd] in X, Fo |- *.
        * destruct X as (X1 & X2 & X3 & X4 & X5). split; [exact X1|]. split; [exact X2|]. split; [exact X3|]. split; [exact X4|].
          destruct X5 as [X5|(X5 & (y & Hy & Hyi) & X7)]; [left; exact X5|right]. split; [exact X5|]. split.
          -- exists y. split; [|exact Hyi]. rewrite (Fo (f_fd f1)); [exact Hy|]. destruct (Z.leb_spec 0 (f_fd f1)); [reflexivity|lia].
          -- intros C. destruct (Scl j C) as (C1 & C2). specialize (X7 C1). rewrite Sw, X7. cbn [is_file].
             destruct (Nat.eqb_spec h' h); [congruence|]. now rewrite andb_false_r.
        * destruct X as (X1 & X2 & X3). split; [exact X1|]. split; [exact X2|]. rewrite (Fo _ eq_refl), Sp by congruence. exact X3.
        * destruct X as (X1 & X2 & X3 & (y & Hy & Hyi)). split; [exact X1|]. split; [exact X2|]. split; [exact X3|]. exists y. split; [|exact Hyi]. rewrite (Fo _ eq_refl). exact Hy.
        * exact X.
        * destruct X as (X1 & X2 & X3 & X4). split; [exact X1|]. split; [exact X2|]. rewrite (wf_map _ _ _ _ Fr). split; [exact X3|].
          intros T. rewrite Str in T by congruence. specialize (X4 T). destruct (Nat.eq_dec j i) as [->|Hj].
          -- pose proof (wf_len _ _ _ _ Fr). lia.
          -- rewrite (wf_data _ _ _ _ Fr j Hj). exact X4.
    - intros h1 h2 o1 o2 fd E1 E2 F1 F2. rewrite Og in E1, E2.
      assert (Old : forall h' o', (if h =? h' then Some (ObW f') else oget (p_objs e) h') = Some o' -> obj_fd o' = Some fd ->
        exists o'', oget (p_objs e) h' = Some o'' /\ obj_fd o'' = Some fd).
      { intros h' o' E F. destruct (Nat.eqb_spec h h') as [<-|Hne]; [|eauto]. injection E as <-. exists (ObW f). split; [exact Ho|].
        cbn [obj_fd] in F |- *. rewrite Q4 in F. destruct (is_close o); [discriminate|exact F]. }
      destruct (Old _ _ E1 F1) as (p1 & A1 & B1). destruct (Old _ _ E2 F2) as (p2 & A2 & B2). eapply (i_fd _ _ _ I); eauto.
    - intros h1 h2 o1 o2 bb E1 E2 F1 F2. rewrite Og in E1, E2.
      assert (Old : forall h' o', (if h =? h' then Some (ObW f') else oget (p_objs e) h') = Some o' -> obj_map o' = Some bb -> oget (p_objs e) h' = Some o').
      { intros h' o' E F. destruct (Nat.eqb_spec h h') as [<-|Hne]; [|exact E]. injection E as <-. discriminate. }
      eapply (i_map _ _ _ I); eauto.
    - intros j Hj. rewrite (wf_next _ _ _ _ Fr) in Hj. destruct (i_fresh _ _ _ I j Hj) as (F1 & F2 & F3 & F4).
      rewrite Sc, Sf, Ss, Wk by lia. rewrite Wi. destruct (Nat.eqb_spec j i); [lia|]. rewrite andb_false_r. cbn [andb]. rewrite app_nil_r. auto.
    - intros j Hj C. rewrite (wf_next _ _ _ _ Fr) in Hj. unfold file_ok. destruct (Nat.eq_dec j i) as [->|Hne].
      + destruct (Live C) as (A1 & A2 & A3 & A4 & A5 & ->).
        edestruct op_view as (_ & _ & _ & V & _); [exact Q|exact K|exact Sane|destruct A2 as (y & Y1 & Y2 & _); exists y; eauto|].
        destruct (V A2) as (V1 & V2 & V3). destruct (Q6 eq_refl) as (B1 & B2).
        rewrite Sf, Sw, Sc, Wi, Nat.eqb_refl, A5. cbn [ok_st andb is_file]. rewrite Nat.eqb_refl.
        assert (Ctn : contents H i ++ op_data o = v_data v' i ++ b').
        { rewrite A3, V1, <- !app_assoc. f_equal. rewrite B1. reflexivity. }
        split.
        * destruct (flush_op o) eqn:Ef; [|pose proof (wf_len _ _ _ _ Fr); lia].
          assert (b' = []) by (apply B2; destruct o; cbn; auto; discriminate). subst b'. rewrite app_nil_r in Ctn.
          rewrite <- Ctn, app_length. lia.
        * destruct (is_close o) eqn:Ec; cbn [andb].
          -- assert (b' = []) by (apply B2; destruct o; cbn; auto; discriminate). subst b'. rewrite app_nil_r in Ctn. exact Ctn.
          -- exists f', b'. rewrite Og, Nat.eqb_refl, Q4. split; [reflexivity|]. split; [unfold PosixEnvSpec.writes; rewrite So, L1; apply Nat.eqb_refl|].
             split; [exact A1|]. split; [exact Q5|]. split; [auto|exact Ctn].
      + destruct (Scl j C) as (C1 & _). destruct (i_file _ _ _ I j Hj C1) as (F1 & F2).
        rewrite Sf, Wk, Sc, Wi by exact Hne. apply Nat.eqb_neq in Hne as Hne'. rewrite Hne', andb_false_r. cbn [andb]. rewrite app_nil_r, (wf_data _ _ _ _ Fr j Hne).
        split; [exact F1|]. destruct (writer H j) as [h'|] eqn:Ew; [|exact F2].
        destruct F2 as (f1 & b1 & G1 & G2 & G3 & G4 & (y & Hy & Hyi & He) & G6).
        pose proof (Wne _ _ Hne Ew) as Hh. exists f1, b1. rewrite Og. destruct (Nat.eqb_spec h h'); [congruence|]. split; [exact G1|].
        split; [unfold PosixEnvSpec.writes; rewrite So; exact G2|]. split; [exact G3|]. split; [exact G4|]. split; [|exact G6].
        exists y. rewrite (wf_data _ _ _ _ Fr j Hne). split; [|auto]. rewrite (Hfd h' (ObW f1) (f_fd f1)); auto. cbn [obj_fd]. destruct (Z.leb_spec 0 (f_fd f1)); [reflexivity|lia].
    - intros j Hj C. rewrite (wf_next _ _ _ _ Fr) in Hj. destruct (Scl j C) as (C1 & _). rewrite Ss, Wi. destruct (Nat.eqb_spec j i) as [->|Hne].
      + destruct (Live C) as (A1 & A2 & A3 & A4 & A5 & ->).
        edestruct op_view as (_ & _ & _ & V & V4); [exact Q|exact K|exact Sane|destruct A2 as (y & Y1 & Y2 & _); exists y; eauto|].
        destruct (V A2) as (V1 & V2 & V3). destruct (Q6 eq_refl) as (B1 & B2). cbn [ok_st andb].
        assert (Keep : ext (synced_bytes H i) (v_safe v' i)) by (eapply ext_trans; [apply (i_sync _ _ _ I i Hi C1)|exact V2]).
        destruct o; auto. destruct (V4 eq_refl eq_refl) as (-> & _). exists []. rewrite app_nil_r. rewrite V1, A3. f_equal.
        rewrite (B2 Logic.I) in B1. cbn [op_data] in B1. rewrite !app_nil_r in B1. exact B1.
      + rewrite andb_false_r. cbn [andb]. eapply ext_trans; [apply (i_sync _ _ _ I j Hj C1)|apply (wf_safe _ _ _ _ Fr j Hne)].
    - intros p E. inversion E as [ev0 H0 h0 i0 g0 d0 p0 E1 E2 E3 E4 E5 E6|ev0 H0 p0 E1 E2]; subst.
      + unfold ev in E1, E2. cbn [pe_call] in E1. rewrite E1 in Hc. cbn [wcall] in Hc. injection Hc as <- <-.
        assert (st = SOk) by (destruct st; [reflexivity|discriminate]). subst st.
        destruct Ox as [Neg|(Pos & Op & _)].
        * exfalso. eapply op_view_dead in Q; eauto. destruct Q as (_ & Q). now apply Q.
        * edestruct op_view as (_ & _ & _ & _ & V4); [exact Q|exact K|exact Sane|exact Op|]. destruct (V4 eq_refl eq_refl) as (_ & V5).
          rewrite L1 in E3. injection E3 as <- <-. destruct V5 as (j & Hj & V5); [now apply Om|].
          pose proof (in_dir_fun _ _ _ Od E5) as Ed. subst d0. apply V5. rewrite (in_dir_parent p (f_dir f) E6); [exact Hj|].
          intros En. rewrite En in Hj. destruct Sane as (_ & _ & _ & A4 & _). congruence.
      + apply (wf_sure _ _ _ _ Fr). apply (i_entry _ _ _ I). assumption.
  Qed.

  (** ** Deleting an object *)
  Lemma delete_spec h H : let ev := mk_pev (PDelete h) (RStat SOk) in
    (forall h', opened (ev :: H) h' = opened H h') /\ (forall h', deleted (ev :: H) h' = (h =? h') || deleted H h') /\
    names (ev :: H) = names H /\ (forall p, bound (ev :: H) p = bound H p) /\
    (forall i, truncates ev H i = false) /\ (forall i, contents (ev :: H) i = contents H i) /\ (forall i, flushed (ev :: H) i = flushed H i) /\
    (forall i, synced_bytes (ev :: H) i = synced_bytes H i) /\
    (forall i, writer (ev :: H) i = if is_file (writer H i) h then None else writer H i) /\
    (forall i, clean (ev :: H) i -> clean H i /\ (writer H i = Some h -> flushed H i = length (contents H i))) /\
    (forall h', opened H h' <> None -> truncated (ev :: H) h' = truncated H h') /\
    (forall h', opened H h' <> None -> pos (ev :: H) h' = pos H h').
  Proof.
    intros ev.
    assert (O : forall h', opened (ev :: H) h' = opened H h').
    { intros h'. cbn [PosixEnvSpec.opened]. destruct (Nat.eqb_spec h' (length H)) as [->|]; [|reflexivity].
      destruct (opened H (length H)) eqn:E; [apply opened_lt in E; lia|]. reflexivity. }
    assert (Nm : names (ev :: H) = names H).
    { cbn [PosixEnvSpec.names]. destruct (names H) as [k nm]. reflexivity. }
    split; [exact O|]. split; [reflexivity|]. split; [exact Nm|]. split; [intros p; unfold PosixEnvSpec.bound; now rewrite Nm|].
    split; [reflexivity|]. split; [reflexivity|]. split; [reflexivity|]. split; [reflexivity|]. split; [reflexivity|]. split; [intros i C; exact C|].
    split; intros h' Hh; cbn [PosixEnvSpec.truncated pos]; destruct (opened H h') as [[[k i] g]|] eqn:E; try congruence;
    pose proof (opened_lt _ _ _ E); (destruct (Nat.eqb_spec h' (length H)); [lia|]); [apply orb_false_r|reflexivity].
  Qed.

  Lemma inv_delete H e v h o e' v' :
    Inv H e v -> oget (p_objs e) h = Some o -> p_objs e' = odel (p_objs e) h -> sane v' ->
    (forall p, v_name v' p = v_name v p) -> v_next v' = v_next v ->
    (forall fd, obj_fd o <> Some fd -> v_fd v' fd = v_fd v fd) -> (forall b, obj_map o <> Some b -> v_map v' b = v_map v b) ->
    (forall j, length (v_data v j) <= length (v_data v' j)) ->
    (forall j, clean (mk_pev (PDelete h) (RStat SOk) :: H) j -> v_data v' j = v_data v j /\ ext (v_safe v j) (v_safe v' j)) ->
    (forall p, v_sure v p = true -> v_sure v' p = true) ->
    Inv (mk_pev (PDelete h) (RStat SOk) :: H) e' v'.
  Proof.
    intros I Ho Eo Sane' Vn Vx Vf Vm Vl Vd Vs. set (ev := mk_pev (PDelete h) (RStat SOk)).
    destruct (delete_spec h H) as (So & Sd & Sn & Sb & St & Sc & Sf & Ss & Sw & Scl & Str & Sp). fold ev in So, Sd, Sn, Sb, St, Sc, Sf, Ss, Sw, Scl, Str, Sp, Vd.
    assert (Og : forall h', oget (p_objs e') h' = if h =? h' then None else oget (p_objs e) h') by (intros h'; rewrite Eo; apply oget_odel).
    assert (Og' : forall h' o', oget (p_objs e') h' = Some o' -> h' <> h /\ oget (p_objs e) h' = Some o').
    { intros h' o' E. rewrite Og in E. destruct (Nat.eqb_spec h h'); [discriminate|]. split; congruence. }
    assert (Hfd : forall h' o' fd, h' <> h -> oget (p_objs e) h' = Some o' -> obj_fd o' = Some fd -> v_fd v' fd = v_fd v fd).
    { intros h' o' fd Hne E1 E2. apply Vf. intros E3. apply Hne. eapply (i_fd _ _ _ I); eauto. }
    assert (Hmp : forall h' o' b, h' <> h -> oget (p_objs e) h' = Some o' -> obj_map o' = Some b -> v_map v' b = v_map v b).
    { intros h' o' fd Hne E1 E2. apply Vm. intros E3. apply Hne. eapply (i_map _ _ _ I); eauto. }
    destruct (obj_open _ _ _ _ _ I Ho) as (k0 & i0 & g0 & (L1 & L2) & _).
    constructor.
    - exact Sane'.
    - intros p. rewrite Sb, Vn. apply (i_name _ _ _ I).
    - rewrite Sn, Vx. apply (i_next _ _ _ I).
    - rewrite Vx. apply (i_old _ _ _ I).
    - intros h' k j g' E. rewrite So in E. rewrite Vx. eapply (i_lt _ _ _ I); eauto.
    - intros h' E. rewrite Sd in E. cbn [length]. apply orb_true_iff in E as [E|E].
      + apply Nat.eqb_eq in E. subst h'. apply opened_lt in L1. lia.
      + apply (i_del _ _ _ I) in E. lia.
    - intros h'. unfold PosixEnvSpec.live. rewrite So, Sd, Og. destruct (Nat.eqb_spec h h') as [<-|Hne]; cbn [orb].
      + split; [congruence|]. intros (k & i & g & _ & E). discriminate.
      + apply (i_live _ _ _ I).
    - intros h' o' k j g' E1 E2. apply Og' in E1 as (Hne & E1). rewrite So in E2.
      pose proof (i_obj _ _ _ I _ _ _ _ _ E1 E2) as X.
      assert (Fo : forall fd, obj_fd o' = Some fd -> v_fd v' fd = v_fd v fd) by (intros fd; eapply Hfd; eauto).
      assert (Mo : forall b, obj_map o' = Some b -> v_map v' b = v_map v b) by (intros fd; eapply Hmp; eauto).
      destruct o' as [f1|f1|[fd' g1|g1|b1 n1 g1]]; cbn [obj_ok obj_fd obj_map] in X, Fo, Mo |- *.
      + destruct X as (X1 & X2 & X3 & X4 & X5). split; [exact X1|]. split; [exact X2|]. split; [exact X3|]. split; [exact X4|].
        destruct X5 as [X5|(X5 & (y & Hy & Hyi) & X7)]; [left; exact X5|right]. split; [exact X5|]. split.
        * exists y. split; [|exact Hyi]. rewrite (Fo (f_fd f1)); [exact Hy|]. destruct (Z.leb_spec 0 (f_fd f1)); [reflexivity|lia].
        * intros C. destruct (Scl j C) as (C1 & C2). specialize (X7 C1). rewrite Sw, X7. cbn [is_file].
          destruct (Nat.eqb_spec h' h); [congruence|]. reflexivity.
      + destruct X as (X1 & X2 & X3). split; [exact X1|]. split; [exact X2|]. rewrite (Fo _ eq_refl), Sp by congruence. exact X3.
      + destruct X as (X1 & X2 & X3 & (y & Hy & Hyi)). split; [exact X1|]. split; [exact X2|]. split; [exact X3|]. exists y. split; [|exact Hyi]. rewrite (Fo _ eq_refl). exact Hy.
      + exact X.
      + destruct X as (X1 & X2 & X3 & X4). split; [exact X1|]. split; [exact X2|]. rewrite (Mo _ eq_refl). split; [exact X3|].
        intros T. rewrite Str in T by congruence. specialize (X4 T). specialize (Vl j). lia.
    - intros h1 h2 o1 o2 fd E1 E2. apply Og' in E1 as (_ & E1). apply Og' in E2 as (_ & E2). eapply (i_fd _ _ _ I); eauto.
    - intros h1 h2 o1 o2 fd E1 E2. apply Og' in E1 as (_ & E1). apply Og' in E2 as (_ & E2). eapply (i_map _ _ _ I); eauto.
    - intros j Hj. rewrite Vx in Hj. destruct (i_fresh _ _ _ I j Hj) as (F1 & F2 & F3 & F4). rewrite Sc, Sf, Ss, Sw, F3. auto.
    - intros j Hj C. rewrite Vx in Hj. destruct (Scl j C) as (C1 & C2). destruct (Vd j C) as (D1 & D2).
      destruct (i_file _ _ _ I j Hj C1) as (F1 & F2). unfold file_ok. rewrite Sf, Sc, Sw, D1. split; [exact F1|].
      destruct (writer H j) as [h'|] eqn:Ew; cbn [is_file]; [|exact F2].
      destruct F2 as (f1 & b1 & G1 & G2 & G3 & G4 & (y & Hy & Hyi & He) & G6). destruct (Nat.eqb_spec h' h) as [->|Hne].
      + specialize (C2 eq_refl). rewrite G6, app_length in C2. assert (b1 = []) by (destruct b1; [reflexivity|cbn in C2; lia]). subst b1. rewrite app_nil_r in G6. exact G6.
      + exists f1, b1. rewrite Og. destruct (Nat.eqb_spec h h'); [congruence|]. split; [exact G1|]. split; [unfold PosixEnvSpec.writes; rewrite So; exact G2|].
        split; [exact G3|]. split; [exact G4|]. split; [|exact G6]. exists y. rewrite D1. split; [|auto]. rewrite (Hfd h' (ObW f1) (f_fd f1)); auto. cbn [obj_fd]. destruct (Z.leb_spec 0 (f_fd f1)); [reflexivity|lia].
    - intros j Hj C. rewrite Vx in Hj. destruct (Scl j C) as (C1 & C2). destruct (Vd j C) as (D1 & D2). rewrite Ss.
      eapply ext_trans; [apply (i_sync _ _ _ I j Hj C1)|exact D2].
    - intros p E. inversion E as [ev0 H0 h0 i1 g1 d0 p0 E1|ev0 H0 p0 E1 E2]; subst; [discriminate|]. apply Vs, (i_entry _ _ _ I). assumption.
  Qed.

  (** *** The destructor of a writer *)
  Lemma inv_delete_w H e v h f fuel w' lim l v' :
    Inv H e v -> oget (p_objs e) h = Some (ObW f) -> destroy strerror S os fuel (p_w e) f = Ret w' ->
    w_log w' = w_log (p_w e) ++ l -> ksteps v l v' ->
    Inv (mk_pev (PDelete h) (RStat SOk) :: H) (mk_penv w' lim (odel (p_objs e) h)) v'.
  Proof.
    intros I Ho Ed El K. pose proof (i_sane _ _ _ I) as Sane. pose proof (ksteps_sane _ _ _ K Sane) as Sane'.
    destruct (obj_open _ _ _ _ _ I Ho) as (k & i & g & (L1 & L2) & Ok). cbn [obj_ok] in Ok. destruct Ok as (-> & Om & Od & (b & Hb) & Ox).
    pose proof (i_lt _ _ _ I _ _ _ _ L1) as Hi.
    unfold destroy in Ed. destruct (Z.leb_spec 0 (f_fd f)) as [Hf|Hf].
    - destruct Ox as [Neg|(Pos & Op & Ow)]; [lia|].
      destruct (close_ok B strerror S os OK fuel (p_w e) f b _ Hb eq_refl) as [E|(w1 & f1 & st & l1 & b1 & E & Q)]; rewrite E in Ed; [discriminate|].
      cbn [bind] in Ed. injection Ed as <-. pose proof (so_log _ _ _ _ _ _ _ _ _ _ _ _ Q) as L. rewrite El in L. apply app_inv_head in L. subst l1.
      destruct (op_view _ _ _ _ _ _ _ _ _ _ _ _ _ _ _ Q K Sane Op) as (Fr & _ & V2 & V3 & _).
      apply (inv_delete H e v h (ObW f)); auto.
      + apply (wf_name _ _ _ _ Fr).
      + apply (wf_next _ _ _ _ Fr).
      + intros fd Hne. apply (wf_fd _ _ _ _ Fr). intros ->. apply Hne. cbn [obj_fd]. destruct (Z.leb_spec 0 (f_fd f)); [reflexivity|lia].
      + intros bb _. apply (wf_map _ _ _ _ Fr).
      + intros j. destruct (Nat.eq_dec j i) as [->|Hj]; [apply (wf_len _ _ _ _ Fr)|rewrite (wf_data _ _ _ _ Fr j Hj); lia].
      + intros j C. destruct (Nat.eq_dec j i) as [->|Hj]; [|split; [apply (wf_data _ _ _ _ Fr j Hj)|apply (wf_safe _ _ _ _ Fr j Hj)]].
        destruct (delete_spec h H) as (_ & _ & _ & _ & _ & _ & _ & _ & _ & Scl & _). destruct (Scl i C) as (C1 & C2).
        specialize (Ow C1). specialize (C2 Ow). destruct (i_file _ _ _ I i Hi C1) as (F1 & F2). rewrite Ow in F2.
        destruct F2 as (f0 & b0 & G1 & G2 & G3 & G4 & G5 & G6). assert (f0 = f) by congruence. subst f0. pose proof (brep_fun _ _ _ G4 Hb). subst b0.
        rewrite G6, app_length in C2. assert (b = []) by (destruct b; [reflexivity|cbn in C2; lia]). subst b.
        destruct (V3 G5) as (V4 & V5 & _). split; [|exact V5]. rewrite V4.
        pose proof (so_sub _ _ _ _ _ _ _ _ _ _ _ _ Q) as Sb. cbn [app op_data] in Sb. inversion Sb as [Sb1| |]. 
        symmetry in Sb1. apply app_eq_nil in Sb1 as (-> & _). apply app_nil_r.
      + apply (wf_sure _ _ _ _ Fr).
    - injection Ed as <-. rewrite <- (app_nil_r (w_log (p_w e))) in El at 1. apply app_inv_head in El. subst l. apply ksteps_nil in K. subst v'.
      apply (inv_delete H e v h (ObW f)); auto. intros j _. split; [reflexivity|apply ext_refl].
  Qed.
End Env.
