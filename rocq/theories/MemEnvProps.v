(** MemEnvProps.v -- property theorems C43 - C51 (the in-memory environment,
    one caller at a time).  They range over every allocator returning fresh
    non-null addresses, builds with and without assertions, and every history
    of calls keeping the rules [legal] of MemEnvSpec.v. *)
From Coq Require Import List Arith NArith ZArith Lia Bool Sorting.Sorted.
From Verif Require Import Outcome Heap Status MemEnv MemEnvSpec MemEnvMem MemEnvMap MemEnvProofs.
Import ListNotations.
Local Open Scope outcome_scope.

(** [H] is a legal history on a new in-memory environment, [e] the state after it. *)
Definition runs (alc alb : allocator) (dbg : bool) (H : history) (e : env) : Prop :=
  allocator_ok alc /\ allocator_ok alb /\ reach alc alb dbg H e.

(** Every legal call returns (no undefined behaviour, no failed assertion, no
    endless loop) and leads to a state from which this holds again. *)
Theorem C44_every_legal_call_returns :
  forall alc alb dbg H e x, runs alc alb dbg H e -> legal H x ->
    exists e' ev, exec alc alb dbg H e x = Ret (e', ev) /\ ev_call ev = x /\ runs alc alb dbg (ev :: H) e'.
Proof.
  intros alc alb dbg H e x (A1 & A2 & R) L. destruct (reach_step alc alb dbg A1 A2 H e x R L) as (e' & r & E & _ & R').
  exists e', (mk_event x r). split; [exact E|]. split; [reflexivity|]. split; [exact A1|]. split; [exact A2|exact R'].
Qed.
Print Assumptions C44_every_legal_call_returns.

(** What one call returns, from a state reached by [H]. *)
Definition returns (alc alb : allocator) (dbg : bool) (H : history) (e : env) (x : call) (r : result) : Prop :=
  exists e', exec alc alb dbg H e x = Ret (e', mk_event x r).

(** C43 *)
Theorem C43_random_read :
  forall alc alb dbg H e h i off n, runs alc alb dbg H e -> live H h KRand i -> (off < 2 ^ 64)%N -> (n < 2 ^ 64)%N ->
    returns alc alb dbg H e (RRead h off n)
      (if (fsize H i <? off)%N then RData (SErr IOError msg_offset []) []
       else RData SOk (part (contents H i) off n)).
Proof.
  intros alc alb dbg H e h i off n (A1 & A2 & R) L Ho Hn.
  destruct (reach_step alc alb dbg A1 A2 H e (RRead h off n) R) as (e' & r & E & X & _).
  { cbn [legal]. eauto. }
  exists e'. rewrite E. do 3 f_equal. destruct X as (i' & L' & ->). replace i with i'; [reflexivity|].
  destruct L as (L1 & _), L' as (L2 & _). congruence.
Qed.
Print Assumptions C43_random_read.

Theorem C43_sequential_read :
  forall alc alb dbg H e h i n, runs alc alb dbg H e -> live H h KSeq i -> (n < 2 ^ 64)%N ->
    returns alc alb dbg H e (SRead h n)
      (if (fsize H i <? pos H h)%N then RData (SErr IOError msg_offset []) []
       else RData SOk (part (contents H i) (pos H h) n)).
Proof.
  intros alc alb dbg H e h i n (A1 & A2 & R) L Hn.
  destruct (reach_step alc alb dbg A1 A2 H e (SRead h n) R) as (e' & r & E & X & _).
  { cbn [legal]. eauto. }
  exists e'. rewrite E. do 3 f_equal. destruct X as (i' & L' & ->). replace i with i'; [reflexivity|].
  destruct L as (L1 & _), L' as (L2 & _). congruence.
Qed.
Print Assumptions C43_sequential_read.

(** Everything a sequential reader was given, and whether its file was
    truncated or part of it skipped since it was opened. *)
Fixpoint delivered (H : history) (h : nat) : list N :=
  match H with
  | [] => []
  | ev :: H' => match ev_call ev, ev_res ev with
                | SRead h' _, RData SOk d => if h' =? h then delivered H' h ++ d else delivered H' h
                | _, _ => delivered H' h
                end
  end.
Fixpoint undisturbed (H : history) (h i : nat) : Prop :=
  match H with
  | [] => True
  | ev :: H' =>
      (h < length H' -> match ev_call ev with
                        | NewWrite f => bound H' f <> Some i
                        | SSkip h' _ => h' <> h
                        | _ => True
                        end) /\ undisturbed H' h i
  end.
Lemma stream_fresh alc alb dbg (A1 : allocator_ok alc) (A2 : allocator_ok alb) : forall H e h, reach alc alb dbg H e -> length H <= h -> delivered H h = [] /\ pos H h = 0%N.
Proof.
  intros H e h R. revert h. induction R as [|H e x e' ev R IH L E]; intros h Hh; [auto|].
  destruct (reach_inv alc alb dbg A1 A2 _ _ (reach_call _ _ _ H e x e' ev R L E)) as (I & V). split; [|now apply (hi_fresh _ _ _ _ _ V)].
  cbn [length] in Hh. cbn [delivered]. destruct (IH h ltac:(lia)) as (D & _).
  destruct (reach_step alc alb dbg A1 A2 H e x R L) as (e1 & r & E1 & X & _). rewrite E in E1. inversion E1; subst.
  cbn [ev_call ev_res]. destruct x; auto. destruct r as [| | | |s d]; auto. destruct s; auto.
  destruct (h0 =? h) eqn:Q; auto. apply Nat.eqb_eq in Q. subst h0. destruct L as (_ & i & L1 & _). apply opened_lt in L1. lia.
Qed.
Theorem C43_sequential_stream :
  forall alc alb dbg H e h i, runs alc alb dbg H e -> opened H h = Some (KSeq, i) -> undisturbed H h i ->
    delivered H h = firstn (length (delivered H h)) (contents H i).
Proof.
  intros alc alb dbg H e h i (A1 & A2 & R) O U.
  assert (G : (exists rest, contents H i = delivered H h ++ rest) /\ pos H h = N.of_nat (length (delivered H h))).
  2:{ destruct G as ((rest & G) & _). rewrite G, firstn_app, firstn_all, Nat.sub_diag. cbn. now rewrite app_nil_r. }
  revert O U. induction R as [|H e x e' ev R IH L E]; [discriminate|]. intros O U.
  destruct (Nat.eq_dec h (length H)) as [->|Hh].
  { destruct (stream_fresh alc alb dbg A1 A2 H e (length H) R (le_n _)) as (D & P).
    destruct (reach_step alc alb dbg A1 A2 H e x R L) as (e1 & r & E1 & X & _). rewrite E in E1. inversion E1; subst ev e1.
    cbn [opened] in O. rewrite Nat.eqb_refl in O. cbn [ev_call] in O.
    assert (Q : delivered (mk_event x r :: H) (length H) = [] /\ pos (mk_event x r :: H) (length H) = 0%N).
    { cbn [delivered pos ev_call ev_res]. destruct x; try discriminate; auto. }
    destruct Q as (-> & ->). split; [eexists; reflexivity|reflexivity]. }
  rewrite opened_old in O by auto. destruct U as (U1 & U2). specialize (IH O U2).
  destruct (opened_lt _ _ _ _ O) as (Hlt & _). specialize (U1 Hlt).
  destruct (reach_step alc alb dbg A1 A2 H e x R L) as (e1 & r & E1 & X & _). rewrite E in E1. inversion E1; subst ev e1.
  cbn [ev_call] in U1. destruct IH as ((rest & IH1) & IH2).
  cbn [contents delivered pos ev_call ev_res]. destruct x; try (split; [exists rest; exact IH1|exact IH2]).
  - split; [|exact IH2]. destruct (bound H f) as [j|] eqn:Ej; [|eauto]. destruct (j =? i) eqn:Q; [|eauto].
    apply Nat.eqb_eq in Q. congruence.
  - destruct X as (i' & (L1 & L2) & ->). destruct (fsize H i' <? pos H h0)%N eqn:Q; [eauto|].
    destruct (h0 =? h) eqn:Qh; [|eauto]. apply Nat.eqb_eq in Qh. subst h0. assert (i' = i) by congruence. subst i'.
    rewrite app_length, IH2, Nat2N.inj_add. split; [|reflexivity]. unfold part.
    rewrite Nat2N.id.
    assert (Es : skipn (length (delivered H h)) (contents H i) = rest).
    { rewrite IH1, skipn_app, skipn_all, Nat.sub_diag. reflexivity. }
    rewrite Es. exists (skipn (N.to_nat n) rest). rewrite <- app_assoc, firstn_skipn. exact IH1.
  - destruct X as (i' & _ & ->). destruct (_ <? _)%N; [eauto|]. apply Nat.eqb_neq in U1. rewrite U1. eauto.
  - split; [|exact IH2]. destruct (opened H h0) as [[k j]|]; [|eauto]. destruct (j =? i) eqn:Q; [|eauto].
    rewrite IH1, <- app_assoc. eauto.
Qed.
Print Assumptions C43_sequential_stream.

(** What [contents] means: OK-returning Append adds its data at the end of the
    file of its handle, and to no other file. *)
Theorem C43_append :
  forall alc alb dbg H e h i d, runs alc alb dbg H e -> live H h KWrite i -> (fsize H i + N.of_nat (length d) < 2 ^ 64)%N ->
    exists e' ev, exec alc alb dbg H e (WAppend h d) = Ret (e', ev) /\ ev_res ev = RStat SOk /\
      contents (ev :: H) i = contents H i ++ d /\ (forall j, j <> i -> contents (ev :: H) j = contents H j).
Proof.
  intros alc alb dbg H e h i d (A1 & A2 & R) L Hd.
  destruct (reach_step alc alb dbg A1 A2 H e (WAppend h d) R) as (e' & r & E & X & _).
  { cbn [legal]. eauto. }
  exists e', (mk_event (WAppend h d) r). split; [exact E|]. split; [exact X|]. destruct L as (L1 & _).
  cbn [contents ev_call]. rewrite L1, Nat.eqb_refl. split; [reflexivity|]. intros j Hj. apply not_eq_sym, Nat.eqb_neq in Hj. now rewrite Hj.
Qed.
Print Assumptions C43_append.

(** C44: a call that is not an append to file [i], not a re-creation of [i] and
    not the deletion of the reader -- in particular every RemoveFile, RenameFile
    and deletion of other objects -- does not change what a reader of [i] gets. *)
Definition writes_file (H : history) (x : call) (i : nat) : Prop :=
  match x with
  | NewWrite f => bound H f = Some i
  | WAppend h _ => exists k, opened H h = Some (k, i)
  | _ => False
  end.
Theorem C44_reader_unaffected :
  forall alc alb dbg H e h i off n x e' ev r, runs alc alb dbg H e -> live H h KRand i -> (off < 2 ^ 64)%N -> (n < 2 ^ 64)%N ->
    legal H x -> ~ writes_file H x i -> x <> Delete h -> exec alc alb dbg H e x = Ret (e', ev) ->
    returns alc alb dbg H e (RRead h off n) r ->
    returns alc alb dbg (ev :: H) e' (RRead h off n) r.
Proof.
  intros alc alb dbg H e h i off n x e' ev r Rn L Ho Hn Lx Nw Nd E Rt. pose proof Rn as (A1 & A2 & R).
  assert (Er : r = if (fsize H i <? off)%N then RData (SErr IOError msg_offset []) [] else RData SOk (part (contents H i) off n)).
  { destruct (C43_random_read _ _ _ _ _ _ _ _ _ Rn L Ho Hn) as (e2 & E2). destruct Rt as (e3 & E3). congruence. }
  destruct (reach_step alc alb dbg A1 A2 H e x R Lx) as (e1 & r1 & E1 & X & R1). rewrite E in E1. inversion E1; subst ev e1.
  assert (L' : live (mk_event x r1 :: H) h KRand i).
  { destruct L as (L1 & L2). split.
    - destruct (opened_lt _ _ _ _ L1). rewrite opened_old by lia. exact L1.
    - cbn [deleted ev_call]. rewrite L2. destruct x; auto. destruct (h0 =? h) eqn:Q; auto. apply Nat.eqb_eq in Q. now subst. }
  assert (Ec : contents (mk_event x r1 :: H) i = contents H i).
  { cbn [contents ev_call]. destruct x; auto.
    - destruct (bound H f) as [j|] eqn:Ej; auto. destruct (j =? i) eqn:Q; auto. apply Nat.eqb_eq in Q. subst j. now destruct Nw.
    - destruct (opened H h0) as [[k j]|] eqn:Ej; auto. destruct (j =? i) eqn:Q; auto. apply Nat.eqb_eq in Q. subst j. destruct Nw. now exists k. }
  assert (Rn' : runs alc alb dbg (mk_event x r1 :: H) e') by (split; [exact A1|]; split; [exact A2|exact R1]).
  pose proof (C43_random_read _ _ _ _ _ _ _ off n Rn' L' Ho Hn) as G. unfold fsize in *. rewrite Ec in G. now rewrite Er.
Qed.
Print Assumptions C44_reader_unaffected.

(** Data appended through a writer is seen by every reader of the same file,
    whatever happened to the names in between. *)
Theorem C44_writer_and_reader_share_the_file :
  forall alc alb dbg H e w h i d off n, runs alc alb dbg H e -> live H w KWrite i -> live H h KRand i ->
    (fsize H i + N.of_nat (length d) < 2 ^ 64)%N -> (off < 2 ^ 64)%N -> (n < 2 ^ 64)%N -> (off <= fsize H i)%N ->
    exists e' ev, exec alc alb dbg H e (WAppend w d) = Ret (e', ev) /\ ev_res ev = RStat SOk /\
      returns alc alb dbg (ev :: H) e' (RRead h off n) (RData SOk (part (contents H i ++ d) off n)).
Proof.
  intros alc alb dbg H e w h i d off n Rn Lw L Hd Ho Hn Hle. pose proof Rn as (A1 & A2 & R).
  destruct (reach_step alc alb dbg A1 A2 H e (WAppend w d) R) as (e' & r & E & X & R').
  { cbn [legal]. eauto. }
  exists e', (mk_event (WAppend w d) r). split; [exact E|]. split; [exact X|].
  assert (L' : live (mk_event (WAppend w d) r :: H) h KRand i).
  { destruct L as (L1 & L2). split; [|exact L2]. destruct (opened_lt _ _ _ _ L1). rewrite opened_old by lia. exact L1. }
  assert (Ec : contents (mk_event (WAppend w d) r :: H) i = contents H i ++ d).
  { cbn [contents ev_call]. destruct Lw as (Lw & _). now rewrite Lw, Nat.eqb_refl. }
  assert (Rn' : runs alc alb dbg (mk_event (WAppend w d) r :: H) e') by (split; [exact A1|]; split; [exact A2|exact R']).
  pose proof (C43_random_read _ _ _ _ _ _ _ off n Rn' L' Ho Hn) as G. unfold fsize in *. rewrite Ec in G.
  assert (Q : (N.of_nat (length (contents H i ++ d)) <? off)%N = false) by (apply N.ltb_ge; rewrite app_length; lia).
  rewrite Q in G. exact G.
Qed.
Print Assumptions C44_writer_and_reader_share_the_file.

(** C45 *)
Theorem C45_create_truncates_existing :
  forall alc alb dbg H e f i, runs alc alb dbg H e -> legal H (NewWrite f) -> bound H f = Some i ->
    exists e' ev, exec alc alb dbg H e (NewWrite f) = Ret (e', ev) /\ ev_res ev = RStat SOk /\
      live (ev :: H) (length H) KWrite i /\ bound (ev :: H) f = Some i /\
      returns alc alb dbg (ev :: H) e' (FileSize f) (RSize SOk 0) /\
      (forall h n, live H h KRand i -> (n < 2 ^ 64)%N -> returns alc alb dbg (ev :: H) e' (RRead h 0 n) (RData SOk [])) /\
      (forall h j off n r, live H h KRand j -> j <> i -> (off < 2 ^ 64)%N -> (n < 2 ^ 64)%N ->
         returns alc alb dbg H e (RRead h off n) r -> returns alc alb dbg (ev :: H) e' (RRead h off n) r).
Proof.
  intros alc alb dbg H e f i Rn Lx Bf. pose proof Rn as (A1 & A2 & R).
  destruct (reach_step alc alb dbg A1 A2 H e (NewWrite f) R Lx) as (e' & r & E & X & R').
  set (ev := mk_event (NewWrite f) r) in *.
  assert (Rn' : runs alc alb dbg (ev :: H) e') by (split; [exact A1|]; split; [exact A2|exact R']).
  assert (Bf' : bound (ev :: H) f = Some i) by (unfold ev; cbn [bound ev_call]; now rewrite str_eqb_refl, Bf).
  assert (Ec : contents (ev :: H) i = []) by (unfold ev; cbn [contents ev_call]; now rewrite Bf, Nat.eqb_refl).
  exists e', ev. split; [exact E|]. split; [exact X|]. split; [|split; [exact Bf'|split; [|split]]].
  - destruct (reach_inv alc alb dbg A1 A2 H e R) as (I & V). split.
    + unfold ev. rewrite (opened_some _ _ KWrite f) by reflexivity. fold ev. now rewrite Bf'.
    + unfold ev. cbn [deleted ev_call]. apply (hi_fresh _ _ _ _ _ V). auto.
  - destruct (reach_step alc alb dbg A1 A2 _ e' (FileSize f) R' Logic.I) as (e2 & r2 & E2 & X2 & _).
    exists e2. rewrite E2. cbn [Expect] in X2. rewrite Bf' in X2. unfold fsize in X2. rewrite Ec in X2. now subst r2.
  - intros h n (L1 & L2) Hn. assert (L' : live (ev :: H) h KRand i).
    { split; [|exact L2]. destruct (opened_lt _ _ _ _ L1). rewrite opened_old by lia. exact L1. }
    pose proof (C43_random_read _ _ _ _ _ _ _ 0 n Rn' L' eq_refl Hn) as G. unfold fsize in G. rewrite Ec in G.
    unfold part in G. rewrite skipn_nil, firstn_nil in G. exact G.
  - intros h j off n r2 L Hj Ho Hn Rt. eapply C44_reader_unaffected; eauto.
    + cbn [writes_file]. congruence.
    + discriminate.
Qed.
Print Assumptions C45_create_truncates_existing.

Theorem C45_create_new :
  forall alc alb dbg H e f, runs alc alb dbg H e -> legal H (NewWrite f) -> bound H f = None ->
    exists e' ev, exec alc alb dbg H e (NewWrite f) = Ret (e', ev) /\ ev_res ev = RStat SOk /\
      live (ev :: H) (length H) KWrite (length H) /\
      returns alc alb dbg (ev :: H) e' (FileSize f) (RSize SOk 0) /\
      (forall g, g <> f -> bound (ev :: H) g = bound H g) /\
      (forall h j off n r, live H h KRand j -> (off < 2 ^ 64)%N -> (n < 2 ^ 64)%N ->
         returns alc alb dbg H e (RRead h off n) r -> returns alc alb dbg (ev :: H) e' (RRead h off n) r).
Proof.
  intros alc alb dbg H e f Rn Lx Bf. pose proof Rn as (A1 & A2 & R).
  destruct (reach_step alc alb dbg A1 A2 H e (NewWrite f) R Lx) as (e' & r & E & X & R').
  set (ev := mk_event (NewWrite f) r) in *.
  assert (Bf' : bound (ev :: H) f = Some (length H)) by (unfold ev; cbn [bound ev_call]; now rewrite str_eqb_refl, Bf).
  assert (Ec : contents (ev :: H) (length H) = []) by (unfold ev; cbn [contents ev_call]; rewrite Bf; now apply contents_new).
  exists e', ev. split; [exact E|]. split; [exact X|]. split; [|split; [|split]].
  - destruct (reach_inv alc alb dbg A1 A2 H e R) as (I & V). split.
    + unfold ev. rewrite (opened_some _ _ KWrite f) by reflexivity. fold ev. now rewrite Bf'.
    + unfold ev. cbn [deleted ev_call]. apply (hi_fresh _ _ _ _ _ V). auto.
  - destruct (reach_step alc alb dbg A1 A2 _ e' (FileSize f) R' Logic.I) as (e2 & r2 & E2 & X2 & _).
    exists e2. rewrite E2. cbn [Expect] in X2. rewrite Bf' in X2. unfold fsize in X2. rewrite Ec in X2. now subst r2.
  - intros g Hg. unfold ev. cbn [bound ev_call]. apply str_eqb_neq in Hg. now rewrite Hg.
  - intros h j off n r2 L Ho Hn Rt. eapply C44_reader_unaffected; eauto.
    + cbn [writes_file]. congruence.
    + discriminate.
Qed.
Print Assumptions C45_create_new.

(** C46, existing names: NewAppendableFile keeps the contents and appends to them. *)
Theorem C46_append_to_existing :
  forall alc alb dbg H e f i, runs alc alb dbg H e -> legal H (NewAppend f) -> bound H f = Some i ->
    exists e' ev, exec alc alb dbg H e (NewAppend f) = Ret (e', ev) /\ ev_res ev = RStat SOk /\
      live (ev :: H) (length H) KWrite i /\ (forall g, bound (ev :: H) g = bound H g) /\
      (forall j, contents (ev :: H) j = contents H j) /\
      (forall d, (fsize H i + N.of_nat (length d) < 2 ^ 64)%N ->
        exists e'' ev', exec alc alb dbg (ev :: H) e' (WAppend (length H) d) = Ret (e'', ev') /\ ev_res ev' = RStat SOk /\
          contents (ev' :: ev :: H) i = contents H i ++ d /\
          returns alc alb dbg (ev' :: ev :: H) e'' (FileSize f) (RSize SOk (fsize H i + N.of_nat (length d)))).
Proof.
  intros alc alb dbg H e f i Rn Lx Bf. pose proof Rn as (A1 & A2 & R).
  destruct (reach_step alc alb dbg A1 A2 H e (NewAppend f) R Lx) as (e' & r & E & X & R').
  set (ev := mk_event (NewAppend f) r) in *.
  assert (L : live (ev :: H) (length H) KWrite i).
  { destruct (reach_inv alc alb dbg A1 A2 H e R) as (I & V). split.
    - unfold ev. rewrite (opened_some _ _ KWrite f) by reflexivity. fold ev. unfold ev. cbn [bound ev_call]. now rewrite Bf.
    - unfold ev. cbn [deleted ev_call]. apply (hi_fresh _ _ _ _ _ V). auto. }
  exists e', ev. split; [exact E|]. split; [exact X|]. split; [exact L|]. split; [reflexivity|]. split; [reflexivity|].
  intros d Hd. destruct (reach_step alc alb dbg A1 A2 _ e' (WAppend (length H) d) R') as (e2 & r2 & E2 & X2 & R2).
  { cbn [legal]. exists i. split; [exact L|exact Hd]. }
  exists e2, (mk_event (WAppend (length H) d) r2). split; [exact E2|]. split; [exact X2|].
  assert (Ec : contents (mk_event (WAppend (length H) d) r2 :: ev :: H) i = contents H i ++ d).
  { cbn [contents]. cbn [ev_call]. destruct L as (L1 & _). rewrite L1, Nat.eqb_refl. reflexivity. }
  split; [exact Ec|].
  destruct (reach_step alc alb dbg A1 A2 _ e2 (FileSize f) R2 Logic.I) as (e3 & r3 & E3 & X3 & _).
  exists e3. rewrite E3. cbn [Expect] in X3.
  replace (bound (mk_event (WAppend (length H) d) r2 :: ev :: H) f) with (Some i) in X3 by (unfold ev; cbn [bound ev_call]; now rewrite Bf).
  unfold fsize in X3. rewrite Ec, app_length, Nat2N.inj_add in X3. now subst r3.
Qed.
Print Assumptions C46_append_to_existing.

(** C46 fails for every name that does not exist, in every reachable state: the
    call returns OK and the name then exists, but opening, sizing, removing or
    re-creating the file dereferences null, a second NewAppendableFile yields a
    different file, and destroying an otherwise empty environment crashes. *)
Theorem C46_new_file_refuted :
  forall alc alb dbg H e f, runs alc alb dbg H e -> bound H f = None ->
    exists e' a, new_appendable alc e (length H) f = Ret (e', SOk) /\
      hget (e_open e') (length H) = Some (OWrite a) /\
      file_exists e' f = true /\
      (forall n, new_sequential e' n f = UB) /\ (forall n, new_random e' n f = UB) /\
      (forall n, new_writable alc e' n f = UB) /\
      get_file_size e' f = UB /\ remove_file dbg e' f = UB /\
      (forall n, exists e'' a', new_appendable alc e' n f = Ret (e'', SOk) /\
                  hget (e_open e'') n = Some (OWrite a') /\ a' <> a).
Proof.
  intros alc alb dbg H e f (A1 & A2 & R) Bf. destruct (reach_inv alc alb dbg A1 A2 H e R) as (I & V).
  pose proof (hi_core _ _ _ _ _ V) as K. pose proof (bound_map _ _ H e I f V) as Q. rewrite Bf in Q.
  assert (Ef : map_find f (e_map e) = None) by (destruct (map_find f (e_map e)); [discriminate|reflexivity]).
  destruct (new_file_ok alc _ _ _ A1 (co_mem _ _ _ _ _ _ K)) as (m1 & a & E1 & Na0 & Na & I1 & L1).
  assert (Ha1 : alive m1 a) by (apply L1; auto).
  destruct (ref_ok m1 _ _ a I1 Ha1) as (m2 & E2 & I2 & L2).
  { rewrite upn_eq. lia. }
  assert (Ha2 : alive m2 a) by (apply L2; auto).
  destruct (ref_ok m2 _ _ a I2 Ha2) as (m3 & E3 & I3 & L3).
  { rewrite !upn_eq. lia. }
  exists (mk_env m3 (map_set f 0 (e_map e)) (hput (e_open e) (length H) (OWrite a))), a.
  assert (F0 : map_find f (map_set f 0 (e_map e)) = Some 0) by now rewrite find_set, str_eqb_refl.
  assert (G0 : getf m3 0 = UB) by (unfold getf; now rewrite (mi_null _ _ _ I3)).
  split; [unfold new_appendable, map_index; rewrite Ef, Nat.eqb_refl; rewrite E1, E2; cbn [bind fst snd]; unfold open_obj; cbn [ofile_state]; now rewrite E3|].
  split; [cbn [e_open]; apply hget_hput_eq|].
  split; [unfold file_exists; cbn [e_map]; now rewrite F0|].
  unfold new_sequential, new_random, new_writable, get_file_size, remove_file, remove_internal, open_obj, size, ref, unref, unref_dec, truncate. cbn [e_map e_mem].
  rewrite F0, (index_find _ _ _ F0). cbn [ofile_state]. rewrite G0. cbn [bind].
  do 5 (split; [reflexivity|]).
  intros n. destruct (new_file_ok alc m3 _ _ A1 I3) as (m4 & a4 & E4 & Na40 & Na4 & I4 & L4).
  destruct (ref_ok m4 _ _ a4 I4) as (m5 & E5 & I5 & L5).
  { apply L4; auto. } { rewrite upn_eq. lia. }
  destruct (ref_ok m5 _ _ a4 I5) as (m6 & E6 & I6 & L6).
  { apply L5, L4. auto. } { rewrite !upn_eq. lia. }
  exists (mk_env m6 (map_set f 0 (e_map e)) (hput (hput (e_open e) (length H) (OWrite a)) n (OWrite a4))), a4.
  split; [|split; [cbn [e_open]; apply hget_hput_eq|]].
  - unfold new_appendable. cbn [e_map e_mem]. rewrite (index_find _ _ _ F0), Nat.eqb_refl, E4, E5. cbn [bind fst snd].
    unfold open_obj. cbn [ofile_state]. rewrite E6. reflexivity.
  - intros ->. apply Na4, L3, L2, L1. auto.
Qed.
Print Assumptions C46_new_file_refuted.

Theorem C46_destructor_refuted :
  forall alc dbg f, allocator_ok alc -> exists e', new_appendable alc env_new 0 f = Ret (e', SOk) /\ env_dtor dbg e' = UB.
Proof.
  intros alc dbg f A1. pose proof (A1 []) as (_ & P0). set (a := alc []) in *.
  assert (E : new_appendable alc env_new 0 f = Ret (mk_env (mk_mem (hput (hput (hput [] a (mk_fstate 0 [] 0)) a (mk_fstate 1 [] 0)) a (mk_fstate 2 [] 0)) [])
             [(f, 0)] [(0, OWrite a)], SOk)).
  { unfold new_appendable, env_new, map_index, new_file, ref, getf, open_obj. 
    cbn [map_find e_map map_set Nat.eqb e_mem m_files m_blocks putf dom map bind]. fold a.
    rewrite hget_hput_eq. cbn [bind fs_refs]. change (0 <? 2 ^ 31 - 1)%Z with true. cbn [bind fst snd ofile_state fs_refs fs_blocks fs_size].
    unfold ref, getf, putf. cbn [m_files m_blocks]. rewrite hget_hput_eq. cbn [bind fs_refs].
    change (0 + 1 <? 2 ^ 31 - 1)%Z with true. cbn [bind fs_refs fs_blocks fs_size]. reflexivity. }
  eexists. split; [exact E|]. unfold env_dtor. cbn [e_mem e_map unref_all]. unfold unref, unref_dec, getf. cbn [m_files].
  rewrite !hget_hput_ne by (intros Q; apply P0; congruence). reflexivity.
Qed.
Print Assumptions C46_destructor_refuted.

(** C47 *)
Theorem C47_rename_moves :
  forall alc alb dbg H e a b i, runs alc alb dbg H e -> bound H a = Some i -> a <> b ->
    exists e' ev, exec alc alb dbg H e (Rename a b) = Ret (e', ev) /\ ev_res ev = RStat SOk /\
      returns alc alb dbg (ev :: H) e' (Exists a) (RBool false) /\
      returns alc alb dbg (ev :: H) e' (Exists b) (RBool true) /\
      returns alc alb dbg (ev :: H) e' (FileSize b) (RSize SOk (fsize H i)) /\
      bound (ev :: H) b = Some i /\
      (forall g, g <> a -> g <> b -> bound (ev :: H) g = bound H g) /\
      (forall j, contents (ev :: H) j = contents H j).
Proof.
  intros alc alb dbg H e a b i (A1 & A2 & R) Ba Hne.
  destruct (reach_step alc alb dbg A1 A2 H e (Rename a b) R Logic.I) as (e' & r & E & X & R').
  set (ev := mk_event (Rename a b) r) in *. cbn [Expect] in X. rewrite Ba in X.
  assert (Hba : str_eqb b a = false) by (apply str_eqb_neq; auto).
  assert (B1 : bound (ev :: H) a = None) by (unfold ev; cbn [bound ev_call]; now rewrite Ba, str_eqb_refl).
  assert (B2 : bound (ev :: H) b = Some i) by (unfold ev; cbn [bound ev_call]; now rewrite Ba, Hba, str_eqb_refl).
  exists e', ev. split; [exact E|]. split; [exact X|]. split; [|split; [|split; [|split; [exact B2|split]]]].
  - destruct (reach_step alc alb dbg A1 A2 _ e' (Exists a) R' Logic.I) as (e2 & r2 & E2 & X2 & _).
    exists e2. rewrite E2. cbn [Expect] in X2. rewrite B1 in X2. now subst.
  - destruct (reach_step alc alb dbg A1 A2 _ e' (Exists b) R' Logic.I) as (e2 & r2 & E2 & X2 & _).
    exists e2. rewrite E2. cbn [Expect] in X2. rewrite B2 in X2. now subst.
  - destruct (reach_step alc alb dbg A1 A2 _ e' (FileSize b) R' Logic.I) as (e2 & r2 & E2 & X2 & _).
    exists e2. rewrite E2. cbn [Expect] in X2. rewrite B2 in X2. now subst r2.
  - intros g Ga Gb. unfold ev. cbn [bound ev_call]. rewrite Ba. apply str_eqb_neq in Ga, Gb. now rewrite Ga, Gb.
  - reflexivity.
Qed.
Print Assumptions C47_rename_moves.

Theorem C47_rename_missing :
  forall alc alb dbg H e a b, runs alc alb dbg H e -> bound H a = None ->
    exec alc alb dbg H e (Rename a b) = Ret (e, mk_event (Rename a b) (RStat (SErr IOError a msg_not_found))).
Proof.
  intros alc alb dbg H e a b (A1 & A2 & R) Ba. destruct (reach_inv alc alb dbg A1 A2 H e R) as (I & V).
  pose proof (bound_map _ _ H e I a V) as Q. rewrite Ba in Q. unfold exec, dispatch, rename_file.
  destruct (map_find a (e_map e)); [discriminate|reflexivity].
Qed.
Print Assumptions C47_rename_missing.

(** Renaming an existing file onto itself returns OK and removes the file. *)
Theorem C47_rename_to_itself_refuted :
  forall alc alb dbg H e a i, runs alc alb dbg H e -> bound H a = Some i ->
    exists e' ev, exec alc alb dbg H e (Rename a a) = Ret (e', ev) /\ ev_res ev = RStat SOk /\
      returns alc alb dbg (ev :: H) e' (Exists a) (RBool false).
Proof.
  intros alc alb dbg H e a i (A1 & A2 & R) Ba.
  destruct (reach_step alc alb dbg A1 A2 H e (Rename a a) R Logic.I) as (e' & r & E & X & R').
  set (ev := mk_event (Rename a a) r) in *. cbn [Expect] in X. rewrite Ba in X.
  assert (B1 : bound (ev :: H) a = None) by (unfold ev; cbn [bound ev_call]; now rewrite Ba, str_eqb_refl).
  exists e', ev. split; [exact E|]. split; [exact X|].
  destruct (reach_step alc alb dbg A1 A2 _ e' (Exists a) R' Logic.I) as (e2 & r2 & E2 & X2 & _).
  exists e2. rewrite E2. cbn [Expect] in X2. rewrite B1 in X2. now subst.
Qed.
Print Assumptions C47_rename_to_itself_refuted.

(** C48: in strictly increasing byte order (so without duplicates). *)
Theorem C48_get_children :
  forall alc alb dbg H e d, runs alc alb dbg H e ->
    exists l, exec alc alb dbg H e (Children d) = Ret (e, mk_event (Children d) (RNames l)) /\
      StronglySorted (fun x y => lex_ltb x y = true) l /\ NoDup l /\
      (forall c, In c l <-> exists i, bound H (d ++ [47%N] ++ c) = Some i).
Proof.
  intros alc alb dbg H e d (A1 & A2 & R). destruct (reach_inv alc alb dbg A1 A2 H e R) as (I & V).
  destruct (children_ok _ _ H e I d V) as (l & El & S & In_l). injection El as El. exists l. subst l.
  split; [reflexivity|]. split; [exact S|]. split.
  - revert S. generalize (children d (e_map e)). induction l as [|x l IH]; intros S; constructor; inversion S as [|? ? S1 S2]; subst.
    + intros Q. rewrite Forall_forall in S2. apply S2 in Q. rewrite lex_irr in Q. discriminate.
    + auto.
  - intros c. rewrite In_l. destruct (bound H (d ++ [47%N] ++ c)); split; try easy; eauto. intros (? & Q). discriminate.
Qed.
Print Assumptions C48_get_children.

(** C49 *)
Theorem C49_existing_file :
  forall alc alb dbg H e f i, runs alc alb dbg H e -> bound H f = Some i ->
    returns alc alb dbg H e (Exists f) (RBool true) /\
    returns alc alb dbg H e (FileSize f) (RSize SOk (N.of_nat (length (contents H i)))) /\
    (legal H (NewSeq f) -> returns alc alb dbg H e (NewSeq f) (RStat SOk) /\ returns alc alb dbg H e (NewRand f) (RStat SOk)) /\
    exists e' ev, exec alc alb dbg H e (Remove f) = Ret (e', ev) /\ ev_res ev = RStat SOk /\
      returns alc alb dbg (ev :: H) e' (Exists f) (RBool false) /\
      (forall g b, g <> f -> returns alc alb dbg H e (Exists g) (RBool b) -> returns alc alb dbg (ev :: H) e' (Exists g) (RBool b)) /\
      (forall g s n, g <> f -> returns alc alb dbg H e (FileSize g) (RSize s n) -> returns alc alb dbg (ev :: H) e' (FileSize g) (RSize s n)).
Proof.
  intros alc alb dbg H e f i (A1 & A2 & R) Bf.
  assert (G : forall H' e' x r, reach alc alb dbg H' e' -> legal H' x -> (forall r', Expect H' x r' -> r' = r) -> returns alc alb dbg H' e' x r).
  { intros H' e' x r R' L' X'. destruct (reach_step alc alb dbg A1 A2 H' e' x R' L') as (e2 & r2 & E2 & X2 & _).
    exists e2. rewrite E2. now rewrite (X' r2 X2). }
  split; [|split; [|split]].
  - apply G; [exact R|exact Logic.I|]. cbn [Expect]. rewrite Bf. auto.
  - apply G; [exact R|exact Logic.I|]. cbn [Expect]. rewrite Bf. auto.
  - intros L. split; (apply G; [exact R|exact L|]; cbn [Expect]; rewrite Bf; auto).
  - destruct (reach_step alc alb dbg A1 A2 H e (Remove f) R Logic.I) as (e' & r & E & X & R').
    set (ev := mk_event (Remove f) r) in *. cbn [Expect] in X. rewrite Bf in X.
    exists e', ev. split; [exact E|]. split; [exact X|]. split; [|split].
    + apply G; [exact R'|exact Logic.I|]. unfold ev. cbn [Expect bound ev_call]. rewrite str_eqb_refl. auto.
    + intros g b Hg (e2 & E2). apply G; [exact R'|exact Logic.I|]. unfold ev. cbn [Expect bound ev_call]. apply str_eqb_neq in Hg. rewrite Hg.
      intros r' ->. destruct (reach_step alc alb dbg A1 A2 H e (Exists g) R Logic.I) as (e3 & r3 & E3 & X3 & _).
      cbn [Expect] in X3. rewrite <- X3. congruence.
    + intros g s n Hg (e2 & E2). apply G; [exact R'|exact Logic.I|]. unfold ev. cbn [Expect bound ev_call]. apply str_eqb_neq in Hg. rewrite Hg.
      intros r'. unfold fsize. cbn [contents ev_call]. intros Er'. destruct (reach_step alc alb dbg A1 A2 H e (FileSize g) R Logic.I) as (e3 & r3 & E3 & X3 & _).
      cbn [Expect] in X3. rewrite E2 in E3. injection E3 as _ <-. unfold fsize in X3.
      destruct (bound H g); congruence.
Qed.
Print Assumptions C49_existing_file.

Theorem C49_missing_file :
  forall alc alb dbg H e f, runs alc alb dbg H e -> bound H f = None ->
    exec alc alb dbg H e (Exists f) = Ret (e, mk_event (Exists f) (RBool false)) /\
    (exists n, exec alc alb dbg H e (FileSize f) = Ret (e, mk_event (FileSize f) (RSize (SErr IOError f msg_not_found) n))) /\
    exec alc alb dbg H e (NewSeq f) = Ret (e, mk_event (NewSeq f) (RStat (SErr IOError f msg_not_found))) /\
    exec alc alb dbg H e (NewRand f) = Ret (e, mk_event (NewRand f) (RStat (SErr IOError f msg_not_found))) /\
    exec alc alb dbg H e (Remove f) = Ret (e, mk_event (Remove f) (RStat (SErr IOError f msg_not_found))).
Proof.
  intros alc alb dbg H e f (A1 & A2 & R) Bf. destruct (reach_inv alc alb dbg A1 A2 H e R) as (I & V).
  pose proof (bound_map _ _ H e I f V) as Q. rewrite Bf in Q.
  assert (Ef : map_find f (e_map e) = None) by (destruct (map_find f (e_map e)); [discriminate|reflexivity]).
  unfold exec, dispatch, file_exists, get_file_size, new_sequential, new_random, remove_file. rewrite Ef.
  split; [reflexivity|]. split; [eexists; reflexivity|]. repeat (split; [reflexivity|]). reflexivity.
Qed.
Print Assumptions C49_missing_file.

(** C50 *)
Theorem C50_memory_is_owned :
  forall alc alb dbg H e, runs alc alb dbg H e -> owned H e.
Proof.
  intros alc alb dbg H e (A1 & A2 & R). destruct (reach_inv alc alb dbg A1 A2 H e R) as (I & V). exact (inv_owned H e I V).
Qed.
Print Assumptions C50_memory_is_owned.

(** Destroying the environment and then deleting the open files in any order
    frees everything, each object once (a second delete would be [UB]); the
    same when the files are deleted first. *)
Theorem C50_nothing_leaks :
  forall alc alb dbg H e l, runs alc alb dbg H e -> NoDup l -> (forall h, In h l <-> exists k i, live H h k i) ->
    (exists e1 e2, env_dtor dbg e = Ret e1 /\ delete_all dbg e1 l = Ret e2 /\ m_files (e_mem e2) = [] /\ m_blocks (e_mem e2) = []) /\
    (exists e1 e2, delete_all dbg e l = Ret e1 /\ env_dtor dbg e1 = Ret e2 /\ m_files (e_mem e2) = [] /\ m_blocks (e_mem e2) = []).
Proof.
  intros alc alb dbg H e l (A1 & A2 & R) ND Hl. destruct (reach_inv alc alb dbg A1 A2 H e R) as (I & V).
  exact (inv_leak_free dbg H e I l V ND Hl).
Qed.
Print Assumptions C50_nothing_leaks.

(** C51: after Skip(n) the next Read starts min(n, rest) further. *)
Theorem C51_skip :
  forall alc alb dbg H e h i n k, runs alc alb dbg H e -> live H h KSeq i -> (n < 2 ^ 64)%N -> (k < 2 ^ 64)%N -> (pos H h <= fsize H i)%N ->
    exists e' ev, exec alc alb dbg H e (SSkip h n) = Ret (e', ev) /\ ev_res ev = RStat SOk /\
      returns alc alb dbg (ev :: H) e' (SRead h k)
        (RData SOk (part (contents H i) (pos H h + N.min n (fsize H i - pos H h)) k)).
Proof.
  intros alc alb dbg H e h i n k (A1 & A2 & R) L Hn Hk Hp.
  destruct (reach_step alc alb dbg A1 A2 H e (SSkip h n) R) as (e' & r & E & X & R').
  { cbn [legal]. eauto. }
  destruct X as (i' & L' & X). assert (i' = i) by (destruct L as (L1 & _), L' as (L2 & _); congruence). subst i'.
  apply N.ltb_ge in Hp. rewrite Hp in X. apply N.ltb_ge in Hp. subst r.
  exists e', (mk_event (SSkip h n) (RStat SOk)). split; [exact E|]. split; [reflexivity|].
  assert (L2 : live (mk_event (SSkip h n) (RStat SOk) :: H) h KSeq i).
  { destruct L as (L1 & L2). split; [|exact L2]. destruct (opened_lt _ _ _ _ L1). rewrite opened_old by lia. exact L1. }
  assert (Rn' : runs alc alb dbg (mk_event (SSkip h n) (RStat SOk) :: H) e') by (split; [exact A1|]; split; [exact A2|exact R']).
  pose proof (C43_sequential_read _ _ _ _ _ _ _ k Rn' L2 Hk) as G.
  assert (Ep : pos (mk_event (SSkip h n) (RStat SOk) :: H) h = (pos H h + N.min n (fsize H i - pos H h))%N).
  { cbn [pos ev_call ev_res]. rewrite Nat.eqb_refl. destruct L as (L1 & _). rewrite L1. unfold skipped. apply N.leb_le in Hp. now rewrite Hp. }
  rewrite Ep in G. change (fsize (mk_event (SSkip h n) (RStat SOk) :: H) i) with (fsize H i) in G.
  assert (Q : (fsize H i <? pos H h + N.min n (fsize H i - pos H h))%N = false) by (apply N.ltb_ge; lia).
  rewrite Q in G. exact G.
Qed.
Print Assumptions C51_skip.

(** A reader left beyond the end by a truncation gets an error and stays put. *)
Theorem C51_skip_beyond_end :
  forall alc alb dbg H e h i n, runs alc alb dbg H e -> live H h KSeq i -> (n < 2 ^ 64)%N -> (fsize H i < pos H h)%N ->
    exec alc alb dbg H e (SSkip h n) = Ret (e, mk_event (SSkip h n) (RStat (SErr IOError msg_pos []))).
Proof.
  intros alc alb dbg H e h i n (A1 & A2 & R) L Hn Hp. destruct (reach_inv alc alb dbg A1 A2 H e R) as (I & V).
  destruct (hi_live _ _ _ _ _ _ _ _ V L (not_pending _)) as (o & Eo & Ek & Ei). destruct o as [a p| |]; try discriminate. cbn [ofile_state] in Ei. subst i.
  destruct (hi_obj _ _ _ _ _ V h _ Eo) as (_ & _ & Q3 & _).
  unfold exec, dispatch, seq_skip. rewrite Eo.
  rewrite (size_ok _ _ _ a (co_mem _ _ _ _ _ _ (hi_core _ _ _ _ _ V)) (Core_obj _ _ _ _ _ _ _ _ (hi_core _ _ _ _ _ V) Eo)). cbn [bind].
  unfold fsize in Hp. rewrite Q3 in Hp. apply N.ltb_lt in Hp. rewrite Hp. reflexivity.
Qed.
Print Assumptions C51_skip_beyond_end.

(** ** The hypotheses are met: a history with two files, four handles, a rename
    over an existing file, a removal, a truncation, and reads. *)
Definition legal_b (H : history) (x : call) : bool :=
  let room := (N.of_nat (live_count H) <? 2 ^ 31 - 2)%N in
  let is h k := match opened H h, k with
                | Some (KSeq, _), KSeq | Some (KRand, _), KRand | Some (KWrite, _), KWrite => negb (deleted H h)
                | _, _ => false end in
  match x with
  | NewSeq _ | NewRand _ | NewWrite _ => room
  | NewAppend f => match bound H f with Some _ => room | None => false end
  | SRead h n | SSkip h n => (n <? 2 ^ 64)%N && is h KSeq
  | RRead h off n => (off <? 2 ^ 64)%N && (n <? 2 ^ 64)%N && is h KRand
  | WAppend h d => match opened H h with
                   | Some (KWrite, i) => negb (deleted H h) && (fsize H i + N.of_nat (length d) <? 2 ^ 64)%N
                   | _ => false end
  | WClose h | WFlush h | WSync h => is h KWrite
  | Delete h => live_b H h
  | _ => true
  end.
Lemma legal_b_ok H x : legal_b H x = true -> legal H x.
Proof.
  destruct x; cbn [legal_b legal]; intros E; auto; try (now apply N.ltb_lt);
  repeat match goal with
  | E : (_ && _ = true) |- _ => apply andb_prop in E as [? ?]
  | E : context [match bound H ?f with _ => _ end] |- _ => destruct (bound H f) eqn:?; [|discriminate]
  | E : context [match opened H ?h with _ => _ end] |- _ => destruct (opened H h) as [[[] ?]|] eqn:?; try discriminate
  | E : (_ <? _)%N = true |- _ => apply N.ltb_lt in E
  | E : negb _ = true |- _ => apply negb_true_iff in E
  end; unfold live in *; try (split; [discriminate|assumption]); try (split; [assumption|]); try (split; [assumption|]); eauto.
  unfold live_b in E. destruct (opened H h) as [[k i]|] eqn:Eo; [|discriminate]. apply negb_true_iff in E. eauto.
Qed.
Fixpoint run_calls (alc alb : allocator) (dbg : bool) (H : history) (e : env) (l : list call) : option (history * env) :=
  match l with
  | [] => Some (H, e)
  | x :: l' => if legal_b H x then
                 match exec alc alb dbg H e x with
                 | Ret (e', ev) => run_calls alc alb dbg (ev :: H) e' l'
                 | _ => None
                 end
               else None
  end.
Lemma run_calls_ok alc alb dbg l : forall H e H' e', allocator_ok alc -> allocator_ok alb -> reach alc alb dbg H e ->
  run_calls alc alb dbg H e l = Some (H', e') -> runs alc alb dbg H' e'.
Proof.
  induction l as [|x l IH]; intros H e H' e' A1 A2 R; cbn [run_calls].
  - intros E. inversion E; subst. split; [exact A1|]. split; [exact A2|exact R].
  - destruct (legal_b H x) eqn:L; [|discriminate]. destruct (exec alc alb dbg H e x) as [[e1 ev]| | |] eqn:Ex; try discriminate.
    apply IH; auto. econstructor; eauto. now apply legal_b_ok.
Qed.

Definition fa : str := [47;100;47;97]%N.   (* "/d/a" *)
Definition fb : str := [47;100;47;98]%N.   (* "/d/b" *)
Definition big : list N := [7;8;9;10;11]%N.
Definition demo : list call :=
  [NewWrite fa; WAppend 0 big; NewWrite fb; WAppend 2 [1;2;3]%N; NewRand fb; NewSeq fa; SRead 5 2; SSkip 5 100;
   Rename fa fb; RRead 4 1 9; Remove fb; WAppend 0 [5]%N; NewWrite fa].
Definition results (H : history) : list result := map ev_res (rev H).

Example demo_runs : exists H e, runs alc_reuse alc_bump true H e /\ length H = 13 /\
  live H 0 KWrite 0 /\ live H 4 KRand 2 /\ live H 5 KSeq 0 /\ live H 12 KWrite 12 /\
  bound H fa = Some 12 /\ bound H fb = None /\
  pos H 5 = 5%N /\ fsize H 0 = 6%N /\ contents H 2 = [1;2;3]%N /\
  nth_error (results H) 9 = Some (RData SOk [2;3]%N).
Proof.
  assert (E : match run_calls alc_reuse alc_bump true [] env_new demo with
              | Some (H, e) => ((length H =? 13) && live_b H 0 && live_b H 4 && live_b H 5 && live_b H 12)
                               && ((pos H 5 =? 5)%N && (fsize H 0 =? 6)%N)
              | None => false end = true) by (vm_compute; reflexivity).
  destruct (run_calls alc_reuse alc_bump true [] env_new demo) as [[H e]|] eqn:Er; [|discriminate].
  exists H, e. split; [eapply run_calls_ok; [apply alc_reuse_ok|apply alc_bump_ok|apply reach_new|exact Er]|]. clear E.
  assert (Eh : H = match run_calls alc_reuse alc_bump true [] env_new demo with Some (H, _) => H | None => [] end) by now rewrite Er.
  clear Er. unfold live. subst H. repeat split; vm_compute; reflexivity.
Qed.
Example demo_legal : legal [] (NewWrite fa) /\ bound [] fa = None /\ runs alc_reuse alc_bump true [] env_new.
Proof.
  split; [reflexivity|]. split; [reflexivity|]. split; [apply alc_reuse_ok|]. split; [apply alc_bump_ok|apply reach_new].
Qed.
