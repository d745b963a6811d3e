(** CacheConcOomProofs.v -- every interleaving is a sequential history, throws included. *)
From Coq Require Import List Arith NArith Lia Bool Permutation.
From Verif Require Import Outcome Heap Cache CacheSpec CacheRun CacheHeap CacheTable CacheShard CacheGlobal CacheHist CacheProofs CacheThms CacheProps
  CacheOom CacheOomSpec CacheOomProofs CacheOomProps CacheConc CacheConcProofs CacheConcOom.
Import ListNotations.
Local Open Scope outcome_scope.

Lemma fproj_add t t' o tr : fproj t (add_flab t' o tr) =
  match o with Some l => if t' =? t then fproj t tr ++ [l] else fproj t tr | None => fproj t tr end.
Proof.
  destruct o as [l|]; [|reflexivity]. unfold fproj. cbn [add_flab rev]. rewrite filter_app, map_app. cbn [filter fst].
  destruct (t' =? t); cbn [map snd]; [reflexivity|]. now rewrite app_nil_r.
Qed.
Lemma fsecs_snoc secs ev : fsecs (secs ++ [ev]) = fsecs secs ++ [FL (Sec ev)].
Proof. unfold fsecs. now rewrite map_app. Qed.

Section Conc.
  Variable hashf : bytes -> N.
  Hypothesis hash32 : forall k, (hashf k < 2 ^ 32)%N.
  Variable alc : allocator.
  Hypothesis Halc : allocator_ok alc.
  Variable dbg : bool.
  Variable cap : N.
  Variable n : nat.
  Notation sc := (per_shard cap).
  Notation home := (home hashf).
  Notation good H c := (exists A, GInv hashf sc c A /\ HInv sc H A).
  Notation oreach := (oreach hashf alc dbg olegal cap).
  Notation exec := (exec hashf alc dbg).
  Notation fruns := (fruns hashf alc dbg cap n).
  Notation fstep := (fstep hashf alc dbg).
  Notation hshard := (hshard hashf).

  Lemma og H T c : oreach H T c -> good H c.
  Proof. exact (oreach_good hashf hash32 alc Halc dbg cap H T c). Qed.

  Lemma held_hash_g H c h : good H c -> 0 < held H h ->
    exists nd, hget (m_heap (c_mem c)) h = Some nd /\ Shard (n_hash nd) = hshard H h.
  Proof.
    intros (A & G & I) Hh.
    destruct (h_heldin _ _ _ I h Hh) as (i & e & Hi & He & Ea).
    destruct (ent_hash hashf (per_shard cap) c A i e G Hi He) as (nd & Hn & Hs & _).
    exists nd. rewrite <- Ea. split; [auto|]. unfold CacheConcProofs.hshard. rewrite (h_own _ _ _ I i e Hi He).
    rewrite (key_of_ent cap H A I i e Hi He), Hs. symmetry. exact (g_key _ _ _ _ G i e Hi He).
  Qed.

  Lemma hshard_step_g H c x c' ev h : good H c -> legal H x -> exec c x = Ret (c', ev) ->
    0 < held H h -> 0 < held (ev :: H) h -> hshard (ev :: H) h = hshard H h.
  Proof.
    intros Gd Hl Hx H1 H2. unfold CacheConcProofs.hshard.
    rewrite (held_stable hashf hash32 alc Halc dbg cap H c x c' ev h Gd Hl Hx H1 H2).
    destruct (held_value hashf hash32 alc Halc dbg cap H c h Gd H1) as (i & k & v & ch & d & _ & Ho & Hi & _).
    rewrite Ho. unfold key_of_insert. rewrite CacheOomProps.insert_at_old; [reflexivity|]. eapply insert_at_lt; eauto.
  Qed.

  Lemma lost_le H T h : lost H T h <= 1.
  Proof. unfold lost. destruct (owner H h); [|lia]. destruct (existsb _ T); lia. Qed.

  (** What is held for a user stays his until he releases it. *)
  Lemma user_held_step H T c x c' ev h : good H c -> legal H x -> exec c x = Ret (c', ev) ->
    user_held H T h <= user_held (ev :: H) T h + (match x with CRelease p => if p =? h then 1 else 0 | _ => 0 end).
  Proof.
    intros Gd Hl Hx.
    pose proof (held_step H ev h) as K. rewrite (exec_call hashf alc dbg _ _ _ _ Hx) in K.
    destruct (Nat.eq_dec (user_held H T h) 0) as [Z|Z]; [lia|].
    assert (H1 : 0 < held H h) by (unfold user_held in Z; lia).
    destruct (Nat.eq_dec (held (ev :: H) h) 0) as [Z2|Z2].
    - rewrite Z2 in K. cbn [Nat.add] in K. unfold user_held. lia.
    - assert (E : lost (ev :: H) T h = lost H T h).
      { unfold lost. rewrite (held_stable hashf hash32 alc Halc dbg cap H c x c' ev h Gd Hl Hx H1 ltac:(lia)). reflexivity. }
      unfold user_held. rewrite E. lia.
  Qed.

  (** A throwing Insert takes nothing from anybody. *)
  Lemma user_held_lost H T k v ch d a dl h : held H a = 0 ->
    user_held H T h <= user_held (mk_event (CInsert k v ch d) (RHandle a) dl :: H) (length H :: T) h.
  Proof.
    intros Ha. destruct (Nat.eq_dec (user_held H T h) 0) as [Z|Z]; [lia|].
    assert (Hne : a <> h) by (intros ->; unfold user_held in Z; lia).
    unfold user_held, lost in *. cbn [owner held ev_call ev_res]. apply Nat.eqb_neq in Hne. rewrite Hne, andb_false_r.
    destruct (owner H h) as [i|] eqn:Eo; [|cbn [Nat.add]; lia].
    pose proof (owner_lt _ _ _ Eo) as Hlt. cbn [existsb]. assert (E : (i =? length H) = false) by (apply Nat.eqb_neq; lia).
    rewrite E. cbn [orb Nat.add]. lia.
  Qed.
  Lemma hshard_lost H k v ch d a dl h : held H a = 0 -> 0 < held H h ->
    hshard (mk_event (CInsert k v ch d) (RHandle a) dl :: H) h = hshard H h.
  Proof.
    intros Ha Hh. assert (Hne : a <> h) by (intros ->; lia).
    unfold CacheConcProofs.hshard. cbn [owner ev_call ev_res]. apply Nat.eqb_neq in Hne. rewrite Hne. try rewrite andb_false_r.
    destruct (owner H h) as [i|] eqn:Eo; [|reflexivity]. unfold key_of_insert.
    rewrite CacheOomProps.insert_at_old; [reflexivity|]. exact (owner_lt _ _ _ Eo).
  Qed.

  Definition ftmatch (H : history) (p : pst) (l : list flab) : Prop :=
    match p with
    | Idle => fcalls_done l
    | Start x => exists l0, fcalls_done l0 /\ l = l0 ++ [FL (Beg x)] /\ match x with CPruneShard _ | CShardCharge _ => False | _ => True end
    | ReadHash h s => (exists l0, fcalls_done l0 /\ l = l0 ++ [FL (Beg (CRelease h))]) /\ s = hshard H h
    | Pruning i => i <= 16 /\ exists l0 secs, fcalls_done l0 /\ l = l0 ++ FL (Beg CPrune) :: fsecs secs /\
                   map ev_call secs = map CPruneShard (seq 0 i)
    | Charging i acc => i <= 16 /\ exists l0 secs ns, fcalls_done l0 /\ l = l0 ++ FL (Beg CTotalCharge) :: fsecs secs /\
                   map ev_call secs = map CShardCharge (seq 0 i) /\ map ev_res secs = map RNum ns /\ acc = u64 (sumN ns)
    | Done x r => exists l0 secs, fcalls_done l0 /\ l = l0 ++ FL (Beg x) :: fsecs secs /\ call_done x secs r
    end.

  Record FI (tr : ftrace) (cf : cconf) : Prop := {
    fi_reach : oreach (fsections tr) (fthrown tr) (cc cf);
    fi_pend : forall h, pend (ct cf) h <= user_held (fsections tr) (fthrown tr) h;
    fi_thr : forall t p, nth_error (ct cf) t = Some p -> ftmatch (fsections tr) p (fproj t tr) }.

  Lemma ftmatch_ext H H' p l : (forall h s, p = ReadHash h s -> hshard H' h = hshard H h) -> ftmatch H p l -> ftmatch H' p l.
  Proof. intros E. destruct p; cbn [ftmatch]; auto. intros [A B]. split; auto. rewrite (E h s eq_refl). auto. Qed.

  Lemma user_le H T h : user_held H T h <= held H h.
  Proof. unfold user_held. lia. Qed.

  (** A step that changes neither the history nor the cache (but perhaps its log). *)
  Lemma FI_quiet tr cf t p p' o c' : FI tr cf -> nth_error (ct cf) t = Some p ->
    match o with Some (FL (Sec _)) | Some (Threw (Some _)) => False | _ => True end ->
    oreach (fsections tr) (fthrown tr) c' ->
    (forall h, pend (set_nth t p' (ct cf)) h <= user_held (fsections tr) (fthrown tr) h) ->
    ftmatch (fsections tr) p' (fproj t (add_flab t o tr)) ->
    FI (add_flab t o tr) (mk_cconf c' (set_nth t p' (ct cf))).
  Proof.
    intros C E Ho Hc Hp Hm.
    assert (Es : fsections (add_flab t o tr) = fsections tr).
    { destruct o as [[[]|[]]|]; cbn [add_flab]; auto; destruct Ho. }
    assert (Et : fthrown (add_flab t o tr) = fthrown tr).
    { destruct o as [[[]|[]]|]; cbn [add_flab]; auto; destruct Ho. }
    constructor; cbn [cc ct]; rewrite Es; try rewrite Et.
    - exact Hc.
    - exact Hp.
    - intros u q Hq. rewrite (nth_set _ _ _ _ _ E) in Hq. destruct (u =? t) eqn:Eu.
      + apply Nat.eqb_eq in Eu. subst u. inversion Hq; subst q. exact Hm.
      + rewrite fproj_add. destruct o; [rewrite Nat.eqb_sym, Eu|]; now apply (fi_thr _ _ C).
  Qed.

  (** A section. *)
  Lemma FI_section tr cf t p p' x c' ev : FI tr cf -> nth_error (ct cf) t = Some p ->
    olegal (fsections tr) (fthrown tr) x -> exec (cc cf) x = Ret (c', ev) ->
    (forall h, pend (set_nth t p' (ct cf)) h + (match x with CRelease q => if q =? h then 1 else 0 | _ => 0 end) <= user_held (fsections tr) (fthrown tr) h) ->
    ftmatch (ev :: fsections tr) p' (fproj t tr ++ [FL (Sec ev)]) ->
    FI (add_flab t (Some (FL (Sec ev))) tr) (mk_cconf c' (set_nth t p' (ct cf))).
  Proof.
    intros C E Hl Hx Hp Hm. pose proof (og _ _ _ (fi_reach _ _ C)) as Gd. pose proof (olegal_legal _ _ _ Hl) as Hl'.
    assert (Es : fsections (add_flab t (Some (FL (Sec ev))) tr) = ev :: fsections tr) by reflexivity.
    assert (Et : fthrown (add_flab t (Some (FL (Sec ev))) tr) = fthrown tr) by reflexivity.
    assert (Hu : forall h, pend (set_nth t p' (ct cf)) h <= user_held (ev :: fsections tr) (fthrown tr) h).
    { intros h. specialize (Hp h). pose proof (user_held_step _ (fthrown tr) _ _ _ _ h Gd Hl' Hx) as K. lia. }
    constructor; cbn [cc ct]; rewrite Es; try rewrite Et.
    - eapply oreach_call; eauto. apply (fi_reach _ _ C).
    - exact Hu.
    - intros u q Hq. pose proof Hq as Hq0. rewrite (nth_set _ _ _ _ _ E) in Hq. rewrite fproj_add. destruct (u =? t) eqn:Eu.
      + apply Nat.eqb_eq in Eu. subst u. inversion Hq; subst q. rewrite Nat.eqb_refl. exact Hm.
      + rewrite Nat.eqb_sym, Eu. eapply ftmatch_ext; [|apply (fi_thr _ _ C); exact Hq].
        intros h s ->. eapply hshard_step_g; eauto.
        * eapply Nat.lt_le_trans; [eapply (pend_pos (ct cf)); eauto; cbn; apply Nat.eqb_refl|].
          etransitivity; [apply (fi_pend _ _ C)|apply user_le].
        * eapply Nat.lt_le_trans; [eapply (pend_pos (set_nth t p' (ct cf))); eauto; cbn; apply Nat.eqb_refl|].
          etransitivity; [apply Hu|apply user_le].
  Qed.

  Lemma release_exec_g H c h c' : good H c -> 0 < held H h ->
    release_at dbg (clear_log c) (hshard H h) h = Ret c' ->
    exec c (CRelease h) = Ret (c', mk_event (CRelease h) RNone (m_log (c_mem c'))).
  Proof.
    intros Gd Hh E. destruct (held_hash_g H c h Gd Hh) as (nd & Hn & Hs).
    unfold CacheRun.exec. cbn [dispatch]. unfold cache_release, get. cbn [clear_log c_mem m_heap]. rewrite Hn. cbn [bind].
    rewrite Hs. unfold release_at in E.
    destruct (the_shard (clear_log c) (hshard H h)) as [sh| | |] eqn:E1; cbn [bind] in *; try discriminate.
    unfold the_shard in E1 |- *. cbn [clear_log c_shards] in E1 |- *.
    destruct (nth_error (c_shards c) (hshard H h)); [|discriminate]. inversion E1; subst s. cbn [bind].
    destruct (shard_release dbg (c_mem (clear_log c)) sh h) as [m| | |] eqn:E2; cbn [bind] in *; try discriminate.
    cbn [clear_log c_mem] in E2. rewrite E2. cbn [bind fst snd]. inversion E; subst c'. reflexivity.
  Qed.

  Lemma using_held tr cf t p h : FI tr cf -> nth_error (ct cf) t = Some p -> uses h p = true ->
    0 < user_held (fsections tr) (fthrown tr) h.
  Proof. intros C E U. eapply Nat.lt_le_trans; [|apply (fi_pend _ _ C)]. eapply pend_pos; eauto. Qed.

  Lemma FI_step tr cf t o cf' : FI tr cf -> fstep (fsections tr) (fthrown tr) t cf o cf' -> FI (add_flab t o tr) cf'.
  Proof.
    intros C Sx. pose proof (fi_pend _ _ C) as Pn. pose proof (fi_reach _ _ C) as Re.
    destruct Sx as [o cf' Sx Hmay|f k v ch d c' E Hr X|f k v ch d c' a E Hr X].
    - destruct Sx as [x E Hm|x c' ev E Hs Hr Hx|h nd E Hg|h s c' E Hx|E|i c' ev E Hi Hx|i E Hi|E|i acc c' ev m E Hi Hx Er|i acc E Hi|x r E];
        pose proof (fi_thr _ _ C t _ E) as T; cbn [ftmatch] in T; cbn [option_map].
      + specialize (Hmay x eq_refl). clear Hm. eapply FI_quiet; [exact C|exact E|exact Logic.I|exact Re| |].
        * intros h. pose proof (pend_set _ _ _ (Start x) h E) as K. cbn [uses b2n] in K. specialize (Pn h).
          destruct x; cbn [b2n] in K; try lia.
          -- cbn [may_call_f] in Hmay. destruct (handle =? h) eqn:Eh; cbn [b2n] in K; [|lia]. apply Nat.eqb_eq in Eh. subst h. lia.
          -- cbn [may_call_f] in Hmay. destruct (handle =? h) eqn:Eh; cbn [b2n] in K; [|lia]. apply Nat.eqb_eq in Eh. subst h. lia.
        * rewrite fproj_add, Nat.eqb_refl. cbn [ftmatch]. exists (fproj t tr). split; [auto|]. split; [auto|].
          destruct x; auto.
      + assert (Hl : olegal (fsections tr) (fthrown tr) x).
        { destruct x; try discriminate; cbn [in_range] in Hr; try exact Hr; try exact Logic.I.
          cbn [olegal]. eapply using_held; [exact C|exact E|]. cbn. apply Nat.eqb_refl. }
        eapply FI_section; [exact C|exact E|exact Hl|exact Hx| |].
        * intros h. pose proof (pend_set _ _ _ (Done x (ev_res ev)) h E) as K. specialize (Pn h).
          cbn [uses] in K. destruct x; try discriminate; cbn [b2n] in K; try lia; destruct (handle =? h); cbn [b2n] in K; lia.
        * cbn [ftmatch]. destruct T as (l0 & T1 & T2 & _). exists l0, [ev]. split; [auto|]. split.
          -- rewrite T2, <- app_assoc. reflexivity.
          -- pose proof (exec_call hashf alc dbg _ _ _ _ Hx) as Ec. destruct x; try discriminate; cbn [call_done]; exists ev; auto.
      + unfold get in Hg. destruct (hget (m_heap (c_mem (cc cf))) h) as [nd'|] eqn:Eh; [|discriminate]. inversion Hg; subst nd'.
        eapply FI_quiet with (o := None); [exact C|exact E|exact Logic.I|exact Re| |].
        * intros h'. pose proof (pend_set _ _ _ (ReadHash h (Shard (n_hash nd))) h' E) as K. cbn [uses] in K. specialize (Pn h'). lia.
        * rewrite fproj_add. cbn [ftmatch]. destruct T as (l0 & T1 & T2 & _). split; [eauto|].
          destruct (held_hash_g (fsections tr) (cc cf) h) as (nd' & Hn' & Hs'); [exact (og _ _ _ Re)| |congruence].
          eapply Nat.lt_le_trans; [eapply using_held; [exact C|exact E|cbn; apply Nat.eqb_refl]|apply user_le].
      + destruct T as [(l0 & T1 & T2) ->].
        assert (Hu : 0 < user_held (fsections tr) (fthrown tr) h).
        { eapply using_held; [exact C|exact E|]. cbn. apply Nat.eqb_refl. }
        assert (Hh : 0 < held (fsections tr) h) by (eapply Nat.lt_le_trans; [exact Hu|apply user_le]).
        assert (Hx' := release_exec_g _ _ _ _ (og _ _ _ Re) Hh Hx).
        eapply FI_section; [exact C|exact E|exact (Hu : olegal _ _ (CRelease h))|exact Hx'| |].
        * intros h'. pose proof (pend_set _ _ _ (Done (CRelease h) RNone) h' E) as K. cbn [uses b2n] in K. specialize (Pn h').
          cbv beta iota; destruct (h =? h'); cbn [b2n] in K; lia.
        * cbn [ftmatch]. eexists l0, [_]. split; [auto|]. split; [rewrite T2, <- app_assoc; reflexivity|].
          cbn [call_done]. eexists. split; [reflexivity|]. auto.
      + eapply FI_quiet with (o := None); [exact C|exact E|exact Logic.I|exact Re| |].
        * intros h. pose proof (pend_set _ _ _ (Pruning 0) h E) as K. cbn [uses b2n] in K. specialize (Pn h). lia.
        * rewrite fproj_add. destruct T as (l0 & T1 & T2 & _). cbn [ftmatch]. split; [lia|]. exists l0, []. auto.
      + assert (Hi' : i < 16) by exact Hi. eapply FI_section; [exact C|exact E|exact (Hi' : olegal _ _ (CPruneShard i))|exact Hx| |].
        * intros h. pose proof (pend_set _ _ _ (Pruning (S i)) h E) as K. cbn [uses b2n] in K. specialize (Pn h). cbv beta iota; lia.
        * destruct T as (_ & l0 & secs & T1 & T2 & T3). cbn [ftmatch]. split; [lia|]. exists l0, (secs ++ [ev]).
          split; [auto|]. split; [rewrite T2, <- app_assoc, fsecs_snoc; reflexivity|].
          rewrite seq_S, !map_app, T3. cbn [map Nat.add]. now rewrite (exec_call hashf alc dbg _ _ _ _ Hx).
      + eapply FI_quiet with (o := None); [exact C|exact E|exact Logic.I|exact Re| |].
        * intros h. pose proof (pend_set _ _ _ (Done CPrune RNone) h E) as K. cbn [uses b2n] in K. specialize (Pn h). lia.
        * rewrite fproj_add. destruct T as (Hle & l0 & secs & T1 & T2 & T3). change kNumShards with 16 in Hi. assert (i = 16) by lia. subst i.
          cbn [ftmatch]. exists l0, secs. split; [auto|]. split; [auto|]. cbn [call_done]. auto.
      + eapply FI_quiet with (o := None); [exact C|exact E|exact Logic.I|exact Re| |].
        * intros h. pose proof (pend_set _ _ _ (Charging 0 0) h E) as K. cbn [uses b2n] in K. specialize (Pn h). lia.
        * rewrite fproj_add. destruct T as (l0 & T1 & T2 & _). cbn [ftmatch]. split; [lia|]. exists l0, [], [].
          split; [auto|]. split; [auto|]. split; [auto|]. split; auto.
      + assert (Hi' : i < 16) by exact Hi. eapply FI_section; [exact C|exact E|exact (Hi' : olegal _ _ (CShardCharge i))|exact Hx| |].
        * intros h. pose proof (pend_set _ _ _ (Charging (S i) (u64 (acc + m))) h E) as K. cbn [uses b2n] in K. specialize (Pn h). cbv beta iota; lia.
        * destruct T as (_ & l0 & secs & ns & T1 & T2 & T3 & T4 & T5). cbn [ftmatch]. split; [lia|].
          exists l0, (secs ++ [ev]), (ns ++ [m]).
          split; [auto|]. split; [rewrite T2, <- app_assoc, fsecs_snoc; reflexivity|].
          split; [rewrite seq_S, !map_app, T3; cbn [map Nat.add]; now rewrite (exec_call hashf alc dbg _ _ _ _ Hx)|].
          split; [rewrite !map_app, T4; cbn [map]; now rewrite Er|]. rewrite T5, u64_add_l, sumN_snoc. reflexivity.
      + eapply FI_quiet with (o := None); [exact C|exact E|exact Logic.I|exact Re| |].
        * intros h. pose proof (pend_set _ _ _ (Done CTotalCharge (RNum acc)) h E) as K. cbn [uses b2n] in K. specialize (Pn h). lia.
        * rewrite fproj_add. destruct T as (Hle & l0 & secs & ns & T1 & T2 & T3 & T4 & T5). change kNumShards with 16 in Hi. assert (i = 16) by lia. subst i.
          cbn [ftmatch]. exists l0, secs. split; [auto|]. split; [auto|]. cbn [call_done]. split; [auto|]. exists ns. split; [auto|].
          now rewrite T5.
      + eapply FI_quiet; [exact C|exact E|exact Logic.I|exact Re| |].
        * intros h. pose proof (pend_set _ _ _ Idle h E) as K. cbn [uses b2n] in K. specialize (Pn h). lia.
        * rewrite fproj_add, Nat.eqb_refl. destruct T as (l0 & secs & T1 & T2 & T3). cbn [ftmatch].
          rewrite T2, <- app_assoc. cbn [app]. now apply fd_call.
    - (* the Insert throws and leaves nothing *)
      pose proof (fi_thr _ _ C t _ E) as T. cbn [ftmatch] in T. destruct T as (l0 & T1 & T2 & _).
      eapply FI_quiet; [exact C|exact E|exact Logic.I| | |].
      + eapply oreach_clean; [exact Re|exact (Hr : olegal _ _ (CInsert k v ch d))|exact X].
      + intros h. pose proof (pend_set _ _ _ Idle h E) as K. cbn [uses b2n] in K. specialize (Pn h). lia.
      + rewrite fproj_add, Nat.eqb_refl. cbn [ftmatch]. rewrite T2, <- app_assoc. cbn [app]. now apply fd_threw.
    - (* it throws and leaves its entry *)
      pose proof (fi_thr _ _ C t _ E) as T. cbn [ftmatch] in T. destruct T as (l0 & T1 & T2 & _).
      pose proof (og _ _ _ Re) as Gd.
      assert (K : held (fsections tr) a = 0 /\ m_log (c_mem c') = []).
      { destruct f; cbn [cache_insert_f] in X; try discriminate.
        destruct (insert_lost hashf hash32 alc Halc dbg cap _ _ k v ch d Gd Hr)
          as [(c1 & a1 & ev & E1 & _)|(c1 & a1 & E1 & El & _ & Eh & _)]; cbn [cache_insert_f] in E1; rewrite E1 in X; [discriminate|].
        injection X as <- <-. auto. }
      destruct K as [Ka Kl].
      set (ev := mk_event (CInsert k v ch d) (RHandle a) (m_log (c_mem c'))).
      assert (Hp : forall h, pend (set_nth t Idle (ct cf)) h <= user_held (fsections tr) (fthrown tr) h).
      { intros h. pose proof (pend_set _ _ _ Idle h E) as K. cbn [uses b2n] in K. specialize (Pn h). lia. }
      constructor; cbn [cc ct].
      + change (fsections (add_flab t (Some (Threw (Some ev))) tr)) with (ev :: fsections tr).
        change (fthrown (add_flab t (Some (Threw (Some ev))) tr)) with (length (fsections tr) :: fthrown tr).
        eapply oreach_lost; [exact Re|exact (Hr : olegal _ _ (CInsert k v ch d))|exact X].
      + intros h. change (fsections (add_flab t (Some (Threw (Some ev))) tr)) with (ev :: fsections tr).
        change (fthrown (add_flab t (Some (Threw (Some ev))) tr)) with (length (fsections tr) :: fthrown tr).
        etransitivity; [apply Hp|]. unfold ev. now apply user_held_lost.
      + change (fsections (add_flab t (Some (Threw (Some ev))) tr)) with (ev :: fsections tr).
        intros u q Hq. pose proof Hq as Hq0. rewrite (nth_set _ _ _ _ _ E) in Hq. rewrite fproj_add. destruct (u =? t) eqn:Eu.
        * apply Nat.eqb_eq in Eu. subst u. inversion Hq; subst q. rewrite Nat.eqb_refl. cbn [ftmatch].
          rewrite T2, <- app_assoc. cbn [app]. apply fd_threw; [exact T1|]. unfold ev. cbn [ev_call ev_del ev_res]. rewrite Kl. eauto.
        * rewrite Nat.eqb_sym, Eu. eapply ftmatch_ext; [|apply (fi_thr _ _ C); exact Hq].
          intros h s ->. unfold ev. apply hshard_lost; [exact Ka|].
          eapply Nat.lt_le_trans; [eapply (using_held tr cf u _ h C Hq); cbn; apply Nat.eqb_refl|apply user_le].
  Qed.

  Lemma FI_runs tr cf : fruns tr cf -> FI tr cf.
  Proof.
    induction 1 as [c E|tr cf t o cf' R IH Sx].
    - constructor; cbn [cc ct].
      + now constructor.
      + intros h. unfold pend.
        assert (Z : filter (uses h) (repeat Idle n) = []) by (clear E; induction n as [|m IH]; cbn; auto). rewrite Z. cbn. lia.
      + intros t p Hp. apply nth_error_In, repeat_spec in Hp. subst p. constructor.
    - eapply FI_step; eauto.
  Qed.

  Lemma ftmatch_ok H p l : ftmatch H p l -> fthread_ok l.
  Proof.
    unfold fthread_ok. destruct p; cbn [ftmatch]; auto.
    - intros (l0 & T1 & T2 & _). right. exists l0, x, []. auto.
    - intros [(l0 & T1 & T2) _]. right. exists l0, (CRelease h), []. auto.
    - intros (_ & l0 & secs & T1 & T2 & _). right. eauto.
    - intros (_ & l0 & secs & ns & T1 & T2 & _). right. eauto.
    - intros (l0 & secs & T1 & T2 & _). right. eauto.
  Qed.

  Lemma fruns_threads tr cf : fruns tr cf -> length (ct cf) = n.
  Proof.
    induction 1 as [c E|tr cf u o cf' R IH Sx]; cbn [ct]; [apply repeat_length|].
    destruct Sx as [o cf' Sx _| |]; [destruct Sx|..]; cbn [ct]; rewrite set_nth_length; auto.
  Qed.

  Theorem fconc_explained tr cf : fruns tr cf ->
    oreach (fsections tr) (fthrown tr) (cc cf) /\ forall t, t < n -> fthread_ok (fproj t tr).
  Proof.
    intros R. pose proof (FI_runs _ _ R) as C. split; [apply (fi_reach _ _ C)|]. intros t Ht.
    pose proof (fruns_threads _ _ R) as L.
    destruct (nth_error (ct cf) t) as [p|] eqn:E.
    - eapply ftmatch_ok. apply (fi_thr _ _ C). exact E.
    - apply nth_error_None in E. lia.
  Qed.

  Lemma beg_idle H t cf o cf' : cstep hashf alc dbg H t cf o cf' -> forall x, o = Some (Beg x) -> nth_error (ct cf) t = Some Idle.
  Proof. intros K x Eo. destruct K; try discriminate Eo. assumption. Qed.

  Theorem fconc_progress tr cf t p : fruns tr cf -> nth_error (ct cf) t = Some p -> p <> Idle ->
    (forall x, p = Start x -> in_range (fsections tr) x) ->
    exists o cf', cstep hashf alc dbg (fsections tr) t cf o cf' /\ fstep (fsections tr) (fthrown tr) t cf (option_map FL o) cf'.
  Proof.
    intros R E Hp Hr. pose proof (FI_runs _ _ R) as C. pose proof (fi_thr _ _ C t p E) as T.
    pose proof (og _ _ _ (fi_reach _ _ C)) as Gd.
    assert (Hh : forall h, uses h p = true -> 0 < held (fsections tr) h).
    { intros h U. eapply Nat.lt_le_trans; [eapply using_held; eauto|apply user_le]. }
    assert (Ex : forall x, legal (fsections tr) x -> exists c' ev, exec (cc cf) x = Ret (c', ev) /\ ev_call ev = x).
    { intros x Hl. exact (good_safe hashf hash32 alc Halc dbg cap _ _ x Gd Hl). }
    enough (K : exists o cf', cstep hashf alc dbg (fsections tr) t cf o cf').
    { destruct K as (o & cf' & K). exists o, cf'. split; [exact K|]. eapply fs_step; [exact K|].
      intros x Eo. exfalso. pose proof (beg_idle _ _ _ _ _ K x Eo) as Ei. congruence. }
    destruct p as [|x|h s|i|i acc|x r].
    - contradiction.
    - specialize (Hr x eq_refl). cbn [ftmatch] in T. destruct T as (_ & _ & _ & Tx).
      assert (Sg : single x = true -> legal (fsections tr) x -> exists o cf', cstep hashf alc dbg (fsections tr) t cf o cf').
      { intros H1 H2. destruct (Ex x H2) as (c' & ev & H3 & _). eexists _, _. eapply c_single; eauto. }
      destruct x; try (apply Sg; [reflexivity|]; cbn [in_range] in Hr; try exact Hr; try exact Logic.I;
                       apply Hh; cbn; apply Nat.eqb_refl).
      + destruct (held_hash_g (fsections tr) (cc cf) handle Gd) as (nd & Hn & _); [apply Hh; cbn; apply Nat.eqb_refl|].
        eexists _, _. eapply c_readhash; eauto. unfold get. now rewrite Hn.
      + eexists _, _. now apply c_prune0.
      + eexists _, _. now apply c_charge0.
      + destruct Tx.
      + destruct Tx.
    - cbn [ftmatch] in T. destruct T as [_ ->].
      assert (Hp' : 0 < held (fsections tr) h) by (apply Hh; cbn; apply Nat.eqb_refl).
      destruct (Ex (CRelease h) Hp') as (c' & ev & Hx & _).
      destruct (held_hash_g (fsections tr) (cc cf) h Gd Hp') as (nd & Hn & Hs).
      unfold CacheRun.exec in Hx. cbn [dispatch] in Hx. unfold cache_release, get in Hx. cbn [clear_log c_mem m_heap] in Hx.
      rewrite Hn in Hx. cbn [bind] in Hx. rewrite Hs in Hx.
      destruct (release_at dbg (clear_log (cc cf)) (hshard (fsections tr) h) h) as [c2| | |] eqn:E2;
        [eexists _, _; eapply c_release; eauto|exfalso|exfalso|exfalso];
        unfold release_at, the_shard in E2; unfold the_shard in Hx; cbn [clear_log c_shards c_mem] in *;
        destruct (nth_error (c_shards (cc cf)) (hshard (fsections tr) h)) as [s0|]; cbn [bind] in *; try discriminate;
        destruct (shard_release dbg _ s0 h); cbn [bind] in *; discriminate.
    - destruct (le_lt_dec kNumShards i) as [Hi|Hi].
      + eexists _, _. eapply c_prune_end; eauto.
      + destruct (Ex (CPruneShard i) Hi) as (c' & ev & Hx & _). eexists _, _. eapply c_prune; eauto.
    - destruct (le_lt_dec kNumShards i) as [Hi|Hi].
      + eexists _, _. eapply c_charge_end; eauto.
      + destruct (Ex (CShardCharge i) Hi) as (c' & ev & Hx & _). destruct (exec_result_num hashf alc dbg _ _ _ _ Hx) as (m & Em).
        eexists _, _. eapply c_charge; eauto.
    - eexists _, _. eapply c_return; eauto.
  Qed.
End Conc.
