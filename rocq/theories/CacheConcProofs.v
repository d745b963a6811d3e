(** CacheConcProofs.v -- every interleaving is a sequential history of sections. *)
From Coq Require Import List Arith NArith Lia Bool Permutation.
From Verif Require Import Outcome Heap Cache CacheSpec CacheRun CacheHeap CacheTable CacheShard CacheGlobal CacheHist CacheProofs CacheThms CacheConc.
Import ListNotations.
Local Open Scope outcome_scope.

Definition b2n (b : bool) : nat := if b then 1 else 0.
Lemma pend_set tp : forall t p p' h, nth_error tp t = Some p ->
  pend (set_nth t p' tp) h + b2n (uses h p) = pend tp h + b2n (uses h p').
Proof.
  unfold pend. induction tp as [|q tp IH]; intros [|t] p p' h E; try discriminate; cbn [set_nth filter nth_error] in *.
  - inversion E; subst q. unfold b2n. destruct (uses h p), (uses h p'); cbn [length]; lia.
  - specialize (IH t p p' h E). destruct (uses h q); cbn [length]; lia.
Qed.
Lemma pend_pos tp t p h : nth_error tp t = Some p -> uses h p = true -> 0 < pend tp h.
Proof.
  intros E U. unfold pend. destruct (filter (uses h) tp) eqn:F; cbn; [|lia]. exfalso.
  assert (In p (filter (uses h) tp)) by (apply filter_In; split; [eapply nth_error_In; eauto|auto]). now rewrite F in H.
Qed.

Lemma proj_add t t' o tr : proj t (add_lab t' o tr) =
  match o with Some l => if t' =? t then proj t tr ++ [l] else proj t tr | None => proj t tr end.
Proof.
  destruct o as [l|]; [|reflexivity]. unfold proj. cbn [add_lab rev]. rewrite filter_app, map_app. cbn [filter fst].
  destruct (t' =? t); cbn [map snd]; [reflexivity|]. now rewrite app_nil_r.
Qed.

Lemma nth_set {A} (l : list A) t x y u : nth_error l t = Some y ->
  nth_error (set_nth t x l) u = if u =? t then Some x else nth_error l u.
Proof.
  intros E. rewrite nth_error_set_nth. destruct (u =? t); auto.
  assert (t < length l) by (apply nth_error_Some; congruence). apply Nat.ltb_lt in H. now rewrite H.
Qed.

Section Conc.
  Variable hashf : bytes -> N.
  Hypothesis hash32 : forall k, (hashf k < 2 ^ 32)%N.
  Variable alc : allocator.
  Hypothesis Halc : allocator_ok alc.
  Variable dbg : bool.
  Variable cap : N.
  Variable n : nat.
  Notation home := (home hashf).
  Notation reach := (reach hashf alc dbg cap).
  Notation exec := (exec hashf alc dbg).
  Notation cruns := (cruns hashf alc dbg cap n).
  Notation cstep := (cstep hashf alc dbg).

  Definition hshard (H : history) (h : nat) : nat :=
    match owner H h with Some i => home (key_of_insert H i) | None => 0 end.

  Lemma held_hash H c h : reach H c -> 0 < held H h ->
    exists nd, hget (m_heap (c_mem c)) h = Some nd /\ Shard (n_hash nd) = hshard H h.
  Proof.
    intros R Hh. destruct (reach_inv hashf hash32 alc Halc dbg cap H c R) as (A & G & I).
    destruct (h_heldin _ _ _ I h Hh) as (i & e & Hi & He & Ea).
    destruct (ent_hash hashf (per_shard cap) c A i e G Hi He) as (nd & Hn & Hs & _).
    exists nd. rewrite <- Ea. split; [auto|]. unfold hshard. rewrite (h_own _ _ _ I i e Hi He).
    rewrite (key_of_ent cap H A I i e Hi He), Hs. symmetry. exact (g_key _ _ _ _ G i e Hi He).
  Qed.

  Lemma exec_call c x c' ev : exec c x = Ret (c', ev) -> ev_call ev = x.
  Proof.
    unfold CacheRun.exec. destruct (dispatch hashf alc dbg (clear_log c) x); cbn [bind]; try discriminate.
    intros E. inversion E. reflexivity.
  Qed.

  Lemma hshard_step H c x c' ev h : reach H c -> legal H x -> exec c x = Ret (c', ev) ->
    0 < held H h -> 0 < held (ev :: H) h -> hshard (ev :: H) h = hshard H h.
  Proof.
    intros R Hl Hx H1 H2. unfold hshard. rewrite (held_stable hashf hash32 alc Halc dbg cap H c x c' ev h (reach_inv hashf hash32 alc Halc dbg cap _ _ R) Hl Hx H1 H2).
    destruct (held_value hashf hash32 alc Halc dbg cap H c h (reach_inv hashf hash32 alc Halc dbg cap _ _ R) H1) as (i & k & v & ch & d & _ & Ho & Hi & _).
    rewrite Ho. unfold key_of_insert. rewrite insert_at_old; [reflexivity|]. eapply insert_at_lt; eauto.
  Qed.

  Lemma held_step H ev h : held H h <= held (ev :: H) h + (match ev_call ev with CRelease p => if p =? h then 1 else 0 | _ => 0 end).
  Proof.
    cbn [held]. destruct (ev_call ev); try lia; try (destruct (ev_res ev); try lia; destruct (negb _ && _); lia).
    destruct (ev_res ev), (handle =? h); lia.
  Qed.

  (** A thread's state against what it has done so far. *)
  Definition tmatch (H : history) (p : pst) (l : list lab) : Prop :=
    match p with
    | Idle => calls_done l
    | Start x => exists l0, calls_done l0 /\ l = l0 ++ [Beg x] /\ match x with CPruneShard _ | CShardCharge _ => False | _ => True end
    | ReadHash h s => (exists l0, calls_done l0 /\ l = l0 ++ [Beg (CRelease h)]) /\ s = hshard H h
    | Pruning i => i <= 16 /\ exists l0 secs, calls_done l0 /\ l = l0 ++ Beg CPrune :: map Sec secs /\
                   map ev_call secs = map CPruneShard (seq 0 i)
    | Charging i acc => i <= 16 /\ exists l0 secs ns, calls_done l0 /\ l = l0 ++ Beg CTotalCharge :: map Sec secs /\
                   map ev_call secs = map CShardCharge (seq 0 i) /\ map ev_res secs = map RNum ns /\ acc = u64 (sumN ns)
    | Done x r => exists l0 secs, calls_done l0 /\ l = l0 ++ Beg x :: map Sec secs /\ call_done x secs r
    end.

  Record CI (tr : trace) (cf : cconf) : Prop := {
    ci_reach : reach (sections tr) (cc cf);
    ci_pend : forall h, pend (ct cf) h <= held (sections tr) h;
    ci_thr : forall t p, nth_error (ct cf) t = Some p -> tmatch (sections tr) p (proj t tr) }.

  Lemma tmatch_ext H H' p l : (forall h s, p = ReadHash h s -> hshard H' h = hshard H h) -> tmatch H p l -> tmatch H' p l.
  Proof. intros E. destruct p; cbn [tmatch]; auto. intros [A B]. split; auto. rewrite (E h s eq_refl). auto. Qed.

  (** A step that is not a section. *)
  Lemma CI_quiet tr cf t p p' o : CI tr cf -> nth_error (ct cf) t = Some p ->
    match o with Some (Sec _) => False | _ => True end ->
    (forall h, pend (set_nth t p' (ct cf)) h <= held (sections tr) h) ->
    tmatch (sections tr) p' (proj t (add_lab t o tr)) ->
    CI (add_lab t o tr) (mk_cconf (cc cf) (set_nth t p' (ct cf))).
  Proof.
    intros C E Ho Hp Hm.
    assert (Es : sections (add_lab t o tr) = sections tr).
    { destruct o as [[]|]; cbn [add_lab]; auto. destruct Ho. }
    constructor; cbn [cc ct]; rewrite Es.
    - apply (ci_reach _ _ C).
    - exact Hp.
    - intros u q Hq. rewrite (nth_set _ _ _ _ _ E) in Hq. destruct (u =? t) eqn:Eu.
      + apply Nat.eqb_eq in Eu. subst u. inversion Hq; subst q. exact Hm.
      + rewrite proj_add. destruct o; [rewrite Nat.eqb_sym, Eu|]; now apply (ci_thr _ _ C).
  Qed.

  (** A section. *)
  Lemma CI_section tr cf t p p' x c' ev : CI tr cf -> nth_error (ct cf) t = Some p ->
    legal (sections tr) x -> exec (cc cf) x = Ret (c', ev) ->
    (forall h, pend (set_nth t p' (ct cf)) h + (match x with CRelease q => if q =? h then 1 else 0 | _ => 0 end) <= held (sections tr) h) ->
    tmatch (ev :: sections tr) p' (proj t tr ++ [Sec ev]) ->
    CI (add_lab t (Some (Sec ev)) tr) (mk_cconf c' (set_nth t p' (ct cf))).
  Proof.
    intros C E Hl Hx Hp Hm. pose proof (exec_call _ _ _ _ Hx) as Ec.
    assert (Es : sections (add_lab t (Some (Sec ev)) tr) = ev :: sections tr) by reflexivity.
    assert (Hheld : forall h, pend (set_nth t p' (ct cf)) h <= held (ev :: sections tr) h).
    { intros h. specialize (Hp h). pose proof (held_step (sections tr) ev h) as K. rewrite Ec in K.
      destruct x; lia. }
    constructor; cbn [cc ct]; rewrite Es.
    - econstructor; eauto. apply (ci_reach _ _ C).
    - exact Hheld.
    - intros u q Hq. pose proof Hq as Hq0. rewrite (nth_set _ _ _ _ _ E) in Hq. rewrite proj_add. destruct (u =? t) eqn:Eu.
      + apply Nat.eqb_eq in Eu. subst u. inversion Hq; subst q. rewrite Nat.eqb_refl. exact Hm.
      + rewrite Nat.eqb_sym, Eu. eapply tmatch_ext; [|apply (ci_thr _ _ C); exact Hq].
        intros h s ->. eapply hshard_step; eauto; [apply (ci_reach _ _ C)| |].
        * eapply Nat.lt_le_trans; [eapply (pend_pos (ct cf)); eauto|apply (ci_pend _ _ C)]. cbn. apply Nat.eqb_refl.
        * eapply Nat.lt_le_trans; [eapply (pend_pos (set_nth t p' (ct cf))); eauto|apply Hheld]. cbn. apply Nat.eqb_refl.
  Qed.

  Lemma release_exec H c h c' : reach H c -> 0 < held H h ->
    release_at dbg (clear_log c) (hshard H h) h = Ret c' ->
    exec c (CRelease h) = Ret (c', mk_event (CRelease h) RNone (m_log (c_mem c'))).
  Proof.
    intros R Hh E. destruct (held_hash H c h R Hh) as (nd & Hn & Hs).
    unfold CacheRun.exec. cbn [dispatch]. unfold cache_release, get. cbn [clear_log c_mem m_heap]. rewrite Hn. cbn [bind].
    rewrite Hs. unfold release_at in E.
    destruct (the_shard (clear_log c) (hshard H h)) as [sh| | |] eqn:E1; cbn [bind] in *; try discriminate.
    unfold the_shard in E1 |- *. cbn [clear_log c_shards] in E1 |- *. 
    destruct (nth_error (c_shards c) (hshard H h)); [|discriminate]. inversion E1; subst s. cbn [bind].
    destruct (shard_release dbg (c_mem (clear_log c)) sh h) as [m| | |] eqn:E2; cbn [bind] in *; try discriminate.
    cbn [clear_log c_mem] in E2. rewrite E2. cbn [bind fst snd]. inversion E; subst c'. reflexivity.
  Qed.

  Lemma exec_result_num c i c' ev : exec c (CShardCharge i) = Ret (c', ev) -> exists m, ev_res ev = RNum m.
  Proof.
    unfold CacheRun.exec. cbn [dispatch]. destruct (cache_shard_charge (clear_log c) i) as [v| | |]; cbn [bind]; try discriminate.
    intros E. inversion E. cbn. eauto.
  Qed.

  Lemma u64_add_l a b : u64 (u64 a + b) = u64 (a + b).
  Proof. unfold u64. now rewrite N.add_mod_idemp_l by discriminate. Qed.
  Lemma sumN_snoc l x : sumN (l ++ [x]) = (sumN l + x)%N.
  Proof. rewrite sumN_app. unfold sumN at 2. cbn [fold_right]. f_equal. lia. Qed.

  Lemma CI_step tr cf t o cf' : CI tr cf -> cstep (sections tr) t cf o cf' -> CI (add_lab t o tr) cf'.
  Proof.
    intros C S. pose proof (ci_pend _ _ C) as Pn.
    destruct S as [x E Hm|x c' ev E Hs Hr Hx|h nd E Hg|h s c' E Hx|E|i c' ev E Hi Hx|i E Hi|E|i acc c' ev m E Hi Hx Er|i acc E Hi|x r E];
      pose proof (ci_thr _ _ C t _ E) as T; cbn [tmatch] in T.
    - eapply CI_quiet; [exact C|exact E|exact Logic.I| |].
      + intros h. pose proof (pend_set _ _ _ (Start x) h E) as K. cbn [uses b2n] in K. specialize (Pn h).
        cbn [uses] in K. destruct x; cbn [b2n] in K; try lia.
        * cbn [may_call] in Hm. destruct (handle =? h) eqn:Eh; cbn [b2n] in K; [|lia]. apply Nat.eqb_eq in Eh. subst h. lia.
        * cbn [may_call] in Hm. destruct (handle =? h) eqn:Eh; cbn [b2n] in K; [|lia]. apply Nat.eqb_eq in Eh. subst h. lia.
      + rewrite proj_add, Nat.eqb_refl. cbn [tmatch]. exists (proj t tr). split; [auto|]. split; [auto|].
        destruct x; auto.
    - assert (Hl : legal (sections tr) x).
      { destruct x; try discriminate; cbn [in_range] in Hr; try exact Hr; try exact Logic.I.
        cbn [legal]. eapply Nat.lt_le_trans; [|apply Pn]. eapply pend_pos; [exact E|]. cbn. apply Nat.eqb_refl. }
      eapply CI_section; [exact C|exact E|exact Hl|exact Hx| |].
      + intros h. pose proof (pend_set _ _ _ (Done x (ev_res ev)) h E) as K. specialize (Pn h).
        cbn [uses] in K. destruct x; try discriminate; cbn [b2n] in K; try lia; destruct (handle =? h); cbn [b2n] in K; lia.
      + cbn [tmatch]. destruct T as (l0 & T1 & T2 & _). exists l0, [ev]. split; [auto|]. split.
        * rewrite T2, <- app_assoc. reflexivity.
        * pose proof (exec_call _ _ _ _ Hx) as Ec. destruct x; try discriminate; cbn [call_done]; exists ev; auto.
    - unfold get in Hg. destruct (hget (m_heap (c_mem (cc cf))) h) as [nd'|] eqn:Eh; [|discriminate]. inversion Hg; subst nd'.
      eapply CI_quiet; [exact C|exact E|exact Logic.I| |].
      + intros h'. pose proof (pend_set _ _ _ (ReadHash h (Shard (n_hash nd))) h' E) as K. cbn [uses] in K. specialize (Pn h'). lia.
      + rewrite proj_add. cbn [tmatch]. destruct T as (l0 & T1 & T2 & _). split; [eauto|].
        destruct (held_hash (sections tr) (cc cf) h) as (nd' & Hn' & Hs'); [apply (ci_reach _ _ C)| |congruence].
        eapply Nat.lt_le_trans; [|apply Pn]. eapply pend_pos; [exact E|]. cbn. apply Nat.eqb_refl.
    - destruct T as [(l0 & T1 & T2) ->].
      assert (Hh : 0 < held (sections tr) h).
      { eapply Nat.lt_le_trans; [|apply Pn]. eapply pend_pos; [exact E|]. cbn. apply Nat.eqb_refl. }
      assert (Hx' := release_exec _ _ _ _ (ci_reach _ _ C) Hh Hx).
      eapply CI_section; [exact C|exact E|exact (Hh : legal _ (CRelease h))|exact Hx'| |].
      + intros h'. pose proof (pend_set _ _ _ (Done (CRelease h) RNone) h' E) as K. cbn [uses b2n] in K. specialize (Pn h').
        cbv beta iota; destruct (h =? h'); cbn [b2n] in K; lia.
      + cbn [tmatch]. eexists l0, [_]. split; [auto|]. split; [rewrite T2, <- app_assoc; reflexivity|].
        cbn [call_done]. eexists. split; [reflexivity|]. auto.
    - eapply CI_quiet; [exact C|exact E|exact Logic.I| |].
      + intros h. pose proof (pend_set _ _ _ (Pruning 0) h E) as K. cbn [uses b2n] in K. specialize (Pn h). lia.
      + rewrite proj_add. destruct T as (l0 & T1 & T2 & _). cbn [tmatch]. split; [lia|]. exists l0, []. auto.
    - assert (Hi' : i < 16) by exact Hi. eapply CI_section; [exact C|exact E|exact (Hi' : legal _ (CPruneShard i))|exact Hx| |].
      + intros h. pose proof (pend_set _ _ _ (Pruning (S i)) h E) as K. cbn [uses b2n] in K. specialize (Pn h). cbv beta iota; lia.
      + destruct T as (_ & l0 & secs & T1 & T2 & T3). cbn [tmatch]. split; [lia|]. exists l0, (secs ++ [ev]).
        split; [auto|]. split; [rewrite T2, <- app_assoc, map_app; reflexivity|].
        rewrite seq_S, !map_app, T3. cbn [map Nat.add]. now rewrite (exec_call _ _ _ _ Hx).
    - eapply CI_quiet; [exact C|exact E|exact Logic.I| |].
      + intros h. pose proof (pend_set _ _ _ (Done CPrune RNone) h E) as K. cbn [uses b2n] in K. specialize (Pn h). lia.
      + rewrite proj_add. destruct T as (Hle & l0 & secs & T1 & T2 & T3). change kNumShards with 16 in Hi. assert (i = 16) by lia. subst i.
        cbn [tmatch]. exists l0, secs. split; [auto|]. split; [auto|]. cbn [call_done]. auto.
    - eapply CI_quiet; [exact C|exact E|exact Logic.I| |].
      + intros h. pose proof (pend_set _ _ _ (Charging 0 0) h E) as K. cbn [uses b2n] in K. specialize (Pn h). lia.
      + rewrite proj_add. destruct T as (l0 & T1 & T2 & _). cbn [tmatch]. split; [lia|]. exists l0, [], [].
        split; [auto|]. split; [auto|]. split; [auto|]. split; auto.
    - assert (Hi' : i < 16) by exact Hi. eapply CI_section; [exact C|exact E|exact (Hi' : legal _ (CShardCharge i))|exact Hx| |].
      + intros h. pose proof (pend_set _ _ _ (Charging (S i) (u64 (acc + m))) h E) as K. cbn [uses b2n] in K. specialize (Pn h). cbv beta iota; lia.
      + destruct T as (_ & l0 & secs & ns & T1 & T2 & T3 & T4 & T5). cbn [tmatch]. split; [lia|].
        exists l0, (secs ++ [ev]), (ns ++ [m]).
        split; [auto|]. split; [rewrite T2, <- app_assoc, map_app; reflexivity|].
        split; [rewrite seq_S, !map_app, T3; cbn [map Nat.add]; now rewrite (exec_call _ _ _ _ Hx)|].
        split; [rewrite !map_app, T4; cbn [map]; now rewrite Er|]. rewrite T5, u64_add_l, sumN_snoc. reflexivity.
    - eapply CI_quiet; [exact C|exact E|exact Logic.I| |].
      + intros h. pose proof (pend_set _ _ _ (Done CTotalCharge (RNum acc)) h E) as K. cbn [uses b2n] in K. specialize (Pn h). lia.
      + rewrite proj_add. destruct T as (Hle & l0 & secs & ns & T1 & T2 & T3 & T4 & T5). change kNumShards with 16 in Hi. assert (i = 16) by lia. subst i.
        cbn [tmatch]. exists l0, secs. split; [auto|]. split; [auto|]. cbn [call_done]. split; [auto|]. exists ns. split; [auto|].
        now rewrite T5.
    - eapply CI_quiet; [exact C|exact E|exact Logic.I| |].
      + intros h. pose proof (pend_set _ _ _ Idle h E) as K. cbn [uses b2n] in K. specialize (Pn h). lia.
      + rewrite proj_add, Nat.eqb_refl. destruct T as (l0 & secs & T1 & T2 & T3). cbn [tmatch].
        rewrite T2, <- app_assoc. cbn [app]. now apply cd_call.
  Qed.

  Lemma CI_runs tr cf : cruns tr cf -> CI tr cf.
  Proof.
    induction 1 as [c E|tr cf t o cf' R IH S].
    - constructor; cbn [cc ct].
      + now constructor.
      + intros h. cbn [sections flat_map held]. unfold pend.
        assert (Z : filter (uses h) (repeat Idle n) = []) by (induction n as [|m IH]; cbn; auto). now rewrite Z.
      + intros t p Hp. apply nth_error_In, repeat_spec in Hp. subst p. constructor.
    - eapply CI_step; eauto.
  Qed.

  Lemma tmatch_ok H p l : tmatch H p l -> thread_ok l.
  Proof.
    unfold thread_ok. destruct p; cbn [tmatch]; auto.
    - intros (l0 & T1 & T2 & _). right. exists l0, x, []. auto.
    - intros [(l0 & T1 & T2) _]. right. exists l0, (CRelease h), []. auto.
    - intros (_ & l0 & secs & T1 & T2 & _). right. eauto.
    - intros (_ & l0 & secs & ns & T1 & T2 & _). right. eauto.
    - intros (l0 & secs & T1 & T2 & _). right. eauto.
  Qed.

  Theorem conc_explained tr cf : cruns tr cf ->
    reach (sections tr) (cc cf) /\ forall t, t < n -> thread_ok (proj t tr).
  Proof.
    intros R. pose proof (CI_runs _ _ R) as C. split; [apply (ci_reach _ _ C)|]. intros t Ht.
    assert (L : length (ct cf) = n).
    { clear C. induction R as [c E|tr cf u o cf' R IH S]; cbn [ct]; [apply repeat_length|].
      destruct S; cbn [ct]; rewrite set_nth_length; auto. }
    destruct (nth_error (ct cf) t) as [p|] eqn:E.
    - eapply tmatch_ok. apply (ci_thr _ _ C). exact E.
    - apply nth_error_None in E. lia.
  Qed.

  (** Nothing is ever stuck or undefined. *)
  Theorem conc_progress tr cf t p : cruns tr cf -> nth_error (ct cf) t = Some p -> p <> Idle ->
    (forall x, p = Start x -> in_range (sections tr) x) ->
    exists o cf', cstep (sections tr) t cf o cf'.
  Proof.
    intros R E Hp Hr. pose proof (CI_runs _ _ R) as C. pose proof (ci_thr _ _ C t p E) as T.
    pose proof (ci_reach _ _ C) as Re.
    assert (Hh : forall h, uses h p = true -> 0 < held (sections tr) h).
    { intros h U. eapply Nat.lt_le_trans; [eapply pend_pos; eauto|apply (ci_pend _ _ C)]. }
    assert (Ex : forall x, legal (sections tr) x -> exists c' ev, exec (cc cf) x = Ret (c', ev) /\ ev_call ev = x).
    { intros x Hl. exact (exec_total_safe hashf hash32 alc Halc dbg cap _ _ x Re Hl). }
    destruct p as [|x|h s|i|i acc|x r].
    - contradiction.
    - specialize (Hr x eq_refl). cbn [tmatch] in T. destruct T as (_ & _ & _ & Tx).
      assert (Sg : single x = true -> legal (sections tr) x -> exists o cf', cstep (sections tr) t cf o cf').
      { intros H1 H2. destruct (Ex x H2) as (c' & ev & H3 & _). eexists _, _. eapply c_single; eauto. }
      destruct x; try (apply Sg; [reflexivity|]; cbn [in_range] in Hr; try exact Hr; try exact Logic.I;
                       apply Hh; cbn; apply Nat.eqb_refl).
      + destruct (held_hash (sections tr) (cc cf) handle Re) as (nd & Hn & _); [apply Hh; cbn; apply Nat.eqb_refl|].
        eexists _, _. eapply c_readhash; eauto. unfold get. now rewrite Hn.
      + eexists _, _. now apply c_prune0.
      + eexists _, _. now apply c_charge0.
      + destruct Tx.
      + destruct Tx.
    - cbn [tmatch] in T. destruct T as [_ ->].
      assert (Hp' : 0 < held (sections tr) h) by (apply Hh; cbn; apply Nat.eqb_refl).
      destruct (Ex (CRelease h) Hp') as (c' & ev & Hx & _).
      destruct (held_hash (sections tr) (cc cf) h Re Hp') as (nd & Hn & Hs).
      unfold CacheRun.exec in Hx. cbn [dispatch] in Hx. unfold cache_release, get in Hx. cbn [clear_log c_mem m_heap] in Hx.
      rewrite Hn in Hx. cbn [bind] in Hx. rewrite Hs in Hx.
      destruct (release_at dbg (clear_log (cc cf)) (hshard (sections tr) h) h) as [c2| | |] eqn:E2.
      + eexists _, _. eapply c_release; eauto.
      + exfalso. unfold release_at, the_shard in E2. unfold the_shard in Hx. cbn [clear_log c_shards c_mem] in *.
        destruct (nth_error (c_shards (cc cf)) (hshard (sections tr) h)); cbn [bind] in *; try discriminate.
        destruct (shard_release dbg _ s h); cbn [bind] in *; discriminate.
      + exfalso. unfold release_at, the_shard in E2. unfold the_shard in Hx. cbn [clear_log c_shards c_mem] in *.
        destruct (nth_error (c_shards (cc cf)) (hshard (sections tr) h)); cbn [bind] in *; try discriminate.
        destruct (shard_release dbg _ s h); cbn [bind] in *; discriminate.
      + exfalso. unfold release_at, the_shard in E2. unfold the_shard in Hx. cbn [clear_log c_shards c_mem] in *.
        destruct (nth_error (c_shards (cc cf)) (hshard (sections tr) h)); cbn [bind] in *; try discriminate.
        destruct (shard_release dbg _ s h); cbn [bind] in *; discriminate.
    - destruct (le_lt_dec kNumShards i) as [Hi|Hi].
      + eexists _, _. eapply c_prune_end; eauto.
      + destruct (Ex (CPruneShard i) Hi) as (c' & ev & Hx & _). eexists _, _. eapply c_prune; eauto.
    - destruct (le_lt_dec kNumShards i) as [Hi|Hi].
      + eexists _, _. eapply c_charge_end; eauto.
      + destruct (Ex (CShardCharge i) Hi) as (c' & ev & Hx & _). destruct (exec_result_num _ _ _ _ Hx) as (m & Em).
        eexists _, _. eapply c_charge; eauto.
    - eexists _, _. eapply c_return; eauto.
  Qed.

  (** ** What the sections of Prune and TotalCharge do *)
  Lemma prune_shard_cached H c s c' ev i : reach H c -> s < 16 -> exec c (CPruneShard s) = Ret (c', ev) ->
    (cached cap (ev :: H) i = true <->
     cached cap H i = true /\ (in_use H i \/ shard_of hashf (key_of_insert H i) <> N.of_nat s)).
  Proof.
    intros R Hs Hx.
    destruct (step_ctx hashf hash32 alc Halc dbg cap H c (CPruneShard s) c' ev (reach_inv hashf hash32 alc Halc dbg cap _ _ R) Hs Hx) as (A & A' & D & W & I & W' & I' & E1 & E2 & S).
    rewrite (cached_iff hashf cap _ A' W' I'), (cached_iff hashf cap _ A W I). fold (inC A i) (inC A' i).
    remember (CPruneShard s) as x. destruct E2; try discriminate. injection Heqx as Ek0. rewrite Ek0 in *. clear Ek0 i0.
    rewrite inC_aupd, (inC_split A s) by auto. cbn [aL aP app].
    assert (Sh : forall q e, q < 16 -> In e (aL (A q) ++ aP (A q)) -> shard_of hashf (key_of_insert H (e_id e)) = N.of_nat q).
    { intros q e Hq He. rewrite (key_of_ent cap H A I q e Hq (ent_lp _ _ _ He)), shard_of_home.
      f_equal. exact (w_home _ _ _ W q e Hq (ent_lp _ _ _ He)). }
    split.
    - intros [(q & e & Hq & Hne & He & <-)|(e & He & <-)].
      + split; [left; exists q, e; auto|]. right. rewrite (Sh q e Hq He). intros K. apply Nat2N.inj in K. auto.
      + assert (He' : In e (aL (A s) ++ aP (A s))) by (rewrite in_app_iff; auto).
        split; [right; exists e; auto|]. left.
        apply (held_id_iff cap H A I s e Hs (ent_lp _ _ _ He')).
        apply (w_held _ _ _ W s e Hs). rewrite in_app_iff; auto.
    - intros [[(q & e & Hq & Hne & He & <-)|(e & He & <-)] Hu].
      + left. exists q, e. auto.
      + right. exists e. split; [|auto]. destruct Hu as [Hu|Hu].
        * apply (held_id_iff cap H A I s e Hs (ent_lp _ _ _ He)) in Hu. rewrite in_app_iff in He.
          destruct He as [He|He]; auto. rewrite (w_idle _ _ _ W s e Hs He) in Hu. lia.
        * rewrite (Sh s e Hs He) in Hu. contradiction.
  Qed.

  Lemma shard_charge_total H c s c' ev : reach H c -> s < 16 -> exec c (CShardCharge s) = Ret (c', ev) ->
    ev_res ev = RNum (u64 (shard_total hashf cap (N.of_nat s) H)) /\ ev_del ev = [].
  Proof.
    intros R Hs Hx.
    destruct (step_ctx hashf hash32 alc Halc dbg cap H c (CShardCharge s) c' ev (reach_inv hashf hash32 alc Halc dbg cap _ _ R) Hs Hx) as (A & A' & D & W & I & W' & I' & E1 & E2 & S).
    rewrite (shard_total_charges hashf cap H A W I) by auto.
    remember (CShardCharge s) as x. destruct E2; try discriminate. injection Heqx as Ek0. rewrite Ek0 in *. auto.
  Qed.
End Conc.
