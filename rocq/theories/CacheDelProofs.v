(** CacheDelProofs.v -- invariants of executions whose deleters call the cache. *)
From Coq Require Import List Arith NArith Lia Bool Permutation.
From Verif Require Import Outcome Heap Cache CacheSpec CacheRun CacheHeap CacheTable CacheShard CacheGlobal CacheHist CacheProofs CacheThms CacheConc CacheConcProofs CacheDel.
Import ListNotations.

Lemma pend_app a b h : pend (a ++ b) h = pend a h + pend b h.
Proof. unfold pend. now rewrite filter_app, app_length. Qed.
Lemma pend_one p h : pend [p] h = b2n (uses h p).
Proof. unfold pend. cbn [filter]. destruct (uses h p); reflexivity. Qed.
Lemma pend_cons p l h : pend (p :: l) h = b2n (uses h p) + pend l h.
Proof. change (p :: l) with ([p] ++ l). now rewrite pend_app, pend_one. Qed.
Lemma pend_threads tp : forall t st st' h, nth_error tp t = Some st ->
  pend (flat_map calls_in (set_nth t st' tp)) h + pend (calls_in st) h = pend (flat_map calls_in tp) h + pend (calls_in st') h.
Proof.
  induction tp as [|q tp IH]; intros [|t] st st' h E; try discriminate; cbn [nth_error set_nth flat_map] in *; rewrite !pend_app.
  - injection E as ->. lia.
  - specialize (IH t st st' h E). lia.
Qed.
Lemma in_threads tp : forall t st st' p, nth_error tp t = Some st -> In p (flat_map calls_in (set_nth t st' tp)) ->
  In p (calls_in st') \/ In p (flat_map calls_in tp).
Proof.
  induction tp as [|q tp IH]; intros [|t] st st' p E I; try discriminate; cbn [nth_error set_nth flat_map] in *; apply in_app_iff in I.
  - destruct I as [I|I]; [auto|right; apply in_app_iff; auto].
  - destruct I as [I|I]; [right; apply in_app_iff; auto|]. destruct (IH t st st' p E I) as [X|X]; [auto|right; apply in_app_iff; auto].
Qed.
Lemma in_stack tp : forall t st p, nth_error tp t = Some st -> In p (calls_in st) -> In p (flat_map calls_in tp).
Proof. intros t st p E I. apply in_flat_map. exists st. split; [eapply nth_error_In; eauto|exact I]. Qed.
Lemma set_nth_split {A} (l : list A) : forall t x, nth_error l t = Some x -> exists a b, l = a ++ x :: b /\ length a = t /\ forall y, set_nth t y l = a ++ y :: b.
Proof.
  induction l as [|z l IH]; intros [|t] x E; try discriminate; cbn [nth_error] in E.
  - injection E as ->. exists [], l. auto.
  - destruct (IH t x E) as (a & b & -> & <- & Y). exists (z :: a), b. split; [reflexivity|]. split; [reflexivity|]. intros y. cbn [set_nth app]. now rewrite Y.
Qed.
(** A thread that gives up a mutex, or takes a free one. *)
Lemma locks_same tp t st st' : nth_error tp t = Some st -> holds st' = holds st -> NoDup (flat_map holds tp) -> NoDup (flat_map holds (set_nth t st' tp)).
Proof. intros E Eh N. destruct (set_nth_split _ _ _ E) as (a & b & -> & _ & Y). rewrite Y. rewrite flat_map_app in *. cbn [flat_map] in *. now rewrite Eh. Qed.
Lemma locks_drop tp t st st' m : nth_error tp t = Some st -> holds st = m :: holds st' -> NoDup (flat_map holds tp) -> NoDup (flat_map holds (set_nth t st' tp)).
Proof. intros E Eh N. destruct (set_nth_split _ _ _ E) as (a & b & -> & _ & Y). rewrite Y. rewrite flat_map_app in *. cbn [flat_map] in *. rewrite Eh in N. cbn [app] in N. now apply NoDup_remove in N. Qed.
Lemma locks_take tp t st st' m : nth_error tp t = Some st -> holds st' = m :: holds st -> (forall q, In q tp -> ~ In m (holds q)) -> NoDup (flat_map holds tp) -> NoDup (flat_map holds (set_nth t st' tp)).
Proof.
  intros E Eh Fr N. assert (Nm : ~ In m (flat_map holds tp)) by (intros X; apply in_flat_map in X; destruct X as (q & Q1 & Q2); exact (Fr q Q1 Q2)).
  destruct (set_nth_split _ _ _ E) as (a & b & Et & _ & Y). rewrite Y. rewrite Et in N, Nm. rewrite flat_map_app in *. cbn [flat_map] in *. rewrite Eh. cbn [app].
  apply (Permutation_NoDup (l := m :: flat_map holds a ++ holds st ++ flat_map holds b)); [apply Permutation_middle|]. constructor; assumption.
Qed.

Section Del.
  Variable hashf : bytes -> N.
  Hypothesis hash32 : forall k, (hashf k < 2 ^ 32)%N.
  Variable alc : allocator.
  Hypothesis Halc : allocator_ok alc.
  Variable dbg : bool.
  Variable del : N -> bytes -> N -> dprog.
  Variable cap : N.
  Variable n : nat.
  Notation home := (home hashf).
  Notation reach := (reach hashf alc dbg cap).
  Notation exec := (exec hashf alc dbg).
  Notation hshard := (hshard hashf).
  Notation cstep1 := (cstep1 hashf alc dbg).
  Notation wants := (wants hashf).
  Notation dstep := (dstep hashf alc dbg del).
  Notation druns := (druns hashf alc dbg del cap n).

  (** A call in progress fits the history so far. *)
  Definition pok (H : history) (p : pst) : Prop :=
    match p with
    | Idle | Start (CPruneShard _) | Start (CShardCharge _) => False
    | ReadHash h s => s = hshard H h
    | _ => True
    end.
  Definition idle_use (p : pst) : Prop := forall h, uses h p = false.
  (** The shard a section works on. *)
  Definition works_on (H : history) (x : call) : option nat :=
    match x with
    | CInsert k _ _ _ | CLookup k | CErase k => Some (home k)
    | CRelease h => Some (hshard H h)
    | CPruneShard i | CShardCharge i => Some i
    | CNewId => Some 16
    | _ => None
    end.

  Lemma quiet_inv H c p p' : cstep1 H c p None c p' ->
    (exists h nd, p = Start (CRelease h) /\ hget (m_heap (c_mem c)) h = Some nd /\ p' = ReadHash h (Shard (n_hash nd))) \/
    (idle_use p /\ idle_use p' /\ (forall H', pok H' p') /\ match p' with Pruning _ | Charging _ _ | Done _ _ => True | _ => False end).
  Proof.
    unfold CacheDel.cstep1. intros K. inversion K as [| |h nd E Hg E1 E2| |E E1 E2| |i E Hi E1 E2|E E1 E2| |i acc E Hi E1 E2|]; subst; cbn [ct nth_error cc set_nth] in *;
      injection E as ->; try (right; repeat split; intros ?; exact Logic.I || reflexivity).
    left. exists h, nd. unfold get in Hg. destruct (hget (m_heap (c_mem c)) h); [|discriminate]. injection Hg as <-. auto.
  Qed.
  Lemma section_inv H c p ev c' p' : cstep1 H c p (Some (Sec ev)) c' p' -> reach H c -> pok H p -> (forall h, uses h p = true -> 0 < held H h) ->
    exists x, legal H x /\ exec c x = Ret (c', ev) /\ idle_use p' /\ (forall H', pok H' p') /\ works_on H x = wants p /\
      (forall h, x = CRelease h -> uses h p = true).
  Proof.
    unfold CacheDel.cstep1. intros K R Po Us. inversion K as [|x c1 ev1 E Hs Hr Hx E1 E2| |h s c1 E Hx E1 E2| |i c1 ev1 E Hi Hx E1 E2| | |i acc c1 ev1 m E Hi Hx Er E1 E2| |]; subst; cbn [ct nth_error cc set_nth] in *.
    - injection E as ->. exists x. split; [|split; [exact Hx|split; [intros ?; reflexivity|split; [intros ?; exact Logic.I|split]]]].
      + destruct x; try discriminate; cbn [in_range] in Hr; try exact Hr; try exact Logic.I. cbn [legal]. apply Us. cbn. apply Nat.eqb_refl.
      + destruct x; try discriminate; reflexivity.
      + intros h ->. discriminate.
    - injection E as ->. cbn [pok] in Po. subst s. assert (Hh : 0 < held H h) by (apply Us; cbn; apply Nat.eqb_refl).
      exists (CRelease h). split; [exact Hh|]. split; [exact (release_exec hashf hash32 alc Halc dbg cap H c h c' R Hh Hx)|]. split; [intros ?; reflexivity|]. split; [intros ?; exact Logic.I|]. split; [reflexivity|]. intros h' E'. injection E' as <-. cbn. apply Nat.eqb_refl.
    - injection E as ->. exists (CPruneShard i). split; [exact Hi|]. split; [exact Hx|]. split; [intros ?; reflexivity|]. split; [intros ?; exact Logic.I|]. split; [|discriminate].
      cbn [CacheDel.wants works_on]. apply Nat.ltb_lt in Hi. now rewrite Hi.
    - injection E as ->. exists (CShardCharge i). split; [exact Hi|]. split; [exact Hx|]. split; [intros ?; reflexivity|]. split; [intros ?; exact Logic.I|]. split; [|discriminate].
      cbn [CacheDel.wants works_on]. apply Nat.ltb_lt in Hi. now rewrite Hi.
  Qed.

  Record DI (tr : trace) (cf : dconf) : Prop := {
    di_reach : reach (sections tr) (dc cf);
    di_pend : forall h, pend (in_progress cf) h <= held (sections tr) h;
    di_pok : forall p, In p (in_progress cf) -> pok (sections tr) p;
    di_locks : NoDup (flat_map holds (dt cf)) }.

  Lemma uses_held tr cf p h : DI tr cf -> In p (in_progress cf) -> uses h p = true -> 0 < held (sections tr) h.
  Proof.
    intros D I U. apply (Nat.lt_le_trans _ (pend (in_progress cf) h)); [|apply (di_pend _ _ D)].
    apply In_nth_error in I. destruct I as (k & I). eapply pend_pos; eauto.
  Qed.

  Lemma DI_quiet tr cf t st st' o : DI tr cf -> nth_error (dt cf) t = Some st -> sections (add_lab t o tr) = sections tr ->
    (forall h, pend (in_progress (put cf t (dc cf) st')) h <= held (sections tr) h) ->
    (forall p, In p (calls_in st') -> pok (sections tr) p) -> NoDup (flat_map holds (set_nth t st' (dt cf))) ->
    DI (add_lab t o tr) (put cf t (dc cf) st').
  Proof.
    intros D E Es P1 P2 N. constructor; unfold put in *; cbn [dc dt] in *; rewrite ?Es; auto.
    - apply (di_reach _ _ D).
    - intros p I. destruct (in_threads _ _ _ _ _ E I) as [X|X]; [auto|apply (di_pok _ _ D); exact X].
  Qed.
  Lemma DI_section tr cf t p st p' st' x c' ev : DI tr cf -> nth_error (dt cf) t = Some (KCall p :: st) ->
    legal (sections tr) x -> exec (dc cf) x = Ret (c', ev) -> idle_use p' -> (forall H', pok H' p') -> (forall h, x = CRelease h -> uses h p = true) ->
    calls_in st' = p' :: calls_in st -> NoDup (flat_map holds (set_nth t st' (dt cf))) ->
    DI (add_lab t (Some (Sec ev)) tr) (put cf t c' st').
  Proof.
    intros D E L X Iu Po Rel Ec N. pose proof (exec_call hashf alc dbg _ _ _ _ X) as Ex.
    assert (Pn : forall h, pend (in_progress (put cf t c' st')) h <= held (ev :: sections tr) h).
    { intros h. pose proof (pend_threads _ _ _ st' h E) as K. cbn [calls_in flat_map app] in K. fold (calls_in st) in K. rewrite Ec, !pend_cons, Iu in K. cbn [b2n] in K.
      pose proof (di_pend _ _ D h) as Q. pose proof (held_step (sections tr) ev h) as W. rewrite Ex in W. unfold in_progress, put in *. cbn [dt] in *.
      destruct x; try lia. specialize (Rel _ eq_refl). destruct (handle =? h) eqn:Eh; [|lia]. apply Nat.eqb_eq in Eh. subst handle. rewrite Rel in K. cbn [b2n] in K. lia. }
    constructor; unfold put; cbn [dc dt]; change (sections (add_lab t (Some (Sec ev)) tr)) with (ev :: sections tr).
    - econstructor; [apply (di_reach _ _ D)|exact L|exact X].
    - exact Pn.
    - intros q I. destruct (in_threads _ _ _ _ _ E I) as [Y|Y].
      + rewrite Ec in Y. destruct Y as [<-|Y]; [apply Po|]. assert (Y' : In q (in_progress cf)) by (eapply in_stack; [exact E|right; exact Y]).
        pose proof (di_pok _ _ D q Y') as Z. destruct q as [|y|h s|i|i acc|y r]; try exact Z. cbn [pok] in *. rewrite Z. symmetry.
        eapply (hshard_step hashf hash32 alc Halc dbg cap); [apply (di_reach _ _ D)|exact L|exact X| |].
        * eapply uses_held; [exact D|exact Y'|cbn; apply Nat.eqb_refl].
        * apply In_nth_error in I. destruct I as (k & I). eapply Nat.lt_le_trans; [eapply (pend_pos _ k _ h); [exact I|cbn; apply Nat.eqb_refl]|exact (Pn h)].
      + pose proof (di_pok _ _ D q Y) as Z. destruct q as [|y|h s|i|i acc|y r]; try exact Z. cbn [pok] in *. rewrite Z. symmetry.
        eapply (hshard_step hashf hash32 alc Halc dbg cap); [apply (di_reach _ _ D)|exact L|exact X| |].
        * eapply uses_held; [exact D|exact Y|cbn; apply Nat.eqb_refl].
        * apply In_nth_error in I. destruct I as (k & I). eapply Nat.lt_le_trans; [eapply (pend_pos _ k _ h); [exact I|cbn; apply Nat.eqb_refl]|exact (Pn h)].
    - exact N.
  Qed.

  Lemma DI_step tr cf t o cf' : DI tr cf -> dstep (sections tr) t cf o cf' -> DI (add_lab t o tr) cf'.
  Proof.
    intros D S. pose proof (di_pend _ _ D) as Pn. pose proof (di_locks _ _ D) as Nd. pose proof (di_pok _ _ D) as Po.
    assert (Sub : forall st st' h, nth_error (dt cf) t = Some st -> pend (calls_in st') h <= pend (calls_in st) h -> pend (in_progress (put cf t (dc cf) st')) h <= held (sections tr) h).
    { intros st st' h E L. pose proof (pend_threads _ _ _ st' h E) as K. specialize (Pn h). unfold in_progress, put in *. cbn [dt] in *. lia. }
    assert (New : forall x st st' h, nth_error (dt cf) t = Some st -> may_call (sections tr) (in_progress cf) x -> calls_in st' = Start x :: calls_in st -> pend (in_progress (put cf t (dc cf) st')) h <= held (sections tr) h).
    { intros x st st' h E M Ec. pose proof (pend_threads _ _ _ st' h E) as K. specialize (Pn h). unfold in_progress, put in *. cbn [dt] in *. rewrite Ec, pend_cons in K.
      destruct x; cbn [uses b2n may_call] in *; try lia; (destruct (handle =? h) eqn:Eh; cbn [b2n] in K; [apply Nat.eqb_eq in Eh; subst handle; lia|lia]). }
    assert (In_p : forall st p, nth_error (dt cf) t = Some st -> In p (calls_in st) -> pok (sections tr) p) by (intros st p E I; apply Po; eapply in_stack; eauto).
    destruct S as [x E M|p st p' E K|h st c' ev p' E K|p st m c' ev p' E W F K|m d ds p st E|m p st E|x k st E M|x r y k st E|st E|x r E].
    - eapply DI_quiet; [exact D|exact E|reflexivity| | |].
      + intros h. eapply New; [exact E|exact M|reflexivity].
      + intros p [<-|[]]. destruct x; cbn in M |- *; auto.
      + eapply locks_same; [exact E|reflexivity|exact Nd].
    - destruct (quiet_inv _ _ _ _ K) as [(h & nd & -> & G & ->)|(U & U' & Po' & _)].
      + eapply DI_quiet; [exact D|exact E|reflexivity| | |].
        * intros h'. eapply Sub; [exact E|]. cbn [calls_in flat_map app]. rewrite !pend_cons. cbn [uses]. lia.
        * intros p I. cbn [calls_in flat_map app] in I. destruct I as [<-|I]; [|eapply In_p; [exact E|right; exact I]]. cbn [pok].
          destruct (held_hash hashf hash32 alc Halc dbg cap (sections tr) (dc cf) h) as (nd' & Hn' & Hs'); [apply (di_reach _ _ D)| |congruence].
          eapply uses_held; [exact D|eapply in_stack; [exact E|left; reflexivity]|cbn; apply Nat.eqb_refl].
        * eapply locks_same; [exact E|reflexivity|exact Nd].
      + eapply DI_quiet; [exact D|exact E|reflexivity| | |].
        * intros h. eapply Sub; [exact E|]. cbn [calls_in flat_map app]. rewrite !pend_cons, U'. cbn [b2n]. lia.
        * intros q I. cbn [calls_in flat_map app] in I. destruct I as [<-|I]; [apply Po'|eapply In_p; [exact E|right; exact I]].
        * eapply locks_same; [exact E|reflexivity|exact Nd].
    - destruct (section_inv _ _ _ _ _ _ K (di_reach _ _ D)) as (x & L & X & Iu & Po' & _ & Rel); [eapply In_p; [exact E|left; reflexivity]|intros h' U; eapply uses_held; [exact D|eapply in_stack; [exact E|left; reflexivity]|exact U]|].
      eapply DI_section; [exact D|exact E|exact L|exact X|exact Iu|exact Po'|exact Rel|reflexivity|]. eapply locks_same; [exact E|reflexivity|exact Nd].
    - destruct (section_inv _ _ _ _ _ _ K (di_reach _ _ D)) as (x & L & X & Iu & Po' & _ & Rel); [eapply In_p; [exact E|left; reflexivity]|intros h' U; eapply uses_held; [exact D|eapply in_stack; [exact E|left; reflexivity]|exact U]|].
      eapply DI_section; [exact D|exact E|exact L|exact X|exact Iu|exact Po'|exact Rel|reflexivity|]. eapply locks_take; [exact E|reflexivity|exact F|exact Nd].
    - eapply DI_quiet; [exact D|exact E|reflexivity| | |].
      + intros h. eapply Sub; [exact E|]. cbn [calls_in flat_map app]. lia.
      + intros q I. eapply In_p; [exact E|exact I].
      + eapply locks_same; [exact E|reflexivity|exact Nd].
    - eapply DI_quiet; [exact D|exact E|reflexivity| | |].
      + intros h. eapply Sub; [exact E|]. cbn [calls_in flat_map app]. lia.
      + intros q I. eapply In_p; [exact E|exact I].
      + eapply locks_drop; [exact E|reflexivity|exact Nd].
    - eapply DI_quiet; [exact D|exact E|reflexivity| | |].
      + intros h. eapply New; [exact E|exact M|reflexivity].
      + intros p [<-|I]; [destruct x; cbn in M |- *; auto|eapply In_p; [exact E|exact I]].
      + eapply locks_same; [exact E|reflexivity|exact Nd].
    - eapply DI_quiet; [exact D|exact E|reflexivity| | |].
      + intros h. eapply Sub; [exact E|]. change (pend (calls_in st) h <= pend (Done x r :: calls_in st) h). rewrite pend_cons. lia.
      + intros q I. eapply In_p; [exact E|right; exact I].
      + eapply locks_same; [exact E|reflexivity|exact Nd].
    - eapply DI_quiet; [exact D|exact E|reflexivity| | |].
      + intros h. eapply Sub; [exact E|]. apply Nat.le_refl.
      + intros q I. eapply In_p; [exact E|exact I].
      + eapply locks_same; [exact E|reflexivity|exact Nd].
    - eapply DI_quiet; [exact D|exact E|reflexivity| | |].
      + intros h. eapply Sub; [exact E|]. cbn [calls_in flat_map app]. rewrite pend_cons. unfold pend. cbn [filter length]. lia.
      + intros q [].
      + eapply locks_same; [exact E|reflexivity|exact Nd].
  Qed.
  Lemma DI_runs tr cf : druns tr cf -> DI tr cf.
  Proof.
    induction 1 as [c E|tr cf t o cf' R IH S]; [|eapply DI_step; eauto].
    assert (Z : flat_map calls_in (repeat [] n) = []) by (clear; induction n; cbn; auto). assert (Z' : flat_map holds (repeat [] n) = []) by (clear; induction n; cbn; auto).
    constructor; unfold in_progress; cbn [dc dt]; rewrite ?Z, ?Z'.
    - now constructor.
    - intros h. cbn. lia.
    - intros p [].
    - constructor.
  Qed.

  (** ** Deadlock *)
  (** What is below a call or a section in a stack. *)
  Definition base_ok (st : list item) : Prop := st = [] \/ exists x k st', st = KDel (DCall x k) :: st'.
  Fixpoint shaped (st : list item) : Prop :=
    match st with
    | [] => True
    | KCall _ :: st' | KIn _ _ _ :: st' => base_ok st' /\ shaped st'
    | KDel _ :: st' => (exists m ds p st2, st' = KIn m ds p :: st2) /\ shaped st'
    end.
  Lemma shaped_step H t cf o cf' : dstep H t cf o cf' -> (forall u st, nth_error (dt cf) u = Some st -> shaped st) ->
    forall u st, nth_error (dt cf') u = Some st -> shaped st.
  Proof.
    intros S I u st E'. assert (X : exists c s0 s1, nth_error (dt cf) t = Some s0 /\ cf' = put cf t c s1 /\ (shaped s0 -> shaped s1)).
    { destruct S as [x E M|p st1 p' E K|h st1 c' ev p' E K|p st1 m c' ev p' E W F K|m d ds p st1 E|m p st1 E|x k st1 E M|x r y k st1 E|st1 E|x r E]; eexists _, _, _; (split; [exact E|split; [reflexivity|]]); cbn [shaped]; intros Y;
        repeat match goal with H : _ /\ _ |- _ => destruct H end; try (split; [|solve [eauto]]); eauto; try solve [left; reflexivity|right; eauto]; eauto 10. }
    destruct X as (c & s0 & s1 & E & -> & Y). unfold put in E'. cbn [dt] in E'. rewrite (nth_set _ _ _ _ _ E) in E'. destruct (u =? t); [injection E' as <-; apply Y; eauto|eauto].
  Qed.
  Lemma shaped_runs tr cf : druns tr cf -> forall u st, nth_error (dt cf) u = Some st -> shaped st.
  Proof.
    induction 1 as [c E|tr cf t o cf' R IH S]; [|eapply shaped_step; eauto]. intros u st X. cbn [dt] in X. apply nth_error_In, repeat_spec in X. subst st. exact Logic.I.
  Qed.

  Lemma wants_bound tr cf p m : DI tr cf -> In p (in_progress cf) -> wants p = Some m -> m <= 16.
  Proof.
    intros D I W. pose proof (di_pok _ _ D p I) as P. assert (Hm : forall k, home k < 16) by (intros k; apply home_lt; exact hash32).
    destruct p as [|x|h s|i|i acc|x r]; cbn [CacheDel.wants] in W; try discriminate.
    - destruct x; try discriminate; injection W as <-; try (pose proof (Hm key); unfold CacheGlobal.home in *; lia). lia.
    - injection W as <-. cbn [pok] in P. rewrite P. unfold CacheConcProofs.hshard. destruct (owner _ h); [pose proof (Hm (key_of_insert (sections tr) n0)); lia|lia].
    - destruct (Nat.ltb_spec i kNumShards) as [L|]; [|discriminate]. injection W as <-. change kNumShards with 16 in L. lia.
    - destruct (Nat.ltb_spec i kNumShards) as [L|]; [|discriminate]. injection W as <-. change kNumShards with 16 in L. lia.
  Qed.

  Lemma can_step tr cf t p st : DI tr cf -> nth_error (dt cf) t = Some (KCall p :: st) -> base_ok st -> rules tr cf ->
    (forall m, wants p = Some m -> free cf m) -> exists o cf', dstep (sections tr) t cf o cf'.
  Proof.
    intros D E B (Ru & _) F. assert (I : In p (in_progress cf)) by (eapply in_stack; [exact E|left; reflexivity]). pose proof (di_pok _ _ D p I) as Po. pose proof (di_reach _ _ D) as Re.
    assert (Hh : forall h, uses h p = true -> 0 < held (sections tr) h) by (intros h U; eapply uses_held; eauto).
    assert (Ex : forall x, legal (sections tr) x -> exists c' ev, exec (dc cf) x = Ret (c', ev) /\ ev_call ev = x) by (intros x Hl; exact (exec_total_safe hashf hash32 alc Halc dbg cap _ _ x Re Hl)).
    assert (Sec_ : forall m c' ev p', wants p = Some m -> cstep1 (sections tr) (dc cf) p (Some (Sec ev)) c' p' -> exists o cf', dstep (sections tr) t cf o cf') by (intros m c' ev p' W K; eexists _, _; eapply d_section; eauto).
    destruct p as [|x|h s|i|i acc|x r]; cbn [pok] in Po; [contradiction|..].
    - pose proof (Ru x I) as Rx.
      assert (Sg : single x = true -> legal (sections tr) x -> exists c' ev, cstep1 (sections tr) (dc cf) (Start x) (Some (Sec ev)) c' (Done x (ev_res ev))).
      { intros H1 H2. destruct (Ex x H2) as (c' & ev & H3 & _). exists c', ev. exact (c_single hashf alc dbg (sections tr) 0 (mk_cconf (dc cf) [Start x]) x c' ev eq_refl H1 Rx H3). }
      destruct x; try contradiction.
      + destruct (Sg eq_refl Rx) as (c' & ev & K). eapply Sec_; [reflexivity|exact K].
      + destruct (Sg eq_refl Rx) as (c' & ev & K). eapply Sec_; [reflexivity|exact K].
      + destruct (held_hash hashf hash32 alc Halc dbg cap (sections tr) (dc cf) handle Re) as (nd & Hn & _); [apply Hh; cbn; apply Nat.eqb_refl|].
        eexists _, _. eapply d_quiet; [exact E|]. apply (c_readhash hashf alc dbg (sections tr) 0 (mk_cconf (dc cf) [Start (CRelease handle)]) handle nd eq_refl). unfold get. cbn [cc]. now rewrite Hn.
      + destruct (Sg eq_refl) as (c' & ev & K); [apply Hh; cbn; apply Nat.eqb_refl|]. eexists _, _. eapply d_read; eauto.
      + destruct (Sg eq_refl Logic.I) as (c' & ev & K). eapply Sec_; [reflexivity|exact K].
      + eexists _, _. eapply d_quiet; [exact E|]. exact (c_prune0 hashf alc dbg (sections tr) 0 (mk_cconf (dc cf) [Start CPrune]) eq_refl).
      + eexists _, _. eapply d_quiet; [exact E|]. exact (c_charge0 hashf alc dbg (sections tr) 0 (mk_cconf (dc cf) [Start CTotalCharge]) eq_refl).
      + destruct (Sg eq_refl Logic.I) as (c' & ev & K). eapply Sec_; [reflexivity|exact K].
    - subst s. assert (Hp' : 0 < held (sections tr) h) by (apply Hh; cbn; apply Nat.eqb_refl).
      destruct (Ex (CRelease h) Hp') as (c' & ev & Hx & _). destruct (held_hash hashf hash32 alc Halc dbg cap (sections tr) (dc cf) h Re Hp') as (nd & Hn & Hs).
      assert (X : exists c2, release_at dbg (clear_log (dc cf)) (hshard (sections tr) h) h = Ret c2).
      { unfold CacheRun.exec in Hx. cbn [dispatch] in Hx. unfold cache_release, get in Hx. cbn [clear_log c_mem m_heap] in Hx. rewrite Hn in Hx. cbn [bind] in Hx. rewrite Hs in Hx.
        unfold release_at, the_shard in *. cbn [clear_log c_shards c_mem] in *. destruct (nth_error (c_shards (dc cf)) (hshard (sections tr) h)) as [sh|]; cbn [bind] in *; [|discriminate].
        destruct (shard_release dbg _ sh h); cbn [bind] in *; try discriminate. eauto. }
      destruct X as (c2 & X). eapply Sec_; [reflexivity|]. exact (c_release hashf alc dbg (sections tr) 0 (mk_cconf (dc cf) [ReadHash h (hshard (sections tr) h)]) h (hshard (sections tr) h) c2 eq_refl X).
    - destruct (le_lt_dec kNumShards i) as [Hi|Hi].
      + eexists _, _. eapply d_quiet; [exact E|]. exact (c_prune_end hashf alc dbg (sections tr) 0 (mk_cconf (dc cf) [Pruning i]) i eq_refl Hi).
      + destruct (Ex (CPruneShard i) Hi) as (c' & ev & Hx & _). eapply (Sec_ i); [cbn [CacheDel.wants]; apply Nat.ltb_lt in Hi; now rewrite Hi|]. exact (c_prune hashf alc dbg (sections tr) 0 (mk_cconf (dc cf) [Pruning i]) i c' ev eq_refl Hi Hx).
    - destruct (le_lt_dec kNumShards i) as [Hi|Hi].
      + eexists _, _. eapply d_quiet; [exact E|]. exact (c_charge_end hashf alc dbg (sections tr) 0 (mk_cconf (dc cf) [Charging i acc]) i acc eq_refl Hi).
      + destruct (Ex (CShardCharge i) Hi) as (c' & ev & Hx & _). destruct (exec_result_num hashf alc dbg _ _ _ _ Hx) as (m & Em). eapply (Sec_ i); [cbn [CacheDel.wants]; apply Nat.ltb_lt in Hi; now rewrite Hi|].
        exact (c_charge hashf alc dbg (sections tr) 0 (mk_cconf (dc cf) [Charging i acc]) i acc c' ev m eq_refl Hi Hx Em).
    - destruct B as [->|(y & k & st' & ->)]; eexists _, _; [eapply d_return; exact E|eapply d_back; exact E].
  Qed.
  Lemma free_dec cf m : free cf m \/ exists t st, nth_error (dt cf) t = Some st /\ In m (holds st).
  Proof.
    unfold free. induction (dt cf) as [|st l IH]; [left; intros st []|]. destruct (in_dec Nat.eq_dec m (holds st)) as [X|X]; [right; exists 0, st; auto|].
    destruct IH as [IH|(t & s & E & Y)]; [left; intros s [<-|I]; auto|right; exists (S t), s; auto].
  Qed.

  Notation downwards := (downwards hashf).
  Notation stuck := (stuck hashf alc dbg del).

  Lemma stuck_waits tr cf t st : druns tr cf -> rules tr cf -> stuck tr cf -> nth_error (dt cf) t = Some st -> st <> [] ->
    exists p st' m, st = KCall p :: st' /\ wants p = Some m /\ m <= 16 /\ exists u st2, nth_error (dt cf) u = Some st2 /\ In m (holds st2).
  Proof.
    intros R Ru S E Ne. pose proof (shaped_runs _ _ R _ _ E) as Sh. pose proof (DI_runs _ _ R) as D. specialize (S _ _ E Ne).
    destruct st as [|[p|m ds p|q] st]; [congruence|..].
    - destruct Sh as (B & _).
      assert (Ni : In p (in_progress cf)) by (eapply in_stack; [exact E|left; reflexivity]).
      destruct (wants p) as [m|] eqn:W.
      + destruct (free_dec cf m) as [F|(u & st2 & U1 & U2)].
        * exfalso. destruct (can_step tr cf t p st D E B Ru) as (o & cf' & K); [intros m' W'; assert (m' = m) by congruence; subst m'; exact F|exact (S _ _ K)].
        * exists p, st, m. split; [reflexivity|]. split; [exact W|]. split; [eapply wants_bound; eauto|]. exists u, st2. auto.
      + exfalso. destruct (can_step tr cf t p st D E B Ru) as (o & cf' & K); [intros m' W'; congruence|exact (S _ _ K)].
    - exfalso. destruct ds as [|d ds]; eapply S; [eapply d_unlock; exact E|eapply d_delete; exact E].
    - exfalso. destruct q as [|x k]; eapply S; [eapply d_end; exact E|]. eapply d_nested; [exact E|]. apply (proj2 Ru st x k). eapply nth_error_In; exact E.
  Qed.
  Lemma stuck_downwards tr cf t st : druns tr cf -> rules tr cf -> stuck tr cf -> nth_error (dt cf) t = Some st -> st <> [] -> downwards cf.
  Proof.
    intros R Ru S E Ne. destruct (stuck_waits _ _ _ _ R Ru S E Ne) as (p & st' & m & _ & _ & L & u & st2 & U1 & U2). clear p st' E Ne st t.
    remember (17 - m) as b eqn:Eb. revert m u st2 L U1 U2 Eb. induction b as [b IH] using lt_wf_ind. intros m u st2 L U1 U2 ->.
    assert (N2 : st2 <> []) by (intros ->; contradiction U2).
    destruct (stuck_waits _ _ _ _ R Ru S U1 N2) as (p & st' & m' & -> & W & L' & u' & st3 & V1 & V2).
    destruct (le_lt_dec m' m) as [Le|Gt].
    - exists u, p, st', m, m'. auto.
    - apply (IH (17 - m') ltac:(lia) m' u' st3 L' V1 V2 eq_refl).
  Qed.

  (** A thread that waits for a mutex it holds itself waits for ever. *)
  Lemma self_wait H u cf o cf' t p st m : dstep H u cf o cf' -> nth_error (dt cf) t = Some (KCall p :: st) -> wants p = Some m -> In m (holds st) ->
    nth_error (dt cf') t = Some (KCall p :: st).
  Proof.
    intros S E W I. destruct (Nat.eq_dec u t) as [->|Ne].
    - exfalso. destruct S as [x E1 M|p1 st1 p' E1 K|h st1 c' ev p' E1 K|p1 st1 m1 c' ev p' E1 W1 F K|m1 d ds p1 st1 E1|m1 p1 st1 E1|x k st1 E1 M|x r y k st1 E1|st1 E1|x r E1]; rewrite E in E1; try discriminate E1; injection E1 as -> ->; try discriminate W.
      + destruct (quiet_inv _ _ _ _ K) as [(h & nd & -> & _)|(_ & _ & _ & Q)]; [discriminate W|].
        unfold CacheDel.cstep1 in K. inversion K; subst; cbn [ct nth_error] in *; match goal with X : Some _ = Some _ |- _ => injection X as -> end; cbn [CacheDel.wants] in W; try discriminate W;
          match goal with X : kNumShards <= _ |- _ => apply Nat.ltb_ge in X; rewrite X in W; discriminate W end.
      + rewrite W in W1. injection W1 as ->. apply (F (KCall p1 :: st1)); [eapply nth_error_In; exact E|exact I].
    - assert (X : exists c s1, cf' = put cf u c s1) by (destruct S; eexists _, _; reflexivity). destruct X as (c & s1 & ->). unfold put. cbn [dt].
      assert (Y : exists s0, nth_error (dt cf) u = Some s0) by (destruct S; eauto). destruct Y as (s0 & Y). rewrite (nth_set _ _ _ _ _ Y). destruct (Nat.eqb_spec t u); [congruence|exact E].
  Qed.

  (** ** How one thread's calls nest *)
  Definition pmatch (p : pst) (x : call) (s : list event) : Prop :=
    match p with
    | Idle => False
    | Start y => y = x /\ s = [] /\ match x with CPruneShard _ | CShardCharge _ => False | _ => True end
    | ReadHash h _ => x = CRelease h /\ s = []
    | Pruning i => x = CPrune /\ i <= 16 /\ map ev_call s = map CPruneShard (seq 0 i)
    | Charging i acc => x = CTotalCharge /\ i <= 16 /\ map ev_call s = map CShardCharge (seq 0 i) /\ exists ns, map ev_res s = map RNum ns /\ acc = u64 (sumN ns)
    | Done y r => y = x /\ call_done x s r
    end.
  Lemma pm_quiet H c p p' x s : cstep1 H c p None c p' -> pmatch p x s -> pmatch p' x s.
  Proof.
    unfold CacheDel.cstep1. intros K. inversion K as [| |h nd E Hg E1 E2| |E E1 E2| |i E Hi E1 E2|E E1 E2| |i acc E Hi E1 E2|]; subst; cbn [ct nth_error cc set_nth] in *;
      injection E as ->; cbn [pmatch]; change kNumShards with 16 in *.
    - intros (<- & -> & _). auto.
    - intros (<- & -> & _). split; [reflexivity|]; split; [lia|reflexivity].
    - intros (-> & L & M). split; [reflexivity|]. assert (i = 16) by lia. subst i. split; [exact M|reflexivity].
    - intros (<- & -> & _). split; [reflexivity|]. split; [lia|]. split; [reflexivity|]. exists []. split; reflexivity.
    - intros (-> & L & M & ns & N1 & ->). split; [reflexivity|]. assert (i = 16) by lia. subst i. split; [exact M|]. exists ns. split; [exact N1|reflexivity].
  Qed.
  Lemma pm_sec H c p ev c' p' x s : cstep1 H c p (Some (Sec ev)) c' p' -> pmatch p x s -> pmatch p' x (s ++ [ev]).
  Proof.
    unfold CacheDel.cstep1. intros K. inversion K as [|y c1 ev1 E Hs Hr Hx E1 E2| |h s0 c1 E Hx E1 E2| |i c1 ev1 E Hi Hx E1 E2| | |i acc c1 ev1 m E Hi Hx Er E1 E2| |]; subst; cbn [ct nth_error cc set_nth] in *;
      injection E as ->; cbn [pmatch]; change kNumShards with 16 in *; try pose proof (exec_call hashf alc dbg _ _ _ _ Hx) as Ec.
    - intros (-> & -> & _). split; [reflexivity|]. destruct x; try discriminate; cbn [call_done app]; exists ev; auto.
    - intros (-> & ->). split; [reflexivity|]. cbn [call_done app]. eexists. split; [reflexivity|]. auto.
    - intros (-> & L & M). split; [reflexivity|]. split; [lia|]. rewrite map_app, M, seq_S, map_app. cbn [map]. rewrite Ec. reflexivity.
    - intros (-> & L & M & ns & N1 & ->). split; [reflexivity|]. split; [lia|]. rewrite !map_app, M, seq_S, map_app. cbn [map]. rewrite Ec. split; [reflexivity|].
      exists (ns ++ [m]). split; [rewrite N1, Er, map_app; reflexivity|]. rewrite u64_add_l, (sumN_snoc ns m). reflexivity.
  Qed.
  Definition called (x : call) (st : list item) : Prop := match st with KDel (DCall y _) :: _ => x = y | _ => True end.
  Fixpoint smatch (st : list item) (o : list frame) : Prop :=
    match st with
    | [] => o = []
    | KCall p :: st' => exists x s o', o = mk_frame x s [] None :: o' /\ (pmatch p x s /\ called x st') /\ smatch st' o'
    | KIn _ ds p :: st' => exists x s o', o = mk_frame x s ds None :: o' /\ (pmatch p x s /\ called x st') /\ smatch st' o'
    | KDel q :: st' => exists x s ds o', o = mk_frame x s ds (Some q) :: o' /\ smatch st' (mk_frame x s ds None :: o')
    end.
  Definition nests (tr : trace) (cf : dconf) : Prop :=
    forall t st, nth_error (dt cf) t = Some st -> exists o, nested del (proj t tr) o /\ smatch st o.
  Lemma value_no_deleter H c h c' ev p' : cstep1 H c (Start (CValue h)) (Some (Sec ev)) c' p' -> reach H c -> 0 < held H h -> ev_del ev = [].
  Proof.
    intros K R Hl. destruct (section_inv _ _ _ _ _ _ K R) as (x & L & X & _); [exact Logic.I|intros h' U; cbn in U; apply Nat.eqb_eq in U; subst h'; exact Hl|].
    unfold CacheDel.cstep1 in K. inversion K; subst; cbn [ct nth_error cc] in *; try discriminate. match goal with Q : Some _ = Some _ |- _ => injection Q as <- end.
    match goal with Q : CacheRun.exec _ _ _ _ (CValue h) = _ |- _ => rename Q into X' end.
    destruct (step_ctx hashf hash32 alc Halc dbg cap H c (CValue h) c' ev (reach_inv hashf hash32 alc Halc dbg cap _ _ R) Hl X') as (A & A' & D & _ & _ & _ & _ & _ & S & _).
    remember (CValue h) as y eqn:Ey. remember (ev_del ev) as dl eqn:Ed. destruct S; congruence.
  Qed.
  Lemma nests_step tr cf t o cf' : druns tr cf -> dstep (sections tr) t cf o cf' -> nests tr cf -> nests (add_lab t o tr) cf'.
  Proof.
    intros R S N u st E'. pose proof (DI_runs _ _ R) as D. rewrite proj_add.
    assert (X : exists c s0 s1, nth_error (dt cf) t = Some s0 /\ cf' = put cf t c s1 /\
      forall op l, nested del l op -> smatch s0 op -> exists op', nested del (match o with Some a => l ++ [a] | None => l end) op' /\ smatch s1 op').
    { assert (Mc : forall x, may_call (sections tr) (in_progress cf) x -> match x with CPruneShard _ | CShardCharge _ => False | _ => True end) by (intros []; cbn [may_call]; auto).
      destruct S as [x E M|p st1 p' E K|h st1 c' ev p' E K|p st1 m c' ev p' E W F K|m d ds p st1 E|m p st1 E|x k st1 E M|x r y k st1 E|st1 E|x r E]; eexists _, _, _; (split; [exact E|split; [reflexivity|]]); intros op l Nl Sm; cbn [smatch] in Sm.
      - subst op. exists [mk_frame x [] [] None]. split; [now apply ne_begin|]. cbn [smatch]. exists x, [], []. cbn [pmatch]. split; [reflexivity|]. split; [|reflexivity]. split; [|exact Logic.I]. split; [reflexivity|]. split; [reflexivity|]. exact (Mc _ M).
      - destruct Sm as (x & s & o' & -> & P & Q). eexists. split; [exact Nl|]. exists x, s, o'. split; [reflexivity|]. split; [destruct P; split; [eapply pm_quiet; eauto|assumption]|exact Q].
      - destruct Sm as (x & s & o' & -> & P & Q). eexists. split; [apply ne_section; exact Nl|].
        rewrite (value_no_deleter _ _ _ _ _ _ K (di_reach _ _ D)) by (eapply uses_held; [exact D|eapply in_stack; [exact E|left; reflexivity]|cbn; apply Nat.eqb_refl]).
        exists x, (s ++ [ev]), o'. split; [reflexivity|]. split; [destruct P; split; [eapply pm_sec; eauto|assumption]|exact Q].
      - destruct Sm as (x & s & o' & -> & P & Q). eexists. split; [apply ne_section; exact Nl|]. exists x, (s ++ [ev]), o'. split; [reflexivity|]. split; [destruct P; split; [eapply pm_sec; eauto|assumption]|exact Q].
      - destruct Sm as (x & s & o' & -> & P & Q). eexists. split; [apply ne_deleter; exact Nl|]. cbn [smatch]. exists x, s, ds, o'. split; [reflexivity|]. exists x, s, o'. split; [reflexivity|]. split; [exact P|exact Q].
      - destruct Sm as (x & s & o' & -> & P & Q). eexists. split; [exact Nl|]. exists x, s, o'. auto.
      - destruct Sm as (x0 & s & ds & o' & -> & Q). eexists. split; [apply ne_call; exact Nl|]. cbn [smatch]. eexists x, [], _. split; [reflexivity|]. split; [split; [|reflexivity]; split; [reflexivity|]; split; [reflexivity|]; exact (Mc _ M)|]. exists x0, s, ds, o'. auto.
      - destruct Sm as (z & s & o' & -> & P & x0 & s0 & ds & o2 & -> & Q). cbn [pmatch called] in P. destruct P as ((-> & P) & ->). eexists. split; [eapply ne_back; eauto|]. exists x0, s0, ds, o2. auto.
      - destruct Sm as (x0 & s & ds & o' & -> & Q). eexists. split; [apply ne_end; exact Nl|exact Q].
      - destruct Sm as (z & s & o' & -> & P & ->). cbn [pmatch] in P. destruct P as ((-> & P) & _). exists []. split; [eapply ne_return; eauto|reflexivity]. }
    destruct X as (c & s0 & s1 & E & -> & Y). unfold put in E'. cbn [dt] in E'. rewrite (nth_set _ _ _ _ _ E) in E'. destruct (u =? t) eqn:Eu.
    - apply Nat.eqb_eq in Eu. subst u. injection E' as <-. destruct (N _ _ E) as (op & N1 & N2). destruct (Y _ _ N1 N2) as (op' & N3 & N4). exists op'. split; [|exact N4]. destruct o; [rewrite Nat.eqb_refl|]; exact N3.
    - rewrite Nat.eqb_sym in Eu. rewrite Eu. destruct (N _ _ E') as (op & N1 & N2). exists op. split; [|exact N2]. destruct o; exact N1.
  Qed.
  Lemma nests_runs tr cf : druns tr cf -> nests tr cf.
  Proof.
    induction 1 as [c E|tr cf t o cf' R IH S]; [|eapply nests_step; eauto]. intros u st X. cbn [dt] in X. apply nth_error_In, repeat_spec in X. subst st. exists []. split; [constructor|reflexivity].
  Qed.

  Lemma threads_count tr cf : druns tr cf -> length (dt cf) = n.
  Proof.
    induction 1 as [c E|tr cf t o cf' R IH S]; [apply repeat_length|]. destruct S; unfold put; cbn [dt]; rewrite set_nth_length; exact IH.
  Qed.

  (** A call that waits for a mutex somebody holds makes no step. *)
  Lemma blocked H t cf p st m o cf' : nth_error (dt cf) t = Some (KCall p :: st) -> wants p = Some m -> ~ free cf m -> ~ dstep H t cf o cf'.
  Proof.
    intros E W I S. destruct S as [x E1 M|p1 st1 p' E1 K|h st1 c' ev p' E1 K|p1 st1 m1 c' ev p' E1 W1 F K|m1 d ds p1 st1 E1|m1 p1 st1 E1|x k st1 E1 M|x r y k st1 E1|st1 E1|x r E1]; rewrite E in E1; try discriminate E1; injection E1 as -> ->; try discriminate W.
    - destruct (quiet_inv _ _ _ _ K) as [(h & nd & -> & _)|(_ & _ & _ & Q)]; [discriminate W|].
      unfold CacheDel.cstep1 in K. inversion K; subst; cbn [ct nth_error] in *; match goal with X : Some _ = Some _ |- _ => injection X as -> end; cbn [CacheDel.wants] in W; try discriminate W;
        match goal with X : kNumShards <= _ |- _ => apply Nat.ltb_ge in X; rewrite X in W; discriminate W end.
    - rewrite W in W1. injection W1 as ->. exact (I F).
  Qed.

  (** ** Deleters that call upwards only *)
  (** The keys of the entries deleted in a section belong to its shard. *)
  Lemma del_keys H c x c' ev d : reach H c -> legal H x -> exec c x = Ret (c', ev) -> x <> CPrune -> In d (ev_del ev) -> works_on H x = Some (home (d_key d)).
  Proof.
    intros R L X Np I. destruct (step_ctx hashf hash32 alc Halc dbg cap H c x c' ev (reach_inv hashf hash32 alc Halc dbg cap _ _ R) L X) as (A & A' & D & W & J & _ & _ & _ & S & _).
    assert (Kd : forall e, d_key (dcall_of e) = e_key e) by reflexivity.
    assert (Wh : forall i e, i < 16 -> In e (ents (A i)) -> home (e_key e) = i) by (intros i e Hi He; exact (w_home _ _ _ W i e Hi He)).
    remember (ev_del ev) as dl eqn:Ed. remember (ev_res ev) as rs eqn:Er. destruct S; try contradiction I; cbn [works_on].
    - (* the last release of an entry no longer in the cache *)
      destruct I as [<-|[]]. rewrite Kd. assert (He : In e (ents (A i))) by (rewrite H1; unfold ents; cbn [aL aP aZ]; rewrite !in_app_iff; cbn [In]; auto).
      unfold CacheConcProofs.hshard. rewrite (h_own _ _ _ J i e H0 He). rewrite (key_of_ent cap H A J i e H0 He). reflexivity.
    - destruct I as [<-|[]]. rewrite Kd, H1. reflexivity.
    - congruence.
    - apply in_map_iff in I. destruct I as (e & <- & I). rewrite Kd. f_equal. symmetry. apply Wh; [assumption|]. unfold ents. rewrite !in_app_iff. auto.
    - apply in_map_iff in I. destruct I as (e & <- & I). rewrite Kd. f_equal. symmetry. apply Wh; [apply home_lt; exact hash32|]. rewrite H3. unfold ents. cbn [aL aP aZ].
      apply in_app_iff in I. rewrite !in_app_iff.
      destruct H5 as [(-> & -> & -> & -> & _)|[(La & y & Lb & -> & _ & -> & -> & -> & ->)|(Pa & y & Pb & -> & _ & -> & -> & -> & ->)]].
      + destruct I as [[]|I]. rewrite H6. rewrite in_app_iff. auto.
      + destruct I as [[<-|[]]|I]; [rewrite in_app_iff; cbn [In]; auto|]. left. assert (Y : In e (La ++ Lb)) by (rewrite H6, in_app_iff; auto). rewrite in_app_iff in *. cbn [In]. tauto.
      + destruct I as [[]|I]. rewrite H6. rewrite in_app_iff. auto.
  Qed.

  Notation above := (above hashf).
  Notation upward := (upward hashf).
  Hypothesis up : forall d k v, upward (Shard (hashf k)) (del d k v).

  Fixpoint good (st : list item) : Prop :=
    match st with
    | [] => True
    | KCall p :: st' => good st' /\ (forall x k st2, st' = KDel (DCall x k) :: st2 -> p = Start x \/ exists r, p = Done x r)
    | KIn m ds p :: st' => good st' /\ (forall d, In d ds -> home (d_key d) = m) /\ (forall m', In m' (holds st') -> m' < m) /\ (forall x k st2, st' = KDel (DCall x k) :: st2 -> exists r, p = Done x r)
    | KDel q :: st' => good st' /\ (forall m ds p st2, st' = KIn m ds p :: st2 -> m < 16 /\ upward m q)
    end.
  Lemma good_above p st m : good (KCall p :: st) -> shaped (KCall p :: st) -> wants p = Some m -> forall m', In m' (holds st) -> m' < m.
  Proof.
    intros (G & P) (B & Sh) W m' I. destruct B as [->|(x & k & st2 & ->)]; [contradiction I|].
    destruct (P _ _ _ eq_refl) as [->|(r & ->)]; [|discriminate W]. destruct Sh as ((m1 & ds & p1 & st3 & ->) & _). destruct G as (G & U). destruct (U _ _ _ _ eq_refl) as (L & U1 & _). cbn [good] in G. destruct G as (_ & _ & Lt & _).
    assert (m1 < m) by (destruct x; cbn [CacheDel.above CacheDel.wants] in *; try contradiction; try discriminate; injection W as <-; lia).
    cbn [holds] in I. destruct I as [<-|I]; [assumption|]. specialize (Lt _ I). lia.
  Qed.
  Lemma good_step tr cf t o cf' : druns tr cf -> dstep (sections tr) t cf o cf' -> (forall u st, nth_error (dt cf) u = Some st -> good st) ->
    forall u st, nth_error (dt cf') u = Some st -> good st.
  Proof.
    intros R S I u st E'. pose proof (DI_runs _ _ R) as D. assert (X : exists c s0 s1, nth_error (dt cf) t = Some s0 /\ cf' = put cf t c s1 /\ good s1).
    { destruct S as [x E M|p st1 p' E K|h st1 c' ev p' E K|p st1 m c' ev p' E W F K|m d ds p st1 E|m p st1 E|x k st1 E M|x r y k st1 E|st1 E|x r E]; eexists _, _, _; (split; [exact E|split; [reflexivity|]]); pose proof (I _ _ E) as G; pose proof (shaped_runs _ _ R _ _ E) as Sh.
      - split; [exact Logic.I|]. intros; discriminate.
      - destruct G as (G & P). split; [exact G|]. intros x k st2 ->. destruct (P _ _ _ eq_refl) as [->|(r & ->)].
        + exfalso. destruct Sh as (_ & (m & ds & p1 & st3 & ->) & _). destruct G as (_ & U). destruct (U _ _ _ _ eq_refl) as (_ & U1 & _).
          destruct (quiet_inv _ _ _ _ K) as [(h & nd & Q & _)|_]; [injection Q as ->; contradiction U1|]. unfold CacheDel.cstep1 in K. inversion K; subst; cbn [ct nth_error] in *; try discriminate; match goal with X : Some _ = Some _ |- _ => injection X as -> end; contradiction U1.
        + exfalso. unfold CacheDel.cstep1 in K. inversion K; subst; cbn [ct nth_error] in *; discriminate.
      - destruct G as (G & P). split; [exact G|]. intros x k st2 ->. destruct (P _ _ _ eq_refl) as [Q|(r & Q)]; [injection Q as <-|discriminate Q]. right.
        unfold CacheDel.cstep1 in K. inversion K; subst; cbn [ct nth_error] in *; try discriminate. match goal with X : Some _ = Some _ |- _ => injection X as <- end. eauto.
      - pose proof (good_above p st1 m G Sh W) as Ab. destruct G as (G & P). split; [exact G|].
        destruct (section_inv _ _ _ _ _ _ K (di_reach _ _ D)) as (x & L & X & Iu & Po' & Wx & Rel); [apply (di_pok _ _ D); eapply in_stack; [exact E|left; reflexivity]|intros h' U; eapply uses_held; [exact D|eapply in_stack; [exact E|left; reflexivity]|exact U]|].
        split; [|split; [exact Ab|]].
        + intros d Id. assert (Np : x <> CPrune) by (intros ->; cbn [works_on] in Wx; congruence). pose proof (del_keys _ _ _ _ _ _ (di_reach _ _ D) L X Np Id) as Q. congruence.
        + intros y k st2 ->. destruct (P _ _ _ eq_refl) as [->|(r & ->)]; [|discriminate W]. destruct Sh as (_ & (m1 & ds & p1 & st3 & ->) & _). destruct G as (_ & U). destruct (U _ _ _ _ eq_refl) as (_ & U1 & _).
          unfold CacheDel.cstep1 in K. inversion K; subst; cbn [ct nth_error] in *; try discriminate. match goal with X : Some _ = Some _ |- _ => injection X as <- end. eauto.
      - destruct G as (G & Hd & Lt & P). assert (Hm : home (d_key d) = m) by (apply Hd; left; reflexivity).
        split.
        + cbn [good]. split; [exact G|]. split; [intros d' I'; apply Hd; right; exact I'|]. split; [exact Lt|exact P].
        + intros m1 ds1 p1 st2 Q. injection Q as <- <- <- <-. rewrite <- Hm. split; [apply home_lt; exact hash32|apply up].
      - destruct G as (G & _ & _ & P). split; [exact G|]. intros x k st2 ->. right. eauto.
      - split; [exact G|]. intros x' k' st2 Q. left. congruence.
      - destruct G as ((G & U) & _). split; [exact G|]. intros m ds p st2 ->. destruct (U _ _ _ _ eq_refl) as (L & _ & U2). split; [exact L|apply U2].
      - exact (proj1 G).
      - exact Logic.I. }
    destruct X as (c & s0 & s1 & E & -> & Y). unfold put in E'. cbn [dt] in E'. rewrite (nth_set _ _ _ _ _ E) in E'. destruct (u =? t); [injection E' as <-; exact Y|eauto].
  Qed.
  Lemma good_runs tr cf : druns tr cf -> forall u st, nth_error (dt cf) u = Some st -> good st.
  Proof.
    induction 1 as [c E|tr cf t o cf' R IH S]; [|eapply good_step; eauto]. intros u st X. cbn [dt] in X. apply nth_error_In, repeat_spec in X. subst st. exact Logic.I.
  Qed.
  Lemma upward_never_stuck tr cf t st : druns tr cf -> rules tr cf -> nth_error (dt cf) t = Some st -> st <> [] -> ~ stuck tr cf.
  Proof.
    intros R Ru E Ne S. destruct (stuck_downwards _ _ _ _ R Ru S E Ne) as (u & p & st' & m & m' & E' & W & I & Le).
    pose proof (good_above p st' m' (good_runs _ _ R _ _ E') (shaped_runs _ _ R _ _ E') W m I). lia.
  Qed.
End Del.
