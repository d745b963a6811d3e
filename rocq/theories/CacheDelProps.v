(** CacheDelProps.v -- property theorem C103 (deleters that call the cache). *)
From Coq Require Import List Arith NArith Lia Bool.
From Verif Require Import Outcome Heap HashSpec HashProofs Cache CacheSpec CacheRun CacheGlobal CacheTable CacheProofs CacheThms CacheProps
  CacheConc CacheConcProofs CacheConcProps CacheDel CacheDelProofs.
Import ListNotations.

(** All executions of [n] threads on a new cache, the deleters being [del]. *)
Definition del_runs (hashf : bytes -> N) (alc : allocator) (dbg : bool) (del : N -> bytes -> N -> dprog) (cap : N) (n : nat) (tr : trace) (cf : dconf) : Prop :=
  (forall k, (hashf k < 2 ^ 32)%N) /\ allocator_ok alc /\ druns hashf alc dbg del cap n tr cf.

(** Whatever the deleters call, an execution is explained by a sequential one: the
    sections, in the order in which they took effect, are a legal history of a single
    caller that leads to the same cache; and each thread's calls are each made of their own
    sections, with the results that the sections have, and after each section its deleters
    run to their ends, their calls nested inside, before the call goes on. *)
Theorem C103_sequential :
  forall hashf alc dbg del cap n tr cf, del_runs hashf alc dbg del cap n tr cf ->
    runs hashf alc dbg cap (sections tr) (dc cf) /\ forall t, t < n -> exists o, nested del (proj t tr) o.
Proof.
  intros hashf alc dbg del cap n tr cf (Hh & Ha & R). split.
  - split; [exact Hh|]. split; [exact Ha|]. exact (di_reach _ _ _ _ _ _ (DI_runs hashf Hh alc Ha dbg del cap n tr cf R)).
  - intros t Ht. assert (L : length (dt cf) = n) by (exact (threads_count hashf alc dbg del cap n tr cf R)).
    destruct (nth_error (dt cf) t) as [st|] eqn:E; [|apply nth_error_None in E; lia].
    destruct (nests_runs hashf Hh alc Ha dbg del cap n tr cf R t st E) as (o & N & _). eauto.
Qed.
Print Assumptions C103_sequential.

(** A call made by a deleter that needs a mutex the thread already holds never returns,
    whatever anybody does. *)
Theorem C103_self_deadlock :
  forall hashf alc dbg del cap n tr cf t p st m, del_runs hashf alc dbg del cap n tr cf ->
    nth_error (dt cf) t = Some (KCall p :: st) -> wants hashf p = Some m -> In m (holds st) ->
    forall tr' cf', dmore hashf alc dbg del tr cf tr' cf' -> nth_error (dt cf') t = Some (KCall p :: st) /\ proj t tr' = proj t tr.
Proof.
  intros hashf alc dbg del cap n tr cf t p st m (Hh & Ha & R) E W I tr' cf' M.
  induction M as [|tr1 cf1 u o cf2 M (IH1 & IH2) S]; [auto|]. split.
  - eapply self_wait; eauto.
  - rewrite proj_add. destruct o as [l|]; [|exact IH2]. destruct (Nat.eqb_spec u t) as [->|]; [|exact IH2]. exfalso.
    refine (blocked hashf alc dbg del _ _ _ p st m _ _ IH1 W _ S). intros F. apply (F (KCall p :: st)); [eapply nth_error_In; exact IH1|exact I].
Qed.
Print Assumptions C103_self_deadlock.

(** The converse: as long as everybody respects the rules, a deadlock is possible only if
    some deleter's call waits for a mutex that is not above one its thread holds. *)
Theorem C103_deadlock_only_downwards :
  forall hashf alc dbg del cap n tr cf t st, del_runs hashf alc dbg del cap n tr cf ->
    rules tr cf -> nth_error (dt cf) t = Some st -> st <> [] -> stuck hashf alc dbg del tr cf -> downwards hashf cf.
Proof.
  intros hashf alc dbg del cap n tr cf t st (Hh & Ha & R) Ru E Ne S.
  exact (stuck_downwards hashf Hh alc Ha dbg del cap n tr cf t st R Ru S E Ne).
Qed.
Print Assumptions C103_deadlock_only_downwards.

(** So deleters that only call upwards, in particular deleters that do not call the cache
    at all, never lead to a deadlock. *)
Theorem C103_upward_no_deadlock :
  forall hashf alc dbg del cap n tr cf t st, del_runs hashf alc dbg del cap n tr cf ->
    (forall d k v, upward hashf (Shard (hashf k)) (del d k v)) ->
    rules tr cf -> nth_error (dt cf) t = Some st -> st <> [] -> ~ stuck hashf alc dbg del tr cf.
Proof.
  intros hashf alc dbg del cap n tr cf t st (Hh & Ha & R) Up Ru E Ne.
  exact (upward_never_stuck hashf Hh alc Ha dbg del cap n Up tr cf t st R Ru E Ne).
Qed.
Print Assumptions C103_upward_no_deadlock.

(** ** Schedules: [(t, Some x)] thread t calls x, [(t, None)] thread t takes its next step *)
Section Sched.
  Variable hashf : bytes -> N.
  Variable alc : allocator.
  Variable dbg : bool.
  Variable del : N -> bytes -> N -> dprog.
  Definition free_b (cf : dconf) (m : nat) : bool := forallb (fun st => negb (existsb (Nat.eqb m) (holds st))) (dt cf).
  Lemma free_b_ok cf m : free_b cf m = true -> free cf m.
  Proof.
    unfold free_b. intros F st I J. rewrite forallb_forall in F. specialize (F st I). apply negb_true_iff in F.
    assert (X : existsb (Nat.eqb m) (holds st) = true) by (apply existsb_exists; exists m; split; [exact J|apply Nat.eqb_refl]). congruence.
  Qed.
  Definition step1 (H : history) (c : cache) (p : pst) : option (option lab * cache * pst) :=
    match cdo hashf alc dbg H 0 None (mk_cconf c [p]) with
    | Some (o, mk_cconf c' [p']) => Some (o, match o with None => c | _ => c' end, p')
    | _ => None
    end.
  Lemma step1_ok H c p o c' p' : step1 H c p = Some (o, c', p') -> cstep1 hashf alc dbg H c p o c' p' /\ (o = None -> c' = c).
  Proof.
    unfold step1. destruct (cdo hashf alc dbg H 0 None (mk_cconf c [p])) as [[o1 [c1 [|p1 [|]]]]|] eqn:E; try discriminate. intros Q. injection Q as <- <- <-.
    pose proof (cdo_ok _ _ _ _ _ _ _ _ _ E) as K. destruct o1 as [l|]; [split; [exact K|discriminate]|]. split; [|auto]. unfold cstep1. assert (c1 = c) by (clear E; inversion K; subst; cbn [cc] in *; reflexivity). subst c1. exact K.
  Qed.
  Definition ddo (H : history) (t : nat) (a : option call) (cf : dconf) : option (option lab * dconf) :=
    match nth_error (dt cf) t, a with
    | Some [], Some x => if may_b H (in_progress cf) x then Some (Some (Beg x), put cf t (dc cf) [KCall (Start x)]) else None
    | Some [KCall (Done x r)], None => Some (Some (Rtn r), put cf t (dc cf) [])
    | Some (KCall (Done x r) :: KDel (DCall y k) :: st), None => Some (Some (Rtn r), put cf t (dc cf) (KDel (k r) :: st))
    | Some (KCall p :: st), None =>
        match step1 H (dc cf) p with
        | Some (None, _, p') => Some (None, put cf t (dc cf) (KCall p' :: st))
        | Some (Some (Sec ev), c', p') =>
            match wants hashf p with
            | Some m => if free_b cf m then Some (Some (Sec ev), put cf t c' (KIn m (ev_del ev) p' :: st)) else None
            | None => match p with Start (CValue h) => Some (Some (Sec ev), put cf t c' (KCall p' :: st)) | _ => None end
            end
        | _ => None
        end
    | Some (KIn m (d :: ds) p :: st), None => Some (None, put cf t (dc cf) (KDel (del (d_deleter d) (d_key d) (d_value d)) :: KIn m ds p :: st))
    | Some (KIn m [] p :: st), None => Some (None, put cf t (dc cf) (KCall p :: st))
    | Some (KDel (DCall x k) :: st), None => if may_b H (in_progress cf) x then Some (Some (Beg x), put cf t (dc cf) (KCall (Start x) :: KDel (DCall x k) :: st)) else None
    | Some (KDel DEnd :: st), None => Some (None, put cf t (dc cf) st)
    | _, _ => None
    end.
  Lemma ddo_ok H t a cf o cf' : ddo H t a cf = Some (o, cf') -> dstep hashf alc dbg del H t cf o cf'.
  Proof.
    unfold ddo. destruct (nth_error (dt cf) t) as [st|] eqn:E; [|discriminate].
    assert (G : forall p st1, st = KCall p :: st1 -> match step1 H (dc cf) p with
        | Some (None, _, p') => Some (None, put cf t (dc cf) (KCall p' :: st1))
        | Some (Some (Sec ev), c', p') =>
            match wants hashf p with
            | Some m => if free_b cf m then Some (Some (Sec ev), put cf t c' (KIn m (ev_del ev) p' :: st1)) else None
            | None => match p with Start (CValue h) => Some (Some (Sec ev), put cf t c' (KCall p' :: st1)) | _ => None end
            end
        | _ => None
        end = Some (o, cf') -> dstep hashf alc dbg del H t cf o cf').
    { intros p st1 -> Q. destruct (step1 H (dc cf) p) as [[[o1 c1] p1]|] eqn:K; [|discriminate]. destruct (step1_ok _ _ _ _ _ _ K) as (K1 & K2).
      destruct o1 as [[|ev|]|]; try discriminate.
      - destruct (wants hashf p) as [m|] eqn:W.
        + destruct (free_b cf m) eqn:F; [|discriminate]. injection Q as <- <-. eapply d_section; eauto using free_b_ok.
        + destruct p as [|[]| | | |]; try discriminate. injection Q as <- <-. eapply d_read; eauto.
      - injection Q as <- <-. rewrite (K2 eq_refl) in K1. eapply d_quiet; eauto. }
    destruct st as [|[p|m ds p|q] st].
    - destruct a; [|discriminate]. destruct (may_b _ _ _) eqn:M; [|discriminate]. intros Q. injection Q as <- <-. apply d_call; [exact E|now apply may_b_ok].
    - destruct a; [destruct p, st as [|[| |[]]]; discriminate|]. destruct p; try (apply (G _ _ eq_refl)). destruct st as [|[| |[|y k]] st]; try (apply (G _ _ eq_refl)).
      + intros Q. injection Q as <- <-. eapply d_return; exact E.
      + intros Q. injection Q as <- <-. eapply d_back; exact E.
    - destruct a; [destruct ds; discriminate|]. destruct ds; intros Q; injection Q as <- <-; [eapply d_unlock; exact E|eapply d_delete; exact E].
    - destruct a; [destruct q; discriminate|]. destruct q; [intros Q; injection Q as <- <-; now apply d_end|]. destruct (may_b _ _ _) eqn:M; [|discriminate]. intros Q. injection Q as <- <-. apply d_nested; [exact E|now apply may_b_ok].
  Qed.
  Fixpoint run_del (s : list (nat * option call)) (tr : trace) (cf : dconf) : option (trace * dconf) :=
    match s with
    | [] => Some (tr, cf)
    | (t, a) :: s' => match ddo (sections tr) t a cf with Some (o, cf') => run_del s' (add_lab t o tr) cf' | None => None end
    end.
  Lemma run_del_ok cap n s : forall tr cf tr' cf', druns hashf alc dbg del cap n tr cf -> run_del s tr cf = Some (tr', cf') -> druns hashf alc dbg del cap n tr' cf'.
  Proof.
    induction s as [|[t a] s IH]; cbn [run_del]; intros tr cf tr' cf' R E; [inversion E; subst; auto|].
    destruct (ddo (sections tr) t a cf) as [[o cf1]|] eqn:D; [|discriminate].
    eapply IH; [|exact E]. econstructor; [exact R|]. eapply ddo_ok; eauto.
  Qed.
  (** Every thread is inside a call that waits for a mutex somebody holds. *)
  Definition dead_b (cf : dconf) : bool :=
    forallb (fun st => match st with KCall p :: _ => match wants hashf p with Some m => negb (free_b cf m) | None => false end | _ => false end) (dt cf).
  Lemma free_b_no cf m : free_b cf m = false -> ~ free cf m.
  Proof.
    unfold free_b, free. intros F X. assert (Y : forallb (fun st => negb (existsb (Nat.eqb m) (holds st))) (dt cf) = true); [|congruence].
    apply forallb_forall. intros st I. apply negb_true_iff. destruct (existsb (Nat.eqb m) (holds st)) eqn:Z; [|reflexivity].
    apply existsb_exists in Z. destruct Z as (y & Y1 & Y2). apply Nat.eqb_eq in Y2. subst y. destruct (X st I Y1).
  Qed.
  Lemma dead_ok cf : dead_b cf = true -> forall H t o cf', ~ dstep hashf alc dbg del H t cf o cf'.
  Proof.
    intros D H t o cf' S. assert (X : exists st, nth_error (dt cf) t = Some st) by (destruct S; eauto). destruct X as (st & E).
    unfold dead_b in D. rewrite forallb_forall in D. specialize (D st (nth_error_In _ _ E)). destruct st as [|[p| |] st]; try discriminate.
    destruct (wants hashf p) as [m|] eqn:W; [|discriminate]. apply negb_true_iff in D. exact (blocked hashf alc dbg del H t cf p st m o cf' E W (free_b_no _ _ D) S).
  Qed.
End Sched.

(** "Deleters may call the cache" is false.  One thread: it inserts an entry, releases
    and erases it; the deleter looks up the key it is called with: the program has come to
    an end that nobody wrote. *)
Definition go1 (t k : nat) : list (nat * option call) := repeat (t, None) k.
Definition del_same : N -> bytes -> N -> dprog := fun _ k _ => DCall (CLookup k) (fun _ => DEnd).
Definition self_sched : list (nat * option call) :=
  [(0, Some (CInsert [11]%N 100 1 7))] ++ go1 0 3 ++ [(0, Some (CRelease 33))] ++ go1 0 4 ++ [(0, Some (CErase [11]%N))] ++ go1 0 3.
Theorem C103_any_deleter_refuted :
  exists del tr cf, del_runs real_hash alc_bump true del 32 1 tr cf /\ rules tr cf /\ nth_error (dt cf) 0 <> Some [] /\
    forall tr' cf', dmore real_hash alc_bump true del tr cf tr' cf' -> tr' = tr /\ cf' = cf.
Proof.
  exists del_same. destruct (cache_new alc_bump true 32) as [c0| | |] eqn:E0; try (vm_compute in E0; discriminate).
  destruct (run_del real_hash alc_bump true del_same self_sched [] (mk_dconf c0 (repeat [] 1))) as [[tr cf]|] eqn:E.
  - exists tr, cf. split.
    { split; [intros k; apply hash_spec_lt; reflexivity|]. split; [exact alc_bump_ok|]. eapply run_del_ok; [|exact E]. constructor. exact E0. }
    vm_compute in E0. inversion E0; subst c0. vm_compute in E. inversion E; subst tr cf. clear E E0. split; [|split].
    + split.
      * intros x [I|[I|[]]]; [injection I as <-|discriminate I]. apply in_range_b_ok. reflexivity.
      * intros st x k [I|[]]. discriminate I.
    + discriminate.
    + intros tr' cf' M. induction M as [|tr1 cf1 t o cf2 M (-> & ->) S]; [auto|]. exfalso. revert S. apply dead_ok. vm_compute. reflexivity.
  - exfalso. vm_compute in E0. inversion E0; subst c0. vm_compute in E. discriminate.
Qed.
Print Assumptions C103_any_deleter_refuted.

(** Nor is it enough to stay out of the deleter's own shard: two threads erase two
    entries of different shards, each deleter looks up the other's key. *)
Definition del_other : N -> bytes -> N -> dprog := fun d _ _ => DCall (CLookup [if N.eqb d 7 then 7 else 11]%N) (fun _ => DEnd).
Definition cross_sched : list (nat * option call) :=
  [(0, Some (CInsert [11]%N 100 1 7))] ++ go1 0 3 ++ [(0, Some (CRelease 33))] ++ go1 0 4 ++
  [(1, Some (CInsert [7]%N 200 1 8))] ++ go1 1 3 ++ [(1, Some (CRelease 34))] ++ go1 1 4 ++
  [(0, Some (CErase [11]%N)); (1, Some (CErase [7]%N))] ++ go1 0 3 ++ go1 1 3.
Theorem C103_other_shard_refuted :
  exists del tr cf, (forall d k v, exists x, del d k v = DCall x (fun _ => DEnd)) /\ del_runs real_hash alc_bump true del 32 2 tr cf /\ rules tr cf /\
    (forall t p st m, nth_error (dt cf) t = Some (KCall p :: st) -> wants real_hash p = Some m -> ~ In m (holds st)) /\
    (forall t, t < 2 -> nth_error (dt cf) t <> Some []) /\
    forall tr' cf', dmore real_hash alc_bump true del tr cf tr' cf' -> tr' = tr /\ cf' = cf.
Proof.
  exists del_other. destruct (cache_new alc_bump true 32) as [c0| | |] eqn:E0; try (vm_compute in E0; discriminate).
  destruct (run_del real_hash alc_bump true del_other cross_sched [] (mk_dconf c0 (repeat [] 2))) as [[tr cf]|] eqn:E.
  - exists tr, cf. split; [intros d k v; eexists; reflexivity|]. split.
    { split; [intros k; apply hash_spec_lt; reflexivity|]. split; [exact alc_bump_ok|]. eapply run_del_ok; [|exact E]. constructor. exact E0. }
    vm_compute in E0. inversion E0; subst c0. vm_compute in E. inversion E; subst tr cf. clear E E0. split; [|split; [|split]].
    + split.
      * intros x [I|[I|[I|[I|[]]]]]; try discriminate I; injection I as <-; apply in_range_b_ok; reflexivity.
      * intros st x k [I|[I|[]]]; discriminate I.
    + intros [|[|t]] p st m Q W; [| |destruct t; discriminate Q]; injection Q as <- <-; vm_compute in W; injection W as <-; intros [I|[]]; discriminate I.
    + intros [|[|t]] L; [discriminate|discriminate|lia].
    + intros tr' cf' M. induction M as [|tr1 cf1 t o cf2 M (-> & ->) S]; [auto|]. exfalso. revert S. apply dead_ok. vm_compute. reflexivity.
  - exfalso. vm_compute in E0. inversion E0; subst c0. vm_compute in E. discriminate.
Qed.
Print Assumptions C103_other_shard_refuted.

(** Upward deleters that do call: the deleter of an entry of shard 0 erases the entry
    [7] of shard 15, whose deleter (8) does nothing. *)
Definition del_up : N -> bytes -> N -> dprog := fun _ k _ => if Shard (real_hash k) <? 15 then DCall (CErase [7]%N) (fun _ => DEnd) else DEnd.
Lemma del_up_upward d k v : upward real_hash (Shard (real_hash k)) (del_up d k v).
Proof.
  unfold del_up. destruct (Nat.ltb_spec (Shard (real_hash k)) 15) as [L|]; [|exact Logic.I]. cbn [upward above]. split; [|intros _; exact Logic.I]. change (Shard (real_hash [7]%N)) with 15. exact L.
Qed.
Definition up_sched : list (nat * option call) :=
  [(0, Some (CInsert [11]%N 100 1 7))] ++ go1 0 3 ++ [(0, Some (CRelease 33))] ++ go1 0 4 ++
  [(1, Some (CInsert [7]%N 200 1 8))] ++ go1 1 3 ++ [(1, Some (CRelease 34))] ++ go1 1 4 ++
  [(0, Some (CErase [11]%N))] ++ go1 0 11.
Example ex_upward : exists tr cf, del_runs real_hash alc_bump true del_up 32 2 tr cf /\ dt cf = [[]; []] /\
  map (fun ev => (ev_call ev, ev_del ev)) (firstn 2 (sections tr)) = [(CErase [7]%N, [mk_dcall 34 8 [7]%N 200]); (CErase [11]%N, [mk_dcall 33 7 [11]%N 100])].
Proof.
  destruct (cache_new alc_bump true 32) as [c0| | |] eqn:E0; try (vm_compute in E0; discriminate).
  destruct (run_del real_hash alc_bump true del_up up_sched [] (mk_dconf c0 (repeat [] 2))) as [[tr cf]|] eqn:E.
  - exists tr, cf. split.
    { split; [intros k; apply hash_spec_lt; reflexivity|]. split; [exact alc_bump_ok|]. eapply run_del_ok; [|exact E]. constructor. exact E0. }
    vm_compute in E0. inversion E0; subst c0. vm_compute in E. inversion E; subst tr cf. split; reflexivity.
  - exfalso. vm_compute in E0. inversion E0; subst c0. vm_compute in E. discriminate.
Qed.
