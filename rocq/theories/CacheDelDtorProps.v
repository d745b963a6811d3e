(** CacheDelDtorProps.v -- property theorems C121: what deleters may do when the
    cache's destructor calls them. *)
From Coq Require Import List Arith NArith Lia Bool Permutation.
From Verif Require Import Outcome Heap HashSpec HashProofs Cache CacheSpec CacheRun CacheShard CacheGlobal CacheHist CacheThms CacheProofs CacheProps
  CacheDel CacheDtorProofs CacheOomProps CacheDelDtor CacheDelDtorProofs.
Import ListNotations.

(** What the deleter of the entry that the [i]-th call of the history inserted does;
    the second: its key. *)
Definition deleter_of (del : N -> bytes -> N -> dprog) (H : history) (i : nat) : option (bytes * dprog) :=
  match insert_at H i with Some (k, v, _, d) => Some (k, del d k v) | None => None end.
(** The entries whose deleters the destructor calls. *)
Definition dying (cap : N) (H : history) (i : nat) : Prop := cached cap H i = true /\ ~ in_use H i.

Lemma follow_facts hashf alc dbg dbg' del cap H c : runs hashf alc dbg cap H c ->
  dbg' = false \/ (forall i, cached cap H i = true -> ~ in_use H i) ->
  exists m l, cache_dtor dbg' (clear_log c) = Ret m /\
    (forall i, In i l <-> dying cap H i) /\
    Forall2 (fun dc i => exists ch, insert_at H i = Some (d_key dc, d_value dc, ch, d_deleter dc)) (m_log m) l /\
    forall depth, exists fuel0, forall fuel, fuel0 <= fuel ->
      follows_home hashf del [] (m_log m) (with_mem (clear_log c) m) (cache_dtor_d hashf alc dbg' del (S depth) fuel (clear_log c)).
Proof.
  intros R Hq. destruct (C110_destructor_spares_exactly_the_held hashf alc dbg dbg' cap H c R Hq) as (m & l & E & _ & Hl & F & _).
  exists m, l. split; [exact E|]. split; [exact Hl|]. split.
  - clear - F. induction F as [|d i ds l [_ X] F IH]; constructor; auto.
  - intros depth. destruct (runs_good _ _ _ _ _ _ R) as (A & G & I).
    exact (cache_follows hashf alc cap H c A G I dbg' del depth Hq m E).
Qed.

(** If no deleter of a dying entry calls the cache, the destructor does what C110 and
    C38 say. *)
Theorem C121_deleters_that_call_nothing :
  forall hashf alc dbg dbg' del cap H c, runs hashf alc dbg cap H c ->
    dbg' = false \/ (forall i, cached cap H i = true -> ~ in_use H i) ->
    (forall i k q, dying cap H i -> deleter_of del H i = Some (k, q) -> q = DEnd) ->
    exists m, cache_dtor dbg' (clear_log c) = Ret m /\
      forall depth, exists fuel0, forall fuel, fuel0 <= fuel ->
        cache_dtor_d hashf alc dbg' del (S depth) fuel (clear_log c) = Ret (Back (with_mem (clear_log c) m)).
Proof.
  intros hashf alc dbg dbg' del cap H c R Hq Q. destruct (follow_facts hashf alc dbg dbg' del cap H c R Hq) as (m & l & E & Hl & F & K).
  exists m. split; [exact E|]. intros depth. destruct (K depth) as (fuel0 & K0). exists fuel0. intros fuel L.
  destruct (K0 fuel L) as (ds & Ed & K1 & _). cbn [app] in Ed. apply K1. rewrite <- Ed.
  assert (Hd : forall i, In i l -> dying cap H i) by (intros i; apply Hl). clear - F Q Hd.
  induction F as [|d i ds l (ch & X) F IH]; constructor.
  - unfold quiet. refine (Q i (d_key d) _ (Hd i (or_introl eq_refl)) _). unfold deleter_of. rewrite X. reflexivity.
  - apply IH. intros j Hj. apply Hd. cbn. auto.
Qed.
Print Assumptions C121_deleters_that_call_nothing.

(** NewId, and Insert, Lookup and Erase of a key in a higher shard than the entry's own,
    are calls that a deleter may make at any other time (they are the ones C103 needs to
    exclude deadlocks).  In the destructor they touch members that are gone: if the
    deleters of the dying entries do nothing or begin with such a call, and one does begin
    with one, then destroying the cache is undefined behaviour. *)
Theorem C121_upward_deleters_refuted :
  forall hashf alc dbg dbg' del cap H c, runs hashf alc dbg cap H c ->
    dbg' = false \/ (forall i, cached cap H i = true -> ~ in_use H i) ->
    (forall i k q, dying cap H i -> deleter_of del H i = Some (k, q) ->
       q = DEnd \/ exists x f, q = DCall x f /\ gone hashf (Shard (hashf k)) x) ->
    (exists i k x f, dying cap H i /\ deleter_of del H i = Some (k, DCall x f)) ->
    forall depth, exists fuel0, forall fuel, fuel0 <= fuel -> cache_dtor_d hashf alc dbg' del (S depth) fuel (clear_log c) = UB.
Proof.
  intros hashf alc dbg dbg' del cap H c R Hq Q (i0 & k0 & x0 & f0 & D0 & Q0) depth.
  destruct (follow_facts hashf alc dbg dbg' del cap H c R Hq) as (m & l & _ & Hl & F & K).
  destruct (K depth) as (fuel0 & K0). exists fuel0. intros fuel L. destruct (K0 fuel L) as (ds & Ed & _ & K1). cbn [app] in Ed.
  assert (Hd : forall i, In i l -> dying cap H i) by (intros i; apply Hl).
  assert (Y : forall d i, dying cap H i -> (exists ch, insert_at H i = Some (d_key d, d_value d, ch, d_deleter d)) -> quiet del d \/ home_bad hashf del d).
  { intros d i Di (ch & X). destruct (Q i (d_key d) (del (d_deleter d) (d_key d) (d_value d)) Di) as [Z|Z]; [unfold deleter_of; now rewrite X| |]; auto. }
  apply K1; rewrite <- Ed; clear K1 Ed K0 K L.
  - clear - F Y Hd. induction F as [|d i ds l X F IH]; constructor.
    + exact (Y d i (Hd i (or_introl eq_refl)) X).
    + apply IH. intros j Hj. apply Hd. cbn. auto.
  - assert (In0 : In i0 l) by (apply Hl; exact D0). clear Hl. clear ds. revert In0 Hd. induction F as [|d i ds l X F IH]; intros In0 Hd; [destruct In0|].
    destruct In0 as [->|In0].
    + apply Exists_cons_hd. destruct (Y d i0 D0 X) as [Z|Z]; [|exact Z]. exfalso. destruct X as (ch & X).
      unfold deleter_of in Q0. rewrite X in Q0. injection Q0 as _ E. unfold quiet in Z. congruence.
    + apply Exists_cons_tl. apply IH; [exact In0|]. intros j Hj. apply Hd. cbn. auto.
Qed.
Print Assumptions C121_upward_deleters_refuted.

(** ** Other calls: three runs with one entry or two *)
Ltac build_run calls :=
  let c0 := fresh "c0" in let E0 := fresh "E0" in let H := fresh "H" in let c := fresh "c" in let E := fresh "E" in
  destruct (cache_new alc_bump true 64) as [c0| | |] eqn:E0; try (vm_compute in E0; discriminate E0);
  destruct (run_calls real_hash alc_bump true calls [] c0) as [[H c]|] eqn:E;
  [ let R := fresh "R" in
    assert (R : reach real_hash alc_bump true 64 H c) by (eapply run_calls_ok; [|exact E]; constructor; exact E0);
    vm_compute in E0; inversion E0; subst c0; clear E0; vm_compute in E; inversion E; subst H c; clear E;
    do 2 eexists; split; [split; [intros k; apply hash_spec_lt; reflexivity|split; [exact alc_bump_ok|exact R]]|]
  | exfalso; vm_compute in E0; inversion E0; subst c0; vm_compute in E; discriminate E ].

(** A deleter that looks its own key up is given a handle: to the entry that is freed
    when the deleter returns.  (It shows the handle by storing it as the value of an
    entry of a lower shard; that one's deleter, number 8, does nothing and so is called
    with the handle, 33, the dead entry's address.) *)
Definition del_own : N -> bytes -> N -> dprog := fun d k _ =>
  if N.eqb d 7 then DCall (CLookup k) (fun r => match r with
    | RHandle h => DCall (CInsert [11]%N (N.of_nat h) 1 8) (fun r => match r with RHandle g => DCall (CRelease g) (fun _ => DEnd) | _ => DEnd end)
    | _ => DEnd end)
  else DEnd.
Theorem C121_own_key_refuted :
  exists H c, runs real_hash alc_bump true 64 H c /\
    owner H 33 = Some 0 /\ insert_at H 0 = Some ([7]%N, 100%N, 1%N, 7%N) /\
    match cache_dtor_d real_hash alc_bump true del_own 17 100 (clear_log c) with
    | Ret (Back c') => map (fun d => (d_addr d, d_key d, d_value d)) (m_log (c_mem c')) = [(33, [7]%N, 100%N); (34, [11]%N, 33%N)] /\ m_heap (c_mem c') = []
    | _ => False
    end.
Proof.
  build_run [CInsert [7]%N 100 1 7; CRelease 33].
  split; [reflexivity|]. split; [reflexivity|]. vm_compute. auto.
Qed.
Print Assumptions C121_own_key_refuted.

(** If it gives that handle back, the entry's last reference goes a second time: its
    deleter is called again, now with the mutex of the shard held, and the destructor
    never ends. *)
Definition del_twice : N -> bytes -> N -> dprog := fun _ k _ =>
  DCall (CLookup k) (fun r => match r with RHandle h => DCall (CRelease h) (fun _ => DEnd) | _ => DEnd end).
Theorem C121_own_key_released_refuted :
  exists H c, runs real_hash alc_bump true 64 H c /\
    cache_dtor_d real_hash alc_bump true del_twice 17 100 (clear_log c) = Ret Stuck.
Proof.
  build_run [CInsert [7]%N 100 1 7; CRelease 33].
  vm_compute. reflexivity.
Qed.
Print Assumptions C121_own_key_released_refuted.

(** A key of the own shard whose entry was destroyed before: Lookup finds the freed entry
    in the hash table. *)
Definition del_mate : N -> bytes -> N -> dprog := fun d _ _ => if N.eqb d 8 then DCall (CLookup [11]%N) (fun _ => DEnd) else DEnd.
Theorem C121_own_shard_refuted :
  exists H c, runs real_hash alc_bump true 64 H c /\
    cache_dtor_d real_hash alc_bump true del_mate 17 100 (clear_log c) = UB.
Proof.
  build_run [CInsert [11]%N 100 1 7; CInsert [20]%N 200 1 8; CRelease 33; CRelease 34].
  vm_compute. reflexivity.
Qed.
Print Assumptions C121_own_shard_refuted.

(** A deleter that works: it erases an entry of a lower shard (whose deleter runs at
    once, and not again when its shard is destroyed). *)
Definition del_low : N -> bytes -> N -> dprog := fun d _ _ => if N.eqb d 7 then DCall (CErase [11]%N) (fun _ => DEnd) else DEnd.
Example ex_lower_shard :
  exists H c, runs real_hash alc_bump true 64 H c /\
    match cache_dtor_d real_hash alc_bump true del_low 17 100 (clear_log c) with
    | Ret (Back c') => map d_key (m_log (c_mem c')) = [[7]%N; [11]%N] /\ m_heap (c_mem c') = []
    | _ => False
    end.
Proof.
  build_run [CInsert [7]%N 100 1 7; CInsert [11]%N 200 1 8; CRelease 33; CRelease 34].
  vm_compute. auto.
Qed.

(** The hypotheses of the first two theorems: the dying entries [1] (which is quiet) and
    [0], whose deleter asks for a new id -- or, read with quiet deleters, both quiet. *)
Definition del_id : N -> bytes -> N -> dprog := fun d _ _ => if N.eqb d 7 then DCall CNewId (fun _ => DEnd) else DEnd.
Example ex_upward_dtor :
  exists H c, runs real_hash alc_bump true 64 H c /\
    (forall i, cached 64 H i = true -> ~ in_use H i) /\
    (forall i k q, dying 64 H i -> deleter_of del_id H i = Some (k, q) -> q = DEnd \/ exists x f, q = DCall x f /\ gone real_hash (Shard (real_hash k)) x) /\
    (exists i k x f, dying 64 H i /\ deleter_of del_id H i = Some (k, DCall x f)) /\
    (forall i k q, dying 64 H i -> deleter_of (fun _ _ _ => DEnd) H i = Some (k, q) -> q = DEnd) /\
    cache_dtor_d real_hash alc_bump true del_id 17 100 (clear_log c) = UB.
Proof.
  build_run [CInsert [7]%N 100 1 7; CInsert [11]%N 200 1 8; CRelease 33; CRelease 34].
  match goal with |- _ /\ _ /\ (exists i k x f, dying 64 ?H i /\ _) /\ _ => set (HH := H) end.
  assert (NU : forall i, ~ in_use HH i).
  { intros i (h & _ & Hh). unfold HH in Hh. cbn [held ev_call ev_res] in Hh. destruct (34 =? h), (33 =? h); cbn in Hh; lia. }
  split; [intros i _; apply NU|]. split; [|split; [|split]].
  - intros i k q _ E. unfold deleter_of, insert_at, HH in E. cbn [rev app] in E.
    destruct i as [|[|[|[|i]]]]; cbn [nth_error ev_call] in E; try discriminate E; try (destruct i; discriminate E);
      injection E as <- <-; [right|left; reflexivity]. do 2 eexists. split; [reflexivity|exact Logic.I].
  - exists 0, [7]%N, CNewId, (fun _ => DEnd). split; [split; [reflexivity|apply NU]|reflexivity].
  - intros i k q _ E. unfold deleter_of in E. destruct (insert_at HH i) as [[[[]]]|]; [|discriminate E]. injection E as <- <-. reflexivity.
  - vm_compute. reflexivity.
Qed.
