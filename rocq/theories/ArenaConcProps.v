(** ArenaConcProps.v -- property theorem C104 (MemoryUsage and threads). *)
From Coq Require Import List Arith NArith Lia Bool.
From Verif Require Import Outcome Arena ArenaSpec ArenaProofs ArenaProps ArenaConc.
Import ListNotations.
Local Open Scope outcome_scope.

Definition evs_after (dbg : bool) (ops : list (aop * N)) (k : nat) : list event :=
  match arun dbg arena0 (firstn k ops) with Ret (_, _, evs) => evs | _ => [] end.
Definition state_after (dbg : bool) (ops : list (aop * N)) (k : nat) : arena :=
  match arun dbg arena0 (firstn k ops) with Ret (s, _, _) => s | _ => arena0 end.
Definition cnt (dbg : bool) (ops : list (aop * N)) (k : nat) : nat := length (evs_after dbg ops k).

Lemma astep_events dbg s o ans s' p ev : astep dbg s o ans = Ret (s', p, ev) ->
  (ev = [] /\ memory_usage s' = memory_usage s) \/ exists n, ev = [New n ans].
Proof.
  intros E. apply astep_dbg in E. unfold astep, Allocate, AllocateAligned, AllocateFallback, AllocateNewBlock, assert_ in E. cbn [andb] in E.
  destruct o; cbn [bind] in E.
  - destruct (_ <=? _)%N; [injection E as <- <- <-; left; auto|]. destruct (_ <? _)%N; injection E as <- <- <-; right; eauto.
  - destruct (u64 _ <=? _)%N; [cbn [bind] in E; injection E as <- <- <-; left; auto|]. destruct (_ <? _)%N; cbn [bind] in E; injection E as <- <- <-; right; eauto.
Qed.

Record UI (dbg : bool) (tr : list uev) (c : uconf) : Prop := {
  ui_run : exists rs evs, arun dbg arena0 (ops_of tr) = Ret (u_arena c, rs, evs);
  ui_len : length (u_vals c) = S (cnt dbg (ops_of tr) (length (ops_of tr)));
  ui_mono : forall k k', k <= k' -> k' <= length (ops_of tr) -> cnt dbg (ops_of tr) k <= cnt dbg (ops_of tr) k';
  ui_vals : forall k, k <= length (ops_of tr) -> nth_error (u_vals c) (cnt dbg (ops_of tr) k) = Some (memory_usage (state_after dbg (ops_of tr) k));
  ui_all : forall i, i < length (u_vals c) -> exists k, k <= length (ops_of tr) /\ cnt dbg (ops_of tr) k = i;
  ui_floor : forall t, cnt dbg (ops_of tr) (known tr t) <= u_floor c t /\ u_floor c t < length (u_vals c);
  ui_known : forall t, known tr t <= length (ops_of tr);
  ui_owner : S (u_floor c 0) = length (u_vals c)
}.

Lemma firstn_snoc {A} (l : list A) x k : k <= length l -> firstn k (l ++ [x]) = firstn k l.
Proof. intros H. rewrite firstn_app. replace (k - length l) with 0 by lia. cbn [firstn]. apply app_nil_r. Qed.
Lemma firstn_snoc_all {A} (l : list A) x : firstn (S (length l)) (l ++ [x]) = l ++ [x].
Proof. apply firstn_all2. rewrite app_length. cbn. lia. Qed.

Lemma UI_step dbg tr c e c' : UI dbg tr c -> ustep dbg c e c' -> UI dbg (e :: tr) c'.
Proof.
  intros U S. destruct S as [o ans s' p ev E|t i v L E|t t'].
  - destruct (ui_run _ _ _ U) as (rs & evs & R).
    assert (R' : arun dbg arena0 (ops_of tr ++ [(o, ans)]) = Ret (s', rs ++ [(p, op_bytes o)], evs ++ ev)) by (rewrite arun_app, R; cbn [bind arun]; rewrite E; cbn [bind]; rewrite app_nil_r; reflexivity).
    assert (Lo : length (ops_of (Did o ans p :: tr)) = length (ops_of tr) + 1) by (cbn [ops_of]; apply app_length).
    assert (Ck : forall k, k <= length (ops_of tr) -> cnt dbg (ops_of tr ++ [(o, ans)]) k = cnt dbg (ops_of tr) k) by (intros k Hk; unfold cnt, evs_after; rewrite firstn_snoc by exact Hk; reflexivity).
    assert (Sk : forall k, k <= length (ops_of tr) -> state_after dbg (ops_of tr ++ [(o, ans)]) k = state_after dbg (ops_of tr) k) by (intros k Hk; unfold state_after; rewrite firstn_snoc by exact Hk; reflexivity).
    assert (C0 : cnt dbg (ops_of tr) (length (ops_of tr)) = length evs) by (unfold cnt, evs_after; rewrite firstn_all, R; reflexivity).
    assert (C1 : cnt dbg (ops_of tr ++ [(o, ans)]) (length (ops_of tr) + 1) = length evs + length ev) by (unfold cnt, evs_after; rewrite Nat.add_1_r, firstn_snoc_all, R', app_length; reflexivity).
    assert (S1 : state_after dbg (ops_of tr ++ [(o, ans)]) (length (ops_of tr) + 1) = s') by (unfold state_after; rewrite Nat.add_1_r, firstn_snoc_all, R'; reflexivity).
    assert (S0 : state_after dbg (ops_of tr) (length (ops_of tr)) = u_arena c) by (unfold state_after; rewrite firstn_all, R; reflexivity).
    assert (Lv : length (match ev with [] => u_vals c | _ => u_vals c ++ [memory_usage s'] end) = length (u_vals c) + length ev).
    { destruct (astep_events _ _ _ _ _ _ _ E) as [(-> & _)|(n & ->)]; cbn [length]; [lia|]. rewrite app_length. reflexivity. }
    assert (Ev : length ev <= 1) by (destruct (astep_events _ _ _ _ _ _ _ E) as [(-> & _)|(n & ->)]; cbn; lia).
    pose proof (ui_len _ _ _ U) as Len. rewrite C0 in Len.
    constructor; cbn [u_arena u_vals u_floor]; rewrite ?Lo, ?Lv; cbn [ops_of].
    + eauto.
    + rewrite C1. lia.
    + intros k k' H1 H2. destruct (Nat.eq_dec k' (length (ops_of tr) + 1)) as [->|].
      * rewrite C1. destruct (Nat.eq_dec k (length (ops_of tr) + 1)) as [->|]; [rewrite C1; lia|]. rewrite Ck by lia. pose proof (ui_mono _ _ _ U k (length (ops_of tr)) ltac:(lia) ltac:(lia)). lia.
      * rewrite !Ck by lia. apply (ui_mono _ _ _ U); lia.
    + intros k Hk. destruct (Nat.eq_dec k (length (ops_of tr) + 1)) as [->|].
      * rewrite C1, S1. destruct (astep_events _ _ _ _ _ _ _ E) as [(-> & Em)|(n & ->)]; cbn [length].
        -- rewrite Nat.add_0_r, Em, <- S0, <- C0. apply (ui_vals _ _ _ U). lia.
        -- rewrite nth_error_app2 by lia. replace (length evs + 1 - length (u_vals c)) with 0 by lia. reflexivity.
      * rewrite Ck, Sk by lia. pose proof (ui_vals _ _ _ U k ltac:(lia)) as V. destruct ev; [exact V|]. rewrite nth_error_app1; [exact V|]. apply nth_error_Some. congruence.
    + intros i Hi. destruct (lt_dec i (length (u_vals c))) as [L|L].
      * destruct (ui_all _ _ _ U i L) as (k & K1 & K2). exists k. split; [lia|]. rewrite Ck by lia. exact K2.
      * exists (length (ops_of tr) + 1). split; [lia|]. rewrite C1. lia.
    + intros t. destruct (ui_floor _ _ _ U t) as (F1 & F2). pose proof (ui_known _ _ _ U t) as Kn. cbn [known]. destruct (Nat.eqb_spec t 0) as [->|Nt].
      * rewrite C1. destruct (astep_events _ _ _ _ _ _ _ E) as [(-> & _)|(n & ->)]; cbn [length].
        -- pose proof (ui_owner _ _ _ U). split; lia.
        -- unfold upd1. cbn. lia.
      * rewrite Ck by lia. destruct ev as [|e0 ev0]; [split; [exact F1|lia]|]. unfold upd1. destruct (Nat.eqb_spec t 0); [contradiction|]. split; [exact F1|cbn [length]; lia].
    + intros t. cbn [known]. destruct (t =? 0); [lia|]. pose proof (ui_known _ _ _ U t). lia.
    + destruct (astep_events _ _ _ _ _ _ _ E) as [(-> & _)|(n & ->)]; cbn [length]; [rewrite Nat.add_0_r; apply (ui_owner _ _ _ U)|]. unfold upd1. cbn. lia.
  - assert (Li : i < length (u_vals c)) by (apply nth_error_Some; congruence).
    constructor; cbn [u_arena u_vals u_floor ops_of known]; try apply U.
    + intros x. unfold upd1. destruct (Nat.eqb_spec x t) as [->|]; [|apply U]. destruct (ui_floor _ _ _ U t). split; lia.
    + unfold upd1. destruct (Nat.eqb_spec 0 t) as [<-|]; [|apply U]. pose proof (ui_owner _ _ _ U). lia.
  - constructor; cbn [u_arena u_vals u_floor ops_of known]; try apply U.
    + intros x. unfold upd1. destruct (Nat.eqb_spec x t') as [->|]; [|apply U]. destruct (ui_floor _ _ _ U t), (ui_floor _ _ _ U t'). split; [|lia].
      destruct (Nat.max_spec (known tr t) (known tr t')) as [(_ & ->)|(_ & ->)]; lia.
    + intros x. destruct (x =? t'); [|apply U]. pose proof (ui_known _ _ _ U t). pose proof (ui_known _ _ _ U t'). lia.
    + unfold upd1. destruct (Nat.eqb_spec 0 t') as [<-|]; [|apply U]. pose proof (ui_owner _ _ _ U). destruct (ui_floor _ _ _ U t). lia.
Qed.
Lemma UI_runs dbg tr c : uruns dbg tr c -> UI dbg tr c.
Proof.
  induction 1 as [|tr c e c' R IH S]; [|eapply UI_step; eauto]. 
  assert (C : forall k, cnt dbg [] k = 0) by (intros [|k]; reflexivity). assert (Sa : forall k, state_after dbg [] k = arena0) by (intros [|k]; reflexivity).
  constructor; cbn [ops_of known u_arena u_vals u_floor uconf0 length]; intros; rewrite ?C, ?Sa; cbn; eauto.
  exists 0. rewrite C. lia.
Qed.

Lemma ops_ok_prefix dbg ops k : Forall (fun oa => legal (fst oa)) ops -> (forall s rs evs, arun dbg arena0 ops = Ret (s, rs, evs) -> answers_ok [] evs) ->
  (exists r, arun dbg arena0 ops = Ret r) ->
  exists s rs evs, arun dbg arena0 (firstn k ops) = Ret (s, rs, evs) /\ Forall (fun oa => legal (fst oa)) (firstn k ops) /\ answers_ok [] evs /\
    map snd rs = map (fun oa => op_bytes (fst oa)) (firstn k ops).
Proof.
  intros F A ([[s rs] evs] & R). pose proof (A _ _ _ R) as A'. rewrite <- (firstn_skipn k ops) in R. rewrite arun_app in R.
  destruct (arun dbg arena0 (firstn k ops)) as [[[s1 rs1] e1]| | |] eqn:E1; cbn [bind] in R; try discriminate.
  destruct (arun dbg s1 (skipn k ops)) as [[[s2 rs2] e2]| | |] eqn:E2; cbn [bind] in R; try discriminate. injection R as <- <- <-.
  apply answers_ok_app in A' as (A1 & _). exists s1, rs1, e1. split; [reflexivity|]. split; [|split; [exact A1|]].
  - rewrite <- (firstn_skipn k ops) in F. apply Forall_app in F. tauto.
  - clear -E1. revert E1. generalize arena0. generalize (firstn k ops). intros l. revert s1 rs1 e1. induction l as [|[o ans] l IH]; intros s1 rs1 e1 s0 E; cbn [arun] in E; [injection E as <- <- <-; reflexivity|].
    destruct (astep dbg s0 o ans) as [[[s2 p] ev]| | |]; cbn [bind] in E; try discriminate. destruct (arun dbg s2 l) as [[[s3 rs3] e3]| | |] eqn:E3; cbn [bind] in E; try discriminate.
    injection E as <- <- <-. cbn [map fst snd]. f_equal. eapply IH. exact E3.
Qed.
Lemma total_mono dbg ops a b : Forall (fun oa => legal (fst oa)) ops -> (forall s rs evs, arun dbg arena0 ops = Ret (s, rs, evs) -> answers_ok [] evs) ->
  (exists r, arun dbg arena0 ops = Ret r) -> a <= b -> (total_after dbg ops a <= total_after dbg ops b)%N.
Proof.
  intros F A R L. destruct (ops_ok_prefix dbg ops b F A R) as (s1 & rs1 & e1 & E1 & _). unfold total_after. rewrite E1.
  replace (firstn a ops) with (firstn a (firstn b ops)) by (rewrite firstn_firstn; f_equal; lia).
  rewrite <- (firstn_skipn a (firstn b ops)), arun_app in E1. destruct (arun dbg arena0 (firstn a (firstn b ops))) as [[[s2 rs2] e2]| | |]; cbn [bind] in E1; try discriminate.
  destruct (arun dbg s2 _) as [[[s3 rs3] e3]| | |]; cbn [bind] in E1; try discriminate. injection E1 as <- <- <-. unfold block_sizes. rewrite flat_map_app, sum_app, app_length. lia.
Qed.
Lemma usage_after dbg tr c k : uruns dbg tr c -> allocs_ok dbg tr -> k <= length (ops_of tr) ->
  memory_usage (state_after dbg (ops_of tr) k) = (total_after dbg (ops_of tr) k mod 2 ^ 64)%N /\ (handed_out (ops_of tr) k <= total_after dbg (ops_of tr) k)%N.
Proof.
  intros R (F & A) Hk. destruct (ui_run _ _ _ (UI_runs _ _ _ R)) as (rs & evs & Ru).
  destruct (ops_ok_prefix dbg (ops_of tr) k F A (ex_intro _ _ Ru)) as (s1 & rs1 & e1 & E1 & F1 & A1 & M1).
  destruct (C22_memory_usage dbg _ _ _ _ F1 E1 A1) as (U & T). unfold state_after, total_after, handed_out. rewrite E1, <- M1. split; [exact U|exact T].
Qed.
Lemma read_index dbg tr c t i v : uruns dbg tr c -> allocs_ok dbg tr -> cnt dbg (ops_of tr) (known tr t) <= i -> nth_error (u_vals c) i = Some v ->
  exists k, known tr t <= k <= length (ops_of tr) /\ cnt dbg (ops_of tr) k = i /\ v = (total_after dbg (ops_of tr) k mod 2 ^ 64)%N.
Proof.
  intros R A L E. pose proof (UI_runs _ _ _ R) as U. assert (Li : i < length (u_vals c)) by (apply nth_error_Some; congruence).
  assert (X : exists k, known tr t <= k <= length (ops_of tr) /\ cnt dbg (ops_of tr) k = i).
  { destruct (ui_all _ _ _ U i Li) as (k & K1 & K2). destruct (le_lt_dec (known tr t) k) as [H|H]; [eauto|].
    exists (known tr t). split; [split; [lia|apply U]|]. pose proof (ui_mono _ _ _ U k (known tr t) ltac:(lia) (ui_known _ _ _ U t)). lia. }
  destruct X as (k & K1 & K2). exists k. split; [exact K1|]. split; [exact K2|].
  pose proof (ui_vals _ _ _ U k (proj2 K1)) as V. rewrite K2, E in V. injection V as ->. apply (usage_after dbg tr c k R A (proj2 K1)).
Qed.

(** C104: what MemoryUsage returns in any thread is what it would have returned to the
    owner after the first [k] of its calls, for some [k] that is not smaller than the
    number of calls the reading thread knows of. *)
Theorem C104_reads :
  forall dbg tr c t v, uruns dbg (Read t v :: tr) c -> allocs_ok dbg tr ->
    exists k, known tr t <= k <= length (ops_of tr) /\ v = (total_after dbg (ops_of tr) k mod 2 ^ 64)%N.
Proof.
  intros dbg tr c t v R A. inversion R as [|tr0 c0 e c1 R0 S]; subst. inversion S; subst.
  destruct (read_index dbg tr c0 t i v R0 A) as (k & K1 & _ & K2); [|assumption|eauto].
  pose proof (ui_floor _ _ _ (UI_runs _ _ _ R0) t). lia.
Qed.
Print Assumptions C104_reads.

(** The owner itself always gets the current value. *)
Theorem C104_owner_reads :
  forall dbg tr c v, uruns dbg (Read 0 v :: tr) c -> allocs_ok dbg tr -> v = (total_after dbg (ops_of tr) (length (ops_of tr)) mod 2 ^ 64)%N.
Proof.
  intros dbg tr c v R A. assert (Kn : forall tr' c', uruns dbg tr' c' -> known tr' 0 = length (ops_of tr')).
  { clear. induction 1 as [|tr c e c' R IH S]; [reflexivity|]. destruct S; cbn [known ops_of].
    - rewrite app_length. reflexivity.
    - exact IH.
    - destruct (Nat.eqb_spec 0 t') as [<-|]; [|exact IH]. rewrite IH. pose proof (ui_known _ _ _ (UI_runs _ _ _ R) t). lia. }
  destruct (C104_reads dbg tr c 0 v R A) as (k & K1 & ->). inversion R; subst. rewrite (Kn _ _ ltac:(eassumption)) in K1. f_equal. f_equal. lia.
Qed.
Print Assumptions C104_owner_reads.

(** As long as the total is below 2^64: the value covers everything handed out by the
    calls the thread knows of, is at most the present total, and no thread ever sees the
    value fall. *)
Theorem C104_bounds :
  forall dbg tr c t v, uruns dbg (Read t v :: tr) c -> allocs_ok dbg tr ->
    (total_after dbg (ops_of tr) (length (ops_of tr)) < 2 ^ 64)%N ->
    (handed_out (ops_of tr) (known tr t) <= v <= total_after dbg (ops_of tr) (length (ops_of tr)))%N.
Proof.
  intros dbg tr c t v R A B. destruct (C104_reads dbg tr c t v R A) as (k & (K1 & K1') & ->). inversion R as [|tr0 c0 e c1 R0 S]; subst.
  assert (M : forall k k', k <= k' -> k' <= length (ops_of tr) -> (total_after dbg (ops_of tr) k <= total_after dbg (ops_of tr) k')%N) by (intros a b H1 H2; exact (total_mono dbg (ops_of tr) a b (proj1 A) (proj2 A) (let '(ex_intro _ rs (ex_intro _ evs E)) := ui_run _ _ _ (UI_runs _ _ _ R0) in ex_intro _ _ E) H1)).
  pose proof (M k _ K1' (le_n _)). rewrite N.mod_small by lia. split; [|lia].
  pose proof (proj2 (usage_after dbg tr c0 (known tr t) R0 A ltac:(lia))). pose proof (M _ _ K1 K1'). lia.
Qed.
Print Assumptions C104_bounds.

(** Two reads of one thread: the later one is of the same or a later moment. *)
Lemma more dbg tr c : uruns dbg tr c -> forall l tr0, tr = l ++ tr0 -> exists c0, uruns dbg tr0 c0 /\
  (exists w, u_vals c = u_vals c0 ++ w) /\ (exists o, ops_of tr = ops_of tr0 ++ o) /\ (forall t, u_floor c0 t <= u_floor c t).
Proof.
  induction 1 as [|tr c e c' R IH S]; intros l tr0 E.
  - symmetry in E. apply app_eq_nil in E. destruct E as (-> & ->). exists uconf0. split; [constructor|]. split; [exists []; reflexivity|]. split; [exists []; reflexivity|auto].
  - destruct l as [|e' l].
    + cbn [app] in E. subst tr0. exists c'. split; [econstructor; eauto|]. split; [exists []; now rewrite app_nil_r|]. split; [exists []; now rewrite app_nil_r|auto].
    + cbn [app] in E. injection E as <- E. destruct (IH l tr0 E) as (c0 & R0 & (w & W) & (o & O) & F). exists c0. split; [exact R0|].
      pose proof (UI_runs _ _ _ R) as U.
      destruct S as [o' ans s' p ev Es|t i v L Es|t t']; cbn [u_vals u_floor ops_of]; (split; [|split]).
      * destruct ev; [eauto|]. exists (w ++ [memory_usage s']). rewrite W, app_assoc. reflexivity.
      * rewrite O, <- app_assoc. eauto.
      * intros t. destruct ev; [apply F|]. unfold upd1. destruct (Nat.eqb_spec t 0) as [->|]; [|apply F]. specialize (F 0). pose proof (ui_owner _ _ _ U). lia.
      * eauto.
      * eauto.
      * intros x. unfold upd1. specialize (F x). destruct (Nat.eqb_spec x t) as [->|]; lia.
      * eauto.
      * eauto.
      * intros x. unfold upd1. specialize (F x). destruct (Nat.eqb_spec x t') as [->|]; lia.
Qed.
Theorem C104_never_falls :
  forall dbg l tr c t v v', uruns dbg (Read t v' :: l ++ Read t v :: tr) c -> allocs_ok dbg (l ++ Read t v :: tr) ->
    exists k k', k <= k' <= length (ops_of (l ++ Read t v :: tr)) /\ k <= length (ops_of tr) /\
      v = (total_after dbg (ops_of (l ++ Read t v :: tr)) k mod 2 ^ 64)%N /\ v' = (total_after dbg (ops_of (l ++ Read t v :: tr)) k' mod 2 ^ 64)%N /\
      ((total_after dbg (ops_of (l ++ Read t v :: tr)) (length (ops_of (l ++ Read t v :: tr))) < 2 ^ 64)%N -> (v <= v')%N).
Proof.
  intros dbg l tr c t v v' R A. inversion R as [|tr0 c0 e c1 R0 S]; subst. inversion S as [|t0 i v0 L E|]; subst.
  destruct (more _ _ _ R0 l _ eq_refl) as (c2 & R2 & (w & W) & (o & O) & F). inversion R2 as [|tr3 c3 e3 c4 R3 S3]; subst. inversion S3 as [|t4 j v4 L4 E4|]; subst. cbn [u_vals u_floor] in *.
  pose proof (UI_runs _ _ _ R0) as U. pose proof (UI_runs _ _ _ R3) as U3. cbn [ops_of] in O.
  specialize (F t). unfold upd1 in F. rewrite Nat.eqb_refl in F.
  set (ops := ops_of (l ++ Read t v :: tr)) in *.
  assert (Ec : forall k, k <= length (ops_of tr) -> cnt dbg ops k = cnt dbg (ops_of tr) k).
  { intros k Hk. unfold cnt, evs_after. rewrite O, firstn_app. replace (k - length (ops_of tr)) with 0 by lia. cbn [firstn]. now rewrite app_nil_r. }
  assert (Lo : length (ops_of tr) <= length ops) by (rewrite O, app_length; lia).
  destruct (ui_all _ _ _ U3 j) as (k & K1 & K2); [apply nth_error_Some; congruence|].
  assert (V : v = (total_after dbg ops k mod 2 ^ 64)%N).
  { assert (V : nth_error (u_vals c0) (cnt dbg ops k) = Some (memory_usage (state_after dbg ops k))) by (apply (ui_vals _ _ _ U); fold ops; lia). rewrite Ec, K2 in V by lia. rewrite W, nth_error_app1, E4 in V by (apply nth_error_Some; congruence). injection V as Evv. rewrite Evv. apply (usage_after dbg _ _ k R0 A). fold ops. lia. }
  assert (X : exists k', k <= k' <= length ops /\ cnt dbg ops k' = i).
  { destruct (ui_all _ _ _ U i) as (k' & H1 & H2); [apply nth_error_Some; congruence|]. fold ops in H1, H2. destruct (le_lt_dec k k') as [H|H]; [eauto|]. exists k. split; [lia|].
    assert (Q : cnt dbg ops k' <= cnt dbg ops k) by (apply (ui_mono _ _ _ U); [lia|fold ops; lia]). rewrite (Ec k), K2 in Q by lia. rewrite (Ec k) by lia. lia. }
  destruct X as (k' & K3 & K4). exists k, k'. split; [exact K3|]. split; [exact K1|]. split; [exact V|].
  assert (V' : v' = (total_after dbg ops k' mod 2 ^ 64)%N).
  { assert (Q : nth_error (u_vals c0) (cnt dbg ops k') = Some (memory_usage (state_after dbg ops k'))) by (apply (ui_vals _ _ _ U); fold ops; lia). rewrite K4, E in Q. injection Q as Evv. rewrite Evv. apply (usage_after dbg _ _ k' R0 A). fold ops. lia. }
  split; [exact V'|]. intros B. destruct (ui_run _ _ _ U) as (rs & evs & Ru). fold ops in Ru. destruct A as (A1 & A2). fold ops in A1, A2.
  pose proof (total_mono dbg ops k k' A1 A2 (ex_intro _ _ Ru) (proj1 K3)). pose proof (total_mono dbg ops k' (length ops) A1 A2 (ex_intro _ _ Ru) (proj2 K3)).
  rewrite V, V', !N.mod_small by lia. assumption.
Qed.
Print Assumptions C104_never_falls.

(** Thread 1 reads while the owner allocates: it may see an old value, but not after it
    has been told. *)
Example ex_usage : exists c c', let tr := [Did (OpAllocate 5000) 65536 65536; Did (OpAllocate 10) 4096 4096]%N in
  uruns true (Read 1 4104 :: tr) c /\ uruns true (Read 1 9112 :: Synced 0 1 :: Read 1 4104 :: tr) c' /\ allocs_ok true tr /\ known tr 1 = 0 /\ known (Synced 0 1 :: tr) 1 = 2 /\ total_after true (ops_of tr) 2 = 9112%N.
Proof.
  cbv zeta.
  assert (R : exists c, uruns true [Did (OpAllocate 5000) 65536 65536; Did (OpAllocate 10) 4096 4096]%N c /\ u_vals c = [0; 4104; 9112]%N /\ u_floor c 0 = 2 /\ u_floor c 1 = 0).
  { eexists. split; [eapply ur_step; [eapply ur_step; [constructor|]|]; eapply u_alloc; reflexivity|]. split; [reflexivity|split; reflexivity]. }
  destruct R as (c & R & Vs & F0 & F1). eexists _, _.
  split; [eapply ur_step; [exact R|]; eapply (u_read _ _ 1 1); [rewrite F1; lia|rewrite Vs; reflexivity]|].
  split.
  { eapply ur_step; [eapply ur_step; [eapply ur_step; [exact R|]|]|].
    - eapply (u_read _ _ 1 1); [rewrite F1; lia|rewrite Vs; reflexivity].
    - apply (u_sync _ _ 0 1).
    - eapply (u_read _ _ 1 2); [cbn; rewrite F0; lia|cbn [u_vals]; rewrite Vs; reflexivity]. }
  split; [|split; [reflexivity|split; [reflexivity|vm_compute; reflexivity]]].
  split.
  - repeat constructor.
  - intros s rs evs E. vm_compute in E. injection E as <- <- <-. cbn [answers_ok app]. unfold answer_ok, disjoint, covers. repeat split; cbn; try lia; try constructor; cbn; try lia; constructor.
Qed.
