(** ArenaProps.v -- property theorems C20 - C23.

    In every theorem [ops] is an arbitrary list of calls, each with the answer
    operator new[] gives should the call ask for memory; [answers_ok] says the
    answers actually used meet the allocator's contract. *)
From Coq Require Import List Arith NArith Lia Bool.
From Verif Require Import Outcome Arena ArenaSpec ArenaProofs.
Import ListNotations.
Local Open Scope N_scope.
Local Open Scope outcome_scope.

(** C20: all regions returned lie in memory obtained and not freed, and are
    pairwise disjoint; no call fails an assertion. *)
Theorem C20_regions_disjoint_and_live :
  forall dbg ops s rs evs,
    Forall (fun oa => legal (fst oa)) ops ->
    arun false arena0 ops = Ret (s, rs, evs) ->
    answers_ok [] evs ->
    arun dbg arena0 ops = Ret (s, rs, evs) /\
    map snd rs = map (fun oa => op_bytes (fst oa)) ops /\
    pairwise_disjoint rs /\
    exists live, replay [] evs = Some live /\
      forall p n, In (p, n) rs -> 0 < n ->
        exists b m, In (b, m) live /\ b <= p /\ p + n <= b + m /\ p + n <= 2 ^ 64.
Proof.
  intros dbg ops s rs evs Hl Hr Ha.
  destruct (arun_inv dbg ops arena0 [] [] s rs evs inv0 Hl Hr Ha) as [H1 I].
  cbn [app] in I. split; [exact H1|]. split; [|split].
  - clear - Hr. revert Hr. generalize arena0. revert s rs evs.
    induction ops as [|[o ans] t IH]; intros s rs evs s0 Hr; cbn [arun] in Hr.
    + inversion Hr; reflexivity.
    + destruct (astep false s0 o ans) as [[[s1 p] ev]| | |]; cbn [bind] in Hr; try discriminate.
      destruct (arun false s1 t) as [[[s2 rs2] evs2]| | |] eqn:E2; cbn [bind] in Hr; try discriminate.
      inversion Hr; subst. cbn. f_equal. eapply IH; eauto.
  - apply I.
  - exists (news evs). split; [now rewrite news_answers|].
    intros p n Hin Hn. pose proof (i_placed _ _ _ I) as Hp.
    rewrite Forall_forall in Hp. destruct (Hp _ Hin) as [H0|[[b m] [Hb Hi]]]; [cbn in H0; lia|].
    exists b, m. unfold inside in Hi. cbn in Hi. split; [auto|]. split; [lia|]. split; [lia|].
    assert (Htop : forall live0 evs0, answers_ok live0 evs0 ->
              forall b m, In (b, m) (news evs0) -> b + m <= 2 ^ 64).
    { clear. intros live0 evs0; revert live0. induction evs0 as [|[k c|c] r IH]; intros live0 H b m Hin;
        cbn in *; try tauto. destruct H as [(_ & _ & Ht & _) H2]. destruct Hin as [E|Hin].
      - inversion E; subst; exact Ht.
      - eapply IH; eauto. }
    specialize (Htop _ _ Ha _ _ Hb). lia.
Qed.
Print Assumptions C20_regions_disjoint_and_live.

(** C20: without the size bound it is false: a huge AllocateAligned request
    is granted from the current block.  (The second region reaches far beyond
    the only block.) *)
Theorem C20_aligned_overflow_refuted :
  exists ops s rs evs p n,
    arun true arena0 ops = Ret (s, rs, evs) /\ answers_ok [] evs /\
    In (p, n) rs /\ n = 2 ^ 64 - 4 /\
    replay [] evs = Some [(4096, 4096)] /\ p = 4104.
Proof.
  exists [(OpAllocate 1, 4096); (OpAllocateAligned (2 ^ 64 - 4), 0)].
  eexists _, _, _, 4104, (2 ^ 64 - 4). split; [vm_compute; reflexivity|].
  split; [|split; [|split; [reflexivity|split; reflexivity]]].
  - cbn. unfold answer_ok. repeat split; try lia; try discriminate; auto. all: try (vm_compute; discriminate).
  - right. left. vm_compute. reflexivity.
Qed.
Print Assumptions C20_aligned_overflow_refuted.

(** C21: AllocateAligned results are multiples of 8 -- after every history,
    for every next call -- and its assertion holds. *)
Theorem C21_aligned :
  forall dbg ops bytes ans s rs evs s' p ev,
    Forall (fun oa => legal (fst oa)) ops -> legal (OpAllocateAligned bytes) ->
    arun false arena0 ops = Ret (s, rs, evs) ->
    AllocateAligned false s bytes ans = Ret (s', p, ev) ->
    answers_ok [] (evs ++ ev) ->
    AllocateAligned dbg s bytes ans = Ret (s', p, ev) /\ p mod 8 = 0.
Proof.
  intros dbg ops bytes ans s rs evs s' p ev Hl Hl1 Hr Hs Ha.
  apply answers_ok_app in Ha as [Ha1 Ha2].
  destruct (arun_inv false ops arena0 [] [] s rs evs inv0 Hl Hr Ha1) as [_ I].
  destruct (astep_ok dbg s _ _ (OpAllocateAligned bytes) ans I Hl1) as (s1 & p1 & ev1 & H1 & _ & H3 & _).
  { intros s1 p1 ev1 E. cbn [astep] in E. rewrite Hs in E. inversion E; subst. exact Ha2. }
  pose proof (astep_dbg _ _ _ _ _ H1) as H1'. cbn [astep] in *. rewrite Hs in H1'.
  inversion H1'; subst. split; [exact H1|]. eapply H3; reflexivity.
Qed.
Print Assumptions C21_aligned.

(** C22: MemoryUsage() is the total size of the blocks obtained plus 8 bytes
    per block (mod 2^64). *)
Theorem C22_memory_usage :
  forall dbg ops s rs evs,
    Forall (fun oa => legal (fst oa)) ops ->
    arun dbg arena0 ops = Ret (s, rs, evs) -> answers_ok [] evs ->
    let total := sum (block_sizes evs) + 8 * N.of_nat (length (block_sizes evs)) in
    MemoryUsage s = total mod 2 ^ 64 /\
    sum (map snd rs) <= total.
Proof.
  intros dbg ops s rs evs Hl Hr Ha total. apply arun_dbg in Hr.
  destruct (arun_inv dbg ops arena0 [] [] s rs evs inv0 Hl Hr Ha) as [_ I].
  cbn [app] in I. unfold MemoryUsage.
  rewrite (i_usage _ _ _ I). rewrite sum_plus8, news_sizes.
  assert (Hlen : length (news evs) = length (block_sizes evs))
    by (rewrite <- news_sizes, map_length; reflexivity).
  rewrite Hlen. split; [reflexivity|].
  pose proof (i_total _ _ _ I) as Ht. rewrite news_sizes in Ht. unfold total. lia.
Qed.
Print Assumptions C22_memory_usage.

(** C22: while the total stays below 2^64, MemoryUsage never decreases along a
    history and always covers the bytes handed out. *)
Theorem C22_usage_monotone :
  forall dbg ops1 ops2 s1 rs1 evs1 s2 rs2 evs2,
    Forall (fun oa => legal (fst oa)) (ops1 ++ ops2) ->
    arun dbg arena0 ops1 = Ret (s1, rs1, evs1) ->
    arun dbg arena0 (ops1 ++ ops2) = Ret (s2, rs2, evs2) ->
    answers_ok [] evs2 ->
    sum (block_sizes evs2) + 8 * N.of_nat (length (block_sizes evs2)) < 2 ^ 64 ->
    MemoryUsage s1 <= MemoryUsage s2 /\ sum (map snd rs2) <= MemoryUsage s2.
Proof.
  intros dbg ops1 ops2 s1 rs1 evs1 s2 rs2 evs2 Hl H1 H2 Ha Hb.
  destruct (C22_memory_usage dbg _ _ _ _ Hl H2 Ha) as [U2 T2].
  rewrite arun_app, H1 in H2. cbn [bind] in H2.
  destruct (arun dbg s1 ops2) as [[[s3 rs3] evs3]| | |] eqn:E; cbn [bind] in H2; try discriminate.
  inversion H2; subst s3 rs2 evs2; clear H2.
  pose proof Ha as Ha'. apply answers_ok_app in Ha' as [Ha1 _].
  apply Forall_app in Hl as [Hl1 _].
  destruct (C22_memory_usage dbg _ _ _ _ Hl1 H1 Ha1) as [U1 _].
  rewrite N.mod_small in U2 by assumption.
  assert (Hle : sum (block_sizes evs1) + 8 * N.of_nat (length (block_sizes evs1)) <=
                sum (block_sizes (evs1 ++ evs3)) + 8 * N.of_nat (length (block_sizes (evs1 ++ evs3)))).
  { unfold block_sizes. rewrite flat_map_app, sum_app, app_length. lia. }
  rewrite N.mod_small in U1 by lia. rewrite U1, U2. split; [exact Hle|exact T2].
Qed.
Print Assumptions C22_usage_monotone.

(** C23: destroying the arena deletes every block exactly once: replaying its
    new[]s and the destructor's delete[]s is legal and leaves nothing. *)
Theorem C23_destroy_frees_all :
  forall dbg ops s rs evs,
    Forall (fun oa => legal (fst oa)) ops ->
    arun dbg arena0 ops = Ret (s, rs, evs) -> answers_ok [] evs ->
    replay [] (evs ++ Destroy s) = Some [].
Proof.
  intros dbg ops s rs evs Hl Hr Ha. apply arun_dbg in Hr.
  destruct (arun_inv dbg ops arena0 [] [] s rs evs inv0 Hl Hr Ha) as [_ I].
  cbn [app] in I. rewrite replay_app, news_answers by assumption. cbn [app].
  unfold Destroy. rewrite (i_blocks _ _ _ I). apply replay_delete_all.
Qed.
Print Assumptions C23_destroy_frees_all.

(** C23: a call that starts a new standard (4096-byte) block leaves at most
    1023 bytes of the previous one unused; any other new block is exactly the
    size of a request above 1024 bytes and leaves the current block alone. *)
Theorem C23_waste_bounded :
  forall dbg ops o ans s rs evs s' p n b,
    Forall (fun oa => legal (fst oa)) ops -> legal o ->
    arun dbg arena0 ops = Ret (s, rs, evs) ->
    astep dbg s o ans = Ret (s', p, [New n b]) ->
    answers_ok [] (evs ++ [New n b]) ->
    (n = 4096 /\ alloc_bytes_remaining s <= 1023) \/
    (n = op_bytes o /\ 1024 < n /\
     alloc_ptr s' = alloc_ptr s /\ alloc_bytes_remaining s' = alloc_bytes_remaining s) .
Proof.
  intros dbg ops o ans s rs evs s' p n b Hl Hl1 Hr Hs Ha.
  apply arun_dbg in Hr. apply astep_dbg in Hs.
  apply answers_ok_app in Ha as [Ha1 Ha2].
  destruct (arun_inv false ops arena0 [] [] s rs evs inv0 Hl Hr Ha1) as [_ I].
  destruct (astep_ok false s _ _ o ans I Hl1) as (s1 & p1 & ev1 & H1 & _ & _ & H4).
  { intros s1 p1 ev1 E. rewrite Hs in E. inversion E; subst. exact Ha2. }
  rewrite Hs in H1. inversion H1; subst s1 p1 ev1.
  destruct H4 as [H4|[n' [E H4]]]; [discriminate|]. inversion E; subst n' b.
  destruct H4 as [H4|[H4 H5]]; [now left|].
  right. split; [exact H4|]. split; [exact H5|].
  eapply astep_big; eauto.
Qed.
Print Assumptions C23_waste_bounded.

(** The hypotheses are met by a concrete history mixing small, aligned, large
    and zero-size requests, with blocks placed anywhere aligned. *)
Definition C20_ops : list (aop * N) :=
  [ (OpAllocateAligned 0, 7); (OpAllocate 3, 65536); (OpAllocateAligned 1000, 8);
    (OpAllocate 3500, 8192); (OpAllocate 1024, 1); (OpAllocateAligned 1024, 1);
    (OpAllocateAligned 1024, 24); (OpAllocateAligned 24, 24); (OpAllocate 1, 9) ].
Example C20_example :
  exists s rs evs, Forall (fun oa => legal (fst oa)) C20_ops /\
    arun false arena0 C20_ops = Ret (s, rs, evs) /\ answers_ok [] evs /\
    rs = [(0, 0); (65536, 3); (65544, 1000); (8192, 3500); (66544, 1024); (67568, 1024);
          (68592, 1024); (24, 24); (48, 1)] /\
    evs = [New 4096 65536; New 3500 8192; New 4096 24] /\
    MemoryUsage s = 11716.
Proof.
  eexists _, _, _. split; [|split; [vm_compute; reflexivity|]].
  - repeat constructor; cbn; lia.
  - split; [|auto]. cbn. unfold answer_ok.
    repeat split; try lia; try reflexivity; try (vm_compute; discriminate);
    repeat (apply Forall_cons || apply Forall_nil); try (intros x; unfold covers; cbn; lia).
Qed.
