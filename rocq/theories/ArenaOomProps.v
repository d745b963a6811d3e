(** ArenaOomProps.v -- property theorems C106: an arena survives std::bad_alloc. *)
From Coq Require Import List Arith NArith Lia Bool.
From Verif Require Import Outcome Arena ArenaSpec ArenaProofs ArenaProps ArenaOom.
Import ListNotations.
Local Open Scope N_scope.
Local Open Scope outcome_scope.
Local Opaque N.land N.div.

(** The calls that returned, as a history in which nothing fails. *)
Fixpoint kept (ops : list (aop * memory)) (ps : list (option N)) : list (aop * N) :=
  match ops, ps with
  | (o, a) :: r, Some _ :: t => (o, match m_new a with Some b => b | None => 0 end) :: kept r t
  | _ :: r, None :: t => kept r t
  | _, _ => []
  end.

(** One call: either it threw and the arena is as before, or it is the call of Arena.v. *)
Lemma ostep_cases dbg s o a s' p ev : ostep dbg s o a = Ret (s', p, ev) ->
  match p with
  | None => s' = s /\ (ev = [] \/ m_push a = false /\ exists n b, ev = [New n b] /\ 0 < n)
  | Some q => astep dbg s o (match m_new a with Some b => b | None => 0 end) = Ret (s', q, ev)
  end.
Proof.
  assert (HF : forall bytes, match oAllocateFallback s bytes a with
    | (s1, None, ev) => s1 = s /\ (ev = [] \/ m_push a = false /\ exists n b, ev = [New n b] /\ 0 < n)
    | (s1, Some q, ev) => AllocateFallback s bytes (match m_new a with Some b => b | None => 0 end) = (s1, q, ev)
    end).
  { intros bytes. unfold oAllocateFallback, AllocateFallback, oAllocateNewBlock, AllocateNewBlock.
    destruct a as [[b|] []]; cbn [m_new m_push]; destruct (N.ltb_spec (kBlockSize / 4) bytes); cbn [blocks memory_usage]; auto;
      (split; [reflexivity|]); right; (split; [reflexivity|]); eexists _, _; (split; [reflexivity|]);
      first [reflexivity | eapply N.le_lt_trans; [apply N.le_0_l|eassumption]]. }
  destruct o as [bytes|bytes]; cbn [ostep astep].
  - unfold oAllocate, Allocate. destruct (assert_ dbg (0 <? bytes)) as [[]| | |]; cbn [bind]; try discriminate.
    destruct (bytes <=? alloc_bytes_remaining s).
    + intros H. injection H as <- <- <-. reflexivity.
    + intros H. injection H as H. specialize (HF bytes). rewrite H in HF. destruct p as [q|]; [rewrite HF; reflexivity|exact HF].
  - unfold oAllocateAligned, AllocateAligned. cbv zeta.
    match goal with |- context [if ?c then _ else oAllocateFallback _ _ _] => destruct c end.
    + match goal with |- context [assert_ dbg ?c] => destruct (assert_ dbg c) as [[]| | |]; cbn [bind]; try discriminate end.
      intros H. injection H as <- <- <-. reflexivity.
    + specialize (HF bytes). destruct (oAllocateFallback s bytes a) as [[s1 [q|]] ev1].
      * rewrite HF. destruct (assert_ dbg (N.land q (8 - 1) =? 0)) as [[]| | |]; cbn [bind]; try discriminate.
        intros H. injection H as <- <- <-. reflexivity.
      * intros H. injection H as <- <- <-. exact HF.
Qed.
(** Assertions: a call that throws has met none that could fail, one that returns the
    same as in Arena.v. *)
Lemma ostep_dbg dbg s o a s' p ev : legal o -> ostep false s o a = Ret (s', p, ev) ->
  (forall q, p = Some q -> exists r, astep dbg s o (match m_new a with Some b => b | None => 0 end) = Ret r) -> ostep dbg s o a = Ret (s', p, ev).
Proof.
  intros Hl H Hq. destruct dbg; [|exact H]. pose proof (ostep_cases _ _ _ _ _ _ _ H) as C.
  destruct o as [bytes|bytes]; cbn [ostep legal] in *.
  - unfold oAllocate in *. assert (E : (0 <? bytes) = true) by (apply N.ltb_lt; lia). rewrite E in *. exact H.
  - unfold oAllocateAligned, assert_ in *. cbv zeta in *. cbn [andb bind] in H.
    match type of H with context [if ?c then ?x else ?y] => set (z := if c then x else y) in *; destruct z as [[s1 [q|]] ev1] end.
    + injection H as <- <- <-. destruct (Hq q eq_refl) as (r & E). pose proof E as E0. apply astep_dbg in E0. rewrite C in E0. injection E0 as <-.
      cbn [astep] in E. unfold AllocateAligned, assert_ in E. cbv zeta in E.
      match type of E with context [if ?c then ?x else ?y] => set (z2 := if c then x else y) in *; destruct z2 as [[s2 q2] ev2] end.
      destruct (N.land q2 (8 - 1) =? 0) eqn:El; cbn in E; [|discriminate]. injection E as <- <- <-. rewrite El. reflexivity.
    + exact H.
Qed.

Lemma answers_sub : forall evs a b live live', interleaved a b evs -> incl live' live -> answers_ok live evs -> answers_ok live' a.
Proof.
  intros evs a b live live' H. revert live live'. induction H as [|x a b l H IH|x a b l H IH]; intros live live' Hi Ha; [exact Logic.I| |].
  - destruct x as [n c|c]; [|destruct Ha]. destruct Ha as ((A1 & A2 & A3 & A4) & Ha). split.
    + repeat split; auto. rewrite Forall_forall in *. intros y Hy. apply A4, Hi, Hy.
    + apply (IH (live ++ [(c, n)])); [|exact Ha]. apply incl_app; [apply incl_appl; exact Hi|apply incl_appr, incl_refl].
  - destruct x as [n c|c]; [|destruct Ha]. destruct Ha as (_ & Ha). apply (IH (live ++ [(c, n)])); [|exact Ha]. apply incl_appl. exact Hi.
Qed.
Lemma il_all {A} (l : list A) : interleaved l [] l.
Proof. induction l; constructor; assumption. Qed.
Lemma il_app {A} (a b l a' b' l' : list A) : interleaved a b l -> interleaved a' b' l' -> interleaved (a ++ a') (b ++ b') (l ++ l').
Proof. intros H H'. induction H; cbn [app]; [exact H'|constructor; assumption|constructor; assumption]. Qed.
Lemma il_none {A} (l : list A) : interleaved [] l l.
Proof. induction l; constructor; assumption. Qed.
Lemma il_none_eq {A} (a l : list A) : interleaved a [] l -> a = l.
Proof. intros H. remember [] as b. induction H; try discriminate; [reflexivity|]. f_equal. auto. Qed.

Lemma orun_inv dbg ops : forall s live all rs0 s' ps evs, inv s live rs0 -> incl live all ->
  Forall (fun oa => legal (fst oa)) ops -> orun false s ops = Ret (s', ps, evs) -> answers_ok all evs ->
  orun dbg s ops = Ret (s', ps, evs) /\ exists evs' lost,
    arun dbg s (kept ops ps) = Ret (s', handed ops ps, evs') /\ interleaved evs' lost evs /\
    inv s' (live ++ news evs') (rs0 ++ handed ops ps) /\ Forall (fun b => 0 < snd b) (news lost) /\
    (vector_never_fails ops -> lost = []).
Proof.
  induction ops as [|[o a] ops IH]; intros s live all rs0 s' ps evs I Hi Hl H Ha; cbn [orun] in *.
  - injection H as <- <- <-. split; [reflexivity|]. exists [], []. split; [reflexivity|]. split; [constructor|]. cbn [news flat_map handed]. rewrite !app_nil_r. split; [exact I|].
    split; [constructor|auto].
  - pose proof (Forall_inv Hl) as Hl1. apply Forall_inv_tail in Hl. cbn [fst] in Hl1.
    destruct (ostep false s o a) as [[[s1 p] ev]| | |] eqn:E1; cbn [bind] in H; try discriminate.
    destruct (orun false s1 ops) as [[[s2 ps2] evs2]| | |] eqn:E2; cbn [bind] in H; try discriminate. injection H as <- <- <-.
    apply answers_ok_app in Ha as (Ha1 & Ha2). pose proof (ostep_cases _ _ _ _ _ _ _ E1) as C. destruct p as [q|].
    + assert (Ha1' : answers_ok live ev) by (eapply answers_sub; [apply il_all|exact Hi|exact Ha1]).
      destruct (astep_ok dbg s live rs0 o (match m_new a with Some b => b | None => 0 end) I Hl1) as (s1' & p' & ev' & Hs & I1 & _ & _).
      { intros s1' p' ev' E'. rewrite C in E'. injection E' as <- <- <-. exact Ha1'. }
      pose proof (astep_dbg _ _ _ _ _ Hs) as Hs'. rewrite C in Hs'. injection Hs' as <- <- <-.
      rewrite (ostep_dbg dbg s o a s1 (Some q) ev Hl1 E1) by (intros; eauto). cbn [bind].
      destruct (IH s1 (live ++ news ev) (all ++ news ev) (rs0 ++ [(q, op_bytes o)]) s2 ps2 evs2 I1) as (-> & evs' & lost & R & L & I2 & P & V); auto.
      { apply incl_app; [apply incl_appl; exact Hi|apply incl_appr, incl_refl]. }
      cbn [bind]. split; [reflexivity|]. exists (ev ++ evs'), lost. cbn [kept handed arun]. rewrite Hs. cbn [bind]. rewrite R. cbn [bind]. split; [reflexivity|].
      split; [apply (il_app ev [] ev evs' lost evs2); [apply il_all|exact L]|]. split; [|split; [exact P|]].
      * unfold news in *. rewrite flat_map_app, app_assoc. rewrite <- (app_assoc rs0) in I2. exact I2.
      * intros Hv. apply V. exact (Forall_inv_tail Hv).
    + destruct C as (-> & Hev). rewrite (ostep_dbg dbg s o a s None ev Hl1 E1) by (intros; discriminate). cbn [bind].
      destruct (IH s live (all ++ news ev) rs0 s2 ps2 evs2 I) as (-> & evs' & lost & R & L & I2 & P & V); auto.
      { apply incl_appl. exact Hi. }
      cbn [bind]. split; [reflexivity|]. exists evs', (ev ++ lost). cbn [kept handed]. split; [exact R|].
      split; [apply (il_app [] ev ev evs' lost evs2); [apply il_none|exact L]|]. split; [exact I2|]. split.
      * unfold news in *. rewrite flat_map_app. apply Forall_app. split; [|exact P].
        destruct Hev as [->|(_ & n & b & -> & Hn)]; [constructor|]. constructor; [exact Hn|constructor].
      * intros Hv. pose proof (Forall_inv Hv) as Hp. cbn [snd] in Hp. apply Forall_inv_tail in Hv. destruct Hev as [->|(Hf & _)]; [apply V; exact Hv|congruence].
Qed.

(** C106: whatever calls threw, the arena is where it would be had they not been made:
    same state, same results of the others; no assertion fails. *)
Theorem C106_failed_calls_leave_no_trace :
  forall dbg ops s ps evs, Forall (fun oa => legal (fst oa)) ops -> orun false arena0 ops = Ret (s, ps, evs) -> answers_ok [] evs ->
    orun dbg arena0 ops = Ret (s, ps, evs) /\
    exists evs' lost, arun dbg arena0 (kept ops ps) = Ret (s, handed ops ps, evs') /\ interleaved evs' lost evs.
Proof.
  intros dbg ops s ps evs Hl H Ha. destruct (orun_inv dbg ops arena0 [] [] [] s ps evs inv0 (incl_refl _) Hl H Ha) as (E & evs' & lost & R & L & _). eauto 6.
Qed.
Print Assumptions C106_failed_calls_leave_no_trace.

Lemma live_distinct : forall evs live, answers_ok live evs -> Forall (fun b => 0 < snd b) (news evs) -> Forall (fun b => 0 < snd b) live -> NoDup (map fst live) -> NoDup (map fst (live ++ news evs)).
Proof.
  induction evs as [|[n b|b] evs IH]; intros live Ha P Pl N; cbn [news flat_map] in *; [rewrite app_nil_r; exact N| |destruct Ha].
  destruct Ha as ((_ & _ & _ & D) & Ha). cbn [app] in *. pose proof (Forall_inv P) as P0. cbn [snd] in P0. apply Forall_inv_tail in P.
  change (NoDup (map fst (live ++ [(b, n)] ++ news evs))). rewrite app_assoc. apply IH; [exact Ha|exact P| |].
  - apply Forall_app. split; [exact Pl|]. constructor; [exact P0|constructor].
  - rewrite map_app. cbn [map fst]. rewrite <- (rev_involutive (map fst live ++ [b])). apply NoDup_rev. rewrite rev_app_distr. cbn [rev app]. constructor; [|apply NoDup_rev; exact N].
    rewrite <- in_rev. intros Hin. apply in_map_iff in Hin as ((b' & n') & <- & Hin). cbn [fst] in *. rewrite Forall_forall in D, Pl. specialize (D _ Hin). specialize (Pl _ Hin). cbn [snd] in Pl.
    apply (D b'); unfold covers; cbn [fst snd]; lia.
Qed.
Lemma remove_il : forall A (a : N * N) B L, interleaved (a :: A) B L -> NoDup (map fst L) -> exists L', remove_block (fst a) L = Some L' /\ interleaved A B L' /\ incl L' L /\ NoDup (map fst L').
Proof.
  intros A a B L H. remember (a :: A) as A0. revert A a HeqA0. induction H as [|x A0 B l H IH|x A0 B l H IH]; intros A a E N; [discriminate| |].
  - injection E as -> ->. exists l. destruct a as [b n]. cbn [remove_block fst]. rewrite N.eqb_refl. split; [reflexivity|]. split; [exact H|]. split; [apply incl_tl, incl_refl|]. cbn [map] in N. inversion N. assumption.
  - destruct x as [b n]. cbn [map fst] in N. inversion N as [|? ? N1 N2]; subst. destruct (IH A a eq_refl N2) as (L' & R & I & Hi & N3). cbn [remove_block].
    assert (Hin : In a l) by (clear - H; remember (a :: A) as A1; induction H; try discriminate; [injection HeqA1 as -> ->; left; reflexivity|right; auto]).
    destruct (N.eqb_spec b (fst a)) as [->|_].
    + exfalso. apply N1. apply in_map. exact Hin.
    + rewrite R. exists ((b, n) :: L'). split; [reflexivity|]. split; [constructor; exact I|]. split.
      * intros y [<-|Hy]; [left; reflexivity|right; apply Hi; exact Hy].
      * cbn [map fst]. constructor; [|exact N3]. intros X. apply N1. apply in_map_iff in X as (y & <- & Hy). apply in_map, Hi. exact Hy.
Qed.
Lemma replay_delete_some : forall A B L, interleaved A B L -> NoDup (map fst L) -> replay L (map Del (map fst A)) = Some B.
Proof.
  induction A as [|a A IH]; intros B L H N; cbn [map replay].
  - f_equal. clear - H. remember [] as A. induction H; try discriminate; [reflexivity|]. f_equal. auto.
  - destruct (remove_il _ _ _ _ H N) as (L' & -> & H' & _ & N'). apply IH; assumption.
Qed.
Lemma news_il a b l : interleaved a b l -> interleaved (news a) (news b) (news l).
Proof.
  induction 1 as [|x a b l H IH|x a b l H IH]; [constructor| |]; destruct x as [n c|c]; cbn [news flat_map app]; try exact IH; constructor; exact IH.
Qed.
Lemma il_forall {A} (P : A -> Prop) a b l : interleaved a b l -> Forall P a -> Forall P b -> Forall P l.
Proof. induction 1; intros Ha Hb; [constructor|inversion Ha; constructor; auto|inversion Hb; constructor; auto]. Qed.

(** C106: the regions handed out by the calls that returned are disjoint and lie in
    memory obtained and not freed. *)
Theorem C106_regions_disjoint_and_live :
  forall ops s ps evs, Forall (fun oa => legal (fst oa)) ops -> orun false arena0 ops = Ret (s, ps, evs) -> answers_ok [] evs ->
    pairwise_disjoint (handed ops ps) /\
    exists live, replay [] evs = Some live /\
      forall p n, In (p, n) (handed ops ps) -> 0 < n -> exists b m, In (b, m) live /\ b <= p /\ p + n <= b + m /\ p + n <= 2 ^ 64.
Proof.
  intros ops s ps evs Hl H Ha. destruct (orun_inv false ops arena0 [] [] [] s ps evs inv0 (incl_refl _) Hl H Ha) as (_ & evs' & lost & R & L & I & P & _).
  cbn [app] in I. split; [apply I|]. exists (news evs). split; [rewrite news_answers by exact Ha; reflexivity|].
  intros p n Hin Hn. pose proof (i_placed _ _ _ I) as Hp. rewrite Forall_forall in Hp. destruct (Hp _ Hin) as [H0|((b & m) & Hb & Hin')]; [cbn in H0; lia|].
  exists b, m. unfold inside in Hin'. cbn [fst snd] in Hin'.
  assert (Hb' : In (b, m) (news evs)).
  { apply news_il in L. clear - L Hb. induction L; [exact Hb|destruct Hb as [->|Hb]; [left; reflexivity|right; auto]|right; auto]. }
  split; [exact Hb'|]. split; [lia|]. split; [lia|].
  assert (Htop : forall evs0 live0, answers_ok live0 evs0 -> forall b m, In (b, m) (news evs0) -> b + m <= 2 ^ 64).
  { clear. induction evs0 as [|[k c|c] r IH]; intros live0 H b m Hin; cbn in *; try tauto. destruct H as [(_ & _ & Ht & _) H2]. destruct Hin as [E|Hin]; [injection E as <- <-; exact Ht|eapply IH; eauto]. }
  specialize (Htop _ _ Ha _ _ Hb'). lia.
Qed.
Print Assumptions C106_regions_disjoint_and_live.

(** C106: the destructor deletes every block but those whose push_back into blocks_
    failed, none twice.  So nothing leaks while the vector can grow ... *)
Theorem C106_destroy :
  forall ops s ps evs, Forall (fun oa => legal (fst oa)) ops -> orun false arena0 ops = Ret (s, ps, evs) -> answers_ok [] evs ->
    exists leaked, replay [] (evs ++ Destroy s) = Some leaked /\ (vector_never_fails ops -> leaked = []).
Proof.
  intros ops s ps evs Hl H Ha. destruct (orun_inv false ops arena0 [] [] [] s ps evs inv0 (incl_refl _) Hl H Ha) as (_ & evs' & lost & R & L & I & P & V).
  cbn [app] in I. exists (news lost). rewrite replay_app, news_answers by exact Ha. cbn [app]. unfold Destroy. rewrite (i_blocks _ _ _ I). split.
  - apply replay_delete_some; [apply news_il; exact L|]. apply (live_distinct evs []); [exact Ha| |constructor|constructor].
    eapply il_forall; [apply news_il; exact L|apply (i_pos _ _ _ I)|exact P].
  - intros Hv. rewrite (V Hv). reflexivity.
Qed.
Print Assumptions C106_destroy.

(** ... C106: but one failing push_back leaks its block for good, and MemoryUsage does
    not count it. *)
Theorem C106_vector_growth_leaks_refuted :
  exists ops s ps evs, Forall (fun oa => legal (fst oa)) ops /\ orun true arena0 ops = Ret (s, ps, evs) /\ answers_ok [] evs /\
    ps = [Some 4096; None; Some 65536] /\ replay [] (evs ++ Destroy s) = Some [(32768, 5000)] /\ MemoryUsage s = 4104 + 6008.
Proof.
  exists [(OpAllocate 10, mk_memory (Some 4096) true); (OpAllocate 5000, mk_memory (Some 32768) false); (OpAllocate 6000, mk_memory (Some 65536) true)].
  eexists _, _, _. split; [repeat constructor; cbn; lia|]. split; [vm_compute; reflexivity|]. split; [|split; [reflexivity|split; vm_compute; reflexivity]].
  cbn. unfold answer_ok. repeat split; try reflexivity; try (vm_compute; discriminate); repeat constructor; intros x; unfold covers; cbn; lia.
Qed.
Print Assumptions C106_vector_growth_leaks_refuted.

(** C106: MemoryUsage counts exactly the blocks kept. *)
Theorem C106_memory_usage :
  forall ops s ps evs, Forall (fun oa => legal (fst oa)) ops -> orun false arena0 ops = Ret (s, ps, evs) -> answers_ok [] evs ->
    vector_never_fails ops ->
    let total := sum (block_sizes evs) + 8 * N.of_nat (length (block_sizes evs)) in
    MemoryUsage s = total mod 2 ^ 64 /\ sum (map snd (handed ops ps)) <= total.
Proof.
  intros ops s ps evs Hl H Ha Hv. destruct (orun_inv false ops arena0 [] [] [] s ps evs inv0 (incl_refl _) Hl H Ha) as (_ & evs' & lost & R & L & I & P & V).
  specialize (V Hv). subst lost. apply il_none_eq in L. subst evs'.
  assert (Hlk : Forall (fun oa => legal (fst oa)) (kept ops ps)).
  { clear - Hl. revert ps. induction ops as [|[o a] ops IH]; intros ps; [constructor|]. inversion Hl; subst. destruct ps as [|[q|] ps]; cbn [kept]; [constructor|constructor; auto|auto]. }
  exact (C22_memory_usage false _ _ _ _ Hlk R Ha).
Qed.
Print Assumptions C106_memory_usage.

(** A history with both kinds of call: the second finds no memory, the third is served
    from the block the first obtained. *)
Example C106_example :
  let ops := [(OpAllocate 10, mk_memory (Some 4096) true); (OpAllocateAligned 5000, mk_memory None true); (OpAllocateAligned 24, mk_memory None true)] in
  exists s, Forall (fun oa => legal (fst oa)) ops /\ orun false arena0 ops = Ret (s, [Some 4096; None; Some 4112], [New 4096 4096]) /\
    answers_ok [] [New 4096 4096] /\ vector_never_fails ops.
Proof.
  intros ops. eexists. split; [repeat constructor; cbn; lia|]. split; [vm_compute; reflexivity|]. split; [|repeat constructor].
  cbn. unfold answer_ok. repeat split; try reflexivity; try (vm_compute; discriminate); constructor.
Qed.
