(** LoggerConcOomProps.v -- C122: threads that log while memory runs out. *)
From Coq Require Import List Arith NArith ZArith Lia Bool Permutation.
From Verif Require Import Outcome Logging LoggingSpec Logger LoggerSpec LoggerProps LoggerConc LoggerConcSpec LoggerConcProofs LoggerConcProps LoggerOom LoggerOomProps LoggerConcOom.
Import ListNotations.

(** What a call that returned did is what Logv of Logger.v does with the part of the
    thread id that went into the stream. *)
Lemma Logv_x_returned dbg mem stack t usec tid r1 r2 evs : Logv_x dbg mem stack t usec tid r1 r2 = Ret (LReturned evs) ->
  Logv dbg stack t usec (id_stream (m_id mem) tid) r1 r2 = Ret evs.
Proof.
  intros H. destruct (Logv_x_cases dbg mem stack t usec tid r1 r2) as [E|E]; rewrite E in H; [discriminate H|].
  apply bind_ret in H. destruct H as (e & H & H'). congruence.
Qed.
(** The FILE of an execution with throws is that of one without. *)
Local Opaque Logv Logv_x.
Lemma xreach_lreach dbg local clock x : xreach dbg local clock x -> lreach dbg local clock (x_log x).
Proof.
  induction 1 as [|x x' R IH H]; [constructor|]. destruct H; cbn [x_log] in *; try assumption.
  - eapply lr_step; eassumption.
  - eapply lr_step; eassumption.
  - eapply lr_step; [exact IH|]. match goal with HL : Logv_x _ _ _ _ _ _ _ _ = _ |- _ => apply Logv_x_returned in HL; eapply l_begin; [assumption|eassumption|exact HL] end.
Qed.
Local Transparent Logv Logv_x.

(** Calls that will return or have returned, as their callers made them. *)
Definition xmatch (i : xcall) (c : lcall) : Prop :=
  c_thread c = x_thread i /\ c_sec c = x_sec i /\ c_usec c = x_usec i /\ c_r1 c = x_r1 i /\ c_r2 c = x_r2 i /\ c_tid c = id_stream (m_id (x_mem i)) (x_tid i).
Lemma xreach_info dbg local clock x : xreach dbg local clock x -> Forall2 xmatch (x_info x) (l_calls (x_log x)).
Proof.
  induction 1 as [|x x' R IH H]; [constructor|]. destruct H as [l l' inf d th St Ec Eo|l l' inf d th St Eo D| | |]; cbn [x_log x_info l_calls] in *; try assumption.
  - now rewrite Ec.
  - destruct St; cbn [l_open l_calls] in *; try assumption. now destruct Eo.
  - apply Forall2_app; [exact IH|]. constructor; [|constructor]. unfold xmatch. cbn. auto 6.
Qed.
Lemma Forall2_nth {A B} (P : A -> B -> Prop) : forall l l' k a, Forall2 P l l' -> nth_error l k = Some a -> exists b, nth_error l' k = Some b /\ P a b.
Proof.
  intros l l' k a H. revert k. induction H as [|x y l l' Hx H IH]; intros [|k] E; cbn in E; try discriminate E.
  - exists y. split; [reflexivity|]. congruence.
  - apply IH. exact E.
Qed.
Lemma xreach_len dbg local clock x : xreach dbg local clock x -> length (x_info x) = length (l_calls (x_log x)).
Proof. intros R. induction (xreach_info _ _ _ _ R); cbn; congruence. Qed.
(** No call is going on, neither one that will return nor one that will throw. *)
Definition xquiet (x : xconf) : Prop := quiet (x_log x) /\ forall t, x_doomed x t = None.

(** ** C122 *)
(** The calls that threw leave nothing; the others' lines are whole, one after the
    other, each at most once; that of every call that has returned is there; and
    they keep the order of calls that did not overlap. *)
Theorem C122_lines_are_whole : forall dbg local clock x, xreach dbg local clock x -> l_failed (x_log x) = false ->
  exists order, NoDup order /\ (forall k, In k order -> k < length (x_info x)) /\
    prefix (l_file (x_log x)) (concat (map (line_no (x_log x)) order)) /\
    (forall k, returned (x_log x) k -> exists o1 o2, order = o1 ++ o2 /\ In k o1 /\ prefix (concat (map (line_no (x_log x)) o1)) (l_file (x_log x))) /\
    (forall a b, earlier (x_log x) a b -> In b order -> stands_before order a b).
Proof.
  intros dbg local clock x R F. destruct (C94_lines_are_whole _ _ _ _ (xreach_lreach _ _ _ _ R) F) as (order & A & B & C).
  exists order. rewrite (xreach_len _ _ _ _ R). auto.
Qed.
(** When no call is going on: the file is exactly the lines of the calls that did not
    throw. *)
Theorem C122_only_throwing_calls_lose_their_lines : forall dbg local clock x, xreach dbg local clock x -> l_failed (x_log x) = false -> xquiet x ->
  exists order, Permutation order (seq 0 (length (x_info x))) /\ l_file (x_log x) = concat (map (line_no (x_log x)) order) /\
    (forall a b, earlier (x_log x) a b -> stands_before order a b).
Proof.
  intros dbg local clock x R F (Q & _). rewrite (xreach_len _ _ _ _ R). exact (C94_nothing_is_lost _ _ _ _ (xreach_lreach _ _ _ _ R) F Q).
Qed.
(** Even if fwrite and fflush fail besides: lines are cut, never mixed. *)
Theorem C122_never_mixed : forall dbg local clock x, xreach dbg local clock x ->
  exists ps, l_file (x_log x) = concat (map snd ps) /\ NoDup (map fst ps) /\ (forall k p, In (k, p) ps -> k < length (x_info x) /\ prefix p (line_no (x_log x) k)).
Proof. intros dbg local clock x R. rewrite (xreach_len _ _ _ _ R). exact (C94_never_mixed _ _ _ _ (xreach_lreach _ _ _ _ R)). Qed.

(** What such a line is: the time of the call, a first part of the thread id (all of
    it if the stream had its memory), the whole message. *)
Theorem C122_what_a_line_is : forall dbg local clock x k i message, xreach dbg local clock x -> nth_error (x_info x) k = Some i ->
  x_r1 i = VsText message -> x_r2 i = VsText message -> (Z.of_nat (length message) <= 2 ^ 31 - 63)%Z -> ~ In 0%N (x_tid i) ->
  let t := local (x_sec i) in time_ok t (x_usec i) ->
  exists tid' hdr, first_part (x_tid i) tid' /\ (m_id (x_mem i) = None -> tid' = x_tid i) /\
    log_header (tm_year t + 1900) (tm_mon t + 1) (tm_mday t) (tm_hour t) (tm_min t) (tm_sec t) (x_usec i) tid' hdr /\
    line_no (x_log x) k = with_newline (hdr ++ message).
Proof.
  intros dbg local clock x k i message R E E1 E2 L NI t OK. destruct (Forall2_nth _ _ _ _ _ (xreach_info _ _ _ _ R) E) as (c & Ec & (M1 & M2 & M3 & M4 & M5 & M6)).
  destruct (C94_what_a_line_is dbg local clock (x_log x) k c message (xreach_lreach _ _ _ _ R) Ec) as (hdr & Hh & Hl).
  - congruence.
  - congruence.
  - exact L.
  - rewrite M6. intros X. apply NI. destruct (id_stream_part (m_id (x_mem i)) (x_tid i)) as (rest & Ep). rewrite Ep. apply in_or_app. now left.
  - rewrite M2, M3. exact OK.
  - exists (id_stream (m_id (x_mem i)) (x_tid i)), hdr. split; [apply id_stream_part|]. split; [intros ->; reflexivity|]. rewrite M2, M3, M6 in Hh. split; [exact Hh|exact Hl].
Qed.

(** Which calls throw: only such as have a thread id of more than 15 characters and no
    memory for its string, or a line of more than 510 and no memory for the second buffer. *)
Definition may_throw dbg (local : Z -> tm) (i : xcall) : Prop :=
  exists stack, length stack = 512 /\ Logv_x dbg (x_mem i) stack (local (x_sec i)) (x_usec i) (x_tid i) (x_r1 i) (x_r2 i) = Ret LThrew.
Lemma xreach_thrown dbg local clock x : xreach dbg local clock x ->
  (forall t c, x_doomed x t = Some c -> may_throw dbg local c) /\ (forall c, In c (x_thrown x) -> may_throw dbg local c).
Proof.
  induction 1 as [|x x' R IH H]; [split; [intros t c E; discriminate E|intros c []]|]. destruct IH as (D & T). destruct H; cbn [x_doomed x_thrown] in *; auto.
  - split; [|exact T]. intros t' c E. unfold dset in E. destruct (Nat.eqb t' t); [|eauto]. injection E as <-. eexists. cbn. split; eassumption.
  - split.
    + intros t' c' E. unfold dset in E. destruct (Nat.eqb t' t); [discriminate E|eauto].
    + intros c' I0. apply in_app_or in I0. destruct I0 as [I0|[I0|[]]]; [auto|]. subst c'. eauto.
Qed.
Theorem C122_who_throws : forall dbg local clock x i message, xreach dbg local clock x -> In i (x_thrown x) ->
  x_r1 i = VsText message -> x_r2 i = VsText message -> (Z.of_nat (length message) <= 2 ^ 31 - 63)%Z -> ~ In 0%N (x_tid i) -> time_ok (local (x_sec i)) (x_usec i) ->
  (m_str (x_mem i) = false /\ 15 < length (x_tid i)) \/ (m_buf (x_mem i) = false /\ 510 < 28 + length (firstn 32 (x_tid i)) + length message).
Proof.
  intros dbg local clock x i message R I0 E1 E2 L NI OK. destruct (proj2 (xreach_thrown _ _ _ _ R) i I0) as (stack & Ls & E). rewrite E1, E2 in E.
  set (tid' := id_stream (m_id (x_mem i)) (x_tid i)). destruct (id_stream_part (m_id (x_mem i)) (x_tid i)) as (rest & Ep). fold tid' in Ep.
  assert (NI' : ~ In 0%N tid') by (intros X; apply NI; rewrite Ep; apply in_or_app; now left).
  assert (Len : length tid' <= length (x_tid i)) by (rewrite Ep, app_length; lia).
  assert (Len32 : length (firstn 32 tid') <= length (firstn 32 (x_tid i))) by (rewrite !firstn_length; lia).
  unfold Logv_x in E. fold tid' in E. destruct (negb (m_str (x_mem i)) && Nat.ltb 15 (length tid')) eqn:Ms.
  - left. apply andb_true_iff in Ms. destruct Ms as (Ms & Lt). apply Nat.ltb_lt in Lt. apply negb_true_iff in Ms. split; [exact Ms|lia].
  - right. destruct (C68_writes_the_whole_message dbg stack (local (x_sec i)) (x_usec i) tid' message Ls OK NI' L) as (hdr & Hh & size & EL).
    pose proof (log_header_length _ _ _ _ _ _ _ _ _ Hh) as Lh. unfold Logv in EL.
    destruct (header_text _ _ tid') as [hdr'| | |]; cbn [bind] in E, EL; try discriminate EL.
    destruct (print_both dbg hdr' stack kStackBufferSize (VsText message)) as [[b o]| | |]; cbn [bind] in E, EL; try discriminate EL.
    destruct (o >=? kStackBufferSize - 1)%Z.
    + destruct (int_ (o + 2)) as [sz| | |]; cbn [bind] in E, EL; try discriminate EL. destruct (sz <? 0)%Z; cbn [bind] in E, EL; try discriminate EL.
      destruct (print_both dbg hdr' (repeat None (Z.to_nat sz)) sz (VsText message)) as [[b2 o2]| | |]; cbn [bind] in E, EL; try discriminate EL.
      destruct (m_buf (x_mem i)) eqn:Mb; cbn [negb] in E.
      * exfalso. destruct (if (o2 >=? sz - 1)%Z then _ else _) as [z| | |]; cbn [bind] in E, EL; try discriminate EL. destruct (put_line dbg b2 sz z); cbn [bind] in E; discriminate E.
      * split; [reflexivity|]. destruct (Nat.ltb (length hdr + length message) 511) eqn:Lt; [|apply Nat.ltb_ge in Lt; lia]. exfalso.
        destruct (if (o2 >=? sz - 1)%Z then _ else _) as [z| | |]; cbn [bind] in EL; try discriminate EL. destruct (put_line dbg b2 sz z); cbn [bind] in EL; discriminate EL.
    + exfalso. destruct (put_line dbg b kStackBufferSize o); cbn [bind] in E; discriminate E.
Qed.

(** In a release build no call is undefined behaviour: a thread in no call can make
    one, whatever it has to print and whatever memory there is; and it either throws or
    is under way to its return.  (Texts of INT_MAX - 119 to INT_MAX bytes excepted,
    as in C68.) *)
Theorem C122_calls_stay_defined : forall local l inf d th t tid mem r1 r2,
  l_open l = true -> l_thr l t = LIdle -> d t = None -> time_int (local (fst (l_clock l))) (snd (l_clock l)) -> not_near_int_max r1 -> not_near_int_max r2 ->
  let i := mk_xcall t (fst (l_clock l)) (snd (l_clock l)) tid mem r1 r2 in
  exists x', xstep false local (mk_xconf l inf d th) x' /\
    ((x_doomed x' t = Some i /\ x_log x' = l /\ x_info x' = inf) \/ (x_info x' = inf ++ [i] /\ x_doomed x' = d /\ exists evs, l_thr (x_log x') t = LRun (length (l_calls l)) evs)) /\ x_thrown x' = th.
Proof.
  intros local l inf d th t tid mem r1 r2 Ho Hi Hd Ht N1 N2 i. pose proof (repeat_length (None : option N) 512) as Ls.
  destruct (C118_all_or_nothing mem (repeat None 512) _ _ tid r1 r2 Ls Ht N1 N2) as [E|E].
  - eexists. split; [eapply x_doom; eassumption|]. cbn. split; [|reflexivity]. left. unfold dset. rewrite Nat.eqb_refl. auto.
  - assert (X : exists evs, Logv_x false mem (repeat None 512) (local (fst (l_clock l))) (snd (l_clock l)) tid r1 r2 = Ret (LReturned evs)) by (destruct E as (w & _ & [E|(size & E)]); eauto).
    destruct X as (evs & X). destruct l as [cs ths lk b f c fl op tr]. cbn [l_open l_thr l_clock l_calls] in *. subst op.
    eexists. split; [eapply x_begin; eassumption|]. cbn. split; [|reflexivity]. right. repeat (split; [reflexivity|]). exists evs. unfold lset. now rewrite Nat.eqb_refl.
Qed.

(** The same in any build for a message both formatting passes agree on, with a
    time of day and a thread id as they are. *)
Theorem C122_messages_stay_defined : forall dbg local l inf d th t tid mem message,
  l_open l = true -> l_thr l t = LIdle -> d t = None -> time_ok (local (fst (l_clock l))) (snd (l_clock l)) -> ~ In 0%N tid -> (Z.of_nat (length message) <= 2 ^ 31 - 63)%Z ->
  let i := mk_xcall t (fst (l_clock l)) (snd (l_clock l)) tid mem (VsText message) (VsText message) in
  exists x', xstep dbg local (mk_xconf l inf d th) x' /\
    ((x_doomed x' t = Some i /\ x_log x' = l /\ x_info x' = inf) \/ (x_info x' = inf ++ [i] /\ x_doomed x' = d /\ exists evs, l_thr (x_log x') t = LRun (length (l_calls l)) evs)) /\ x_thrown x' = th.
Proof.
  intros dbg local l inf d th t tid mem message Ho Hi Hd Ht Hn Hm i. pose proof (repeat_length (None : option N) 512) as Ls.
  destruct (C118_whole_message_or_nothing dbg mem (repeat None 512) _ _ tid message _ Ls Ht Hn Hm eq_refl) as [E|(tid' & hdr & size & _ & _ & _ & E)].
  - eexists. split; [eapply x_doom; eassumption|]. cbn. split; [|reflexivity]. left. unfold dset. rewrite Nat.eqb_refl. auto.
  - destruct l as [cs ths lk b f c fl op tr]. cbn [l_open l_thr l_clock l_calls] in *. subst op.
    eexists. split; [eapply x_begin; eassumption|]. cbn [x_log x_info x_doomed x_thrown l_thr]. split; [|reflexivity]. right. repeat (split; [reflexivity|]). eexists. unfold lset. now rewrite Nat.eqb_refl.
Qed.

(** A call that is to throw can do so at once; the others return as in C94: nothing
    they wait for is in the hands of a call that throws. *)
Theorem C122_throws_wait_for_nobody : forall dbg local l inf d th t c, d t = Some c ->
  exists x', xstep dbg local (mk_xconf l inf d th) x' /\ x_log x' = l /\ x_doomed x' t = None /\ x_thrown x' = th ++ [c].
Proof. intros dbg local l inf d th t c E. eexists. split; [apply x_throw; exact E|]. cbn. unfold dset. rewrite Nat.eqb_refl. auto. Qed.

Lemma lstep_calls dbg local a b : lstep dbg local a b -> l_calls b = l_calls a \/ exists c, l_calls b = l_calls a ++ [c].
Proof. destruct 1; cbn; eauto. Qed.
Lemma lsteps_calls dbg local a b : lsteps dbg local a b -> exists cs, l_calls b = l_calls a ++ cs.
Proof.
  induction 1 as [a|a b c H _ IH]; [exists []; symmetry; apply app_nil_r|]. destruct IH as (cs & E). destruct (lstep_calls _ _ _ _ H) as [E'|(x & E')]; rewrite E, E'; [eauto|]. rewrite <- app_assoc. eauto.
Qed.
Lemma lstep_failed dbg local a b : lstep dbg local a b -> l_failed a = true -> l_failed b = true.
Proof. destruct 1; cbn; auto. Qed.
Lemma lsteps_failed dbg local a b : lsteps dbg local a b -> l_failed a = true -> l_failed b = true.
Proof. induction 1 as [a|a b c H _ IH]; auto. intros F. apply IH. eapply lstep_failed; eassumption. Qed.
Lemma lstep_open dbg local a b : lstep dbg local a b -> l_open b = l_open a \/ forall t, l_thr a t = LIdle.
Proof. destruct 1; cbn; auto. Qed.
Lemma same_prefix {A} (a b c : list A) : a = (a ++ b) ++ c -> b = [].
Proof. intros E. apply (f_equal (@length A)) in E. rewrite !app_length in E. destruct b; [reflexivity|cbn in E; lia]. Qed.
Lemma lift_steps dbg local clock k : forall a b, lsteps dbg local a b -> lreach dbg local clock a -> k < length (l_calls a) -> returned b k -> l_calls b = l_calls a -> l_failed b = l_failed a ->
  forall inf d th, exists c, xsteps dbg local (mk_xconf a inf d th) (mk_xconf c inf d th) /\ returned c k /\ l_calls c = l_calls a /\ l_failed c = l_failed a.
Proof.
  induction 1 as [a|a b c H Hs IH]; intros R Hk Rk Ec Ef inf d th; [exists a; split; [constructor|]; auto|].
  assert (Eb : l_calls b = l_calls a).
  { destruct (lstep_calls _ _ _ _ H) as [E|(x & E)]; [exact E|]. exfalso. destruct (lsteps_calls _ _ _ _ Hs) as (cs & E2). rewrite E in E2. rewrite Ec in E2. apply same_prefix in E2. discriminate E2. }
  assert (Fb : l_failed b = l_failed a).
  { destruct (l_failed a) eqn:Fa; [eapply lstep_failed; eassumption|]. destruct (l_failed b) eqn:Fb; [|reflexivity]. pose proof (lsteps_failed _ _ _ _ Hs Fb). congruence. }
  destruct (lstep_open _ _ _ _ H) as [Eo|Q].
  - destruct (IH (lr_step _ _ _ _ _ R H) ltac:(rewrite Eb; exact Hk) Rk ltac:(congruence) ltac:(congruence) inf d th) as (e & S & Re & C & F).
    exists e. split; [econstructor; [apply x_go; eassumption|exact S]|]. split; [exact Re|]. split; congruence.
  - exists a. split; [constructor|]. split; [|auto]. destruct (lreach_inv _ _ _ _ R) as (ps & V). destruct (v_run _ _ V k Hk) as [E|(t & E)]; [exact E|]. rewrite Q in E. discriminate E.
Qed.
Theorem C122_calls_can_return : forall dbg local clock x k, xreach dbg local clock x -> k < length (x_info x) ->
  exists l', xsteps dbg local x (mk_xconf l' (x_info x) (x_doomed x) (x_thrown x)) /\ returned l' k /\ l_calls l' = l_calls (x_log x) /\ l_failed l' = l_failed (x_log x).
Proof.
  intros dbg local clock x k R Hk. rewrite (xreach_len _ _ _ _ R) in Hk. pose proof (xreach_lreach _ _ _ _ R) as Rl.
  destruct (C94_calls_can_return dbg local clock (x_log x) k Rl Hk) as (b & S & Rk & Ec & Ef). destruct x as [l inf d th]. cbn [x_log x_info x_doomed x_thrown] in *.
  destruct (lift_steps dbg local clock k l b S Rl Hk Rk Ec Ef inf d th) as (c & S' & A & B & C). exists c. auto.
Qed.

(** With enough memory these are the executions of C94. *)
Theorem C122_enough_memory_no_difference : forall dbg local clock l, lreach dbg local clock l ->
  exists inf, xreach dbg local clock (mk_xconf l inf (fun _ => None) []) /\ Forall (fun i => x_mem i = mk_logmem None true true) inf.
Proof.
  intros dbg local clock l R. induction R as [|a b R (inf & X & F) H]; [exists []; split; constructor|].
  assert (D : forall u : nat, (fun _ : nat => None : option xcall) u = None) by reflexivity.
  destruct (Bool.bool_dec (l_open b) (l_open a)) as [Eo|No].
  - destruct (lstep_calls _ _ _ _ H) as [E|(c & E)]; [exists inf; split; [eapply xr_step; [exact X|apply x_go; assumption]|exact F]|].
    destruct H as [| cs ths lk b f cl fl tr t tid stack r1 r2 evs Hi Ls HL | | | | | | | | | | | | |]; cbn [l_calls] in E; try (exfalso; apply (f_equal (@length _)) in E; rewrite app_length in E; cbn in E; lia).
    eexists. split.
    + eapply xr_step; [exact X|]. apply (x_begin dbg local cs ths lk b f cl fl tr inf (fun _ => None) [] t tid (mk_logmem None true true) stack r1 r2 evs Hi (D t) Ls). rewrite C118_enough_memory_no_difference, HL. reflexivity.
    + apply Forall_app. split; [exact F|]. constructor; [reflexivity|constructor].
  - exists inf. split; [eapply xr_step; [exact X|]|exact F]. apply x_close; [exact H|exact No|exact D].
Qed.
(** A call that is to throw is its thread's only one, and the logger is still there
    (nobody deletes it during a call). *)
Theorem C122_one_call_per_thread : forall dbg local clock x t c, xreach dbg local clock x -> x_doomed x t = Some c ->
  x_thread c = t /\ l_thr (x_log x) t = LIdle /\ l_open (x_log x) = true.
Proof.
  intros dbg local clock x t c R. revert t c. induction R as [|x x' R IH H]; [intros t c E; discriminate E|].
  destruct H as [l l' inf d th St Ec Eo|l l' inf d th St Eo D|cs ths lk b f cl fl tr inf d th u tid mem stack r1 r2 evs Hi Hd Ls HL|l inf d th u tid mem stack r1 r2 Ho Hi Hd Ls HL|l inf d th u cu Hu]; cbn [x_doomed x_log l_thr l_open] in *; intros t c E.
  - destruct (IH t c E) as (A & B & O). split; [exact A|]. split; [|congruence]. clear - St Ec B.
    destruct St; cbn [l_thr l_calls] in *; try exact B;
      match goal with |- lset ?th ?u _ ?t = _ => destruct (Nat.eq_dec t u) as [->|N]; [|now rewrite lset_other by exact N] end;
      try congruence; [exfalso; apply (f_equal (@length _)) in Ec; rewrite app_length in Ec; cbn in Ec; lia].
  - rewrite D in E. discriminate E.
  - destruct (IH t c E) as (A & B & O). split; [exact A|]. split; [|reflexivity]. rewrite lset_other; [exact B|]. intros ->. congruence.
  - unfold dset in E. destruct (Nat.eqb_spec t u) as [->|N]; [|apply (IH t c E)]. assert (c = mk_xcall u (fst (l_clock l)) (snd (l_clock l)) tid mem r1 r2) as -> by congruence. auto.
  - unfold dset in E. destruct (Nat.eqb_spec t u) as [->|N]; [discriminate E|apply (IH t c E)].
Qed.
Print Assumptions C122_lines_are_whole.
Print Assumptions C122_only_throwing_calls_lose_their_lines.
Print Assumptions C122_never_mixed.
Print Assumptions C122_what_a_line_is.
Print Assumptions C122_who_throws.
Print Assumptions C122_calls_stay_defined.
Print Assumptions C122_messages_stay_defined.
Print Assumptions C122_throws_wait_for_nobody.
Print Assumptions C122_calls_can_return.
Print Assumptions C122_one_call_per_thread.
Print Assumptions C122_enough_memory_no_difference.

(** The hypotheses are met: two overlapping calls return, then a third thread's, of
    500 characters, throws. *)
Example C122_case : exists x i, xreach true sample_local (0, 0)%Z x /\ xquiet x /\ l_failed (x_log x) = false /\
  length (x_info x) = 2 /\ x_thrown x = [i] /\ x_thread i = 5 /\ l_file (x_log x) = line_no (x_log x) 1 ++ line_no (x_log x) 0.
Proof.
  destruct sample_run as (cf & R & Q & F & _ & Ln & L0 & L1 & Ff & _ & _ & _ & Op & Ck). destruct (C122_enough_memory_no_difference _ _ _ _ R) as (inf & X & _).
  pose proof (xreach_len _ _ _ _ X) as El. cbn [x_info x_log] in El.
  set (m := repeat 97%N 500). set (mem := mk_logmem None true false).
  pose proof (xr_step _ _ _ _ _ X (x_doom true sample_local cf inf (fun _ => None) [] 5 [55%N] mem (repeat None 512) (VsText m) (VsText m) Op (Q 5) eq_refl (repeat_length _ _)
    (C118_long_line_lost_refuted true (repeat None 512) (sample_local (fst (l_clock cf))) (snd (l_clock cf)) [55%N] m (repeat_length _ _) ltac:(rewrite Ck; unfold time_ok; cbn; lia) ltac:(intros [Y|[]]; discriminate Y) ltac:(unfold m; rewrite repeat_length; lia) ltac:(unfold m; rewrite repeat_length; lia)))) as X1.
  eexists. eexists. split; [eapply xr_step; [exact X1|apply (x_throw _ _ _ _ _ _ 5); unfold dset; rewrite Nat.eqb_refl; reflexivity]|]. cbn [x_log x_info x_thrown x_thread app].
  split; [split; [exact Q|]|].
  - intros t. cbn. unfold dset. destruct (Nat.eqb t 5); reflexivity.
  - split; [exact F|]. split; [congruence|]. split; [reflexivity|]. split; [reflexivity|]. rewrite L0, L1. exact Ff.
Qed.
