(** PosixMiscProps.v -- theorems about NewLogger, GetTestDirectory, NowMicros,
    MaxOpenFiles and the configuration of the default environment. *)
From Coq Require Import String List Arith NArith ZArith Lia Bool ZifyN ZifyNat.
From Verif Require Import Outcome Status StatusSpec MemEnv Coding CodingProofs Slice SliceProofs Logging LoggingSpec LoggingProofs PosixOs PosixFd PosixWritable PosixRead PosixEnv PosixMisc.
Import ListNotations.
Local Open Scope outcome_scope.

(** ** C79: NewLogger *)
(** The FILEs open after [l], starting from [fps]. *)
Fixpoint files_after (fps : list N) (l : log) : list N :=
  match l with
  | [] => fps
  | (CFdopen _, a) :: l' => files_after (if N.eqb (a_val a) 0 then fps else a_val a :: fps) l'
  | (CFclose fp, _) :: l' => files_after (filter (fun x => negb (N.eqb x fp)) fps) l'
  | _ :: l' => files_after fps l'
  end.
(** A logger is returned if and only if the status is OK, and no descriptor is left
    behind: it belongs to the logger's FILE, or was closed.  Errors name the file. *)
Theorem C79_new_logger : forall strerror S (os : S -> syscall -> S * answer) w f w' o st,
  new_logger strerror S os w f = (w', o, st) -> exists l, w_log w' = w_log w ++ l /\
    (o <> None <-> st = SOk) /\ (st <> SOk -> exists c m, st = SErr c f m) /\
    (forall fds, fds_after fds l = Some fds) /\
    (forall fps, files_after fps l = match o with Some fp => fp :: fps | None => fps end).
Proof.
  intros strerror S os w f w' o st. unfold new_logger, sys.
  assert (Er : forall e, PosixError strerror f e <> SOk /\ exists c m, PosixError strerror f e = SErr c f m) by (intros e; unfold PosixError; destruct (e =? ENOENT)%Z; split; eauto; discriminate).
  set (r1 := os (w_st w) (COpen f WrAppend)). cbn [w_st w_log fst snd]. destruct (Z.ltb_spec (a_ret (snd r1)) 0) as [Hn|Hp].
  - intros E. injection E as <- <- <-. exists [(COpen f WrAppend, snd r1)]. cbn [w_log]. split; [reflexivity|]. destruct (Er (a_errno (snd r1))) as (E1 & E2).
    split; [split; congruence|]. split; [auto|]. cbn [fds_after files_after]. destruct (Z.leb_spec 0 (a_ret (snd r1))); [lia|]. auto.
  - set (r2 := os (fst r1) (CFdopen (a_ret (snd r1)))). destruct (N.eqb_spec (a_val (snd r2)) 0) as [Hz|Hz].
    + set (r3 := os (fst r2) (CClose (a_ret (snd r1)))). intros E. injection E as <- <- <-. exists [(COpen f WrAppend, snd r1); (CFdopen (a_ret (snd r1)), snd r2); (CClose (a_ret (snd r1)), snd r3)].
      cbn [w_log]. rewrite <- !app_assoc. split; [reflexivity|]. destruct (Er (if (a_ret (snd r3) <? 0)%Z then a_errno (snd r3) else a_errno (snd r2))) as (E1 & E2).
      split; [split; congruence|]. split; [auto|]. cbn [fds_after files_after]. rewrite Hz. cbn [N.eqb]. destruct (Z.leb_spec 0 (a_ret (snd r1))); [|lia]. destruct (Z.ltb_spec (a_ret (snd r1)) 0); [lia|].
      cbn [remove1]. rewrite Z.eqb_refl. auto.
    + intros E. injection E as <- <- <-. exists [(COpen f WrAppend, snd r1); (CFdopen (a_ret (snd r1)), snd r2)]. cbn [w_log]. rewrite <- !app_assoc. split; [reflexivity|].
      split; [split; [reflexivity|discriminate]|]. split; [congruence|]. cbn [fds_after files_after]. destruct (N.eqb_spec (a_val (snd r2)) 0); [contradiction|]. destruct (Z.leb_spec 0 (a_ret (snd r1))); [|lia].
      cbn [remove1]. rewrite Z.eqb_refl. auto.
Qed.
(** Deleting it closes the FILE. *)
Theorem C79_delete_logger : forall strerror S (os : S -> syscall -> S * answer) w f w' fp st, new_logger strerror S os w f = (w', Some fp, st) ->
  exists l, w_log (delete_logger S os w' fp) = w_log w ++ l /\ forall fps, ~ In fp fps -> files_after fps l = fps.
Proof.
  intros strerror S os w f w' fp st E. destruct (C79_new_logger _ _ _ _ _ _ _ _ E) as (l & L & _ & _ & _ & F). unfold delete_logger, sys. cbn [fst w_log]. rewrite L, <- app_assoc. eexists. split; [reflexivity|].
  intros fps Hn. assert (A : forall l1 l2 g, files_after g (l1 ++ l2) = files_after (files_after g l1) l2).
  { induction l1 as [|[c a] l1 IH]; intros l2 g; [reflexivity|]. cbn [app files_after]. destruct c; apply IH. }
  rewrite A, F. cbn [files_after filter]. rewrite N.eqb_refl. cbn [negb]. clear - Hn. induction fps as [|x fps IH]; [reflexivity|]. cbn [filter]. destruct (N.eqb_spec x fp) as [->|]; [exfalso; apply Hn; left; reflexivity|]. cbn [negb]. f_equal. apply IH. intros H. apply Hn. right. exact H.
Qed.

(** ** C83: GetTestDirectory *)
Lemma print_d_inj x y : print_d x = print_d y -> x = y.
Proof.
  assert (Inj : forall a b, print_llu a = print_llu b -> a = b).
  { intros a b E. destruct (dig_numeral a) as (_ & _ & Va & _), (dig_numeral b) as (_ & _ & Vb & _). unfold dig in *. congruence. }
  assert (Nd : forall a t, print_llu a <> 45%N :: t).
  { intros a t E. destruct (dig_numeral a) as (_ & D & _ & _). unfold dig in D. rewrite E in D. inversion D as [|? ? D1 _]; subst. unfold is_digit in D1. lia. }
  unfold print_d. destruct (Z.ltb_spec x 0), (Z.ltb_spec y 0); intros E; try (exfalso; eapply Nd; eauto; fail).
  - injection E as E. apply Inj in E. lia.
  - apply Inj in E. lia.
Qed.
Lemma test_dir_text x : (- 2 ^ 31 <= x < 2 ^ 31)%Z -> append_cstr [] (snprintf_buf 100 (test_prefix ++ print_d x)) = Ret (test_prefix ++ print_d x).
Proof.
  intros Hx. rewrite append_snprintf; [reflexivity| |].
  - intros Hin. apply in_app_iff in Hin as [Hin|Hin]; [cbn in Hin; repeat (destruct Hin as [Hin|Hin]; [discriminate|]); contradiction|].
    unfold print_d in Hin. destruct (x <? 0)%Z; [destruct Hin as [Hin|Hin]; [discriminate|]|]; eapply digits_no_nul in Hin; auto; apply dig_numeral.
  - rewrite app_length. change (length test_prefix) with 15. assert (forall n, (n < 10 ^ 10)%N -> length (print_llu n) <= 10).
    { intros n Hn. apply (numeral_length n (dig n) 10); [apply dig_numeral|exact Hn|lia]. }
    unfold print_d. destruct (Z.ltb_spec x 0); cbn [length]; match goal with |- context [print_llu ?n] => assert (Hb : (n < 10 ^ 10)%N) by lia; specialize (H n Hb); lia end.
Qed.
Lemma int_of_u32_range x : (x < 2 ^ 32)%N -> (- 2 ^ 31 <= int_of_u32 x < 2 ^ 31)%Z.
Proof. intros H. unfold int_of_u32. destruct (N.ltb_spec x (2 ^ 31)); lia. Qed.
Lemma int_of_u32_inj x y : (x < 2 ^ 32)%N -> (y < 2 ^ 32)%N -> int_of_u32 x = int_of_u32 y -> x = y.
Proof. intros Hx Hy. unfold int_of_u32. destruct (N.ltb_spec x (2 ^ 31)), (N.ltb_spec y (2 ^ 31)); lia. Qed.

(** It returns OK and one system call tries to create the directory it names, which
    is TEST_TMPDIR if that is set and not empty. *)
Theorem C83_test_directory : forall strerror S (os : S -> syscall -> S * answer) w env euid, (euid < 2 ^ 32)%N ->
  exists w' dir a, get_test_directory strerror S os w env euid = Ret (w', dir, SOk) /\ w_log w' = w_log w ++ [(CMkdir dir, a)] /\
    dir <> [] /\ (forall x, env = Some x -> x <> [] -> dir = x).
Proof.
  intros strerror S os w env euid Hu. unfold get_test_directory, create_dir, sys.
  assert (Df : exists d, append_cstr [] (snprintf_buf 100 (test_prefix ++ print_d (int_of_u32 euid))) = Ret d /\ d <> []).
  { exists (test_prefix ++ print_d (int_of_u32 euid)). split; [apply test_dir_text; apply int_of_u32_range; exact Hu|discriminate]. }
  destruct Df as (d & Ed & Hd). destruct env as [[|c r]|].
  - rewrite Ed. cbn [bind]. eexists _, d, _. split; [reflexivity|]. split; [reflexivity|]. split; [exact Hd|]. intros x E. injection E as <-. congruence.
  - cbn [bind]. eexists _, (c :: r), _. split; [reflexivity|]. split; [reflexivity|]. split; [discriminate|]. intros x E. injection E as <-. auto.
  - rewrite Ed. cbn [bind]. eexists _, d, _. split; [reflexivity|]. split; [reflexivity|]. split; [exact Hd|]. discriminate.
Qed.
(** Without TEST_TMPDIR, different users get different directories, one user always
    the same. *)
Theorem C83_per_user : forall strerror S (os : S -> syscall -> S * answer) w1 w2 u1 u2 w1' w2' d1 d2 st1 st2, (u1 < 2 ^ 32)%N -> (u2 < 2 ^ 32)%N ->
  get_test_directory strerror S os w1 None u1 = Ret (w1', d1, st1) -> get_test_directory strerror S os w2 None u2 = Ret (w2', d2, st2) -> (d1 = d2 <-> u1 = u2).
Proof.
  intros strerror S os w1 w2 u1 u2 w1' w2' d1 d2 st1 st2 H1 H2. unfold get_test_directory. rewrite !test_dir_text by (apply int_of_u32_range; assumption). cbn [bind].
  destruct (create_dir strerror S os w1 _) as [x1 y1]. destruct (create_dir strerror S os w2 _) as [x2 y2]. intros E1 E2.
  assert (D1 : d1 = test_prefix ++ print_d (int_of_u32 u1)) by congruence. assert (D2 : d2 = test_prefix ++ print_d (int_of_u32 u2)) by congruence. rewrite D1, D2.
  split; [|intros ->; reflexivity]. intros E. apply app_inv_head in E. apply print_d_inj in E. now apply int_of_u32_inj.
Qed.
(** It is /tmp/lsmdbtest- and the number of the user. *)
Theorem C83_default_name : forall strerror S (os : S -> syscall -> S * answer) w u w' d st, (u < 2 ^ 31)%N ->
  get_test_directory strerror S os w None u = Ret (w', d, st) -> exists ds, numeral u ds /\ d = bytes_of "/tmp/lsmdbtest-" ++ ds.
Proof.
  intros strerror S os w u w' d st H. unfold get_test_directory. rewrite test_dir_text by (apply int_of_u32_range; lia). cbn [bind]. destruct (create_dir strerror S os w _) as [x y]. intros E.
  assert (D : d = test_prefix ++ print_d (int_of_u32 u)) by congruence. rewrite D. exists (dig u). split; [apply dig_numeral|]. change (bytes_of "/tmp/lsmdbtest-") with test_prefix. f_equal. unfold print_d, int_of_u32. destruct (N.ltb_spec u (2 ^ 31)); [|lia].
  destruct (Z.ltb_spec (Z.of_N u) 0); [lia|]. rewrite N2Z.id. reflexivity.
Qed.
(** OK does not say that the directory is there. *)
Theorem C83_directory_exists_refuted :
  ~ (forall strerror S (os : S -> syscall -> S * answer) w env euid w' dir a, get_test_directory strerror S os w env euid = Ret (w', dir, SOk) ->
     w_log w' = w_log w ++ [(CMkdir dir, a)] -> a_ret a = 0%Z \/ a_errno a = 17%Z (* EEXIST *)).
Proof.
  intros X. specialize (X (fun _ => []) unit (fun s _ => (s, mk_answer (-1) 13 [] 0)) (mk_world tt []) (Some [120%N]) 0%N _ _ (mk_answer (-1) 13 [] 0) eq_refl eq_refl).
  destruct X as [X|X]; discriminate X.
Qed.

(** ** C84: NowMicros *)
(** Up to the year 586524, it is the time of day in microseconds: later times give
    larger numbers. *)
Theorem C84_now_micros : forall sec usec, (0 <= sec <= 18446744073708)%Z -> (0 <= usec < 1000000)%Z -> Z.of_N (now_micros sec usec) = (sec * 1000000 + usec)%Z.
Proof.
  intros sec usec Hs Hu. unfold now_micros. rewrite (Z.mod_small sec) by lia. rewrite Z.mod_small by lia. lia.
Qed.
Theorem C84_monotone : forall s1 u1 s2 u2, (0 <= s1 <= 18446744073708)%Z -> (0 <= u1 < 1000000)%Z -> (0 <= s2 <= 18446744073708)%Z -> (0 <= u2 < 1000000)%Z ->
  ((now_micros s1 u1 < now_micros s2 u2)%N <-> (s1 < s2 \/ s1 = s2 /\ u1 < u2)%Z).
Proof.
  intros s1 u1 s2 u2 H1 H2 H3 H4. pose proof (C84_now_micros s1 u1 H1 H2). pose proof (C84_now_micros s2 u2 H3 H4). lia.
Qed.
Example C84_example : now_micros 1617062400 123456 = 1617062400123456%N.
Proof. reflexivity. Qed.

(** ** C85: how many read-only files are kept open *)
(** The limit set is used; else at most a fifth of the descriptors the process may
    have, and never less by one or more; it does not change once determined. *)
Theorem C85_max_open_files : forall limit rl, (limit < 2 ^ 31)%Z -> (forall cur, rl = Some cur -> (cur < 5 * 2 ^ 31)%N \/ cur = (2 ^ 64 - 1)%N) ->
  let m := max_open_files limit rl in
  (0 <= m < 2 ^ 31)%Z /\ ((0 <= limit)%Z -> m = limit) /\
  ((limit < 0)%Z -> forall cur, rl = Some cur -> (cur < 5 * 2 ^ 31)%N -> (5 * m <= Z.of_N cur < 5 * (m + 1))%Z) /\
  ((limit < 0)%Z -> rl = None -> m = 50%Z) /\
  ((limit < 0)%Z -> rl = Some (2 ^ 64 - 1)%N (* RLIM_INFINITY *) -> m = (2 ^ 31 - 1)%Z (* INT_MAX *)) /\
  (forall rl', max_open_files m rl' = m).
Proof.
  intros limit rl Hl Hr m. assert (Hm : (0 <= m < 2 ^ 31)%Z /\ ((0 <= limit)%Z -> m = limit) /\ ((limit < 0)%Z -> forall cur, rl = Some cur -> (cur < 5 * 2 ^ 31)%N -> (5 * m <= Z.of_N cur < 5 * (m + 1))%Z)).
  { unfold m, max_open_files. destruct (Z.leb_spec 0 limit) as [H0|H0]; [split; [lia|]; split; [reflexivity|lia]|]. destruct rl as [cur|]; [|split; [lia|]; split; [lia|discriminate]].
    destruct (N.eqb_spec cur (2 ^ 64 - 1)) as [He|He]; [split; [lia|]; split; [lia|]; intros _ c E; injection E as <-; lia|].
    destruct (Hr cur eq_refl) as [Hc|Hc]; [|contradiction].
    assert (Hq : (cur / 5 < 2 ^ 31)%N) by (apply N.div_lt_upper_bound; lia). assert (Hd : (5 * (cur / 5) <= cur < 5 * (cur / 5) + 5)%N).
    { pose proof (N.div_mod cur 5 ltac:(lia)) as D. pose proof (N.mod_lt cur 5 ltac:(lia)) as D2. lia. }
    rewrite N.mod_small by lia. unfold int_of_u32. destruct (N.ltb_spec (cur / 5) (2 ^ 31)); [|lia]. split; [lia|]. split; [lia|]. intros _ c E _. injection E as <-. lia. }
  destruct Hm as (H1 & H2 & H3). split; [exact H1|]. split; [exact H2|]. split; [exact H3|].
  split; [intros X ->; unfold m, max_open_files; destruct (Z.leb_spec 0 limit); [lia|reflexivity]|]. split; [intros X ->; unfold m, max_open_files; destruct (Z.leb_spec 0 limit); [lia|reflexivity]|].
  intros rl'. unfold max_open_files at 1. destruct (Z.leb_spec 0 m); [reflexivity|lia].
Qed.
(** With a larger limit on descriptors the number is truncated to an int: it can be
    negative, so that no file at all is kept open. *)
Theorem C85_large_limits_refuted :
  ~ (forall cur, (cur < 2 ^ 64)%N -> (0 <= max_open_files (-1) (Some cur))%Z).
Proof. intros X. specialize (X (5 * 2 ^ 31)%N ltac:(reflexivity)). vm_compute in X. congruence. Qed.
Example C85_example : max_open_files (-1) (Some 1024%N) = 204%Z /\ max_open_files (-1) None = 50%Z /\ max_open_files 7 (Some 1024%N) = 7%Z.
Proof. repeat split. Qed.

(** ** C86: the default environment is configured before its first use *)
(** The last value set. *)
Fixpoint last_mmap (d : Z) (xs : list cfg_call) : Z := match xs with [] => d | SetMMapLimit n :: xs' => last_mmap n xs' | _ :: xs' => last_mmap d xs' end.
Fixpoint last_fd (d : Z) (xs : list cfg_call) : Z := match xs with [] => d | SetFDLimit n :: xs' => last_fd n xs' | _ :: xs' => last_fd d xs' end.
Definition is_set (x : cfg_call) : bool := match x with Default _ => false | _ => true end.
Lemma cfg_sets dbg xs : forallb is_set xs = true -> forall c, g_flag c = false ->
  cfg_run dbg c xs = Ret (mk_config (last_fd (g_open c) xs) (last_mmap (g_mmap c) xs) false (g_env c)).
Proof.
  induction xs as [|x xs IH]; intros H c Hf; cbn [cfg_run last_fd last_mmap]; [destruct c; cbn in *; subst; reflexivity|]. cbn [forallb] in H. apply andb_true_iff in H as (Hx & H).
  destruct x; try discriminate; cbn [cfg_step]; rewrite Hf, andb_false_r; unfold assert_; cbn [negb]; rewrite andb_false_r; cbn [bind]; rewrite IH by auto; reflexivity.
Qed.
(** Before the first use, the last limits set are those the environment gets. *)
Theorem C86_configured : forall dbg xs rl, forallb is_set xs = true ->
  exists c, cfg_run dbg config0 (xs ++ [Default rl]) = Ret c /\
    g_env c = Some (mk_limits (last_mmap 1000 xs) (max_open_files (last_fd (-1) xs) rl)).
Proof.
  intros dbg xs rl H. assert (A : forall c ys zs, cfg_run dbg c (ys ++ zs) = let! c := cfg_run dbg c ys in cfg_run dbg c zs).
  { intros c ys. revert c. induction ys as [|y ys IH]; intros c zs; [reflexivity|]. cbn [app cfg_run]. destruct (cfg_step dbg c y); cbn [bind]; auto. }
  rewrite A, (cfg_sets dbg xs H config0 eq_refl). cbn [bind cfg_run cfg_step g_env config0 g_open g_mmap]. eexists. split; reflexivity.
Qed.
(** After it, setting a limit aborts when asserts are on, and changes nothing about
    the environment when they are off. *)
Theorem C86_too_late : forall dbg xs c x, cfg_run dbg config0 xs = Ret c -> g_env c <> None -> is_set x = true ->
  match cfg_step dbg c x with Ret c' => dbg = false /\ g_env c' = g_env c | AssertFail => dbg = true | _ => False end.
Proof.
  intros dbg xs c x E Hn Hx.
  assert (Fl : g_flag c = dbg).
  { assert (I0 : g_env config0 <> None -> g_flag config0 = dbg) by (intros Z; contradiction Z; reflexivity). revert I0 E Hn. generalize config0. induction xs as [|y xs IH]; intros c0 I0 E Hn; cbn [cfg_run] in E; [injection E as <-; auto|].
    destruct (cfg_step dbg c0 y) as [c1| | |] eqn:Es; cbn [bind] in E; try discriminate. apply (IH c1); auto. intros Hn1. clear E IH.
    destruct y as [m|m|rl]; cbn [cfg_step] in Es.
    - unfold assert_ in Es. destruct (_ && _); [discriminate|]. cbn [bind] in Es. injection Es as <-. exact (I0 Hn1).
    - unfold assert_ in Es. destruct (_ && _); [discriminate|]. cbn [bind] in Es. injection Es as <-. exact (I0 Hn1).
    - destruct (g_env c0) eqn:Ee; injection Es as <-; [apply I0; congruence|reflexivity]. }
  destruct x; try discriminate; cbn [cfg_step]; rewrite Fl; unfold assert_; destruct dbg; cbn; auto.
Qed.
(** The environment stays the same. *)
Theorem C86_one_environment : forall dbg xs c c' l, g_env c = Some l -> cfg_run dbg c xs = Ret c' -> g_env c' = Some l.
Proof.
  intros dbg xs. induction xs as [|y xs IH]; intros c c' l El E; cbn [cfg_run] in E; [injection E as <-; exact El|].
  destruct (cfg_step dbg c y) as [c1| | |] eqn:Es; cbn [bind] in E; try discriminate. apply (IH c1 c' l); auto.
  destruct y as [m|m|rl]; cbn [cfg_step] in Es; try rewrite El in Es; try (unfold assert_ in Es; destruct (_ && _); [discriminate|]; cbn [bind] in Es); injection Es as <-; first [exact El | reflexivity].
Qed.
Example C86_example : cfg_run true config0 [SetMMapLimit 4; SetFDLimit 2; SetMMapLimit 3; Default (Some 1024%N)] = Ret (mk_config 2 3 true (Some (mk_limits 3 2))).
Proof. reflexivity. Qed.

Print Assumptions C79_new_logger.
Print Assumptions C79_delete_logger.
Print Assumptions C83_test_directory.
Print Assumptions C83_per_user.
Print Assumptions C83_directory_exists_refuted.
Print Assumptions C83_default_name.
Print Assumptions C84_now_micros.
Print Assumptions C84_monotone.
Print Assumptions C85_max_open_files.
Print Assumptions C85_large_limits_refuted.
Print Assumptions C86_configured.
Print Assumptions C86_too_late.
Print Assumptions C86_one_environment.
