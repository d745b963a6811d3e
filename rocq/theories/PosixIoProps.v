(** PosixIoProps.v -- theorems about WriteStringToFile, WriteStringToFileSync and
    ReadFileToString on the POSIX environment. *)
From Coq Require Import List Arith NArith ZArith Lia Bool.
From Verif Require Import Outcome Status MemEnv PosixOs PosixWritable PosixWritableSpec PosixWritableProofs PosixRead PosixEnv PosixFs PosixEnvSpec PosixFsProofs PosixEnvProofs PosixEnvSteps PosixEnvAcct PosixEnvResults PosixEnvFacts PosixEnvSafe PosixKernel PosixEnvRun EnvUtil PosixIoSpec PosixIoProofs PosixEnvProps.
Import ListNotations.
Local Open Scope outcome_scope.

Section Props.
  Variable dbg : bool.
  Variable B : nat.
  Variable strerror : Z -> str.
  Variable S : Type.
  Variable os : S -> syscall -> S * answer.
  Variable v0 : view.
  Variable s0 : S.
  Variable lim0 : limits.
  Variable R : S -> view -> Prop.
  Notation bound := (bound (v_next v0) (v_name v0)).
  Notation writer := (writer (v_next v0) (v_name v0)).
  Notation contents := (contents (v_next v0) (v_name v0) (v_data v0)).
  Notation synced_bytes := (synced_bytes (v_next v0) (v_name v0) (v_data v0)).
  Notation clean := (clean (v_next v0) (v_name v0) (v_data v0)).
  Notation happens := (happens dbg B strerror S os v0 s0 lim0).
  Notation io := (posix_io dbg B strerror S os).
  Notation idle := (idle v0).

  Lemma not_stuck K fuel n : progressing os K -> patient os K -> K * (B + n) + K <= fuel -> ~ stuck dbg B strerror S os v0 s0 lim0 R fuel n.
  Proof.
    intros PR PA Hf (H & e & c & (v & Hr & OK & SN & P) & Lg & Hs & E). pose proof (preach_inv dbg B strerror S os v0 OK SN _ _ _ _ _ P) as I.
    assert (En : enough dbg B strerror S os H e (as_pcall c) (fuel_for B K (as_pcall c))) by (eapply (call_ends_in dbg B strerror S os v0 OK R); eauto; destruct c; discriminate).
    assert (fuel_for B K (as_pcall c) <= fuel) by (destruct c; cbn [as_pcall fuel_for io_size] in *; nia).
    apply (En fuel H0). unfold posix_io in E. destruct (pcall_ _ _ _ _ _ _ _ _ _) as [[e' q]| | |]; try discriminate. reflexivity.
  Qed.

  (** When writing a string to a file returns OK, the file has exactly that, nobody
      is writing it, and no other name or file changed; with Sync, it is synced. *)
  Theorem C81_write : forall fuel H e v d f sync H' e' tr, conforms os R -> happens H e v -> R (w_st (p_w e)) v -> idle H f ->
    do_write _ (io fuel) (H, e) d f sync = Ret ((H', e'), tr, SOk) ->
    (exists v', R (w_st (p_w e')) v' /\ happens H' e' v') /\
    exists i, bound H' f = Some i /\ contents H' i = d /\ clean H' i /\ writer H' i = None /\ (sync = true -> synced_bytes H' i = d) /\
      (forall g, g <> f -> bound H' g = bound H g) /\ (forall j, j <> i -> contents H' j = contents H j).
  Proof.
    intros fuel H e v d f sync H' e' tr CF P Hr Id E.
    destruct (do_write_safe dbg B strerror S os v0 s0 lim0 R CF fuel H e d f sync (ex_intro _ v (conj Hr P)) Id) as [(E1 & _)|(H1 & e1 & tr1 & st & E1 & Hh & Ok & _)]; rewrite E in E1; [discriminate|].
    injection E1 as <- <- <- <-. split; [exact Hh|]. destruct (Ok eq_refl) as (h & i & [W1 W2 W3 W4 W5] & Bi & Sy & A1 & A2). exists i. repeat split; auto. intros j Hj. apply (A2 j Hj).
  Qed.
  (** Reading a file to a string returns OK only with everything in it; if it fails,
      with a part from its beginning.  It changes nothing. *)
  Theorem C81_read : forall fuel rounds H e v f H' e' tr st data, conforms os R -> happens H e v -> R (w_st (p_w e)) v -> idle H f ->
    read_file _ (io fuel) rounds (H, e) f = Ret ((H', e'), tr, st, data) ->
    (exists v', R (w_st (p_w e')) v' /\ happens H' e' v') /\
    (forall g, bound H' g = bound H g) /\ (forall j, contents H' j = contents H j) /\
    match bound H f with
    | Some i => (exists rest, contents H i = data ++ rest) /\ (st = SOk -> data = contents H i)
    | None => st <> SOk /\ data = []
    end.
  Proof.
    intros fuel rounds H e v f H' e' tr st data CF P Hr Id E.
    destruct (read_file_safe dbg B strerror S os v0 s0 lim0 R CF fuel rounds H e f (ex_intro _ v (conj Hr P)) Id) as [(E1 & _)|(H1 & e1 & tr1 & st1 & d1 & E1 & Hh & (A1 & A2) & D)]; rewrite E in E1; [discriminate|].
    injection E1 as <- <- <- <- <-. split; [exact Hh|]. split; [exact A1|]. split; [intros j; apply A2|]. destruct (bound H f) as [i|]; [|exact D]. destruct D as (D1 & D2). split; [|exact D2].
    exists (skipn (length data) (contents H i)). rewrite D1 at 1. symmetry. apply firstn_skipn.
  Qed.
  (** So what was written is read back. *)
  Theorem C81_write_then_read : forall fuel fuel' rounds H e v d f sync s1 tr1 s2 tr2 data, conforms os R -> happens H e v -> R (w_st (p_w e)) v -> idle H f ->
    do_write _ (io fuel) (H, e) d f sync = Ret (s1, tr1, SOk) -> read_file _ (io fuel') rounds s1 f = Ret (s2, tr2, SOk, data) -> data = d.
  Proof.
    intros fuel fuel' rounds H e v d f sync [H1 e1] tr1 [H2 e2] tr2 data CF P Hr Id E1 E2.
    destruct (C81_write _ _ _ _ _ _ _ _ _ _ CF P Hr Id E1) as ((v1 & Hr1 & P1) & i & Bi & Ci & Cl & Wn & _).
    destruct (C81_read _ _ _ _ _ _ _ _ _ _ _ CF P1 Hr1 ltac:(intros j Hj; rewrite Bi in Hj; injection Hj as <-; auto) E2) as (_ & _ & _ & D). rewrite Bi in D. destruct D as (_ & D). rewrite (D eq_refl). exact Ci.
  Qed.
  (** When writing fails, no other name and no other file changed; either the file
      could not be opened and all is as it was, or RemoveFile was called at the end
      and, if that worked, the file is gone. *)
  Theorem C81_failed_write : forall fuel H e v d f sync H' e' tr st, conforms os R -> happens H e v -> R (w_st (p_w e)) v -> idle H f ->
    do_write _ (io fuel) (H, e) d f sync = Ret ((H', e'), tr, st) -> st <> SOk ->
    (forall g, g <> f -> bound H' g = bound H g) /\ (exists i, forall j, j <> i -> contents H' j = contents H j) /\
    ((exists r, tr = [(INewWritable f, r)]) /\ bound H' f = bound H f \/
     exists t r, tr = t ++ [(IRemove f, r)] /\ (io_status r = SOk -> bound H' f = None)).
  Proof.
    intros fuel H e v d f sync H' e' tr st CF P Hr Id E Hs.
    destruct (do_write_safe dbg B strerror S os v0 s0 lim0 R CF fuel H e d f sync (ex_intro _ v (conj Hr P)) Id) as [(E1 & _)|(H1 & e1 & tr1 & st1 & E1 & Hh & _ & Sp)]; rewrite E in E1; [discriminate|].
    injection E1 as <- <- <- <-. destruct (Sp Hs) as (i & (A1 & A2) & D). split; [exact A1|]. split; [|exact D]. exists i. intros j Hj. apply (A2 j Hj).
  Qed.
  (** Both return: with [K] as in [progressing] and [patient], these many attempts
      are enough. *)
  Theorem C81_write_returns : forall K fuel H e v d f sync, conforms os R -> progressing os K -> patient os K -> happens H e v -> R (w_st (p_w e)) v -> idle H f ->
    K * (B + length d) + K <= fuel -> exists s' tr st, do_write _ (io fuel) (H, e) d f sync = Ret (s', tr, st).
  Proof.
    intros K fuel H e v d f sync CF PR PA P Hr Id Hf.
    destruct (do_write_safe dbg B strerror S os v0 s0 lim0 R CF fuel H e d f sync (ex_intro _ v (conj Hr P)) Id) as [(_ & St)|(H1 & e1 & tr1 & st1 & E1 & _)]; [exfalso; eapply not_stuck; eauto|eauto].
  Qed.
  Theorem C81_read_returns : forall K fuel rounds H e v f, conforms os R -> progressing os K -> patient os K -> happens H e v -> R (w_st (p_w e)) v -> idle H f ->
    K * B + K <= fuel -> (forall i, bound H f = Some i -> length (contents H i) < rounds) ->
    exists s' tr st data, read_file _ (io fuel) rounds (H, e) f = Ret (s', tr, st, data).
  Proof.
    intros K fuel rounds H e v f CF PR PA P Hr Id Hf Hn.
    destruct (read_file_safe dbg B strerror S os v0 s0 lim0 R CF fuel rounds H e f (ex_intro _ v (conj Hr P)) Id) as [(_ & [St|(i & Bi & Hi)])|(H1 & e1 & tr1 & st1 & d1 & E1 & _)].
    - exfalso. eapply (not_stuck K fuel 0); eauto. lia.
    - specialize (Hn i Bi). lia.
    - exists (H1, e1), tr1, st1, d1. exact E1.
  Qed.
  (** After WriteStringToFileSync returned OK, a crash leaves the data in the file. *)
  Theorem C81_sync_survives : forall fuel H e v d f H' e' tr v' name data p i, conforms os R -> happens H e v -> R (w_st (p_w e)) v -> idle H f ->
    write_string_to_file_sync _ (io fuel) (H, e) d f = Ret ((H', e'), tr, SOk) -> happens H' e' v' ->
    bound H' f = Some i -> crash_disk v' name data -> name p = Some i -> exists rest, data i = d ++ rest.
  Proof.
    intros fuel H e v d f H' e' tr v' name data p i CF P Hr Id E P' Bi D Hp.
    destruct (C81_write _ _ _ _ _ _ true _ _ _ CF P Hr Id E) as (_ & i' & Bi' & Ci & Cl & Wn & Sy & _). assert (i' = i) by congruence. subst i'. rewrite <- (Sy eq_refl).
    eapply C80_synced_data_survives; eauto. destruct P' as (OK & SN & P'). pose proof (preach_inv dbg B strerror S os v0 OK SN _ _ _ _ _ P') as I. eapply old_name; eauto. rewrite (i_name _ _ _ _ _ _ I). exact Bi.
  Qed.
End Props.

(** ** Examples *)
Local Open Scope N_scope.
Definition ex_begin (plan : list (option Z)) : history * penv kst := ([], begin ex_fs plan (mk_limits 1 1)).
Definition ex_io := posix_io false 4 (fun _ => []) kst kernel 30.
Lemma ex_starts plan : happens false 4 (fun _ => []) kst kernel ex_v0 (start ex_fs plan) (mk_limits 1 1) [] (begin ex_fs plan (mk_limits 1 1)) ex_v0 /\ shows (start ex_fs plan) ex_v0.
Proof.
  assert (Nm : ~ In [] (map fst ex_fs)) by (cbn; intros [X|[X|[X|[]]]]; discriminate). pose proof (start_good ex_fs plan Nm) as G.
  split; [|split; [reflexivity|exact G]]. split; [exact kernel_os_ok|]. split; [exact (g_sane _ G)|constructor].
Qed.
Example C81_example : idle ex_v0 [] [102] /\
  (exists s1 tr1 s2 tr2, do_write _ ex_io (ex_begin []) [9;8;7;6;5] [102] true = Ret (s1, tr1, SOk) /\ read_file _ ex_io 9 s1 [102] = Ret (s2, tr2, SOk, [9;8;7;6;5])).
Proof.
  split; [intros i _; split; [exact Logic.I|reflexivity]|].
  assert (E : match do_write _ ex_io (ex_begin []) [9;8;7;6;5] [102] true with
              | Ret (s1, _, SOk) => match read_file _ ex_io 9 s1 [102] with Ret (_, _, SOk, dd) => dd = [9;8;7;6;5] | _ => False end
              | _ => False end) by (vm_compute; reflexivity).
  destruct (do_write _ ex_io (ex_begin []) [9;8;7;6;5] [102] true) as [[[s1 tr1] [|]]| | |]; try contradiction.
  destruct (read_file _ ex_io 9 s1 [102]) as [[[[s2 tr2] [|]] dd]| | |] eqn:E2; try contradiction. subst dd. exists s1, tr1, s2, tr2. rewrite E2. auto.
Qed.
(** A write that fails does not leave the file as it was: the old contents are lost. *)
Theorem C81_failed_write_keeps_old_refuted :
  ~ (forall dbg B strerror S os v0 s0 lim0 R fuel H e v d f sync H' e' tr st, conforms os R -> happens dbg B strerror S os v0 s0 lim0 H e v -> R (w_st (p_w e)) v -> idle v0 H f ->
     do_write _ (posix_io dbg B strerror S os fuel) (H, e) d f sync = Ret ((H', e'), tr, st) -> st <> SOk ->
     bound (v_next v0) (v_name v0) H' f = bound (v_next v0) (v_name v0) H f).
Proof.
  intros X. destruct (ex_starts [None; Some 5%Z]) as (P & Sh).
  assert (E : match do_write _ ex_io (ex_begin [None; Some 5%Z]) [9] [102] false with
              | Ret ((H', _), _, SErr _ _ _) => bound (v_next ex_v0) (v_name ex_v0) H' [102] = None
              | _ => False end) by (vm_compute; reflexivity).
  destruct (do_write _ ex_io (ex_begin [None; Some 5%Z]) [9] [102] false) as [[[[H' e'] tr] [|c m1 m2]]| | |] eqn:Ed; try contradiction.
  specialize (X _ _ _ _ _ _ _ _ _ _ _ _ _ _ _ _ _ _ _ _ kernel_conforms P Sh ltac:(intros i _; split; [exact Logic.I|reflexivity]) Ed ltac:(discriminate)).
  rewrite E in X. discriminate X.
Qed.

Print Assumptions C81_write.
Print Assumptions C81_read.
Print Assumptions C81_write_then_read.
Print Assumptions C81_failed_write.
Print Assumptions C81_write_returns.
Print Assumptions C81_read_returns.
Print Assumptions C81_sync_survives.
Print Assumptions C81_failed_write_keeps_old_refuted.
