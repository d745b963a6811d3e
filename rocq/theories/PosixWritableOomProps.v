(** PosixWritableOomProps.v -- C116: writable files when memory runs out. *)
From Coq Require Import List Arith NArith ZArith Lia Bool.
From Verif Require Import Outcome Status MemEnv PosixOs PosixFd PosixWritable PosixWritableSpec PosixWritableProofs PosixWritableOom PosixWritableOomSpec PosixWritableOomProofs.
Import ListNotations.
Local Open Scope outcome_scope.

(** ** C116 *)
(** After any session, and in any next call: a call that is not left by an
    exception does what it does in C54 to C58; an exception comes exactly where
    that call would have returned an error. *)
Theorem C116_exceptions_replace_errors :
  forall S dbg B strerror (os : S -> syscall -> S * answer) fuel w0 name fl ops w f fd l sts, os_ok os ->
    session_x dbg B strerror os fuel w0 name fl ops w f fd l sts ->
    forall fails fuel' o, wstep_x B strerror S os fails fuel' w f o = OutOfFuel \/
      exists w' f' r, wstep_x B strerror S os fails fuel' w f o = Ret (w', f', r) /\
        (forall s, r = Some s -> wstep B strerror S os fuel' w f o = Ret (w', f', s) /\ (fails = true -> s = SOk)) /\
        (r = None -> fails = true /\ exists w2 f2 k m1 m2, wstep B strerror S os fuel' w f o = Ret (w2, f2, SErr k m1 m2)).
Proof.
  intros S dbg B strerror os fuel w0 name fl ops w f fd l sts OK Se fails fuel' o.
  destruct (session_x_ok B strerror S os OK _ _ _ _ _ _ _ _ _ _ _ Se) as (b & R & _).
  destruct (wstep_x_ok B strerror S os OK fails fuel' w f b o _ R eq_refl) as [E|(w' & f' & r & lr & b' & E & Q)]; [auto|]. right. exists w', f', r. split; [exact E|]. destruct Q. split.
  - intros s Hs. split; [auto|]. intros ->. subst r. eapply wstep_x_true; exact E.
  - intros Hr. destruct (xo_threw Hr) as (A & _ & C). auto.
Qed.
Print Assumptions C116_exceptions_replace_errors.

(** What one call does to the file and the buffer. *)
Theorem C116_effect :
  forall S dbg B strerror (os : S -> syscall -> S * answer) fuel w0 name fl ops w f fd l sts, os_ok os ->
    session_x dbg B strerror os fuel w0 name fl ops w f fd l sts ->
    exists b, length b = f_pos f /\ length b <= B /\ firstn (f_pos f) (f_buf f) = map Some b /\
      forall fails fuel' o w' f' r, wstep_x B strerror S os fails fuel' w f o = Ret (w', f', r) ->
        exists l' b', w_log w' = w_log w ++ l' /\ length b' = f_pos f' /\ firstn (f_pos f') (f_buf f') = map Some b' /\
          effect B b o r (bytes_taken l') b' /\ (r = None -> f_fd f' = f_fd f).
Proof.
  intros S dbg B strerror os fuel w0 name fl ops w f fd l sts OK Se.
  destruct (session_x_ok B strerror S os OK _ _ _ _ _ _ _ _ _ _ _ Se) as (b & R & _). exists b. pose proof R as (R1 & R2 & R3 & R4). rewrite R2. split; [auto|]. split; [auto|]. split; [auto|].
  intros fails fuel' o w' f' r E. destruct (wstep_x_ok B strerror S os OK fails fuel' w f b o _ R eq_refl) as [E2|(w2 & f2 & r2 & lr & b' & E2 & Q)]; [congruence|]. rewrite E in E2. injection E2 as <- <- <-.
  destruct Q. destruct xo_brep as (P1 & P2 & P3 & P4). exists lr, b'. rewrite P2. split; [auto|]. split; [auto|]. split; [auto|]. split; [exact xo_effect|]. intros Hr. apply (xo_threw Hr).
Qed.
Print Assumptions C116_effect.

(** No data is lost by an exception alone: if no call returned an error, then
    after a Flush, Sync or Close that returned OK the kernel has taken, in order,
    all that the Appends took charge of: everything of those that returned, a
    first part of those that threw. *)
Theorem C116_exceptions_lose_nothing_buffered :
  forall S dbg B strerror (os : S -> syscall -> S * answer) fuel w0 name fl ops o fails w f fd l sts, os_ok os ->
    session_x dbg B strerror os fuel w0 name fl (ops ++ [(o, fails)]) w f fd l (sts ++ [Some SOk]) -> flushes o ->
    (forall s, In (Some s) sts -> s = SOk) ->
    exists d, taken_on (map fst (ops ++ [(o, fails)])) (sts ++ [Some SOk]) d /\ subseq d (bytes_taken l).
Proof.
  intros S dbg B strerror os fuel w0 name fl ops o fails w f fd l sts OK Se Ho Hs.
  destruct (session_x_ok B strerror S os OK _ _ _ _ _ _ _ _ _ _ _ Se) as (b & R & _ & _ & _ & _ & _ & _ & _ & _ & Tk & _).
  destruct Tk as (d & T & Sd); [intros s Hin; apply in_app_or in Hin as [Hin|[Hin|[]]]; [auto|now injection Hin as <-]|].
  exists d. split; [exact T|]. assert (b = []) as Hb; [|rewrite Hb, app_nil_r in Sd; exact Sd].
  destruct Se as (w1 & f1 & a & E1 & L1 & Ef & E2 & L2).
  (* the last call *)
  assert (G : forall ops w1 f1 w f sts r b1, wrun_x B strerror S os fuel w1 f1 (ops ++ [(o, fails)]) = Ret (w, f, sts) -> last sts None = Some r -> r = SOk -> brep B f1 b1 -> exists b', brep B f b' /\ b' = []).
  { clear - OK Ho. induction ops as [|[o1 fl1] ops IH]; intros w1 f1 w f sts r b1 E L Hr R1; cbn [app wrun_x] in E.
    - destruct (wstep_x_ok B strerror S os OK fails fuel w1 f1 b1 o _ R1 eq_refl) as [X|(w2 & f2 & st & lr & b2 & X & Q)]; rewrite X in E; cbn [bind] in E; try discriminate; destruct Q.
      injection E as <- <- <-. cbn [last] in L. subst st r. exists b2. split; [auto|]. inversion xo_effect as [x b' Ex Hx| | | | |]; subst; auto.
    - destruct (wstep_x_ok B strerror S os OK fl1 fuel w1 f1 b1 o1 _ R1 eq_refl) as [X|(w2 & f2 & st & lr & b2 & X & Q)]; rewrite X in E; cbn [bind] in E; try discriminate; destruct Q.
      destruct (wrun_x B strerror S os fuel w2 f2 (ops ++ [(o, fails)])) as [[[w3 f3] sts3]| | |] eqn:E3; cbn [bind] in E; try discriminate. injection E as <- <- <-.
      eapply IH; [exact E3| |exact Hr|exact xo_brep].
      destruct sts3 as [|s3 sts3]; [|cbn [last] in L |- *; exact L].
      exfalso. destruct ops as [|[o2 fl2] ops]; cbn [app wrun_x] in E3; destruct (wstep_x _ _ _ _ _ _ _ _ _) as [[[? ?] ?]| | |]; cbn [bind] in E3; try discriminate.
      destruct (wrun_x _ _ _ _ _ _ _ (ops ++ _)) as [[[? ?] ?]| | |]; cbn [bind] in E3; discriminate. }
  destruct (session_x_ok B strerror S os OK dbg fuel w0 name fl [] w1 f1 fd [] []) as (b1 & R1 & _).
  { exists w1, f1, a. split; [exact E1|]. split; [exact L1|]. split; [exact Ef|]. split; [reflexivity|now rewrite app_nil_r]. }
  destruct (G ops w1 f1 w f _ SOk b1 E2) as (b' & R' & ->); [apply last_last|reflexivity|exact R1|].
  destruct R as (_ & P & _), R' as (_ & P' & _). destruct b; [reflexivity|]. cbn in P, P'. congruence.
Qed.
Print Assumptions C116_exceptions_lose_nothing_buffered.

(** What the kernel has taken is what was appended, in order, perhaps with parts
    left out, and with at most one more copy of at most a buffer's worth for each
    call that threw; without exceptions there are no copies. *)
Theorem C116_one_more_copy_per_exception :
  forall S dbg B strerror (os : S -> syscall -> S * answer) fuel w0 name fl ops w f fd l sts, os_ok os ->
    session_x dbg B strerror os fuel w0 name fl ops w f fd l sts ->
    (exists out, with_repeats B [] (map fst ops) sts out /\ subseq (bytes_taken l) out) /\
    length (bytes_taken l) <= length (appended (map fst ops)) + throws sts * B.
Proof.
  intros S dbg B strerror os fuel w0 name fl ops w f fd l sts OK Se.
  destruct (session_x_ok B strerror S os OK _ _ _ _ _ _ _ _ _ _ _ Se) as (b & R & _ & _ & _ & _ & _ & _ & _ & _ & _ & out & W & Sb).
  assert (S1 : subseq (bytes_taken l) out).
  { eapply subseq_trans; [|exact Sb]. rewrite <- (app_nil_r (bytes_taken l)). apply subseq_app; [apply subseq_refl|apply subseq_nil]. }
  split; [eauto|].
  assert (Lw : forall seen ops sts out, with_repeats B seen ops sts out -> length out <= length (appended ops) + throws sts * B).
  { clear. induction 1 as [|seen o ops st sts e out He Hl _ _ IH]; [cbn; lia|]. unfold appended in *. cbn [map concat]. rewrite !app_length. unfold throws in *. cbn [filter].
    destruct st as [s|]; cbn [length]; [rewrite He by discriminate; cbn; lia|lia]. }
  assert (Ls : forall x y : list N, subseq x y -> length x <= length y) by (clear; induction 1; cbn; lia).
  specialize (Lw _ _ _ _ W). specialize (Ls _ _ S1). lia.
Qed.
Print Assumptions C116_one_more_copy_per_exception.

(** The bytes taken are those written to this file, as long as its descriptor has
    not been closed. *)
Theorem C116_bytes_taken_are_in_the_file :
  forall S dbg B strerror (os : S -> syscall -> S * answer) fuel w0 name fl ops w f fd l sts, os_ok os ->
    session_x dbg B strerror os fuel w0 name fl ops w f fd l sts ->
    forall l1 l2, l = l1 ++ l2 -> closed fd l1 = false -> written fd l1 = bytes_taken l1.
Proof.
  intros S dbg B strerror os fuel w0 name fl ops w f fd l sts OK Se l1 l2 -> C.
  destruct (session_x_ok B strerror S os OK _ _ _ _ _ _ _ _ _ _ _ Se) as (b & _ & _ & _ & Lk & _ & _ & _ & _ & Wr & _).
  apply Forall_app in Lk as (Lk & _). apply Forall_app in Wr as (Wr & _). clear Se. induction l1 as [|[c a] l1 IH]; [reflexivity|].
  inversion_clear Lk as [|? ? K1 K2]. inversion_clear Wr as [|? ? W1 W2]. cbn [closed existsb] in C. apply orb_false_iff in C as (C1 & C2). specialize (IH C2 K2 W2).
  cbn [written]. rewrite C1, IH. unfold bytes_taken. cbn [map concat]. f_equal. cbn [fst snd] in *. destruct c; try reflexivity.
  destruct (Z.eqb_spec fd0 fd) as [->|Hne]; [reflexivity|]. destruct (W1 _ _ eq_refl) as [->| ->]; [congruence|]. cbn [taken].
  destruct K1 as (_ & K1). specialize (K1 ltac:(lia)). replace (Z.to_nat (a_ret a)) with 0 by lia. reflexivity.
Qed.
Print Assumptions C116_bytes_taken_are_in_the_file.

(** Deleting the object: as in C72, unless the Close in the destructor throws;
    then the process ends.  That happens exactly when memory is exhausted and
    that Close would have returned an error. *)
Theorem C116_destructor :
  forall S dbg B strerror (os : S -> syscall -> S * answer) fuel w0 name fl ops w f fd l sts, os_ok os ->
    session_x dbg B strerror os fuel w0 name fl ops w f fd l sts ->
    forall fails fuel', destroy_x strerror S os fails fuel' w f = OutOfFuel \/
      exists w' killed, destroy_x strerror S os fails fuel' w f = Ret (w', killed) /\
        (killed = false -> destroy strerror S os fuel' w f = Ret w') /\
        (killed = true <-> fails = true /\ (0 <= f_fd f)%Z /\ exists w2 f2 k m1 m2, close strerror S os fuel' w f = Ret (w2, f2, SErr k m1 m2)).
Proof.
  intros S dbg B strerror os fuel w0 name fl ops w f fd l sts OK Se fails fuel'. destruct (session_x_ok B strerror S os OK _ _ _ _ _ _ _ _ _ _ _ Se) as (b & R & _).
  unfold destroy_x, destroy. destruct (Z.leb_spec 0 (f_fd f)) as [Hp|Hn]; [|right; exists w, false; split; [auto|]; split; [auto|]; split; [discriminate|lia]].
  destruct (wstep_x_ok B strerror S os OK fails fuel' w f b OpClose _ R eq_refl) as [E|(w' & f' & r & lr & b' & E & Q)]; cbn [wstep_x] in E; rewrite E; cbn [bind]; [auto|]. right. exists w', (match r with None => true | Some _ => false end). split; [auto|].
  destruct Q. destruct r as [s|].
  - pose proof (xo_ret s eq_refl) as Er. cbn [wstep] in Er. rewrite Er. split; [reflexivity|]. split; [discriminate|]. intros (-> & _ & w2 & f2 & k & m1 & m2 & E2).
    injection E2 as _ _ ->. pose proof (wstep_x_true B strerror S os fuel' w f OpClose w' f' (SErr k m1 m2)) as T. cbn [wstep_x] in T. rewrite E in T. discriminate T. reflexivity.
  - destruct (xo_threw eq_refl) as (A1 & _ & A2). split; [discriminate|]. split; [intros _; auto|reflexivity].
Qed.
Print Assumptions C116_destructor.

(** Sync of a MANIFEST file: if the directory cannot be synced and memory is
    exhausted, the descriptor of the directory stays open; the file and its buffer
    are as before. *)
Theorem C116_sync_leaves_the_directory_open :
  forall B strerror S (os : S -> syscall -> S * answer) fuel w f w1 a w2 a1, f_manifest f = true ->
    sys os w (COpen (f_dir f) RdOnly) = (w1, a) -> (0 <= a_ret a)%Z -> sys os w1 (CFsync (a_ret a)) = (w2, a1) -> a_ret a1 <> 0%Z ->
    wstep_x B strerror S os true fuel w f OpSync = Ret (w2, f, None) /\
    exists l, w_log w2 = w_log w ++ l /\ forall fds, fds_after fds l = Some (a_ret a :: fds).
Proof.
  intros B strerror S os fuel w f w1 a w2 a1 Hm E Hp E1 Hz. split.
  - cbn [wstep_x]. unfold sync_x, sync_dir_if_manifest_x, sync_fd_x, error_x. rewrite Hm. cbn [negb]. rewrite E. destruct (Z.ltb_spec (a_ret a) 0); [lia|]. rewrite E1. destruct (Z.eqb_spec (a_ret a1) 0); [contradiction|reflexivity].
  - exists [(COpen (f_dir f) RdOnly, a); (CFsync (a_ret a), a1)]. pose proof (sys_log S os w (COpen (f_dir f) RdOnly)) as L. pose proof (sys_log S os w1 (CFsync (a_ret a))) as L1. rewrite E in L. rewrite E1 in L1. cbn [fst snd] in L, L1.
    split; [rewrite L1, L, <- app_assoc; reflexivity|]. intros fds. cbn [fds_after]. destruct (Z.leb_spec 0 (a_ret a)); [reflexivity|lia].
Qed.
Print Assumptions C116_sync_leaves_the_directory_open.

(** ** The claims that are false. *)
(** A kernel that takes one byte at a time and fails every second write, and whose
    close() fails the first time. *)
Definition oom_os (s : nat * nat) (c : syscall) : (nat * nat) * answer :=
  let '(i, j) := s in
  match c with
  | COpen _ _ => (s, mk_answer 3 0 [] 0)
  | CWrite fd d => if (fd <? 0)%Z then (s, mk_answer (-1) 9 [] 0)
                   else if i =? 1 then ((2, j), mk_answer (-1) 28 [] 0) else ((Datatypes.S i, j), mk_answer (Z.of_nat (Nat.min 1 (length d))) 0 [] 0)
  | CFsync fd => (s, mk_answer (if (fd <? 0)%Z then -1 else 0) 9 [] 0)
  | CClose _ => ((i, Datatypes.S j), mk_answer (if j =? 0 then -1 else 0) 5 [] 0)
  | _ => (s, mk_answer 0 0 [] 0)
  end.
Lemma oom_os_ok : os_ok oom_os.
Proof.
  intros [i j] c. destruct c; cbn [oom_os answer_ok snd a_ret]; auto.
  - destruct (Z.ltb_spec fd 0); cbn [snd a_ret]; [lia|]. destruct (_ =? 1); cbn [snd a_ret]; lia.
  - destruct (Z.ltb_spec fd 0); lia.
Qed.

(** "Each byte appended is written at most once": a Flush that threw and is
    repeated writes the same byte again. *)
Theorem C116_no_byte_twice_refuted :
  exists w f l, session_x true 4 (fun _ => []) oom_os 20 (mk_world (0, 1) []) [97%N] WrTrunc [(OpAppend [1;2]%N, false); (OpFlush, true); (OpFlush, false)] w f 3 l [Some SOk; None; Some SOk] /\
    closed 3 l = false /\ written 3 l = [1;1;2]%N.
Proof.
  eexists _, _, _. split; [eexists _, _, _; split; [vm_compute; reflexivity|]; split; [vm_compute; reflexivity|]; split; [reflexivity|]; split; vm_compute; reflexivity|]. split; reflexivity.
Qed.
Print Assumptions C116_no_byte_twice_refuted.

(** "After a Close, whatever its outcome, the object no longer uses the
    descriptor": close() fails (the descriptor is gone), the status cannot be
    built; the kernel gives the number to another file; a further Append and Flush
    write into that one, and the destructor closes it. *)
Theorem C116_close_gives_up_the_descriptor_refuted :
  exists w1 f1 l w2 a w3 f3 w4,
    session_x true 4 (fun _ => []) oom_os 20 (mk_world (2, 0) []) [97%N] WrTrunc [(OpClose, true)] w1 f1 3 l [None] /\ closed 3 l = true /\
    sys oom_os w1 (COpen [98%N] WrTrunc) = (w2, a) /\ a_ret a = 3%Z /\
    wrun_x 4 (fun _ => []) _ oom_os 20 w2 f1 [(OpAppend [7%N], false); (OpFlush, false)] = Ret (w3, f3, [Some SOk; Some SOk]) /\
    (exists a', w_log w3 = w_log w2 ++ [(CWrite 3 [7%N], a')] /\ a_ret a' = 1%Z) /\
    destroy_x (fun _ => []) _ oom_os false 20 w3 f3 = Ret (w4, false) /\ exists a', w_log w4 = w_log w3 ++ [(CClose 3, a')].
Proof.
  eexists _, _, _, _, _, _, _, _. split; [eexists _, _, _; split; [vm_compute; reflexivity|]; split; [vm_compute; reflexivity|]; split; [reflexivity|]; split; vm_compute; reflexivity|].
  split; [reflexivity|]. split; [vm_compute; reflexivity|]. split; [reflexivity|]. split; [vm_compute; reflexivity|]. split; [eexists; split; vm_compute; reflexivity|]. split; [vm_compute; reflexivity|]. eexists. vm_compute. reflexivity.
Qed.
Print Assumptions C116_close_gives_up_the_descriptor_refuted.

(** "Deleting a writable file never ends the process": data is in the buffer, the
    device is full, no memory. *)
Theorem C116_deleting_is_safe_refuted :
  exists w f l w', session_x true 4 (fun _ => []) oom_os 20 (mk_world (1, 1) []) [97%N] WrTrunc [(OpAppend [1;2]%N, false)] w f 3 l [Some SOk] /\
    destroy_x (fun _ => []) _ oom_os true 20 w f = Ret (w', true).
Proof.
  eexists _, _, _, _. split; [eexists _, _, _; split; [vm_compute; reflexivity|]; split; [vm_compute; reflexivity|]; split; [reflexivity|]; split; vm_compute; reflexivity|]. vm_compute. reflexivity.
Qed.
Print Assumptions C116_deleting_is_safe_refuted.

(** The session of C116_no_byte_twice_refuted meets the hypotheses of
    C116_exceptions_lose_nothing_buffered. *)
Example C116_example : os_ok oom_os /\ flushes OpFlush /\ (forall s, In (Some s) [Some SOk; None] -> s = SOk) /\
  exists w f l, session_x true 4 (fun _ => []) oom_os 20 (mk_world (0, 1) []) [97%N] WrTrunc ([(OpAppend [1;2]%N, false); (OpFlush, true)] ++ [(OpFlush, false)]) w f 3 l ([Some SOk; None] ++ [Some SOk]).
Proof.
  split; [exact oom_os_ok|]. split; [exact Logic.I|]. split; [intros s [H|[H|[]]]; congruence|]. destruct C116_no_byte_twice_refuted as (w & f & l & H & _). eauto.
Qed.
