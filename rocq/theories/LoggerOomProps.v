(** LoggerOomProps.v -- C118: logging when memory runs out. *)
From Coq Require Import List Arith NArith ZArith Lia Bool.
From Verif Require Import Outcome Logging LoggingSpec Logger LoggerSpec LoggerProofs LoggerProps LoggerConcProofs LoggerOom.
Import ListNotations.
Local Open Scope Z_scope.

(** The thread id as far as it got into the stream. *)
Definition first_part (tid tid' : list N) : Prop := exists rest, tid = tid' ++ rest.
Lemma id_stream_part m tid : first_part tid (id_stream m tid).
Proof. destruct m as [n|]; cbn. - exists (skipn n tid). symmetry. apply firstn_skipn. - exists []. symmetry. apply app_nil_r. Qed.

(** A call either throws or does what the call of Logger.v does with that thread id. *)
Lemma Logv_x_cases dbg mem stack t usec tid r1 r2 :
  Logv_x dbg mem stack t usec tid r1 r2 = Ret LThrew \/
  Logv_x dbg mem stack t usec tid r1 r2 = bind (Logv dbg stack t usec (id_stream (m_id mem) tid) r1 r2) (fun evs => Ret (LReturned evs)).
Proof.
  unfold Logv_x, Logv. destruct (negb (m_str mem) && _); [now left|].
  destruct (header_text t usec (id_stream (m_id mem) tid)) as [hdr| | |]; cbn [bind]; auto.
  destruct (print_both dbg hdr stack kStackBufferSize r1) as [[b o]| | |]; cbn [bind]; auto.
  destruct (o >=? kStackBufferSize - 1); auto.
  destruct (int_ (o + 2)) as [sz| | |]; cbn [bind]; auto. destruct (sz <? 0); cbn [bind]; auto.
  destruct (negb (m_buf mem)); auto.
  destruct (print_both dbg hdr _ sz r2) as [[b2 o2]| | |]; cbn [bind]; auto.
  destruct (o2 >=? sz - 1).
  - destruct (assert_ dbg false) as [u| | |]; cbn [bind]; auto. destruct (put_line dbg b2 sz _); cbn [bind]; auto.
  - cbn [bind]. destruct (put_line dbg b2 sz o2); cbn [bind]; auto.
Qed.

(** ** C118 *)
(** With enough memory Logv is that of C68. *)
Theorem C118_enough_memory_no_difference :
  forall dbg stack t usec tid r1 r2,
    Logv_x dbg (mk_logmem None true true) stack t usec tid r1 r2 = bind (Logv dbg stack t usec tid r1 r2) (fun evs => Ret (LReturned evs)).
Proof.
  intros dbg stack t usec tid r1 r2. unfold Logv_x, Logv. cbn [m_id m_str m_buf negb andb id_stream].
  destruct (header_text t usec tid) as [hdr| | |]; cbn [bind]; auto.
  destruct (print_both dbg hdr stack kStackBufferSize r1) as [[b o]| | |]; cbn [bind]; auto.
  destruct (o >=? kStackBufferSize - 1); auto.
  destruct (int_ (o + 2)) as [sz| | |]; cbn [bind]; auto. destruct (sz <? 0); cbn [bind]; auto.
  destruct (print_both dbg hdr _ sz r2) as [[b2 o2]| | |]; cbn [bind]; auto.
  destruct (o2 >=? sz - 1).
  - destruct (assert_ dbg false) as [u| | |]; cbn [bind]; auto. destruct (put_line dbg b2 sz _); cbn [bind]; auto.
  - cbn [bind]. destruct (put_line dbg b2 sz o2); cbn [bind]; auto.
Qed.
Print Assumptions C118_enough_memory_no_difference.

(** Whatever runs out, whatever the two formatting passes find, whatever the clock
    says (release builds, texts of INT_MAX - 119 to INT_MAX bytes excepted): either the
    exception leaves Logv and nothing was written, allocated or flushed; or one line
    is written, flushed, and the buffer, if there is one, freed. *)
Theorem C118_all_or_nothing :
  forall mem stack t usec tid r1 r2,
    length stack = 512%nat -> time_int t usec -> not_near_int_max r1 -> not_near_int_max r2 ->
    Logv_x false mem stack t usec tid r1 r2 = Ret LThrew \/
    exists line, (exists l, line = l ++ [10%N]) /\
      (Logv_x false mem stack t usec tid r1 r2 = Ret (LReturned [LFwrite line; LFflush]) \/
       exists size, Logv_x false mem stack t usec tid r1 r2 = Ret (LReturned [LNew size; LFwrite line; LFflush; LDelete])).
Proof.
  intros mem stack t usec tid r1 r2 Hs Ht N1 N2. destruct (Logv_x_cases false mem stack t usec tid r1 r2) as [E|E]; [auto|]. right. rewrite E.
  destruct (C68_stays_in_its_buffers stack t usec (id_stream (m_id mem) tid) r1 r2 Hs Ht N1 N2) as (line & Hl & [->|(size & ->)]); exists line; cbn [bind]; eauto.
Qed.
Print Assumptions C118_all_or_nothing.

(** A call that returns has written the header, with a first part of the thread id,
    and the whole message, however long. *)
Theorem C118_whole_message_or_nothing :
  forall dbg mem stack t usec tid message r,
    length stack = 512%nat -> time_ok t usec -> ~ In 0%N tid -> Z.of_nat (length message) <= 2 ^ 31 - 63 ->
    Logv_x dbg mem stack t usec tid (VsText message) (VsText message) = r ->
    r = Ret LThrew \/
    exists tid' hdr size, first_part tid tid' /\ (m_id mem = None -> tid' = tid) /\
      log_header (tm_year t + 1900) (tm_mon t + 1) (tm_mday t) (tm_hour t) (tm_min t) (tm_sec t) usec tid' hdr /\
      r = Ret (LReturned (if Nat.ltb (length hdr + length message) 511
                          then [LFwrite (with_newline (hdr ++ message)); LFflush]
                          else [LNew size; LFwrite (with_newline (hdr ++ message)); LFflush; LDelete])).
Proof.
  intros dbg mem stack t usec tid message r Hs Ht Hn Hm <-. destruct (Logv_x_cases dbg mem stack t usec tid (VsText message) (VsText message)) as [E|E]; [auto|]. right. rewrite E.
  destruct (id_stream_part (m_id mem) tid) as (rest & Ep).
  assert (Hn' : ~ In 0%N (id_stream (m_id mem) tid)) by (intros X; apply Hn; rewrite Ep; apply in_or_app; auto).
  destruct (C68_writes_the_whole_message dbg stack t usec _ message Hs Ht Hn' Hm) as (hdr & Hh & size & ->).
  exists (id_stream (m_id mem) tid), hdr, size. split; [exists rest; exact Ep|]. split; [intros ->; reflexivity|]. split; [exact Hh|reflexivity].
Qed.
Print Assumptions C118_whole_message_or_nothing.

Lemma log_header_length y mo d h mi s us tid hdr : log_header y mo d h mi s us tid hdr -> (length hdr = 28 + length (firstn 32 tid))%nat.
Proof.
  intros (a & b & c & e & f & g & i & (A & _) & (B & _) & (C & _) & (E & _) & (F & _) & (G & _) & (H & _) & ->).
  repeat (rewrite app_length; cbn [length app]). rewrite A, B, C, E, F, G, H. lia.
Qed.

(** A line of up to 510 characters is logged without any memory at all, if the
    thread id is short (or could not be had): an exception needs an id of more than
    15 characters or a line of more than 510. *)
Theorem C118_short_lines_need_no_memory :
  forall dbg mem stack t usec tid message,
    length stack = 512%nat -> time_ok t usec -> ~ In 0%N tid ->
    (length tid <= 15)%nat -> (28 + length tid + length message <= 510)%nat ->
    exists tid' hdr, first_part tid tid' /\ (m_id mem = None -> tid' = tid) /\
      log_header (tm_year t + 1900) (tm_mon t + 1) (tm_mday t) (tm_hour t) (tm_min t) (tm_sec t) usec tid' hdr /\
      Logv_x dbg mem stack t usec tid (VsText message) (VsText message) = Ret (LReturned [LFwrite (with_newline (hdr ++ message)); LFflush]).
Proof.
  intros dbg mem stack t usec tid message Hs Ht Hn Hi Hl.
  assert (Hm : Z.of_nat (length message) <= 2 ^ 31 - 63) by lia.
  assert (Li : (length (id_stream (m_id mem) tid) <= length tid)%nat).
  { destruct (id_stream_part (m_id mem) tid) as (rest & Ep). rewrite Ep at 2. rewrite app_length. lia. }
  assert (Hn' : ~ In 0%N (id_stream (m_id mem) tid)) by (intros X; destruct (id_stream_part (m_id mem) tid) as (rest & Ep); apply Hn; rewrite Ep; apply in_or_app; auto).
  destruct (C68_writes_the_whole_message dbg stack t usec _ message Hs Ht Hn' Hm) as (hdr & Hh & size & EL).
  pose proof (log_header_length _ _ _ _ _ _ _ _ _ Hh) as Lh. rewrite firstn_length in Lh.
  replace (Nat.ltb (length hdr + length message) 511) with true in EL by (symmetry; apply Nat.ltb_lt; lia).
  exists (id_stream (m_id mem) tid), hdr. split; [apply id_stream_part|]. split; [intros ->; reflexivity|]. split; [exact Hh|].
  unfold Logv_x. replace (Nat.ltb 15 (length (id_stream (m_id mem) tid))) with false by (symmetry; apply Nat.ltb_ge; lia). rewrite andb_false_r.
  unfold Logv in EL. destruct (header_text t usec (id_stream (m_id mem) tid)) as [hdr'| | |]; cbn [bind] in EL |- *; try discriminate EL.
  destruct (print_both dbg hdr' stack kStackBufferSize (VsText message)) as [[b o]| | |]; cbn [bind] in EL |- *; try discriminate EL.
  destruct (o >=? kStackBufferSize - 1).
  - exfalso. destruct (int_ (o + 2)) as [sz| | |]; cbn [bind] in EL; try discriminate EL. destruct (sz <? 0); cbn [bind] in EL; try discriminate EL.
    destruct (print_both dbg hdr' _ sz _) as [[b2 o2]| | |]; cbn [bind] in EL; try discriminate EL. destruct (if o2 >=? sz - 1 then _ else _); cbn [bind] in EL; try discriminate EL.
    destruct (put_line dbg b2 sz _); cbn [bind] in EL; discriminate EL.
  - rewrite EL. reflexivity.
Qed.
Print Assumptions C118_short_lines_need_no_memory.

(** "A line that was logged tells the thread" is false: without memory for the
    stream the thread id is empty, and no exception says so. *)
Theorem C118_thread_is_shown_refuted :
  forall dbg stack t usec tid message,
    length stack = 512%nat -> time_ok t usec -> (length message <= 482)%nat ->
    exists hdr, log_header (tm_year t + 1900) (tm_mon t + 1) (tm_mday t) (tm_hour t) (tm_min t) (tm_sec t) usec [] hdr /\
      Logv_x dbg (mk_logmem (Some 0%nat) false false) stack t usec tid (VsText message) (VsText message) = Ret (LReturned [LFwrite (with_newline (hdr ++ message)); LFflush]).
Proof.
  intros dbg stack t usec tid message Hs Ht Hl.
  destruct (C118_short_lines_need_no_memory dbg (mk_logmem (Some 0%nat) false false) stack t usec [] message Hs Ht ltac:(easy) ltac:(cbn; lia) ltac:(cbn; lia)) as (tid' & hdr & (rest & Ep) & _ & Hh & E).
  destruct tid'; [|discriminate Ep]. exists hdr. split; [exact Hh|]. rewrite <- E. reflexivity.
Qed.
Print Assumptions C118_thread_is_shown_refuted.

(** "A message is never lost to lack of memory": false for long ones, whose second
    buffer cannot be had, and with a long thread id.  (Then Logv, which promises
    nothing about exceptions, throws.) *)
Theorem C118_long_line_lost_refuted :
  forall dbg stack t usec tid message,
    length stack = 512%nat -> time_ok t usec -> ~ In 0%N tid -> (483 <= length message)%nat -> Z.of_nat (length message) <= 2 ^ 31 - 63 ->
    Logv_x dbg (mk_logmem None true false) stack t usec tid (VsText message) (VsText message) = Ret LThrew.
Proof.
  intros dbg stack t usec tid message Hs Ht Hn Hl Hm.
  destruct (C68_writes_the_whole_message dbg stack t usec tid message Hs Ht Hn Hm) as (hdr & Hh & size & EL).
  pose proof (log_header_length _ _ _ _ _ _ _ _ _ Hh) as Lh. rewrite firstn_length in Lh.
  replace (Nat.ltb (length hdr + length message) 511) with false in EL by (symmetry; apply Nat.ltb_ge; lia).
  unfold Logv_x. cbn [m_id m_str m_buf negb andb id_stream]. unfold Logv in EL.
  destruct (header_text t usec tid) as [hdr'| | |]; cbn [bind] in EL |- *; try discriminate EL.
  destruct (print_both dbg hdr' stack kStackBufferSize (VsText message)) as [[b o]| | |]; cbn [bind] in EL |- *; try discriminate EL.
  destruct (o >=? kStackBufferSize - 1).
  - destruct (int_ (o + 2)) as [sz| | |]; cbn [bind] in EL |- *; try discriminate EL. destruct (sz <? 0); cbn [bind] in EL |- *; try discriminate EL. reflexivity.
  - exfalso. destruct (put_line_shape dbg b kStackBufferSize o _ EL) as (d & E). discriminate E.
Qed.
Print Assumptions C118_long_line_lost_refuted.

Theorem C118_long_thread_id_refuted :
  forall dbg stack t usec tid r1 r2, (15 < length tid)%nat ->
    Logv_x dbg (mk_logmem None false true) stack t usec tid r1 r2 = Ret LThrew.
Proof.
  intros dbg stack t usec tid r1 r2 H. unfold Logv_x. cbn [m_id m_str negb andb id_stream]. apply Nat.ltb_lt in H. now rewrite H.
Qed.
Print Assumptions C118_long_thread_id_refuted.

(** The hypotheses are met: 1 January 1970, thread "7", message "x". *)
Example C118_example : exists hdr,
  Logv_x true (mk_logmem None false false) (repeat None 512) (mk_tm 70 0 1 0 0 0) 0 [55%N] (VsText [120%N]) (VsText [120%N]) = Ret (LReturned [LFwrite (hdr ++ [120%N; 10%N]); LFflush]).
Proof.
  destruct (C118_short_lines_need_no_memory true (mk_logmem None false false) (repeat None 512) (mk_tm 70 0 1 0 0 0) 0 [55%N] [120%N]) as (tid' & hdr & _ & _ & _ & E).
  - reflexivity.
  - unfold time_ok. cbn. lia.
  - intros [H|[]]. discriminate H.
  - cbn. lia.
  - cbn. lia.
  - exists hdr. rewrite E. unfold with_newline. rewrite rev_app_distr. cbn. rewrite <- app_assoc. reflexivity.
Qed.
