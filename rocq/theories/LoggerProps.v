(** LoggerProps.v -- C68: log lines. *)
From Coq Require Import List NArith ZArith Lia Bool.
From Verif Require Import Outcome Logging LoggingSpec LoggingProofs Logger LoggerSpec LoggerProofs.
Import ListNotations.
Local Open Scope Z_scope.

(** What localtime_r and gettimeofday deliver, up to the year 9999. *)
Definition time_ok (t : tm) (usec : Z) : Prop :=
  -1900 <= tm_year t <= 8099 /\ 0 <= tm_mon t <= 11 /\ 1 <= tm_mday t <= 31 /\ 0 <= tm_hour t <= 23 /\
  0 <= tm_min t <= 59 /\ 0 <= tm_sec t <= 60 /\ 0 <= usec <= 999999.
(** Any values of these ints for which tm_year + 1900 and tm_mon + 1 do not overflow. *)
Definition time_int (t : tm) (usec : Z) : Prop :=
  INT_MIN <= tm_year t + 1900 <= INT_MAX /\ INT_MIN <= tm_mon t + 1 <= INT_MAX /\ INT_MIN <= tm_mday t <= INT_MAX /\
  INT_MIN <= tm_hour t <= INT_MAX /\ INT_MIN <= tm_min t <= INT_MAX /\ INT_MIN <= tm_sec t <= INT_MAX /\ INT_MIN <= usec <= INT_MAX.

Lemma header_ok t usec tid : time_ok t usec -> ~ In 0%N tid ->
  exists hdr, header_text t usec tid = Ret hdr /\
    log_header (tm_year t + 1900) (tm_mon t + 1) (tm_mday t) (tm_hour t) (tm_min t) (tm_sec t) usec tid hdr /\
    (2 <= length hdr <= 60)%nat.
Proof.
  intros (A & B & C & D & E & F & G) Hn. unfold header_text, int_, INT_MIN, INT_MAX.
  replace ((- 2 ^ 31 <=? tm_year t + 1900) && _) with true by lia. cbn [bind].
  replace ((- 2 ^ 31 <=? tm_mon t + 1) && _) with true by lia. cbn [bind].
  eexists. split; [reflexivity|].
  assert (U : until_nul (thread_id tid) = firstn 32 tid).
  { rewrite thread_id_firstn. apply until_nul_id. intros X. apply Hn. rewrite <- (firstn_skipn 32 tid). apply in_or_app. now left. }
  assert (two : forall n, 0 <= n <= 99 -> digits_of 2 n (fmt_0d 2 n)).
  { intros n Hn'. apply fmt_digits; [lia|change (10 ^ N.of_nat 2)%N with 100%N; lia|lia]. }
  assert (P : digits_of 4 (tm_year t + 1900) (fmt_0d 4 (tm_year t + 1900))) by (apply fmt_digits; [lia|change (10 ^ N.of_nat 4)%N with 10000%N; lia|lia]).
  assert (Q : digits_of 6 usec (fmt_0d 6 usec)) by (apply fmt_digits; [lia|change (10 ^ N.of_nat 6)%N with 1000000%N; lia|lia]).
  pose proof (two (tm_mon t + 1) ltac:(lia)) as P1. pose proof (two (tm_mday t) ltac:(lia)) as P2. pose proof (two (tm_hour t) ltac:(lia)) as P3.
  pose proof (two (tm_min t) ltac:(lia)) as P4. pose proof (two (tm_sec t) ltac:(lia)) as P5. clear two.
  split.
  - rewrite U. unfold log_header. do 7 eexists. do 7 (split; [eassumption|]). reflexivity.
  - rewrite U. repeat (rewrite app_length; cbn [length app]).
    rewrite (proj1 P), (proj1 Q), (proj1 P1), (proj1 P2), (proj1 P3), (proj1 P4), (proj1 P5), firstn_length. lia.
Qed.

(** ** C68: a message of any length is written whole *)
Theorem C68_writes_the_whole_message :
  forall dbg stack t usec tid message,
    length stack = 512%nat -> time_ok t usec -> ~ In 0%N tid ->
    Z.of_nat (length message) <= 2 ^ 31 - 63 ->
    exists hdr, log_header (tm_year t + 1900) (tm_mon t + 1) (tm_mday t) (tm_hour t) (tm_min t) (tm_sec t) usec tid hdr /\
      exists size,
        Logv dbg stack t usec tid (VsText message) (VsText message) =
        Ret (if Nat.ltb (length hdr + length message) 511
             then [LFwrite (with_newline (hdr ++ message)); LFflush]
             else [LNew size; LFwrite (with_newline (hdr ++ message)); LFflush; LDelete]).
Proof.
  intros dbg stack t usec tid message Hs Ht Hn Hm. destruct (header_ok t usec tid Ht Hn) as (hdr & Hh & S & L). exists hdr. split; [exact S|].
  assert (Er : ret (VsText message) = Z.of_nat (length message)) by (cbn [ret]; unfold INT_MAX; destruct (Z.leb_spec (Z.of_nat (length message)) (2 ^ 31 - 1)); lia).
  assert (Es : shown hdr (VsText message) = hdr ++ message) by (cbn [shown]; unfold INT_MAX; destruct (Z.leb_spec (Z.of_nat (length message)) (2 ^ 31 - 1)); [reflexivity|lia]).
  assert (F : fits hdr (VsText message)) by (unfold fits; rewrite Er; unfold INT_MAX; lia).
  eexists. rewrite (Logv_ok dbg stack t usec tid hdr _ _ Hh ltac:(lia) ltac:(lia) Hs F F). rewrite Er, Es, Z.leb_refl.
  destruct (Nat.ltb_spec (length hdr + length message) 511); [replace (_ <? 511) with true by lia|replace (_ <? 511) with false by lia]; reflexivity.
Qed.
Print Assumptions C68_writes_the_whole_message.

(** The line ends with a newline; one is added exactly if the text does not end
    with one. *)
Theorem C68_newline : forall text,
  (exists t, with_newline text = t ++ [10%N]) /\
  (with_newline text = text <-> exists t, text = t ++ [10%N]) /\
  (with_newline text = text \/ with_newline text = text ++ [10%N]).
Proof.
  intros text. destruct (rev text) as [|c r] eqn:E.
  - assert (T : text = []) by (rewrite <- (rev_involutive text), E; reflexivity). subst text. cbn. split; [exists []; reflexivity|]. split; [|now right].
    split; [discriminate|]. intros (t & X). destruct t; discriminate.
  - assert (T : text = rev r ++ [c]) by (rewrite <- (rev_involutive text), E; reflexivity). subst text. rewrite with_newline_snoc.
    destruct (N.eqb_spec c 10) as [->|Ne].
    + split; [eauto|]. split; [|now left]. split; eauto.
    + split; [eauto|]. split; [|now right]. split.
      * intros X. apply (f_equal (@length N)) in X. rewrite !app_length in X. cbn in X. lia.
      * intros (t & X). apply app_inj_tail in X as (_ & X). contradiction.
Qed.
Print Assumptions C68_newline.


(** Whatever the two formatting passes find (texts of different lengths, because
    another thread changes the arguments; errors), whatever the clock says: no
    access outside a buffer, to an uninitialised byte, no overflow, one fwrite of a
    line ending with a newline, a flush after it, and the buffer is freed.  (Release
    builds; texts of INT_MAX - 119 to INT_MAX bytes excepted.) *)
Definition not_near_int_max (r : vsres) : Prop :=
  match r with VsText t => Z.of_nat (length t) <= INT_MAX - 119 \/ INT_MAX < Z.of_nat (length t) | VsFail _ => True end.
Theorem C68_stays_in_its_buffers :
  forall stack t usec tid r1 r2,
    length stack = 512%nat -> time_int t usec -> not_near_int_max r1 -> not_near_int_max r2 ->
    exists line, (exists l, line = l ++ [10%N]) /\
      (Logv false stack t usec tid r1 r2 = Ret [LFwrite line; LFflush] \/
       exists size, Logv false stack t usec tid r1 r2 = Ret [LNew size; LFwrite line; LFflush; LDelete]).
Proof.
  intros stack t usec tid r1 r2 Hs (A & B & C & D & E & F & G) N1 N2.
  assert (Hh : exists hdr, header_text t usec tid = Ret hdr).
  { unfold header_text, int_. replace ((INT_MIN <=? tm_year t + 1900) && _) with true by lia. cbn [bind].
    replace ((INT_MIN <=? tm_mon t + 1) && _) with true by lia. cbn [bind]. eauto. }
  destruct Hh as (hdr & Hh). pose proof (header_len t usec tid hdr C D E F G Hh) as L.
  assert (FT : forall r, not_near_int_max r -> fits hdr r).
  { intros r X. unfold fits. destruct r as [tx|j]; cbn [ret not_near_int_max] in *; [|unfold INT_MAX; lia].
    destruct (Z.leb_spec (Z.of_nat (length tx)) INT_MAX); unfold INT_MAX in *; lia. }
  pose proof (Logv_ok false stack t usec tid hdr r1 r2 Hh ltac:(lia) ltac:(discriminate) Hs (FT _ N1) (FT _ N2)) as Q.
  destruct (Z.of_nat (length hdr) + ret r1 <? 511); [|destruct (ret r2 <=? ret r1)].
  - exists (with_newline (shown hdr r1)). split; [apply (proj1 (C68_newline _))|]. left. exact Q.
  - exists (with_newline (shown hdr r2)). split; [apply (proj1 (C68_newline _))|]. right. eexists. exact Q.
  - exists (with_newline (hdr ++ firstn (Z.to_nat (ret r1) + 1) (body r2))). split; [apply (proj1 (C68_newline _))|]. right. eexists. exact Q.
Qed.
Print Assumptions C68_stays_in_its_buffers.

(** A formatting error loses the message but not the line: the header without its
    final space is written. *)
Theorem C68_format_error :
  forall dbg stack t usec tid junk r2,
    length stack = 512%nat -> time_ok t usec -> ~ In 0%N tid ->
    exists hdr, log_header (tm_year t + 1900) (tm_mon t + 1) (tm_mday t) (tm_hour t) (tm_min t) (tm_sec t) usec tid hdr /\
      Logv dbg stack t usec tid (VsFail junk) r2 = Ret [LFwrite (with_newline (removelast hdr)); LFflush].
Proof.
  intros dbg stack t usec tid junk r2 Hs Ht Hn. destruct (header_ok t usec tid Ht Hn) as (hdr & Hh & S & L). exists hdr. split; [exact S|].
  unfold Logv. rewrite Hh. cbn [bind]. unfold kStackBufferSize. replace 512 with (Z.of_nat (length stack)) at 1 by lia.
  destruct (print_both_ok dbg hdr stack (VsFail junk) ltac:(lia) ltac:(lia)) as (rest & -> & LL); [unfold INT_MAX; lia|cbn [ret]; unfold INT_MAX; lia|].
  cbn [bind]. rewrite Z.geb_leb. replace (512 - 1 <=? _) with false by (cbn [ret]; lia). replace 512 with (Z.of_nat (length stack)) by lia.
  apply (fitted dbg hdr stack (VsFail junk) rest); cbn [ret]; lia.
Qed.
Print Assumptions C68_format_error.

(** Without the bound on the length the statement is false: a message close to
    INT_MAX bytes overflows buffer_offset, which is undefined. *)
Theorem C68_near_int_max_refuted :
  forall dbg stack t usec tid message r2,
    length stack = 512%nat -> time_ok t usec -> ~ In 0%N tid ->
    INT_MAX - 28 <= Z.of_nat (length message) <= INT_MAX ->
    Logv dbg stack t usec tid (VsText message) r2 = UB.
Proof.
  intros dbg stack t usec tid message r2 Hs Ht Hn Hm. destruct (header_ok t usec tid Ht Hn) as (hdr & Hh & S & L).
  assert (L28 : (28 <= length hdr)%nat).
  { destruct S as (yy & mo & dd & hh & mi & ss & uu & (P1 & _) & (P2 & _) & (P3 & _) & (P4 & _) & (P5 & _) & (P6 & _) & (P7 & _) & ->).
    repeat (rewrite app_length; cbn [length app]). lia. }
  unfold Logv. rewrite Hh. cbn [bind]. unfold kStackBufferSize, print_both, size_t_of. rewrite (Z.mod_small 512) by lia.
  destruct (snprintf_at_ok [] stack 512 hdr ltac:(lia) ltac:(lia)) as (q1 & E1 & L1). cbn [map app length] in E1, L1. change (Z.of_nat 0) with 0 in E1. rewrite E1. cbn [bind].
  rewrite firstn_all2 in * by lia.
  unfold assert_, kMaxThreadIdSize. replace (Z.of_nat (length hdr) <=? 28 + Z.of_nat 32) with true by lia. replace (Z.of_nat (length hdr) <? 512) with true by lia. cbn [negb]. rewrite !andb_false_r. cbn [bind].
  unfold int_ at 1, INT_MIN, INT_MAX. replace ((- 2 ^ 31 <=? _) && _) with true by lia. cbn [bind]. rewrite Z.mod_small by lia.
  rewrite map_app, <- app_assoc. rewrite app_length, map_length, app_length in L1. cbn [length] in L1.
  destruct (snprintf_at_ok hdr (map Some [0%N] ++ q1) (512 - Z.of_nat (length hdr)) message) as (q2 & E2 & L2); [rewrite app_length, map_length; cbn [length]; lia|lia|].
  cbn [vsnprintf_at]. rewrite E2. cbn [bind]. replace (Z.of_nat (length message) <=? INT_MAX) with true by lia.
  destruct (Z.leb_spec (Z.of_nat (length hdr) + Z.of_nat (length message)) INT_MAX) as [Q|Q].
  - unfold int_ at 1. replace ((INT_MIN <=? _) && _) with true by (unfold INT_MIN; lia). cbn [bind].
    replace (_ >=? 512 - 1) with true by (unfold INT_MAX in *; lia). unfold int_ at 1. replace ((INT_MIN <=? _) && _) with false by lia. reflexivity.
  - unfold int_ at 1. replace ((INT_MIN <=? _) && _) with false by lia. reflexivity.
Qed.
Print Assumptions C68_near_int_max_refuted.

(** A 600-byte message in the middle of 2021. *)
Definition ex_time : tm := mk_tm 121 2 26 13 5 59.
Example C68_example_time : time_ok ex_time 42.
Proof. unfold time_ok, ex_time. cbn. lia. Qed.
Example C68_example_short :
  Logv true (repeat None 512) ex_time 42 [55%N] (VsText [104; 105]%N) (VsText [104; 105]%N) =
  Ret [LFwrite [50;48;50;49;47;48;51;47;50;54;45;49;51;58;48;53;58;53;57;46;48;48;48;48;52;50;32;55;32;104;105;10]%N; LFflush].
Proof. vm_compute. reflexivity. Qed.
Example C68_example_long : exists hdr size,
  Logv true (repeat None 512) ex_time 42 [55%N] (VsText (repeat 97%N 600)) (VsText (repeat 97%N 600)) =
  Ret [LNew size; LFwrite (with_newline (hdr ++ repeat 97%N 600)); LFflush; LDelete] /\ length hdr = 29%nat.
Proof.
  destruct (header_ok ex_time 42 [55%N] C68_example_time ltac:(cbn; intuition discriminate)) as (hdr & Hh & _ & L).
  assert (LH : length hdr = 29%nat) by (vm_compute in Hh; injection Hh as <-; reflexivity).
  assert (F : fits hdr (VsText (repeat 97%N 600))) by (unfold fits; cbn [ret]; rewrite repeat_length, LH; vm_compute; discriminate).
  exists hdr. eexists. split; [|exact LH].
  rewrite (Logv_ok true _ _ _ _ hdr _ _ Hh ltac:(lia) ltac:(lia) (repeat_length _ _) F F).
  replace (Z.of_nat (length hdr) + ret (VsText (repeat 97%N 600)) <? 511) with false by (cbn [ret]; rewrite repeat_length, LH; reflexivity).
  rewrite Z.leb_refl. cbn [shown]. rewrite repeat_length. replace (Z.of_nat 600 <=? INT_MAX) with true by reflexivity. reflexivity.
Qed.
