(** LoggerProofs.v *)
From Coq Require Import List NArith ZArith Lia Bool.
From Verif Require Import Outcome Logging LoggingSpec LoggingProofs Logger LoggerSpec.
Import ListNotations.
Local Open Scope Z_scope.

(** ** Numbers *)
Lemma dec_value_acc ds : forall a, fold_left (fun acc d => 10 * acc + (d - 48))%N ds a = (a * 10 ^ N.of_nat (length ds) + dec_value ds)%N.
Proof.
  unfold dec_value. induction ds as [|d ds IH]; intros a; cbn [fold_left length]; [rewrite N.mul_1_r; lia|].
  rewrite IH. rewrite (IH (10 * 0 + (d - 48)))%N. rewrite Nat2N.inj_succ, N.pow_succ_r'. nia.
Qed.
Lemma dec_value_pad k ds : dec_value (repeat 48%N k ++ ds) = dec_value ds.
Proof. induction k as [|k IH]; [reflexivity|]. cbn [repeat app]. unfold dec_value in *. cbn [fold_left]. exact IH. Qed.

Lemma dig_length n k : (n < 10 ^ N.of_nat k)%N -> (0 < k)%nat -> (length (print_llu n) <= k)%nat.
Proof. intros H K. apply (numeral_length n); auto. apply dig_numeral. Qed.

Lemma fmt_digits w n : 0 <= n -> (Z.to_N n < 10 ^ N.of_nat w)%N -> (0 < w)%nat -> digits_of w n (fmt_0d w n).
Proof.
  intros H0 H Hw. unfold fmt_0d. replace (n <? 0) with false by lia. unfold pad0, digits_of.
  pose proof (dig_length _ _ H Hw) as L. destruct (dig_numeral (Z.to_N n)) as (_ & F & V & _). unfold dig in *.
  split; [rewrite app_length, repeat_length; lia|]. split.
  - apply Forall_app. split; [|exact F]. apply Forall_forall. intros x X. apply repeat_spec in X. subst x. red. lia.
  - rewrite dec_value_pad, V. lia.
Qed.

Lemma fmt_len w n : (w <= 6)%nat -> INT_MIN <= n <= INT_MAX -> (length (fmt_0d w n) <= 11)%nat.
Proof.
  unfold INT_MIN, INT_MAX. intros Hw H. unfold fmt_0d, pad0.
  assert (L : forall m, (m <= 2 ^ 31)%N -> (length (print_llu m) <= 10)%nat).
  { intros m Hm. apply dig_length; [|lia]. eapply N.le_lt_trans; [exact Hm|reflexivity]. }
  destruct (Z.ltb_spec n 0); cbn [length]; rewrite app_length, repeat_length.
  - pose proof (L (Z.to_N (- n)) ltac:(change (2 ^ 31)%N with 2147483648%N; lia)). lia.
  - pose proof (L (Z.to_N n) ltac:(change (2 ^ 31)%N with 2147483648%N; lia)). lia.
Qed.

Lemma until_nul_len l : (length (until_nul l) <= length l)%nat.
Proof. induction l as [|b l IH]; cbn; [lia|]. destruct (N.eqb b 0); cbn; lia. Qed.
Lemma until_nul_id l : ~ In 0%N l -> until_nul l = l.
Proof.
  induction l as [|b l IH]; intros H; [reflexivity|]. cbn. destruct (N.eqb_spec b 0) as [->|E]; [exfalso; apply H; now left|].
  rewrite IH; [reflexivity|]. intros X. apply H. now right.
Qed.
Lemma thread_id_firstn tid : thread_id tid = firstn 32 tid.
Proof. unfold thread_id, kMaxThreadIdSize. destruct (Nat.ltb_spec 32 (length tid)); [reflexivity|]. now rewrite firstn_all2. Qed.

(** ** Buffers *)
Lemma write_at_app (a : list N) (rest : cbuf) bs : (length bs <= length rest)%nat ->
  write_at (map Some a ++ rest) (Z.of_nat (length a)) bs = Ret (map Some (a ++ bs) ++ skipn (length bs) rest).
Proof.
  intros H. unfold write_at. rewrite app_length, map_length.
  replace ((0 <=? Z.of_nat (length a)) && (Z.of_nat (length a) + Z.of_nat (length bs) <=? Z.of_nat (length a + length rest))) with true by lia.
  rewrite Nat2Z.id, firstn_app, map_length, Nat.sub_diag, firstn_O, app_nil_r, firstn_all2 by (rewrite map_length; lia).
  rewrite skipn_app, map_length, (skipn_all2 (map Some a)) by (rewrite map_length; lia). cbn [app].
  rewrite map_app, <- app_assoc. do 3 f_equal. f_equal. lia.
Qed.

(** Printing over a buffer of which [a] has been written and is kept, the rest being free. *)
Lemma snprintf_at_ok (a : list N) (rest : cbuf) size text : size = Z.of_nat (length rest) -> 0 < size ->
  exists rest', snprintf_at (map Some a ++ rest) (Z.of_nat (length a)) size text =
    Ret (map Some (a ++ firstn (Z.to_nat (size - 1)) text ++ [0%N]) ++ rest') /\
    length (map Some (a ++ firstn (Z.to_nat (size - 1)) text ++ [0%N]) ++ rest') = (length a + length rest)%nat.
Proof.
  intros Hs H0. unfold snprintf_at. replace (size =? 0) with false by lia.
  rewrite write_at_app; [|rewrite app_length, firstn_length; cbn [length]; lia].
  eexists. split; [reflexivity|]. rewrite !app_length, map_length, skipn_length, !app_length, firstn_length. cbn [length]. lia.
Qed.

Lemma read_all_map l : read_all (map Some l) = Ret l.
Proof. induction l as [|x l IH]; [reflexivity|]. cbn [map read_all bind]. rewrite IH. reflexivity. Qed.

Lemma firstn_map_app (l : list N) (rest : cbuf) n : (n <= length l)%nat -> firstn n (map Some l ++ rest) = map Some (firstn n l).
Proof. intros H. rewrite firstn_app, map_length. replace (n - length l)%nat with O by lia. rewrite firstn_O, app_nil_r. apply firstn_map. Qed.

Lemma with_newline_snoc t c : with_newline (t ++ [c]) = if N.eqb c 10 then t ++ [c] else (t ++ [c]) ++ [10%N].
Proof.
  unfold with_newline. rewrite rev_app_distr. cbn [rev app]. destruct (N.eqb_spec c 10) as [->|E]; [reflexivity|].
  destruct c as [|p]; [reflexivity|]. repeat (destruct p as [p|p|]; try reflexivity; try congruence).
Qed.

Lemma put_line_ok dbg (l : list N) rest off : 0 < off -> off <= Z.of_nat (length l) -> off < Z.of_nat (length l + length rest) ->
  put_line dbg (map Some l ++ rest) (Z.of_nat (length l + length rest)) off =
  Ret [LFwrite (with_newline (firstn (Z.to_nat off) l)); LFflush].
Proof.
  intros H0 H1 H2. set (k := Z.to_nat off). assert (Hk : off = Z.of_nat k) by lia.
  destruct k as [|k']; [lia|]. assert (HL : (S k' <= length l)%nat) by lia.
  assert (E : firstn (S k') l = firstn k' l ++ [nth k' l 0%N]).
  { clear -HL. revert l HL. induction k' as [|k' IH]; intros l HL; (destruct l as [|x l]; [cbn in HL; lia|]); [reflexivity|].
    cbn [firstn nth app]. f_equal. apply (IH l). cbn in HL. lia. }
  unfold put_line, read_at. rewrite Hk. replace (Z.of_nat (S k') - 1) with (Z.of_nat k') by lia.
  replace (Z.of_nat k' <? 0) with false by lia. rewrite Nat2Z.id.
  rewrite nth_error_app1 by (rewrite map_length; lia).
  rewrite (map_nth_error Some k' l (nth_error_nth' l 0%N (n := k') ltac:(lia))). cbn [bind].
  rewrite E, with_newline_snoc. destruct (N.eqb (nth k' l 0%N) 10) eqn:En; cbn [bind].
  - unfold assert_. replace (Z.of_nat (S k') <=? _) with true by lia. cbn [negb]. rewrite andb_false_r. cbn [bind].
    rewrite app_length, map_length. replace ((0 <=? Z.of_nat (S k')) && _) with true by lia.
    rewrite Nat2Z.id, firstn_map_app, read_all_map by lia. cbn [bind]. now rewrite E.
  - assert (W : exists r', write_at (map Some l ++ rest) (Z.of_nat (S k')) [10%N] = Ret (map Some (firstn (S k') l ++ [10%N]) ++ r') /\
       length (map Some (firstn (S k') l ++ [10%N]) ++ r') = (length l + length rest)%nat).
    { replace (map Some l ++ rest) with (map Some (firstn (S k') l) ++ (map Some (skipn (S k') l) ++ rest)) by (now rewrite app_assoc, <- map_app, firstn_skipn).
      replace (Z.of_nat (S k')) with (Z.of_nat (length (firstn (S k') l))) by (rewrite firstn_length; lia).
      rewrite write_at_app by (rewrite app_length, map_length, skipn_length; cbn [length]; lia).
      eexists. split; [reflexivity|]. rewrite app_length, skipn_length, !map_length, !app_length, !map_length, firstn_length, skipn_length. cbn [length]. lia. }
    destruct W as (r' & -> & W). cbn [bind]. unfold assert_. replace (Z.of_nat (S k') + 1 <=? _) with true by lia. cbn [negb]. rewrite andb_false_r. cbn [bind].
    rewrite W. replace ((0 <=? Z.of_nat (S k') + 1) && _) with true by lia.
    replace (Z.to_nat (Z.of_nat (S k') + 1)) with (length (firstn (S k') l ++ [10%N])) by (rewrite app_length, firstn_length; cbn [length]; lia).
    rewrite firstn_map_app, firstn_all, read_all_map by lia. cbn [bind]. now rewrite E.
Qed.

(** ** One attempt *)
Definition body (r : vsres) : list N := match r with VsText t => t | VsFail j => j end.
Definition ret (r : vsres) : Z :=
  match r with VsText t => if Z.of_nat (length t) <=? INT_MAX then Z.of_nat (length t) else -1 | VsFail _ => -1 end.

Lemma ret_ge r : -1 <= ret r.
Proof. destruct r as [t|j]; cbn [ret]; [|lia]. destruct (Z.of_nat (length t) <=? INT_MAX); lia. Qed.

Lemma print_both_ok dbg hdr (buf : cbuf) r :
  (dbg = true -> (length hdr <= 60)%nat) -> (length hdr < length buf)%nat -> Z.of_nat (length buf) <= INT_MAX ->
  Z.of_nat (length hdr) + ret r <= INT_MAX ->
  exists rest, print_both dbg hdr buf (Z.of_nat (length buf)) r =
    Ret (map Some (hdr ++ firstn (length buf - length hdr - 1) (body r) ++ [0%N]) ++ rest, Z.of_nat (length hdr) + ret r) /\
    (length (hdr ++ firstn (length buf - length hdr - 1) (body r) ++ [0%N]) + length rest = length buf)%nat.
Proof.
  unfold INT_MAX. intros Hd Hl Hm Hr. unfold print_both, size_t_of.
  rewrite (Z.mod_small (Z.of_nat (length buf))) by lia.
  destruct (snprintf_at_ok [] buf (Z.of_nat (length buf)) hdr eq_refl ltac:(lia)) as (r1 & E1 & L1). cbn [map app length] in E1, L1.
  change (Z.of_nat 0) with 0 in E1. rewrite E1. cbn [bind].
  rewrite firstn_all2 in * by lia.
  assert (A : assert_ dbg (Z.of_nat (length hdr) <=? 28 + Z.of_nat kMaxThreadIdSize) = Ret tt).
  { unfold assert_, kMaxThreadIdSize. destruct dbg; [|reflexivity]. specialize (Hd eq_refl). replace (Z.of_nat (length hdr) <=? 28 + Z.of_nat 32) with true by lia. reflexivity. }
  rewrite A. cbn [bind]. unfold assert_ at 1. replace (Z.of_nat (length hdr) <? Z.of_nat (length buf)) with true by lia. cbn [negb]. rewrite andb_false_r. cbn [bind].
  unfold int_ at 1, INT_MIN, INT_MAX. replace ((- 2 ^ 31 <=? _) && _) with true by lia. cbn [bind].
  rewrite Z.mod_small by lia.
  rewrite map_app, <- app_assoc. set (free := map Some [0%N] ++ r1). rewrite app_length, map_length, app_length in L1; cbn [length] in L1.
  assert (Lf : length free = (length buf - length hdr)%nat) by (unfold free; rewrite app_length, map_length; cbn [length]; lia).
  assert (V : exists r2, vsnprintf_at (map Some hdr ++ free) (Z.of_nat (length hdr)) (Z.of_nat (length buf) - Z.of_nat (length hdr)) r =
     Ret (map Some (hdr ++ firstn (length buf - length hdr - 1) (body r) ++ [0%N]) ++ r2, ret r) /\
     (length (hdr ++ firstn (length buf - length hdr - 1) (body r) ++ [0%N]) + length r2 = length buf)%nat).
  { destruct (snprintf_at_ok hdr free (Z.of_nat (length buf) - Z.of_nat (length hdr)) (body r) ltac:(lia) ltac:(lia)) as (r2 & E2 & L2).
    replace (Z.to_nat (Z.of_nat (length buf) - Z.of_nat (length hdr) - 1)) with (length buf - length hdr - 1)%nat in * by lia.
    exists r2. split; [destruct r; cbn [vsnprintf_at body ret] in *; rewrite E2; reflexivity|].
    rewrite app_length, map_length in L2. lia. }
  destruct V as (r2 & -> & L2). cbn [bind]. exists r2. split; [|exact L2].
  unfold int_, INT_MIN, INT_MAX. replace ((- 2 ^ 31 <=? _) && _) with true; [reflexivity|].
  assert (-1 <= ret r) by apply ret_ge. lia.
Qed.

(** What is put in the file for an outcome of the message formatting. *)
Definition shown (hdr : list N) (r : vsres) : list N :=
  match r with
  | VsText t => if Z.of_nat (length t) <=? INT_MAX then hdr ++ t else removelast hdr
  | VsFail _ => removelast hdr
  end.

Lemma firstn_removelast (l : list N) : firstn (length l - 1) l = removelast l.
Proof.
  induction l as [|x l IH]; [reflexivity|]. cbn [length removelast]. destruct l as [|y l]; [reflexivity|].
  replace (S (length (y :: l)) - 1)%nat with (S (length (y :: l) - 1)) by (cbn [length]; lia). cbn [firstn]. now rewrite IH.
Qed.

(** The line of an attempt that fitted. *)
Lemma fitted dbg hdr (buf : cbuf) r rest : (2 <= length hdr)%nat -> (length hdr < length buf)%nat ->
  Z.of_nat (length hdr) + ret r < Z.of_nat (length buf) - 1 ->
  (length (hdr ++ firstn (length buf - length hdr - 1) (body r) ++ [0%N]) + length rest = length buf)%nat ->
  put_line dbg (map Some (hdr ++ firstn (length buf - length hdr - 1) (body r) ++ [0%N]) ++ rest) (Z.of_nat (length buf)) (Z.of_nat (length hdr) + ret r) =
  Ret [LFwrite (with_newline (shown hdr r)); LFflush].
Proof.
  intros H2 Hl Hf L. assert (R : -1 <= ret r) by apply ret_ge.
  assert (P : Z.of_nat (length hdr) + ret r <= Z.of_nat (length (hdr ++ firstn (length buf - length hdr - 1) (body r) ++ [0%N])) /\
              firstn (Z.to_nat (Z.of_nat (length hdr) + ret r)) (hdr ++ firstn (length buf - length hdr - 1) (body r) ++ [0%N]) = shown hdr r).
  { rewrite !app_length, firstn_length. cbn [length].
    assert (Neg : ret r = -1 -> shown hdr r = removelast hdr ->
       firstn (Z.to_nat (Z.of_nat (length hdr) + ret r)) (hdr ++ firstn (length buf - length hdr - 1) (body r) ++ [0%N]) = shown hdr r).
    { intros -> ->. replace (Z.to_nat (Z.of_nat (length hdr) + -1)) with (length hdr - 1)%nat by lia.
      rewrite firstn_app. replace (length hdr - 1 - length hdr)%nat with O by lia. now rewrite firstn_O, app_nil_r, firstn_removelast. }
    destruct r as [t|j]; cbn [ret body shown] in *; [destruct (Z.leb_spec (Z.of_nat (length t)) INT_MAX) as [Q|Q]|].
    - split; [lia|]. replace (Z.to_nat _) with (length hdr + length t)%nat by lia. rewrite firstn_app_2. f_equal.
      rewrite (firstn_all2 t) by lia. rewrite firstn_app, Nat.sub_diag, firstn_O, app_nil_r. apply firstn_all.
    - split; [lia|]. apply Neg; reflexivity.
    - split; [lia|]. apply Neg; reflexivity. }
  destruct P as (P1 & P2). pose proof (put_line_ok dbg (hdr ++ firstn (length buf - length hdr - 1) (body r) ++ [0%N]) rest (Z.of_nat (length hdr) + ret r) ltac:(lia) P1 ltac:(lia)) as Q.
  rewrite L, P2 in Q. exact Q.
Qed.

(** The line of a second attempt that did not fit. *)
Lemma truncated (dbg := false) hdr (buf : cbuf) t rest : (2 <= length hdr)%nat -> (length hdr < length buf)%nat ->
  Z.of_nat (length hdr) + Z.of_nat (length t) >= Z.of_nat (length buf) - 1 ->
  (length (hdr ++ firstn (length buf - length hdr - 1) t ++ [0%N]) + length rest = length buf)%nat ->
  put_line dbg (map Some (hdr ++ firstn (length buf - length hdr - 1) t ++ [0%N]) ++ rest) (Z.of_nat (length buf)) (Z.of_nat (length buf) - 1) =
  Ret [LFwrite (with_newline (hdr ++ firstn (length buf - length hdr - 1) t)); LFflush].
Proof.
  intros H2 Hl Hf L.
  pose proof (put_line_ok dbg (hdr ++ firstn (length buf - length hdr - 1) t ++ [0%N]) rest (Z.of_nat (length buf) - 1) ltac:(lia)) as Q.
  rewrite L in Q. rewrite Q; [|rewrite !app_length, firstn_length; cbn [length]; lia|lia]. clear Q.
  do 3 f_equal. f_equal. rewrite app_assoc.
  rewrite firstn_app. rewrite !app_length, firstn_length.
  replace (Z.to_nat _ - _)%nat with O by lia. rewrite firstn_O, app_nil_r. rewrite firstn_all2; [reflexivity|]. rewrite app_length, firstn_length. lia.
Qed.

(** ** The whole function *)
Lemma header_len t usec tid hdr : INT_MIN <= tm_mday t <= INT_MAX -> INT_MIN <= tm_hour t <= INT_MAX ->
  INT_MIN <= tm_min t <= INT_MAX -> INT_MIN <= tm_sec t <= INT_MAX -> INT_MIN <= usec <= INT_MAX ->
  header_text t usec tid = Ret hdr -> (2 <= length hdr <= 117)%nat.
Proof.
  intros A B C D F. unfold header_text, int_. destruct ((INT_MIN <=? tm_year t + 1900) && (tm_year t + 1900 <=? INT_MAX)) eqn:E1; [|discriminate]. cbn [bind].
  destruct ((INT_MIN <=? tm_mon t + 1) && (tm_mon t + 1 <=? INT_MAX)) eqn:E2; [|discriminate]. cbn [bind].
  apply andb_true_iff in E1, E2. destruct E1 as (E1 & E1'), E2 as (E2 & E2'). apply Z.leb_le in E1, E1', E2, E2'. intros E. injection E as <-.
  assert (two : (2 <= 6)%nat) by lia. assert (four : (4 <= 6)%nat) by lia. assert (six : (6 <= 6)%nat) by lia.
  pose proof (fmt_len 4 (tm_year t + 1900) four (conj E1 E1')). pose proof (fmt_len 2 (tm_mon t + 1) two (conj E2 E2')).
  pose proof (fmt_len 2 _ two A). pose proof (fmt_len 2 _ two B). pose proof (fmt_len 2 _ two C). pose proof (fmt_len 2 _ two D).
  pose proof (fmt_len 6 _ six F).
  pose proof (until_nul_len (thread_id tid)). assert (length (thread_id tid) <= 32)%nat by (rewrite thread_id_firstn, firstn_length; lia).
  repeat (rewrite app_length; cbn [length app]). lia.
Qed.

Definition fits (hdr : list N) (r : vsres) : Prop := Z.of_nat (length hdr) + ret r + 2 <= INT_MAX.

Lemma Logv_ok dbg stack t usec tid hdr r1 r2 :
  header_text t usec tid = Ret hdr -> (2 <= length hdr <= 117)%nat -> (dbg = true -> (length hdr <= 60)%nat) ->
  length stack = 512%nat -> fits hdr r1 -> fits hdr r2 ->
  Logv dbg stack t usec tid r1 r2 =
    if Z.of_nat (length hdr) + ret r1 <? 511 then Ret [LFwrite (with_newline (shown hdr r1)); LFflush]
    else if ret r2 <=? ret r1 then
      Ret [LNew (Z.of_nat (length hdr) + ret r1 + 2); LFwrite (with_newline (shown hdr r2)); LFflush; LDelete]
    else if dbg then AssertFail
    else Ret [LNew (Z.of_nat (length hdr) + ret r1 + 2);
              LFwrite (with_newline (hdr ++ firstn (Z.to_nat (ret r1) + 1) (body r2))); LFflush; LDelete].
Proof.
  unfold fits. intros Hh (Hl & Hu) Hd Hs F1 F2. unfold Logv. rewrite Hh. cbn [bind]. unfold kStackBufferSize.
  assert (I512 : 512 <= INT_MAX) by (unfold INT_MAX; lia). assert (Imin : INT_MIN <= 0) by (unfold INT_MIN; lia).
  assert (R1 : -1 <= ret r1) by apply ret_ge.
  replace 512 with (Z.of_nat (length stack)) at 1 by lia.
  destruct (print_both_ok dbg hdr stack r1 Hd ltac:(lia) ltac:(lia) ltac:(lia)) as (rest & -> & L). cbn [bind].
  rewrite Z.geb_leb. destruct (Z.ltb_spec (Z.of_nat (length hdr) + ret r1) 511) as [Q|Q].
  - replace (512 - 1 <=? _) with false by lia. replace 512 with (Z.of_nat (length stack)) by lia.
    apply fitted; lia.
  - replace (512 - 1 <=? _) with true by lia. unfold int_. replace ((INT_MIN <=? _) && _) with true by lia. cbn [bind].
    set (D := Z.of_nat (length hdr) + ret r1 + 2) in *. replace (D <? 0) with false by lia. cbn [bind].
    set (dyn := repeat None (Z.to_nat D) : cbuf). assert (LD : D = Z.of_nat (length dyn)) by (unfold dyn; rewrite repeat_length; lia).
    replace (print_both dbg hdr dyn D r2) with (print_both dbg hdr dyn (Z.of_nat (length dyn)) r2) by (f_equal; lia).
    destruct (print_both_ok dbg hdr dyn r2 Hd ltac:(lia) ltac:(lia) ltac:(lia)) as (rest2 & -> & L2). cbn [bind].
    rewrite Z.geb_leb. destruct (Z.leb_spec (ret r2) (ret r1)) as [Q2|Q2].
    + replace (D - 1 <=? _) with false by lia. cbn [bind].
      rewrite LD at 1. rewrite fitted by (try assumption; lia). reflexivity.
    + replace (D - 1 <=? _) with true by lia. destruct dbg; [reflexivity|]. cbn [assert_ andb bind].
      destruct r2 as [t2|j2]; [|cbn [ret] in Q2; lia]. cbn [ret body] in *. destruct (Z.of_nat (length t2) <=? INT_MAX) eqn:Eq; [|lia].
      rewrite LD at 1 2. rewrite truncated by (try assumption; lia). cbn [bind].
      replace (length dyn - length hdr - 1)%nat with (Z.to_nat (ret r1) + 1)%nat by lia. reflexivity.
Qed.
