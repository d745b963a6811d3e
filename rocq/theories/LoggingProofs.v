(** LoggingProofs.v *)
From Coq Require Import List NArith Arith ZArith Lia Bool ZifyN ZifyNat ZifyBool.
From Verif Require Import Outcome Coding CodingSpec CodingProofs Slice SliceProofs Logging LoggingSpec.
Import ListNotations.
Local Open Scope N_scope.
Ltac Zify.zify_post_hook ::= Z.div_mod_to_equations.

(** * Printing numbers *)
Lemma dec_value_app a b : dec_value (a ++ b) = fold_left (fun acc d => 10 * acc + (d - 48)) b (dec_value a).
Proof. unfold dec_value. apply fold_left_app. Qed.

Lemma dec_value_snoc a d : dec_value (a ++ [d]) = 10 * dec_value a + (d - 48).
Proof. rewrite dec_value_app. reflexivity. Qed.

Definition dig (n : N) : list N := print_llu n.

Lemma print_fuel_acc f : forall n acc, print_llu_fuel f n acc = print_llu_fuel f n [] ++ acc.
Proof.
  induction f as [|f IH]; intros n acc; [reflexivity|]. cbn [print_llu_fuel].
  destruct (N.eqb_spec (n / 10) 0); [reflexivity|].
  rewrite IH, (IH _ [48 + n mod 10]), <- app_assoc. reflexivity.
Qed.

Lemma size_div10 v : v / 10 <> 0 -> N.size (v / 10) < N.size v.
Proof.
  intros Hv. assert (v <> 0) by (intros ->; apply Hv; reflexivity).
  rewrite !N.size_log2 by assumption.
  assert (N.log2 (v / 10) < N.log2 v); [|lia].
  assert (H1 : N.log2 (v / 10) <= N.log2 (v / 2)) by (apply N.log2_le_mono; lia).
  assert (H2 : N.log2 (2 * (v / 2)) = N.succ (N.log2 (v / 2))) by (apply N.log2_double; lia).
  assert (H3 : N.log2 (2 * (v / 2)) <= N.log2 v) by (apply N.log2_le_mono; lia). lia.
Qed.

Lemma print_fuel_enough f1 : forall f2 n, (N.to_nat (N.size n) < f1)%nat -> (N.to_nat (N.size n) < f2)%nat ->
  print_llu_fuel f1 n [] = print_llu_fuel f2 n [].
Proof.
  induction f1 as [|f1 IH]; intros f2 n H1 H2; [lia|]. destruct f2 as [|f2]; [lia|].
  cbn [print_llu_fuel]. destruct (N.eqb_spec (n / 10) 0) as [E|E]; [reflexivity|].
  pose proof (size_div10 n E).
  rewrite (print_fuel_acc f1), (print_fuel_acc f2). f_equal. apply IH; lia.
Qed.

Lemma dig_eq n : dig n = if n / 10 =? 0 then [48 + n mod 10] else dig (n / 10) ++ [48 + n mod 10].
Proof.
  unfold dig, print_llu at 1. cbn [print_llu_fuel].
  destruct (N.eqb_spec (n / 10) 0) as [E|E]; [reflexivity|].
  rewrite print_fuel_acc. unfold print_llu. f_equal. pose proof (size_div10 n E). apply print_fuel_enough; lia.
Qed.

Lemma div10_ind (P : N -> Prop) :
  (forall n, n < 10 -> P n) -> (forall n, 10 <= n -> P (n / 10) -> P n) -> forall n, P n.
Proof.
  intros H1 H2 n. induction n as [n IH] using (well_founded_induction N.lt_wf_0).
  destruct (N.lt_ge_cases n 10) as [H|H]; [auto|]. apply H2; [exact H|]. apply IH. lia.
Qed.

Lemma dig_small n : n < 10 -> dig n = [48 + n].
Proof. intros H. rewrite dig_eq. destruct (N.eqb_spec (n / 10) 0); [|lia]. f_equal. lia. Qed.
Lemma dig_big n : 10 <= n -> dig n = dig (n / 10) ++ [48 + n mod 10].
Proof. intros H. rewrite dig_eq. destruct (N.eqb_spec (n / 10) 0); [lia|]. reflexivity. Qed.

Lemma dig_numeral n : numeral n (dig n).
Proof.
  induction n as [n H|n H (H1 & H2 & H3 & H4)] using div10_ind.
  - rewrite dig_small by exact H. repeat split; try discriminate.
    + repeat constructor; unfold is_digit; lia.
    + unfold dec_value. cbn [fold_left]. lia.
    + cbn [hd]. intros E. f_equal. lia.
  - rewrite dig_big by exact H. repeat split.
    + intros E. destruct (dig (n / 10)); discriminate.
    + apply Forall_app. split; [exact H2|]. repeat constructor; lia.
    + rewrite dec_value_snoc, H3. lia.
    + intros E. exfalso. destruct (dig (n / 10)) as [|d t] eqn:Ed; [congruence|]. cbn in E, H4.
      specialize (H4 E). rewrite H4 in H3. cbn in H3. lia.
Qed.

Lemma fold_ge ds : forall a, a * 10 ^ N.of_nat (length ds) <= fold_left (fun acc d => 10 * acc + (d - 48)) ds a.
Proof.
  induction ds as [|d ds IH]; intros a.
  - cbn. rewrite N.pow_0_r. lia.
  - cbn [fold_left length]. rewrite Nat2N.inj_succ, N.pow_succ_r'.
    eapply N.le_trans; [|apply IH].
    replace (a * (10 * 10 ^ N.of_nat (length ds))) with (10 * a * 10 ^ N.of_nat (length ds)) by lia.
    apply N.mul_le_mono_r. lia.
Qed.

(** a numeral without leading zero and value below 10^k has at most k digits *)
Lemma numeral_length n ds k : numeral n ds -> n < 10 ^ N.of_nat k -> (0 < k)%nat -> (length ds <= k)%nat.
Proof.
  intros (H1 & H2 & H3 & H4) Hn Hk. destruct ds as [|d ds]; [congruence|].
  cbn [hd] in H4. inversion H2 as [|? ? Hd H2']; subst. unfold is_digit in Hd.
  destruct (N.eq_dec d 48) as [->|Hne].
  - specialize (H4 eq_refl). injection H4 as ->. cbn. lia.
  - unfold dec_value in Hn. cbn [fold_left] in Hn.
    pose proof (fold_ge ds (10 * 0 + (d - 48))) as Hg.
    assert (Hp : 10 ^ N.of_nat (length ds) < 10 ^ N.of_nat k).
    { eapply N.le_lt_trans; [|exact Hn]. eapply N.le_trans; [|exact Hg].
      rewrite <- (N.mul_1_l (10 ^ _)) at 1. apply N.mul_le_mono_r. lia. }
    apply N.pow_lt_mono_r_iff in Hp; [|lia]. cbn. lia.
Qed.

Lemma strlen_zeros t k : ~ In 0 t -> (0 < k)%nat -> strlen_list (t ++ repeat 0 k) = Some (length t).
Proof.
  intros Hno Hk. induction t as [|b t IH].
  - destruct k; [lia|reflexivity].
  - cbn. destruct (N.eqb_spec b 0) as [->|Hb]; [exfalso; apply Hno; left; reflexivity|].
    rewrite IH; [reflexivity|]. intros H. apply Hno. right. exact H.
Qed.

Lemma append_snprintf str size text : ~ In 0 text -> (length text < size)%nat ->
  append_cstr str (snprintf_buf size text) = Ret (str ++ text).
Proof.
  intros Hno Hl. unfold append_cstr, snprintf_buf.
  rewrite firstn_all2 by lia. rewrite strlen_zeros by (try exact Hno; lia).
  rewrite firstn_app, Nat.sub_diag, firstn_all. cbn [firstn]. rewrite app_nil_r. reflexivity.
Qed.

Lemma digits_no_nul ds : Forall is_digit ds -> ~ In 0 ds.
Proof. intros H Hin. rewrite Forall_forall in H. specialize (H 0 Hin). unfold is_digit in H. lia. Qed.

Lemma AppendNumberTo_eq str n : n < 2 ^ 64 -> AppendNumberTo str n = Ret (str ++ dig n) /\ (length (dig n) <= 20)%nat.
Proof.
  intros Hn. pose proof (dig_numeral n) as Hnum.
  assert (Hl : (length (dig n) <= 20)%nat).
  { apply (numeral_length n); [exact Hnum| |lia]. eapply N.lt_trans; [exact Hn|]. reflexivity. }
  split; [|exact Hl]. unfold AppendNumberTo. apply append_snprintf.
  - apply digits_no_nul. apply Hnum.
  - change (length (dig n) < 30)%nat. lia.
Qed.

(** numerals are unique *)
Lemma numeral_unique n ds : numeral n ds -> ds = dig n.
Proof.
  revert n. induction ds as [|d ds IH] using rev_ind; intros n (H1 & H2 & H3 & H4); [congruence|].
  rewrite dec_value_snoc in H3. apply Forall_app in H2. destruct H2 as [H2 Hd].
  inversion Hd as [|? ? Hd' _]; subst. unfold is_digit in Hd'.
  destruct ds as [|e ds].
  - cbn [app]. unfold dec_value. cbn [fold_left]. rewrite dig_small by lia. f_equal. lia.
  - cbn [app hd] in H4.
    assert (He : e <> 48) by (intros ->; specialize (H4 eq_refl); destruct ds; discriminate).
    assert (Hnum : numeral (dec_value (e :: ds)) (e :: ds)).
    { repeat split; try discriminate; [exact H2|]. cbn [hd]. intros E. congruence. }
    pose proof (IH _ Hnum) as E.
    assert (Hpos : dec_value (e :: ds) <> 0).
    { intros Hz. rewrite Hz in E. rewrite dig_small in E by lia. injection E as -> _. lia. }
    rewrite dig_big by lia.
    replace ((10 * dec_value (e :: ds) + (d - 48)) / 10) with (dec_value (e :: ds)) by lia.
    rewrite <- E. f_equal. f_equal. lia.
Qed.

(** * Parsing numbers *)
Lemma load_pre (pre : list N) b post : load (pre ++ b :: post) (length pre) = Ret b.
Proof. unfold load. rewrite nth_error_app2, Nat.sub_diag by lia. reflexivity. Qed.

Lemma fold_dec_mono ds : forall a, a <= fold_left (fun acc d => 10 * acc + (d - 48)) ds a.
Proof.
  induction ds as [|d ds IH]; intros a; cbn [fold_left]; [lia|].
  eapply N.le_trans; [|apply IH]. lia.
Qed.

Definition stops (rest post : list N) : Prop :=
  match rest with d :: _ => ~ is_digit d | [] => True end.

Lemma consume_loop_spec run : forall pre rest post value fuel,
  Forall is_digit run -> (match rest with d :: _ => ~ is_digit d | [] => True end) ->
  value < 2 ^ 64 -> (length run < fuel)%nat ->
  consume_loop fuel (pre ++ run ++ rest ++ post) (length pre) (length pre + length run + length rest) value
  = let v := fold_left (fun acc d => 10 * acc + (d - 48)) run value in
    if v <? 2 ^ 64 then Ret (Some ((length pre + length run)%nat, v)) else Ret None.
Proof.
  induction run as [|d run IH]; intros pre rest post value fuel Hrun Hrest Hv Hf.
  - destruct fuel as [|fuel]; [lia|]. cbn [consume_loop length app fold_left]. cbv zeta.
    destruct (N.ltb_spec value (2 ^ 64)); [|lia]. rewrite Nat.add_0_r.
    destruct rest as [|b rest].
    + cbn [length]. rewrite Nat.add_0_r, Nat.eqb_refl. reflexivity.
    + cbn [length]. destruct (Nat.eqb_spec (length pre) (length pre + S (length rest))); [lia|].
      cbn [app]. rewrite load_pre. cbn [bind]. unfold is_digit in Hrest.
      destruct (N.ltb_spec b 48); [reflexivity|]. destruct (N.ltb_spec 57 b); [reflexivity|]. lia.
  - destruct fuel as [|fuel]; [lia|]. cbn [consume_loop length app].
    inversion Hrun as [|? ? Hd Hrun']; subst. unfold is_digit in Hd.
    destruct (Nat.eqb_spec (length pre) (length pre + S (length run) + length rest)); [lia|].
    rewrite load_pre. cbn [bind].
    destruct (N.ltb_spec d 48); [lia|]. destruct (N.ltb_spec 57 d); [lia|]. cbn [orb].
    cbn [fold_left]. cbv zeta.
    unfold kMaxUint64, kLastDigitOfMaxUint64, kMaxUint64.
    change ((2 ^ 64 - 1) / 10) with 1844674407370955161. change (48 + (2 ^ 64 - 1) mod 10) with 53.
    change (2 ^ 64) with 18446744073709551616 in *.
    destruct (N.ltb_spec 1844674407370955161 value) as [Hov|Hov]; cbn [orb].
    { pose proof (fold_dec_mono run (10 * value + (d - 48))) as Hm.
      destruct (N.ltb_spec (fold_left (fun acc d0 => 10 * acc + (d0 - 48)) run (10 * value + (d - 48))) 18446744073709551616);
        [lia|reflexivity]. }
    destruct (N.eqb_spec value 1844674407370955161) as [He|He]; cbn [andb].
    + destruct (N.ltb_spec 53 d) as [Hd2|Hd2].
      { pose proof (fold_dec_mono run (10 * value + (d - 48))) as Hm.
        destruct (N.ltb_spec (fold_left (fun acc d0 => 10 * acc + (d0 - 48)) run (10 * value + (d - 48))) 18446744073709551616);
          [lia|reflexivity]. }
      assert (E : u64 (u64 (value * 10) + (d - 48)) = 10 * value + (d - 48)).
      { unfold u64. change (2 ^ 64) with 18446744073709551616. rewrite !N.mod_small by lia. lia. }
      rewrite E.
      specialize (IH (pre ++ [d]) rest post (10 * value + (d - 48)) fuel Hrun' Hrest ltac:(lia) ltac:(cbn in Hf; lia)).
      rewrite <- app_assoc in IH. rewrite app_length in IH. cbn [length app] in IH. cbv zeta in IH.
      replace (length pre + S (length run) + length rest)%nat with (length pre + 1 + length run + length rest)%nat by lia.
      replace (length pre + S (length run))%nat with (length pre + 1 + length run)%nat by lia. exact IH.
    + assert (E : u64 (u64 (value * 10) + (d - 48)) = 10 * value + (d - 48)).
      { unfold u64. change (2 ^ 64) with 18446744073709551616. rewrite !N.mod_small by lia. lia. }
      rewrite E.
      specialize (IH (pre ++ [d]) rest post (10 * value + (d - 48)) fuel Hrun' Hrest ltac:(lia) ltac:(cbn in Hf; lia)).
      rewrite <- app_assoc in IH. rewrite app_length in IH. cbn [length app] in IH. cbv zeta in IH.
      replace (length pre + S (length run) + length rest)%nat with (length pre + 1 + length run + length rest)%nat by lia.
      replace (length pre + S (length run))%nat with (length pre + 1 + length run)%nat by lia. exact IH.
Qed.

Lemma Consume_spec dbg pre run rest post old :
  Forall is_digit run -> (match rest with d :: _ => ~ is_digit d | [] => True end) ->
  ConsumeDecimalNumber dbg (pre ++ run ++ rest ++ post) (mk_slice (length pre) (length run + length rest)) old
  = if dec_value run <? 2 ^ 64
    then Ret (negb (Nat.eqb (length run) 0), mk_slice (length pre + length run) (length rest), dec_value run)
    else Ret (false, mk_slice (length pre) (length run + length rest), old).
Proof.
  intros Hrun Hrest. unfold ConsumeDecimalNumber. cbn [s_data s_size].
  rewrite Nat.add_assoc, consume_loop_spec by (try assumption; try lia; reflexivity).
  cbv zeta. fold (dec_value run).
  destruct (N.ltb_spec (dec_value run) (2 ^ 64)); [|reflexivity]. cbn [bind].
  unfold slice_remove_prefix, assert_, remove_prefix. cbn [s_size s_data].
  replace (length pre + length run - length pre)%nat with (length run) by lia.
  destruct (Nat.leb_spec (length run) (length run + length rest)); [|lia].
  rewrite andb_false_r. cbn [bind].
  replace (length run + length rest - length run)%nat with (length rest) by lia. reflexivity.
Qed.

(** every string splits into its maximal digit run and the rest *)
Lemma digit_split bs : exists run rest, bs = run ++ rest /\ Forall is_digit run /\
  (match rest with d :: _ => ~ is_digit d | [] => True end).
Proof.
  induction bs as [|b bs (run & rest & -> & H1 & H2)].
  - exists [], []. repeat split. constructor.
  - destruct (N.le_gt_cases 48 b) as [H|H]; [destruct (N.le_gt_cases b 57) as [H'|H']|].
    + exists (b :: run), rest. repeat split; [|exact H2]. constructor; [split; assumption|exact H1].
    + exists [], (b :: run ++ rest). repeat split; [constructor|]. unfold is_digit. lia.
    + exists [], (b :: run ++ rest). repeat split; [constructor|]. unfold is_digit. lia.
Qed.

(** * Escaping *)
Definition esc_ok (sgn : bool) (b : N) : bool :=
  match escape_step sgn [] b with
  | Ret l => if list_eq_dec N.eq_dec l (escape_byte b) then true else false
  | _ => false
  end.

Lemma append_cstr_app str buf : append_cstr str buf =
  match append_cstr [] buf with Ret l => Ret (str ++ l) | UB => UB | AssertFail => AssertFail | OutOfFuel => OutOfFuel end.
Proof. unfold append_cstr. destruct (strlen_list buf); reflexivity. Qed.

Lemma escape_step_eq sgn str b : b < 256 -> escape_step sgn str b = Ret (str ++ escape_byte b).
Proof.
  intros Hb.
  assert (H : esc_ok sgn b = true).
  { destruct sgn.
    - apply (sweep (esc_ok true) 256); [vm_compute; reflexivity|lia].
    - apply (sweep (esc_ok false) 256); [vm_compute; reflexivity|lia]. }
  unfold esc_ok in H.
  assert (E : escape_step sgn str b = match escape_step sgn [] b with
     Ret l => Ret (str ++ l) | UB => UB | AssertFail => AssertFail | OutOfFuel => OutOfFuel end).
  { unfold escape_step. destruct (_ && _); [reflexivity|]. cbv zeta. rewrite append_cstr_app. reflexivity. }
  rewrite E. destruct (escape_step sgn [] b); try discriminate.
  destruct (list_eq_dec N.eq_dec a (escape_byte b)) as [->|]; [reflexivity|discriminate].
Qed.

Lemma escape_loop_eq sgn dbg bs : forall pre done post str fuel, bytes_ok bs -> (length bs < fuel)%nat ->
  escape_loop sgn dbg (pre ++ done ++ bs ++ post) (mk_slice (length pre) (length done + length bs)) fuel (length done) str
  = Ret (str ++ escape_spec bs).
Proof.
  induction bs as [|b bs IH]; intros pre done post str fuel Hok Hf; (destruct fuel as [|fuel]; [lia|]);
    cbn [escape_loop s_size s_data].
  - cbn [length]. rewrite Nat.add_0_r, Nat.ltb_irrefl. cbn [escape_spec flat_map]. rewrite app_nil_r. reflexivity.
  - inversion Hok as [|? ? Hb Hok']; subst.
    cbn [length]. destruct (Nat.ltb_spec (length done) (length done + S (length bs))); [|lia].
    unfold slice_index, assert_. cbn [s_size s_data].
    destruct (Nat.ltb_spec (length done) (length done + S (length bs))); [|lia].
    rewrite andb_false_r. cbn [bind app].
    rewrite <- app_length, app_assoc, load_pre. cbn [bind].
    rewrite escape_step_eq by exact Hb. cbn [bind].
    specialize (IH pre (done ++ [b]) post (str ++ escape_byte b) fuel Hok' ltac:(cbn in Hf; lia)).
    rewrite <- !app_assoc in IH. rewrite (app_length done [b]) in IH. cbn [length app] in IH.
    rewrite <- app_assoc.
    replace (length done + S (length bs))%nat with (length done + 1 + length bs)%nat by lia.
    rewrite IH. cbn [escape_spec flat_map]. reflexivity.
Qed.

Lemma escape_eq sgn dbg pre bs post str : bytes_ok bs ->
  AppendEscapedStringTo sgn dbg (pre ++ bs ++ post) str (mk_slice (length pre) (length bs))
  = Ret (str ++ escape_spec bs).
Proof.
  intros Hok. unfold AppendEscapedStringTo. cbn [s_size].
  exact (escape_loop_eq sgn dbg bs pre [] post str (S (length bs)) Hok ltac:(lia)).
Qed.

(** left inverse on strings without backslash *)
Definition unhex (c : N) : N := if c <? 58 then c - 48 else c - 87.
Fixpoint unescape (l : list N) : list N :=
  match l with
  | [] => []
  | c :: t =>
      if c =? 92 then
        match t with _ :: h1 :: h2 :: rest => (16 * unhex h1 + unhex h2) :: unescape rest | _ => [] end
      else c :: unescape t
  end.

Definition unesc_ok (b : N) : bool :=
  match escape_byte b with
  | [c; x; h1; h2] => (c =? 92) && (16 * unhex h1 + unhex h2 =? b)
  | [c] => (c =? b) && ((c =? 92) || negb (c =? 92))
  | _ => false
  end.

Lemma escape_byte_inv b : b < 256 -> b <> 92 ->
  (escape_byte b = [b]) \/ (exists h1 h2, escape_byte b = [92; 120; h1; h2] /\ 16 * unhex h1 + unhex h2 = b).
Proof.
  intros Hb Hne.
  pose proof (sweep unesc_ok 256 ltac:(vm_compute; reflexivity) b ltac:(lia)) as H.
  unfold unesc_ok, escape_byte in *.
  destruct ((32 <=? b) && (b <=? 126)); [left; reflexivity|right].
  exists (hex_char (b / 16)), (hex_char (b mod 16)). split; [reflexivity|].
  apply andb_prop in H. destruct H as [_ H]. apply N.eqb_eq in H. exact H.
Qed.

Lemma unescape_other b l : b <> 92 -> unescape (b :: l) = b :: unescape l.
Proof. intros H. cbn [unescape]. destruct (N.eqb_spec b 92); [congruence|reflexivity]. Qed.

Lemma unescape_escape bs : bytes_ok bs -> ~ In 92 bs -> unescape (escape_spec bs) = bs.
Proof.
  induction bs as [|b bs IH]; intros Hok Hno; [reflexivity|].
  inversion Hok as [|? ? Hb Hok']; subst. cbn [escape_spec flat_map].
  assert (Hne : b <> 92) by (intros ->; apply Hno; left; reflexivity).
  assert (IH' : unescape (escape_spec bs) = bs) by (apply IH; [exact Hok'|intros H; apply Hno; right; exact H]).
  destruct (escape_byte_inv b Hb Hne) as [E|(h1 & h2 & E & Ev)]; rewrite E.
  - change ([b] ++ flat_map escape_byte bs) with (b :: escape_spec bs).
    rewrite unescape_other, IH' by exact Hne. reflexivity.
  - cbn [app unescape]. rewrite N.eqb_refl, Ev.
    change (flat_map escape_byte bs) with (escape_spec bs). rewrite IH'. reflexivity.
Qed.

Definition printable_out (b : N) : bool := forallb (fun c => (32 <=? c) && (c <=? 126)) (escape_byte b).
Lemma escape_printable bs : bytes_ok bs -> Forall printable (escape_spec bs).
Proof.
  induction bs as [|b bs IH]; intros Hok; [constructor|].
  inversion Hok as [|? ? Hb Hok']; subst. cbn [escape_spec flat_map]. apply Forall_app. split; [|apply IH, Hok'].
  pose proof (sweep printable_out 256 ltac:(vm_compute; reflexivity) b ltac:(unfold byte_ok in Hb; lia)) as H.
  unfold printable_out in H. rewrite forallb_forall in H. apply Forall_forall. intros x Hx.
  specialize (H x Hx). unfold printable. lia.
Qed.

Lemma escape_id bs : Forall printable bs -> escape_spec bs = bs.
Proof.
  induction bs as [|b bs IH]; intros H; [reflexivity|]. inversion H as [|? ? Hb H']; subst.
  cbn [escape_spec flat_map]. change (flat_map escape_byte bs) with (escape_spec bs). rewrite IH by exact H'.
  unfold escape_byte, printable in *. destruct (N.leb_spec 32 b); [|lia]. destruct (N.leb_spec b 126); [|lia]. reflexivity.
Qed.
