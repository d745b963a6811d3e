(** StatusProofs.v -- proofs about Status.v. *)
From Coq Require Import String List Arith NArith Lia Bool.
From Verif Require Import Outcome Heap Status StatusSpec.
Import ListNotations.
Local Open Scope outcome_scope.

Local Opaque N.pow N.modulo N.div.

Lemma bput_at pre c post b :
  bput (pre ++ c :: post) (length pre) b = Ret (pre ++ Some b :: post).
Proof. induction pre as [|x t IH]; cbn; auto. now rewrite IH. Qed.

Lemma bput_oob m p b : length m <= p -> bput m p b = UB.
Proof.
  revert p; induction m as [|x t IH]; intros p Hp; cbn in *; auto.
  destruct p as [|p]; [lia|]. rewrite IH by lia. reflexivity.
Qed.

Lemma bput_length m p b m' : bput m p b = Ret m' -> length m' = length m.
Proof.
  revert p m'; induction m as [|x t IH]; intros p m' H; cbn in H; [discriminate|].
  destruct p as [|p].
  - inversion H; reflexivity.
  - destruct (bput t p b) eqn:E; cbn in H; try discriminate.
    inversion H; cbn. f_equal. eauto.
Qed.

Lemma bput_ret_or_ub m p b : (exists m', bput m p b = Ret m') \/ bput m p b = UB.
Proof.
  revert p; induction m as [|x t IH]; intros p; cbn; auto.
  destruct p as [|p]; [eauto|].
  destruct (IH p) as [[m' E]|E]; rewrite E; cbn; eauto.
Qed.

Lemma bput_bytes_length bs m p m' : bput_bytes m p bs = Ret m' -> length m' = length m.
Proof.
  revert m p; induction bs as [|b r IH]; intros m p H; cbn in H.
  - congruence.
  - destruct (bput m p b) eqn:E; cbn in H; try discriminate.
    apply IH in H. rewrite H. eapply bput_length; eauto.
Qed.

Lemma bput_bytes_ret_or_ub bs m p :
  (exists m', bput_bytes m p bs = Ret m') \/ bput_bytes m p bs = UB.
Proof.
  revert m p; induction bs as [|b r IH]; intros m p; cbn; eauto.
  destruct (bput_ret_or_ub m p b) as [[m' E]|E]; rewrite E; cbn; eauto.
Qed.

Lemma bput_bytes_at bs pre mid post :
  length mid = length bs ->
  bput_bytes (pre ++ mid ++ post) (length pre) bs = Ret (pre ++ map Some bs ++ post).
Proof.
  revert pre mid; induction bs as [|b r IH]; intros pre mid Hl.
  - destruct mid; [reflexivity|discriminate].
  - destruct mid as [|c mid]; [discriminate|]. cbn in Hl.
    cbn [bput_bytes app]. rewrite bput_at. cbn [bind].
    replace (pre ++ Some b :: mid ++ post) with ((pre ++ [Some b]) ++ mid ++ post)
      by now rewrite <- app_assoc.
    replace (S (length pre)) with (length (pre ++ [Some b])) by (rewrite app_length; cbn; lia).
    rewrite IH by lia. now rewrite <- app_assoc.
Qed.

Lemma bput_bytes_at' bs pre mid post p :
  p = length pre -> length mid = length bs ->
  bput_bytes (pre ++ mid ++ post) p bs = Ret (pre ++ map Some bs ++ post).
Proof. intros ->; apply bput_bytes_at. Qed.

Lemma bread_n_at pre bs post :
  bread_n (pre ++ map Some bs ++ post) (length pre) (length bs) = Ret bs.
Proof.
  revert pre; induction bs as [|b r IH]; intros pre; cbn; auto.
  unfold bread. rewrite nth_error_app2 by lia. rewrite Nat.sub_diag. cbn.
  replace (pre ++ Some b :: map Some r ++ post) with ((pre ++ [Some b]) ++ map Some r ++ post)
    by now rewrite <- app_assoc.
  replace (S (length pre)) with (length (pre ++ [Some b])) by (rewrite app_length; cbn; lia).
  rewrite IH. reflexivity.
Qed.

Lemma unle32_le32 v : (v < 2 ^ 32)%N -> unle32 (le32 v) = v.
Proof.
  intros Hv. unfold le32, unle32, u8. rewrite !N.shiftr_div_pow2.
  change (2 ^ 8)%N with 256%N. change (2 ^ 16)%N with 65536%N.
  change (2 ^ 24)%N with 16777216%N.
  assert (H1 : (v = 256 * (v / 256) + v mod 256)%N) by (apply N.div_mod; lia).
  assert (H2 : (v / 256 = 256 * (v / 256 / 256) + (v / 256) mod 256)%N) by (apply N.div_mod; lia).
  assert (H3 : (v / 256 / 256 = 256 * (v / 256 / 256 / 256) + (v / 256 / 256) mod 256)%N)
    by (apply N.div_mod; lia).
  rewrite N.div_div in H2 by lia. rewrite N.div_div in H3 by lia.
  rewrite N.div_div in H3 by lia.
  change (256 * 256)%N with 65536%N in *. change (65536 * 256)%N with 16777216%N in *.
  assert (H4 : (v / 16777216 < 256)%N).
  { apply N.div_lt_upper_bound; [lia|]. change (16777216 * 256)%N with (2^32)%N. lia. }
  rewrite (N.mod_small (v / 16777216) 256) by lia.
  remember (v / 256)%N as a. remember (v / 65536)%N as b. remember (v / 16777216)%N as c.
  remember (v mod 256)%N as r0. remember (a mod 256)%N as r1. remember (b mod 256)%N as r2.
  clear - H1 H2 H3. lia.
Qed.

Notation code_of := factory_code.

(** Contents of the array of an error status. *)
Definition blk (k : kind) (m : list N) : block :=
  map Some (le32 (N.of_nat (length m)) ++ [code_of k] ++ m).

Definition fits (m : list N) : Prop := (N.of_nat (length m) + 5 < 2 ^ 32)%N.

Lemma u32_small x : (x < 2 ^ 32)%N -> u32 x = x.
Proof. intros; unfold u32; now apply N.mod_small. Qed.

Lemma le32_length v : length (le32 v) = 4.
Proof. reflexivity. Qed.

Lemma code_of_u8 k : u8 (code_of k) = code_of k.
Proof. destruct k; reflexivity. Qed.

(** What the constructor builds, for arbitrary lengths, as long as the
    uint32_t size does not overflow. *)
Lemma MakeStatus_ok alc dbg h k m m2 :
  let m1' := firstn (N.to_nat (u32 (N.of_nat (length m)))) m in
  let m2' := firstn (N.to_nat (u32 (N.of_nat (length m2)))) m2 in
  fits (message m1' m2') ->
  MakeStatus alc dbg h (code_of k) m m2 =
    Ret (hput (hput h (alc (dom h)) (repeat None (5 + length (message m1' m2'))))
              (alc (dom h)) (blk k (message m1' m2')), Some (alc (dom h))).
Proof.
  intros m1' m2' Hfit.
  assert (Hl1 : length m1' = N.to_nat (u32 (N.of_nat (length m)))).
  { unfold m1'. rewrite firstn_length. apply Nat.min_l.
    assert ((u32 (N.of_nat (length m)) <= N.of_nat (length m))%N)
      by (unfold u32; apply N.mod_le; discriminate). lia. }
  assert (Hl2 : length m2' = N.to_nat (u32 (N.of_nat (length m2)))).
  { unfold m2'. rewrite firstn_length. apply Nat.min_l.
    assert ((u32 (N.of_nat (length m2)) <= N.of_nat (length m2))%N)
      by (unfold u32; apply N.mod_le; discriminate). lia. }
  unfold MakeStatus. fold m1' m2'.
  set (len1 := u32 (N.of_nat (length m))) in *.
  set (len2 := u32 (N.of_nat (length m2))) in *.
  assert (Hc : (code_of k =? kOk)%N = false) by (destruct k; reflexivity).
  rewrite Hc. unfold assert_. cbn [negb andb]. rewrite Bool.andb_false_r. cbn [bind].
  set (M := message m1' m2') in *.
  assert (Hsz : u32 (len1 + (if (len2 =? 0)%N then 0 else u32 (2 + len2))) = N.of_nat (length M)).
  { unfold fits in Hfit. unfold M, message in *. destruct m2' as [|x t] eqn:Em2.
    - cbn in Hl2. replace len2 with 0%N by lia. cbn [N.eqb]. rewrite u32_small by lia. lia.
    - assert (Hne : (len2 =? 0)%N = false) by (apply N.eqb_neq; cbn in Hl2; lia).
      rewrite Hne. rewrite !app_length in Hfit. rewrite !app_length.
      change (length (bytes_of ": "%string)) with 2 in *.
      rewrite (u32_small (2 + len2)) by lia. rewrite u32_small by lia. lia. }
  rewrite Hsz. unfold fits in Hfit.
  rewrite (u32_small (N.of_nat (length M) + 5)) by lia.
  replace (N.to_nat (N.of_nat (length M) + 5)) with (5 + length M) by lia.
  unfold new_arr. cbv beta iota zeta.
  replace (N.to_nat (N.of_nat (length M) + 5)) with (5 + length M) by lia.
  unfold deref. rewrite hget_hput_eq. cbn [bind].
  (* size *)
  replace (repeat None (5 + length M)) with
      ((@nil (option N)) ++ repeat None 4 ++ (None :: repeat None (length M))) at 1 by reflexivity.
  rewrite (bput_bytes_at' (le32 (N.of_nat (length M))) [] (repeat None 4) _ 0 eq_refl eq_refl).
  cbn [bind app].
  (* code *)
  replace 4 with (length (map Some (le32 (N.of_nat (length M))))) at 1 by reflexivity.
  rewrite bput_at. cbn [bind]. rewrite code_of_u8.
  set (hd := map Some (le32 (N.of_nat (length M)) ++ [code_of k])).
  replace (map Some (le32 (N.of_nat (length M))) ++ Some (code_of k) :: repeat None (length M))
    with (hd ++ repeat None (length M))
    by (unfold hd; rewrite map_app, <- app_assoc; reflexivity).
  assert (Hhd : length hd = 5) by reflexivity.
  assert (HM : length M = length m1' + (if (len2 =? 0)%N then 0 else 2 + length m2')).
  { unfold M, message. destruct m2' as [|x t] eqn:Em2.
    - cbn in Hl2. replace len2 with 0%N by lia. cbn. lia.
    - assert (Hne : (len2 =? 0)%N = false) by (apply N.eqb_neq; cbn in Hl2; lia).
      rewrite Hne, !app_length. cbn [length bytes_of]. 
      change (length (bytes_of ": "%string)) with 2. cbn; lia. }
  destruct (len2 =? 0)%N eqn:E0.
  - apply N.eqb_eq in E0.
    assert (Em2 : m2' = []) by (destruct m2'; [reflexivity|cbn in Hl2; lia]).
    assert (EM : M = m1') by (unfold M, message; now rewrite Em2).
    replace (hd ++ repeat None (length M)) with (hd ++ repeat None (length M) ++ [])
      by now rewrite app_nil_r.
    rewrite (bput_bytes_at' m1' hd (repeat None (length M)) [] 5)
      by (rewrite ?repeat_length; congruence).
    cbn [bind]. rewrite app_nil_r. unfold blk. rewrite EM. do 3 f_equal.
    unfold hd. rewrite <- map_app, EM, <- app_assoc. reflexivity.
  - apply N.eqb_neq in E0.
    assert (EM : M = m1' ++ bytes_of ": "%string ++ m2').
    { unfold M, message. destruct m2' as [|x t] eqn:Em2; [cbn in Hl2; lia|reflexivity]. }
    replace (repeat None (length M)) with
        (repeat (@None N) (length m1') ++ repeat None (2 + length m2'))
      by (rewrite <- repeat_app, HM; reflexivity).
    rewrite (bput_bytes_at' m1' hd (repeat None (length m1')) (repeat None (2 + length m2')) 5)
      by (rewrite ?repeat_length; lia).
    cbn [bind].
    assert (Hb1 : (5 + len1 < 2 ^ 32)%N) by lia.
    assert (Hb2 : (6 + len1 < 2 ^ 32)%N) by lia.
    rewrite (u32_small (5 + len1)), (u32_small (6 + len1)) by assumption.
    change (repeat None (2 + length m2')) with (None :: None :: repeat (@None N) (length m2')).
    rewrite (app_assoc hd).
    replace (N.to_nat (5 + len1)) with (length (hd ++ map Some m1'))
      by (rewrite app_length, map_length, Hhd; lia).
    rewrite bput_at. cbn [bind].
    replace ((hd ++ map Some m1') ++ Some 58%N :: None :: repeat None (length m2'))
      with ((hd ++ map Some m1' ++ [Some 58%N]) ++ None :: repeat None (length m2'))
      by (rewrite <- !app_assoc; reflexivity).
    replace (N.to_nat (6 + len1)) with (length (hd ++ map Some m1' ++ [Some 58%N]))
      by (rewrite !app_length, map_length, Hhd; cbn [length]; lia).
    rewrite bput_at. cbn [bind].
    replace ((hd ++ map Some m1' ++ [Some 58%N]) ++ Some 32%N :: repeat None (length m2'))
      with ((hd ++ map Some m1' ++ [Some 58%N; Some 32%N]) ++ repeat None (length m2') ++ [])
      by (rewrite <- !app_assoc, app_nil_r; reflexivity).
    rewrite (bput_bytes_at' m2' (hd ++ map Some m1' ++ [Some 58%N; Some 32%N])
               (repeat None (length m2')) [] (N.to_nat (7 + len1)))
      by (rewrite ?repeat_length; auto; rewrite !app_length, map_length, Hhd; cbn [length]; lia).
    cbn [bind]. rewrite app_nil_r. unfold blk. do 3 f_equal.
    unfold hd. rewrite EM. rewrite !map_app, <- !app_assoc. reflexivity.
Qed.

(** The allocator returns null size overflow: the size_t just does not fit. *)
Lemma MakeStatus_huge alc dbg h k m :
  (2 ^ 32 - 5 <= N.of_nat (length m) < 2 ^ 32)%N ->
  MakeStatus alc dbg h (code_of k) m [] = UB.
Proof.
  intros [Hlo Hhi]. unfold MakeStatus.
  assert (Hc : (code_of k =? kOk)%N = false) by (destruct k; reflexivity).
  rewrite Hc. unfold assert_. cbn [negb andb]. rewrite Bool.andb_false_r. cbn [bind length].
  change (u32 (N.of_nat 0)) with 0%N. cbn [N.eqb].
  rewrite (u32_small (N.of_nat (length m))) by assumption. rewrite N.add_0_r.
  rewrite (u32_small (N.of_nat (length m))) by assumption.
  set (n := u32 (N.of_nat (length m) + 5)).
  assert (Hn : (n <= 4)%N).
  { unfold n, u32. remember (N.of_nat (length m)) as x. clear Heqx.
    replace (x + 5)%N with ((x + 5 - 2 ^ 32) + 1 * 2 ^ 32)%N by lia.
    rewrite N.mod_add by discriminate. rewrite N.mod_small by lia. lia. }
  unfold new_arr. cbv beta iota zeta. unfold deref. rewrite hget_hput_eq. cbn [bind].
  destruct (bput_bytes_ret_or_ub (le32 (N.of_nat (length m))) (repeat None (N.to_nat n)) 0)
    as [[b Hb]|Hb]; rewrite Hb; cbn [bind]; [|reflexivity].
  apply bput_bytes_length in Hb. rewrite repeat_length in Hb.
  rewrite bput_oob by lia. reflexivity.
Qed.

Lemma bread_n_app_l m p n post bs :
  bread_n m p n = Ret bs -> bread_n (m ++ post) p n = Ret bs.
Proof.
  revert p bs; induction n as [|n IH]; intros p bs H; cbn in *; auto.
  unfold bread in *. destruct (nth_error m p) as [[b|]|] eqn:E; cbn in H; try discriminate.
  rewrite nth_error_app1 by (apply nth_error_Some; congruence). rewrite E. cbn.
  destruct (bread_n m (S p) n) eqn:E2; cbn in H; try discriminate.
  rewrite (IH _ _ E2). exact H.
Qed.

Lemma blk_size k m : bread_n (blk k m) 0 4 = Ret (le32 (N.of_nat (length m))).
Proof.
  unfold blk. rewrite map_app.
  apply (bread_n_at [] (le32 (N.of_nat (length m)))).
Qed.

Lemma blk_code k m : bread (blk k m) 4 = Ret (code_of k).
Proof. reflexivity. Qed.

Lemma blk_length k m : length (blk k m) = 5 + length m.
Proof. unfold blk. rewrite map_length, !app_length. reflexivity. Qed.

Lemma blk_msg k m : bread_n (blk k m) 5 (length m) = Ret m.
Proof.
  unfold blk. rewrite app_assoc, map_app.
  rewrite <- (app_nil_r (map Some m)).
  apply (bread_n_at (map Some (le32 (N.of_nat (length m)) ++ [code_of k])) m []).
Qed.

Lemma blk_all k m : bread_n (blk k m) 0 (5 + length m) =
                    Ret (le32 (N.of_nat (length m)) ++ [code_of k] ++ m).
Proof.
  unfold blk. set (bs := le32 _ ++ _).
  replace (5 + length m) with (length bs) by (unfold bs; rewrite !app_length; reflexivity).
  rewrite <- (app_nil_r (map Some bs)). apply (bread_n_at []).
Qed.

Lemma CopyState_ok alc h a k m :
  hget h a = Some (blk k m) -> fits m ->
  CopyState alc h a =
    Ret (hput (hput h (alc (dom h)) (repeat None (5 + length m))) (alc (dom h)) (blk k m),
         alc (dom h)).
Proof.
  intros Ha Hf. unfold fits in Hf. unfold CopyState, deref. rewrite Ha. cbn [bind].
  rewrite blk_size. cbn [bind]. rewrite unle32_le32 by lia.
  rewrite u32_small by lia. unfold new_arr. cbv beta iota zeta.
  replace (N.to_nat (N.of_nat (length m) + 5)) with (5 + length m) by lia.
  rewrite blk_all. cbn [bind].
  rewrite hget_hput_eq. cbn [bind].
  set (bs := le32 _ ++ _).
  pose proof (bput_bytes_at' bs [] (repeat None (5 + length m)) [] 0 eq_refl) as Hw.
  cbn [app] in Hw. rewrite !app_nil_r in Hw. rewrite Hw.
  2:{ rewrite repeat_length. unfold bs. rewrite !app_length. reflexivity. }
  reflexivity.
Qed.

Lemma type_label_ok k : type_label (code_of k) = Ret (label k).
Proof. destruct k; reflexivity. Qed.

(** A pointer represents a value in a heap. *)
Definition rep (h : sheap) (p : state_ptr) (v : sval) : Prop :=
  match p, v with
  | None, None => True
  | Some a, Some (k, m) => hget h a = Some (blk k m) /\ fits m
  | _, _ => False
  end.

Lemma rep_ToString h p v : rep h p v -> ToString h p = Ret (print v).
Proof.
  destruct p as [a|], v as [[k m]|]; cbn [rep]; try tauto; try (intros _; reflexivity).
  intros [Ha Hf]. unfold fits in Hf. unfold ToString, code_, deref. rewrite Ha. cbn [bind].
  rewrite blk_code. cbn [bind]. rewrite type_label_ok. cbn [bind].
  rewrite blk_size. cbn [bind]. rewrite unle32_le32 by lia. rewrite Nat2N.id.
  rewrite blk_msg. reflexivity.
Qed.

Lemma rep_code h p v : rep h p v ->
  code_ h p = Ret (match v with None => 0%N | Some (k, _) => code_of k end).
Proof.
  destruct p as [a|], v as [[k m]|]; cbn [rep]; try tauto; try (intros _; reflexivity).
  intros [Ha Hf]. unfold code_, deref. rewrite Ha. cbn [bind]. apply blk_code.
Qed.

Lemma rep_ok h p v : rep h p v -> ok_ p = match v with None => true | _ => false end.
Proof. destruct p as [a|], v as [[k m]|]; cbn; tauto. Qed.

Lemma rep_Is h p v k : rep h p v ->
  Is k h p = Ret (match v with None => false | Some (k', _) => kind_eqb k k' end).
Proof.
  intros H.
  replace (Is k) with (IsCode (code_of k)) by (destruct k; reflexivity).
  unfold IsCode. rewrite (rep_code _ _ _ H). cbn [bind].
  destruct v as [[k' m]|]; destruct k; try destruct k'; reflexivity.
Qed.

(** ** Histories *)

(** Every live variable represents its value; the heap blocks are exactly the
    arrays the live error variables point to, each owned by one variable. *)
Record inv (s : sst) (e : senv) : Prop := {
  inv_rep : forall v, match e v, hget (s_vars s) v with
                      | Some x, Some p => rep (s_heap s) p x
                      | None, None => True
                      | _, _ => False
                      end;
  inv_own : forall v w a, hget (s_vars s) v = Some (Some a) ->
                          hget (s_vars s) w = Some (Some a) -> v = w;
  inv_leak : forall a, hget (s_heap s) a <> None ->
                       exists v, hget (s_vars s) v = Some (Some a)
}.

Lemma inv_init : inv sinit senv0.
Proof. split; cbn; intros; auto; congruence. Qed.

Lemma message_length m m2 : length (message m m2) <= length m + 2 + length m2.
Proof.
  unfold message. destruct m2; cbn [length]; [lia|].
  rewrite !app_length. change (length (bytes_of ": "%string)) with 2. cbn [length]. lia.
Qed.

Lemma firstn_u32 (m : list N) :
  (N.of_nat (length m) < 2 ^ 32)%N -> firstn (N.to_nat (u32 (N.of_nat (length m)))) m = m.
Proof.
  intros H. rewrite u32_small by assumption. rewrite Nat2N.id. apply firstn_all.
Qed.

Lemma MakeStatus_fit alc dbg h k m m2 :
  (N.of_nat (length m + length m2) < 2 ^ 32 - 7)%N ->
  MakeStatus alc dbg h (code_of k) m m2 =
    Ret (hput (hput h (alc (dom h)) (repeat None (5 + length (message m m2))))
              (alc (dom h)) (blk k (message m m2)), Some (alc (dom h)))
  /\ fits (message m m2).
Proof.
  intros H. pose proof (message_length m m2) as Hm.
  assert (Hf : fits (message m m2)) by (unfold fits; lia).
  split; [|exact Hf].
  pose proof (MakeStatus_ok alc dbg h k m m2) as HM. cbv zeta in HM.
  rewrite !firstn_u32 in HM by lia. now apply HM.
Qed.

(** Writing a fresh block and pointing a variable (whose old block is already
    gone) to it. *)
Lemma inv_fresh alc s e v k m blk0 :
  allocator_ok alc -> fits m ->
  (forall w, w <> v -> match e w, hget (s_vars s) w with
                      | Some x, Some p => rep (s_heap s) p x
                      | None, None => True
                      | _, _ => False
                      end) ->
  (forall u w a, u <> v -> w <> v -> hget (s_vars s) u = Some (Some a) ->
                 hget (s_vars s) w = Some (Some a) -> u = w) ->
  (forall a, hget (s_heap s) a <> None ->
             exists w, w <> v /\ hget (s_vars s) w = Some (Some a)) ->
  let a := alc (dom (s_heap s)) in
  inv {| s_heap := hput (hput (s_heap s) a blk0) a (blk k m);
         s_vars := hput (s_vars s) v (Some a) |}
      (upd e v (Some (Some (k, m)))).
Proof.
  intros Halc Hf Hrep Hown Hleak a.
  assert (Ha : hget (s_heap s) a = None).
  { apply not_dom_hget. apply Halc. }
  assert (Hget : forall b, hget (hput (hput (s_heap s) a blk0) a (blk k m)) b =
                           if b =? a then Some (blk k m) else hget (s_heap s) b).
  { intros b. rewrite !hget_hput. destruct (b =? a); reflexivity. }
  assert (Hnov : forall w, w <> v -> hget (s_vars s) w <> Some (Some a)).
  { intros w Hw Hwa. specialize (Hrep w Hw). rewrite Hwa in Hrep.
    destruct (e w) as [[[k' m']|]|]; cbn in Hrep; try tauto.
    rewrite Ha in Hrep. destruct Hrep; discriminate. }
  split; cbn [s_heap s_vars].
  - intros w. unfold upd. rewrite hget_hput. destruct (w =? v) eqn:E.
    + cbn [rep]. rewrite Hget, Nat.eqb_refl. auto.
    + apply Nat.eqb_neq in E. specialize (Hrep w E). pose proof (Hnov w E) as Hn.
      destruct (e w) as [x|]; destruct (hget (s_vars s) w) as [p|]; auto.
      destruct p as [b|]; destruct x as [[k' m']|]; cbn [rep] in *; auto.
      rewrite Hget. destruct (b =? a) eqn:Eb; auto.
      apply Nat.eqb_eq in Eb; subst b. exfalso; apply Hn; reflexivity.
  - intros u w b. rewrite !hget_hput.
    destruct (u =? v) eqn:Eu; destruct (w =? v) eqn:Ew.
    + apply Nat.eqb_eq in Eu, Ew. congruence.
    + apply Nat.eqb_neq in Ew. intros H1 H2. inversion H1; subst b.
      exfalso; eapply Hnov; eauto.
    + apply Nat.eqb_neq in Eu. intros H1 H2. inversion H2; subst b.
      exfalso; eapply Hnov; eauto.
    + apply Nat.eqb_neq in Eu, Ew. eauto.
  - intros b. rewrite Hget. destruct (b =? a) eqn:Eb.
    + apply Nat.eqb_eq in Eb; subst b. intros _. exists v. apply hget_hput_eq.
    + intros Hb. destruct (Hleak b Hb) as [w [Hw Hwb]]. exists w.
      rewrite hget_hput_ne; auto.
Qed.

(** delete[] of a variable's array: everything else still fine. *)
Lemma delete_ok s e v p :
  inv s e -> hget (s_vars s) v = Some p ->
  exists h1, delete_arr (s_heap s) p = Ret h1 /\
    (forall w q, w <> v -> hget (s_vars s) w = Some q ->
                 match q with Some a => hget h1 a = hget (s_heap s) a | None => True end) /\
    (forall a, hget h1 a <> None -> hget (s_heap s) a <> None /\
               exists w, w <> v /\ hget (s_vars s) w = Some (Some a)).
Proof.
  intros [Hrep Hown Hleak] Hv. destruct p as [a|]; cbn [delete_arr].
  - pose proof (Hrep v) as Hr. rewrite Hv in Hr.
    destruct (e v) as [[[k m]|]|]; cbn [rep] in Hr; try tauto.
    destruct Hr as [Ha _]. rewrite Ha. eexists. split; [reflexivity|]. split.
    + intros w q Hw Hq. destruct q as [b|]; auto.
      apply hget_hdel_ne. intros ->. apply Hw. eapply Hown; eauto.
    + intros b. rewrite hget_hdel. destruct (b =? a) eqn:E; [congruence|].
      apply Nat.eqb_neq in E. intros Hb. split; auto.
      destruct (Hleak b Hb) as [w Hw]. exists w. split; auto.
      intros ->. rewrite Hw in Hv. congruence.
  - exists (s_heap s). split; [reflexivity|]. split.
    + intros w q _ _. destruct q; auto.
    + intros b Hb. split; auto. destruct (Hleak b Hb) as [w Hw]. exists w. split; auto.
      intros ->. congruence.
Qed.

Lemma rep_frame h h1 p x :
  match p with Some a => hget h1 a = hget h a | None => True end -> rep h p x -> rep h1 p x.
Proof.
  destruct p as [a|]; destruct x as [[k m]|]; cbn [rep]; auto. intros ->; auto.
Qed.

Lemma inv_get s e v x : inv s e -> e v = Some x ->
  exists p, hget (s_vars s) v = Some p /\ rep (s_heap s) p x.
Proof.
  intros [H _ _] He. specialize (H v). rewrite He in H.
  destruct (hget (s_vars s) v) as [p|]; [eauto|tauto].
Qed.

Lemma inv_none s e v : inv s e -> e v = None -> hget (s_vars s) v = None.
Proof.
  intros [H _ _] He. specialize (H v). rewrite He in H.
  destruct (hget (s_vars s) v); tauto.
Qed.

(** Setting a variable to null when its old block is gone. *)
Lemma inv_setnull h1 vs e v :
  (forall w, w <> v -> match e w, hget vs w with
                      | Some x, Some p => rep h1 p x
                      | None, None => True
                      | _, _ => False
                      end) ->
  (forall u w a, hget vs u = Some (Some a) -> hget vs w = Some (Some a) -> u = w) ->
  (forall a, hget h1 a <> None -> exists w, w <> v /\ hget vs w = Some (Some a)) ->
  inv {| s_heap := h1; s_vars := hput vs v None |} (upd e v (Some None)).
Proof.
  intros Hrep Hown Hleak. split; cbn [s_heap s_vars].
  - intros w. unfold upd. rewrite hget_hput. destruct (w =? v) eqn:E; cbn; auto.
    apply Nat.eqb_neq in E. now apply Hrep.
  - intros u w a. rewrite !hget_hput.
    destruct (u =? v); destruct (w =? v); try congruence. eauto.
  - intros b Hb. destruct (Hleak b Hb) as [w [Hw Hwb]]. exists w. rewrite hget_hput_ne; auto.
Qed.

Lemma inv_upd_ext s e e' : (forall v, e v = e' v) -> inv s e -> inv s e'.
Proof.
  intros He [H1 H2 H3]. split; auto. intros v. rewrite <- He. apply H1.
Qed.

Lemma sstep_ok alc dbg s e o e' :
  allocator_ok alc -> inv s e -> spec_step e o = Some e' ->
  exists s', sstep alc dbg s o = Ret s' /\ inv s' e'.
Proof.
  intros Halc Hinv Hs. pose proof Hinv as [Hrep Hown Hleak].
  destruct o as [v|v k m m2|v w|v w|v w|v w|v]; cbn [spec_step] in Hs.
  - (* OK *)
    destruct (e v) eqn:Ev; [discriminate|]. inversion Hs; subst e'.
    cbn [sstep]. eexists; split; [reflexivity|].
    pose proof (inv_none _ _ _ Hinv Ev) as Hv.
    apply inv_setnull; auto.
    + intros w _. apply Hrep.
    + intros a Ha. destruct (Hleak a Ha) as [w Hw]. exists w. split; auto. congruence.
  - (* Err *)
    destruct (e v) eqn:Ev; [discriminate|].
    destruct (N.of_nat (length m + length m2) <? 2 ^ 32 - 7)%N eqn:El; [|discriminate].
    apply N.ltb_lt in El. inversion Hs; subst e'.
    destruct (MakeStatus_fit alc dbg (s_heap s) k m m2 El) as [HM Hf].
    cbn [sstep]. unfold Factory. rewrite HM. cbn [bind]. eexists; split; [reflexivity|].
    pose proof (inv_none _ _ _ Hinv Ev) as Hv.
    apply inv_fresh; auto.
    + intros w _. apply Hrep.
    + intros u w a _ _. apply Hown.
    + intros a Ha. destruct (Hleak a Ha) as [w Hw]. exists w. split; auto. congruence.
  - (* CopyCtor *)
    destruct (e v) eqn:Ev; [discriminate|]. destruct (e w) as [x|] eqn:Ew; [|discriminate].
    inversion Hs; subst e'.
    pose proof (inv_none _ _ _ Hinv Ev) as Hv.
    destruct (inv_get _ _ _ _ Hinv Ew) as [p [Hp Hr]].
    cbn [sstep]. unfold getv. rewrite Hp. cbn [bind].
    destruct p as [a|]; destruct x as [[k m]|]; cbn [rep] in Hr; try tauto; cbn [CopyPtr].
    + destruct Hr as [Ha Hf]. rewrite (CopyState_ok alc _ _ _ _ Ha Hf). cbn [bind].
      eexists; split; [reflexivity|].
      apply inv_fresh; auto.
      * intros u _. apply Hrep.
      * intros u u' b _ _. apply Hown.
      * intros b Hb. destruct (Hleak b Hb) as [u Hu]. exists u. split; auto. congruence.
    + cbn [bind]. eexists; split; [reflexivity|].
      apply inv_setnull; auto.
      * intros u _. apply Hrep.
      * intros b Hb. destruct (Hleak b Hb) as [u Hu]. exists u. split; auto. congruence.
  - (* MoveCtor *)
    destruct (e v) eqn:Ev; [discriminate|]. destruct (e w) as [x|] eqn:Ew; [|discriminate].
    inversion Hs; subst e'.
    pose proof (inv_none _ _ _ Hinv Ev) as Hv.
    destruct (inv_get _ _ _ _ Hinv Ew) as [p [Hp Hr]].
    cbn [sstep]. unfold getv. rewrite Hp. cbn [bind]. eexists; split; [reflexivity|].
    assert (Hvw : v <> w) by congruence.
    split; cbn [s_heap s_vars].
    + intros u. unfold upd. rewrite !hget_hput. destruct (u =? w) eqn:Eu; cbn; auto.
      destruct (u =? v) eqn:Eu2; auto. apply Hrep.
    + intros u u' a. rewrite !hget_hput.
      destruct (u =? w) eqn:E1; [congruence|]. destruct (u' =? w) eqn:E2; [congruence|].
      apply Nat.eqb_neq in E1, E2.
      destruct (u =? v) eqn:E3; destruct (u' =? v) eqn:E4.
      * apply Nat.eqb_eq in E3, E4. congruence.
      * intros H1 H2. inversion H1; subst p. exfalso. apply E2. eapply Hown; eauto.
      * intros H1 H2. inversion H2; subst p. exfalso. apply E1. eapply Hown; eauto.
      * apply Hown.
    + intros a Ha. destruct (Hleak a Ha) as [u Hu].
      destruct (Nat.eq_dec u w) as [->|Hne].
      * exists v. rewrite hget_hput_ne by auto. rewrite hget_hput_eq. congruence.
      * exists u. rewrite hget_hput_ne by auto. rewrite hget_hput_ne by congruence. auto.
  - (* CopyAssign *)
    destruct (e v) as [x0|] eqn:Ev; [|discriminate].
    destruct (e w) as [x|] eqn:Ew; [|discriminate].
    inversion Hs; subst e'.
    destruct (inv_get _ _ _ _ Hinv Ev) as [pv [Hpv Hrv]].
    destruct (inv_get _ _ _ _ Hinv Ew) as [pw [Hpw Hrw]].
    cbn [sstep]. unfold getv. rewrite Hpv, Hpw. cbn [bind].
    assert (Hsame : pv = pw -> inv s (upd e v (Some x))).
    { intros ->. destruct pw as [a|].
      - assert (v = w) by (eapply Hown; eauto). subst w.
        apply (inv_upd_ext s e); auto. intros u. unfold upd.
        destruct (u =? v) eqn:E; auto. apply Nat.eqb_eq in E; subst; auto.
      - destruct x0 as [[? ?]|]; cbn in Hrv; try tauto.
        destruct x as [[? ?]|]; cbn in Hrw; try tauto.
        apply (inv_upd_ext s e); auto. intros u. unfold upd.
        destruct (u =? v) eqn:E; auto. apply Nat.eqb_eq in E; subst; auto. }
    assert (Hdiff : pv <> pw ->
       exists s', (let! h1 := delete_arr (s_heap s) pv in
            let! (h2, p) := CopyPtr alc h1 pw in
            Ret {| s_heap := h2; s_vars := hput (s_vars s) v p |}) = Ret s' /\
            inv s' (upd e v (Some x))).
    { intros Hne. assert (Hvw : v <> w) by congruence.
      destruct (delete_ok s e v pv Hinv Hpv) as [h1 [Hd [Hfr Hlk]]].
      rewrite Hd. cbn [bind].
      assert (Hrep1 : forall u, u <> v -> match e u, hget (s_vars s) u with
                      | Some x, Some p => rep h1 p x
                      | None, None => True
                      | _, _ => False
                      end).
      { intros u Hu. pose proof (Hrep u) as Hru. pose proof (Hfr u) as Hfu.
        destruct (e u) as [xu|]; destruct (hget (s_vars s) u) as [pu|]; auto.
        eapply rep_frame; [|exact Hru]. exact (Hfu pu Hu eq_refl). }
      assert (Hrw1 : rep h1 pw x).
      { eapply rep_frame; [|exact Hrw]. apply (Hfr w pw); auto. }
      destruct pw as [a|]; destruct x as [[k m]|]; cbn [rep] in Hrw1; try tauto; cbn [CopyPtr].
      + destruct Hrw1 as [Ha Hf]. rewrite (CopyState_ok alc _ _ _ _ Ha Hf). cbn [bind].
        eexists; split; [reflexivity|].
        apply (inv_fresh alc {| s_heap := h1; s_vars := s_vars s |}); cbn [s_heap s_vars]; auto.
        * intros u u' b _ _. apply Hown.
        * intros b Hb. apply Hlk in Hb. tauto.
      + cbn [bind]. eexists; split; [reflexivity|].
        apply inv_setnull; auto.
        intros b Hb. apply Hlk in Hb. tauto. }
    destruct pv as [a|], pw as [b|].
    + destruct (a =? b) eqn:E.
      * apply Nat.eqb_eq in E; subst b. exists s. split; auto.
      * apply Nat.eqb_neq in E. apply Hdiff. congruence.
    + apply Hdiff; congruence.
    + apply Hdiff; congruence.
    + exists s. split; auto.
  - (* MoveAssign *)
    destruct (e v) as [x|] eqn:Ev; [|discriminate].
    destruct (e w) as [y|] eqn:Ew; [|discriminate].
    inversion Hs; subst e'.
    destruct (inv_get _ _ _ _ Hinv Ev) as [pv [Hpv Hrv]].
    destruct (inv_get _ _ _ _ Hinv Ew) as [pw [Hpw Hrw]].
    cbn [sstep]. unfold getv. rewrite Hpv, Hpw. cbn [bind].
    eexists; split; [reflexivity|].
    split; cbn [s_heap s_vars].
    + intros u. unfold upd. rewrite !hget_hput. destruct (u =? w) eqn:Eu; cbn; auto.
      destruct (u =? v) eqn:Eu2; auto. apply Hrep.
    + set (sw := fun u => if u =? w then v else if u =? v then w else u).
      assert (Hsw : forall u, hget (hput (hput (s_vars s) v pw) w pv) u = hget (s_vars s) (sw u)).
      { intros u. unfold sw. rewrite !hget_hput. destruct (u =? w); [auto|].
        destruct (u =? v); auto. }
      intros u u' a. rewrite !Hsw. intros H1 H2.
      assert (E : sw u = sw u') by (eapply Hown; eauto). revert E. unfold sw.
      destruct (u =? w) eqn:E1; destruct (u' =? w) eqn:E2;
        destruct (u =? v) eqn:E3; destruct (u' =? v) eqn:E4;
        rewrite ?Nat.eqb_eq, ?Nat.eqb_neq in *; intros; subst; congruence.
    + intros a Ha. destruct (Hleak a Ha) as [u Hu].
      destruct (Nat.eq_dec u v) as [->|Hne].
      * exists w. rewrite hget_hput_eq. congruence.
      * destruct (Nat.eq_dec u w) as [->|Hne2].
        -- exists v. rewrite hget_hput_ne by auto. rewrite hget_hput_eq. congruence.
        -- exists u. rewrite !hget_hput_ne by auto. auto.
  - (* Destroy *)
    destruct (e v) as [x|] eqn:Ev; [|discriminate]. inversion Hs; subst e'.
    destruct (inv_get _ _ _ _ Hinv Ev) as [pv [Hpv Hrv]].
    cbn [sstep]. unfold getv. rewrite Hpv. cbn [bind].
    destruct (delete_ok s e v pv Hinv Hpv) as [h1 [Hd [Hfr Hlk]]].
    rewrite Hd. cbn [bind]. eexists; split; [reflexivity|].
    split; cbn [s_heap s_vars].
    + intros u. unfold upd. rewrite hget_hdel. destruct (u =? v) eqn:Eu; auto.
      apply Nat.eqb_neq in Eu. pose proof (Hrep u) as Hru. pose proof (Hfr u) as Hfu.
      destruct (e u) as [xu|]; destruct (hget (s_vars s) u) as [pu|]; auto.
      eapply rep_frame; [|exact Hru]. exact (Hfu pu Eu eq_refl).
    + intros u u' a. rewrite !hget_hdel.
      destruct (u =? v); destruct (u' =? v); try congruence. apply Hown.
    + intros b Hb. apply Hlk in Hb. destruct Hb as [_ [u [Hu1 Hu2]]].
      exists u. rewrite hget_hdel_ne; auto.
Qed.

Lemma srun_ok alc dbg ops : allocator_ok alc -> forall s e e',
  inv s e -> spec_run e ops = Some e' ->
  exists s', srun alc dbg s ops = Ret s' /\ inv s' e'.
Proof.
  intros Halc. induction ops as [|o r IH]; intros s e e' Hinv Hs; cbn in *.
  - inversion Hs; subst. eauto.
  - destruct (spec_step e o) as [e1|] eqn:E; [|discriminate].
    destruct (sstep_ok alc dbg s e o e1 Halc Hinv E) as [s1 [H1 Hi1]].
    rewrite H1. cbn [bind]. eauto.
Qed.

Lemma inv_all_dead s e : inv s e -> (forall v, e v = None) -> s_heap s = [].
Proof.
  intros Hinv He. pose proof Hinv as [_ _ Hleak]. apply heap_empty. intros a.
  destruct (hget (s_heap s) a) eqn:Ha; auto.
  destruct (Hleak a) as [v Hv]; [congruence|].
  rewrite (inv_none _ _ v Hinv (He v)) in Hv. discriminate.
Qed.
