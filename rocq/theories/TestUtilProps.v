(** TestUtilProps.v -- C89: the generators of test data. *)
From Coq Require Import List Arith NArith ZArith Lia Bool.
From Verif Require Import Outcome Random RandomProofs RandomProps TestUtil.
Import ListNotations.

Lemma set_char_at pre c rest d i : length pre = i -> set_char (pre ++ c :: rest) i d = (pre ++ [d]) ++ rest.
Proof. revert i. induction pre as [|b pre IH]; intros i <-; cbn; [reflexivity|]. now rewrite IH. Qed.
Lemma uniform s n : legal s -> (0 < n < 2 ^ 31)%Z -> exists s', Random_Next s = (s', s') /\ legal s' /\ Random_Uniform s n = Ret ((s' mod Z.to_N n)%N, s').
Proof.
  intros L Hn. destruct (C16_uniform s n L Hn) as (r & s' & E & _ & L' & N & K & _). exists s'. split; [exact N|]. split; [exact L'|]. rewrite E. f_equal. f_equal. apply N2Z.inj. rewrite K, N2Z.inj_mod, Z2N.id by lia. reflexivity.
Qed.
Lemma last_cons {A} (x d : A) l : last (x :: l) d = last l x.
Proof. revert x d. induction l as [|y l IH]; intros x d; [reflexivity|]. change (last (x :: y :: l) d) with (last (y :: l) d). now rewrite !IH. Qed.
Lemma fill_spec : forall k s pre, legal s ->
  fill k (length pre) s (pre ++ repeat 0%N k) = Ret (last (Random_draws k s) s, pre ++ map (fun x => (32 + x mod 95)%N) (Random_draws k s)) /\ legal (last (Random_draws k s) s).
Proof.
  induction k as [|k IH]; intros s pre L; [cbn; auto|]. cbn [fill Random_draws]. destruct (uniform s 95 L ltac:(lia)) as (s' & N & L' & U). rewrite U, N. cbn [bind repeat map].
  rewrite (set_char_at pre 0%N (repeat 0%N k) _ _ eq_refl). change (Z.to_N 95) with 95%N.
  specialize (IH s' (pre ++ [(32 + s' mod 95)%N]) L'). rewrite app_length in IH. cbn [length] in IH. rewrite Nat.add_1_r in IH. destruct IH as (E & L2). rewrite E. rewrite <- app_assoc.
  assert (X : last (s' :: Random_draws k s') s = last (Random_draws k s') s') by apply last_cons.
  rewrite X. auto.
Qed.

(** RandomString: [len] printable characters, one draw of the generator each. *)
Theorem C89_random_string : forall s len, legal s ->
  exists s', RandomString s len = Ret (s', map (fun x => (32 + x mod 95)%N) (Random_draws len s)) /\
    s' = last (Random_draws len s) s /\ legal s' /\
    (forall out, RandomString s len = Ret (s', out) -> length out = len /\ Forall (fun c => (32 <= c <= 126)%N) out).
Proof.
  intros s len L. destruct (fill_spec len s [] L) as (E & L'). exists (last (Random_draws len s) s). unfold RandomString. cbn [length app] in E. rewrite E. split; [reflexivity|]. split; [reflexivity|]. split; [exact L'|]. intros out H. assert (Eo : out = map (fun x => (32 + x mod 95)%N) (Random_draws len s)) by congruence. subst out. split.
  - rewrite map_length. apply draws_length.
  - apply Forall_forall. intros c I0. apply in_map_iff in I0. destruct I0 as (x & <- & _). pose proof (N.mod_lt x 95 ltac:(discriminate)) as M. cbn beta. revert M. generalize (x mod 95)%N. clear. intros y M. lia.
Qed.
(** RandomKey: [len] bytes out of ten. *)
Theorem C89_random_key : forall s len, legal s ->
  exists s', RandomKey s len = Ret (s', map (fun x => nth (N.to_nat (x mod 10)) kTestChars 0%N) (Random_draws len s)) /\ legal s' /\
    (forall out, RandomKey s len = Ret (s', out) -> length out = len /\ Forall (fun c => In c [0; 1; 97; 98; 99; 100; 101; 253; 254; 255]%N) out).
Proof.
  assert (G : forall len s acc, legal s -> exists s', random_key_loop len s acc = Ret (s', acc ++ map (fun x => nth (N.to_nat (x mod 10)) kTestChars 0%N) (Random_draws len s)) /\ legal s').
  { induction len as [|len IH]; intros s acc L; [exists s; cbn; rewrite app_nil_r; auto|]. cbn [random_key_loop Random_draws]. destruct (uniform s (Z.of_nat (length kTestChars)) L ltac:(cbn; lia)) as (s' & N & L' & U). rewrite U, N. cbn [bind map].
    change (Z.to_N (Z.of_nat (length kTestChars))) with 10%N. pose proof (N.mod_lt s' 10 ltac:(lia)) as M. assert (M1 : N.to_nat (s' mod 10) < length kTestChars) by (cbn [length kTestChars]; lia).
    rewrite (nth_error_nth' kTestChars 0%N M1). destruct (IH s' (acc ++ [nth (N.to_nat (s' mod 10)) kTestChars 0%N]) L') as (s2 & E & L2). exists s2. rewrite E, <- app_assoc. auto. }
  intros s len L. destruct (G len s [] L) as (s' & E & L'). exists s'. unfold RandomKey. rewrite E. cbn [app]. split; [reflexivity|]. split; [exact L'|]. intros out H. assert (Eo : out = map (fun x => nth (N.to_nat (x mod 10)) kTestChars 0%N) (Random_draws len s)) by congruence. subst out.
  split; [rewrite map_length; apply draws_length|]. apply Forall_forall. intros c I0. apply in_map_iff in I0. destruct I0 as (x & <- & _). change [0; 1; 97; 98; 99; 100; 101; 253; 254; 255]%N with kTestChars. apply nth_In. pose proof (N.mod_lt x 10 ltac:(lia)). cbn [length kTestChars]. lia.
Qed.

Definition periodic (r : nat) (raw dst : list N) : Prop := forall i, i < length dst -> nth i dst 0%N = nth (i mod r) raw 0%N.
Lemma duplicate_spec len raw : 1 <= length raw -> forall fuel dst q, length dst = q * length raw -> periodic (length raw) raw dst -> len <= fuel + length dst ->
  exists d, duplicate fuel len raw dst = Ret d /\ len <= length d /\ periodic (length raw) raw d.
Proof.
  intros R. induction fuel as [|fuel IH]; intros dst q Q P L; cbn [duplicate]; destruct (Nat.ltb_spec (length dst) len); try lia; try (exists dst; solve [auto]).
  apply (IH (dst ++ raw) (S q)).
  - rewrite app_length. lia.
  - intros i Hi. rewrite app_length in Hi. destruct (Nat.lt_ge_cases i (length dst)) as [C|C].
    + rewrite app_nth1 by exact C. apply P. exact C.
    + rewrite app_nth2 by exact C. f_equal. replace i with ((i - length dst) + q * length raw) at 2 by lia. rewrite Nat.mod_add by lia. rewrite Nat.mod_small; lia.
  - rewrite app_length. lia.
Qed.
(** CompressibleString: it returns, with exactly [len] bytes, which are a random
    string of the requested number of bytes (at least one) again and again. *)
Theorem C89_compressible_string : forall s product len fuel, legal s -> len <= fuel ->
  exists s' raw dst, let r := Z.to_nat (Z.max 1 product) in
    RandomString s r = Ret (s', raw) /\ CompressibleString fuel s product len = Ret (s', dst) /\
    length dst = len /\ forall i, i < len -> nth i dst 0%N = nth (i mod r) raw 0%N.
Proof.
  intros s product len fuel L F. cbv zeta. replace (Z.to_nat (Z.max 1 product)) with (Z.to_nat (if (product <? 1)%Z then 1%Z else product)) by (destruct (Z.ltb_spec product 1); f_equal; lia).
  unfold CompressibleString. set (r := Z.to_nat _).
  assert (Hr : 1 <= r) by (unfold r; destruct (Z.ltb_spec product 1); lia).
  destruct (C89_random_string s r L) as (s' & E & _ & _ & G). destruct (G _ E) as (Lr & _). rewrite E. cbn [bind]. remember (map _ _) as raw eqn:Eraw.
  destruct (duplicate_spec len raw ltac:(lia) fuel [] 0 eq_refl) as (d & Ed & Ld & P); [intros i Hi; cbn in Hi; lia|cbn; lia|].
  rewrite Ed. cbn [bind]. exists s', raw. eexists. split; [reflexivity|]. split; [reflexivity|]. replace (len - length d) with 0 by lia. cbn [repeat]. rewrite app_nil_r.
  assert (Lf : length (firstn len d) = len) by (rewrite firstn_length; lia). split; [exact Lf|]. intros i Hi. rewrite <- (firstn_skipn len d) in P. specialize (P i). rewrite app_length, Lf in P. rewrite app_nth1 in P by lia. rewrite Lr in P. apply P. lia.
Qed.
Print Assumptions C89_random_string.
Print Assumptions C89_random_key.
Print Assumptions C89_compressible_string.
Example C89_case : legal 301 /\ RandomString 301 3 = Ret (938884104%N, [94; 123; 86]%N) /\ RandomKey 301 4 = Ret (115297772%N, [253; 101; 99; 97]%N) /\
  CompressibleString 7 301 3 7 = Ret (938884104%N, [94; 123; 86; 94; 123; 86; 94]%N).
Proof. split; [split; discriminate|]. repeat split. Qed.
