(** SliceProps.v -- property theorems for include/lsmdb/slice.h (C09, C10). *)
From Coq Require Import List NArith ZArith Arith Lia Bool.
From Verif Require Import Outcome Coding CodingSpec CodingProofs Slice SliceSpec SliceProofs.
Import ListNotations.

(** ** C09 *)
Theorem C09_compare_is_lexicographic : forall mc m x y,
  memcmp_sign mc ->
  (s_data x + s_size x <= length m)%nat -> (s_data y + s_size y <= length m)%nat ->
  let X := bytes_at m (s_data x) (s_size x) in
  let Y := bytes_at m (s_data y) (s_size y) in
  exists r, slice_compare mc m x y = Ret r /\
    ((r < 0)%Z <-> lex_lt X Y) /\ (r = 0%Z <-> X = Y) /\ ((r > 0)%Z <-> lex_lt Y X).
Proof.
  intros mc m x y Hmc Hx Hy X Y. exists (lcmp mc X Y).
  split; [exact (slice_compare_list mc m x y Hx Hy)|].
  split; [apply lcmp_lt, Hmc|]. split; [apply lcmp_eq, Hmc|apply lcmp_gt, Hmc].
Qed.
Print Assumptions C09_compare_is_lexicographic.

(** hence an order: antisymmetric in sign, transitive, total *)
Theorem C09_compare_total_order : forall mc m x y z,
  memcmp_sign mc ->
  (s_data x + s_size x <= length m)%nat -> (s_data y + s_size y <= length m)%nat ->
  (s_data z + s_size z <= length m)%nat ->
  exists xy yx yz xz,
    slice_compare mc m x y = Ret xy /\ slice_compare mc m y x = Ret yx /\
    slice_compare mc m y z = Ret yz /\ slice_compare mc m x z = Ret xz /\
    Z.sgn yx = (- Z.sgn xy)%Z /\
    ((xy <= 0)%Z -> (yz <= 0)%Z -> (xz <= 0)%Z) /\
    ((xy < 0)%Z -> (yz <= 0)%Z -> (xz < 0)%Z) /\
    ((xy <= 0)%Z -> (yz < 0)%Z -> (xz < 0)%Z).
Proof.
  intros mc m x y z Hmc Hx Hy Hz.
  destruct (C09_compare_is_lexicographic mc m x y Hmc Hx Hy) as (xy & E1 & A1 & A2 & A3).
  destruct (C09_compare_is_lexicographic mc m y x Hmc Hy Hx) as (yx & E2 & B1 & B2 & B3).
  destruct (C09_compare_is_lexicographic mc m y z Hmc Hy Hz) as (yz & E3 & D1 & D2 & D3).
  destruct (C09_compare_is_lexicographic mc m x z Hmc Hx Hz) as (xz & E4 & F1 & F2 & F3).
  cbv zeta in *.
  exists xy, yx, yz, xz. repeat (split; [assumption|]).
  assert (Htrans : forall a b c, lex_lt a b -> lex_lt b c -> lex_lt a c).
  { clear. induction a as [|p a IH]; intros b c H1 H2.
    - destruct c as [|e c]; [destruct (lex_lt_nil _ H2)|]. left. exists e, c. reflexivity.
    - destruct b as [|q b]; [destruct (lex_lt_nil _ H1)|].
      destruct c as [|e c]; [destruct (lex_lt_nil _ H2)|].
      rewrite lex_lt_cons in *. destruct H1 as [H1|[-> H1]], H2 as [H2|[-> H2]].
      + left. lia.
      + left. exact H1.
      + left. exact H2.
      + right. split; [reflexivity|]. eapply IH; eassumption. }
  split.
  - destruct (Z.lt_total xy 0) as [H|[H|H]].
    + assert (yx > 0)%Z by (apply B3, A1, H). rewrite (Z.sgn_neg xy), (Z.sgn_pos yx) by lia. reflexivity.
    + assert (yx = 0)%Z by (apply B2; symmetry; apply A2, H). subst yx xy. reflexivity.
    + assert (yx < 0)%Z by (apply B1, A3; lia). rewrite (Z.sgn_pos xy), (Z.sgn_neg yx) by lia. reflexivity.
  - assert (Hc : forall r, (r <= 0)%Z -> (r < 0)%Z \/ r = 0%Z) by lia.
    split; [|split]; intros H1 H2.
    + destruct (Hc _ H1) as [H1'|H1'], (Hc _ H2) as [H2'|H2'].
      * apply A1 in H1'. apply D1 in H2'. assert (xz < 0)%Z by (apply F1; eauto). lia.
      * apply A1 in H1'. apply D2 in H2'. rewrite H2' in H1'. apply F1 in H1'. lia.
      * apply A2 in H1'. apply D1 in H2'. rewrite <- H1' in H2'. apply F1 in H2'. lia.
      * apply A2 in H1'. apply D2 in H2'. rewrite H2' in H1'. apply F2 in H1'. lia.
    + destruct (Hc _ H2) as [H2'|H2']; apply F1; apply A1 in H1.
      * apply D1 in H2'. eauto.
      * apply D2 in H2'. rewrite <- H2'. exact H1.
    + destruct (Hc _ H1) as [H1'|H1']; apply F1; apply D1 in H2.
      * apply A1 in H1'. eauto.
      * apply A2 in H1'. rewrite H1'. exact H2.
Qed.
Print Assumptions C09_compare_total_order.

Theorem C09_equality : forall mc m x y,
  memcmp_sign mc ->
  (s_data x + s_size x <= length m)%nat -> (s_data y + s_size y <= length m)%nat ->
  exists e, slice_eq mc m x y = Ret e /\ slice_ne mc m x y = Ret (negb e) /\
    (e = true <-> bytes_at m (s_data x) (s_size x) = bytes_at m (s_data y) (s_size y)) /\
    (e = true <-> slice_compare mc m x y = Ret 0%Z).
Proof.
  intros mc m x y Hmc Hx Hy.
  destruct (slice_eq_spec mc m x y Hmc Hx Hy) as (e & E & He). exists e.
  split; [exact E|]. split; [unfold slice_ne; rewrite E; reflexivity|]. split; [exact He|].
  destruct (C09_compare_is_lexicographic mc m x y Hmc Hx Hy) as (r & Er & _ & Hr & _). cbv zeta in Hr.
  rewrite Er. rewrite He. unfold view. rewrite <- Hr. split; [intros ->; reflexivity|intros H; injection H; auto].
Qed.
Print Assumptions C09_equality.

(** a memcmp with the required sign exists; "ab" < "b" and 0x80 > 'a' (unsigned) *)
Example C09_case :
  memcmp_sign (fun a b => (Z.of_N a - Z.of_N b)%Z) /\
  slice_compare (fun a b => (Z.of_N a - Z.of_N b)%Z) [97; 98; 98; 128]%N (mk_slice 0 2) (mk_slice 2 1) = Ret (-1)%Z /\
  slice_compare (fun a b => (Z.of_N a - Z.of_N b)%Z) [97; 98; 98; 128]%N (mk_slice 3 1) (mk_slice 0 1) = Ret 31%Z.
Proof. split; [|split; vm_compute; reflexivity]. intros a b. split; intros H; lia. Qed.

(** ** C10 *)
Theorem C10_starts_with : forall mc m s x,
  memcmp_sign mc ->
  (s_data s + s_size s <= length m)%nat -> (s_data x + s_size x <= length m)%nat ->
  exists b, slice_starts_with mc m s x = Ret b /\
    (b = true <-> exists rest,
       bytes_at m (s_data s) (s_size s) = bytes_at m (s_data x) (s_size x) ++ rest).
Proof. exact slice_starts_with_spec. Qed.
Print Assumptions C10_starts_with.

Theorem C10_remove_prefix : forall dbg m s n,
  (s_data s + s_size s <= length m)%nat -> (n <= s_size s)%nat ->
  exists s', slice_remove_prefix dbg s n = Ret s' /\
    (s_data s' + s_size s' <= length m)%nat /\
    (exists dropped, length dropped = n /\
      bytes_at m (s_data s) (s_size s) = dropped ++ bytes_at m (s_data s') (s_size s')).
Proof.
  intros dbg m s n Hs Hn. exists (mk_slice (s_data s + n) (s_size s - n)).
  unfold slice_remove_prefix, remove_prefix, assert_.
  destruct (Nat.leb_spec n (s_size s)); [|lia]. rewrite andb_false_r. cbn [bind s_data s_size].
  split; [reflexivity|]. split; [lia|].
  exists (firstn n (bytes_at m (s_data s) (s_size s))). split.
  - rewrite firstn_length, bytes_at_length by lia. lia.
  - rewrite bytes_at_skip by exact Hn. symmetry. apply firstn_skipn.
Qed.
Print Assumptions C10_remove_prefix.

(** outside its precondition an assertion-enabled build aborts *)
Theorem C10_remove_prefix_checked : forall s n,
  (s_size s < n)%nat -> slice_remove_prefix true s n = AssertFail.
Proof.
  intros s n H. unfold slice_remove_prefix, assert_.
  destruct (Nat.leb_spec n (s_size s)); [lia|reflexivity].
Qed.
Print Assumptions C10_remove_prefix_checked.

Theorem C10_index : forall dbg m s i,
  (s_data s + s_size s <= length m)%nat ->
  ((i < s_size s)%nat -> exists b, slice_index dbg m s i = Ret b /\
     nth_error (bytes_at m (s_data s) (s_size s)) i = Some b) /\
  ((s_size s <= i)%nat -> slice_index true m s i = AssertFail).
Proof.
  intros dbg m s i Hs. unfold slice_index, assert_. split; intros Hi.
  - destruct (Nat.ltb_spec i (s_size s)); [|lia]. rewrite andb_false_r. cbn [bind]. unfold load.
    rewrite nth_error_bytes_at by exact Hi.
    destruct (nth_error m (s_data s + i)) as [b|] eqn:E; [eauto|].
    apply nth_error_None in E. lia.
  - destruct (Nat.ltb_spec i (s_size s)); [lia|reflexivity].
Qed.
Print Assumptions C10_index.

(** ToString copies the bytes; clear shows no bytes; empty tests for none; a
    Slice made from a C string shows the bytes before the first NUL *)
Theorem C10_views : forall m s lit,
  (s_data s + s_size s <= length m)%nat ->
  slice_ToString m s = Ret (bytes_at m (s_data s) (s_size s)) /\
  bytes_at m (s_data (slice_clear lit s)) (s_size (slice_clear lit s)) = [] /\
  (slice_empty s = true <-> bytes_at m (s_data s) (s_size s) = []) /\
  (forall pre str post, ~ In 0%N str -> m = pre ++ str ++ 0%N :: post ->
     slice_of_cstr m (length pre) = Ret (mk_slice (length pre) (length str))).
Proof.
  intros m s lit Hs. split; [|split; [|split]].
  - unfold slice_ToString. destruct (Nat.leb_spec (s_data s + s_size s) (length m)); [reflexivity|lia].
  - reflexivity.
  - unfold slice_empty. rewrite Nat.eqb_eq. split; intros H.
    + rewrite H. reflexivity.
    + rewrite <- (bytes_at_length m (s_data s) (s_size s)) by exact Hs. rewrite H. reflexivity.
  - intros pre str post Hno ->. unfold slice_of_cstr.
    rewrite skipn_app, skipn_all, Nat.sub_diag. cbn [skipn app].
    assert (E : strlen_list (str ++ 0%N :: post) = Some (length str)).
    { clear -Hno. induction str as [|b str IH]; [reflexivity|]. cbn.
      destruct (N.eqb_spec b 0) as [->|Hb]; [exfalso; apply Hno; left; reflexivity|].
      rewrite IH; [reflexivity|]. intros H. apply Hno. right. exact H. }
    rewrite E. reflexivity.
Qed.
Print Assumptions C10_views.

Example C10_case :
  slice_starts_with (fun a b => (Z.of_N a - Z.of_N b)%Z) [1; 2; 3; 1; 2]%N (mk_slice 0 3) (mk_slice 3 2) = Ret true /\
  slice_remove_prefix true (mk_slice 0 3) 2 = Ret (mk_slice 2 1) /\
  slice_index true [1; 2; 3]%N (mk_slice 1 2) 1 = Ret 3%N.
Proof. repeat split; vm_compute; reflexivity. Qed.
