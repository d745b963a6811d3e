(** SliceProofs.v -- lemmas about Slice.v *)
From Coq Require Import List NArith ZArith Arith Lia Bool.
From Verif Require Import Outcome Coding CodingSpec CodingProofs Slice SliceSpec.
Import ListNotations.

(** list-level compare *)
Definition lcmp (mc : N -> N -> Z) (x y : list N) : Z :=
  let n := Nat.min (length x) (length y) in
  let r := memcmp_list mc (firstn n x) (firstn n y) in
  if Z.eqb r 0 then
    if Nat.ltb (length x) (length y) then (-1)%Z
    else if Nat.ltb (length y) (length x) then 1%Z else 0%Z
  else r.

Lemma lcmp_cons mc a x b y : memcmp_sign mc ->
  lcmp mc (a :: x) (b :: y) = if N.eqb a b then lcmp mc x y else mc a b.
Proof.
  intros Hmc. unfold lcmp. cbn [length Nat.min firstn memcmp_list].
  destruct (N.eqb_spec a b) as [->|Hne].
  - change (S (length x) <? S (length y))%nat with (length x <? length y)%nat.
    change (S (length y) <? S (length x))%nat with (length y <? length x)%nat. reflexivity.
  - destruct (Hmc a b) as [H1 H2].
    destruct (Z.eqb_spec (mc a b) 0) as [E|E]; [|reflexivity].
    exfalso. destruct (N.lt_total a b) as [H|[H|H]]; [specialize (H1 H); lia|congruence|specialize (H2 H); lia].
Qed.

Lemma lcmp_eq mc x : forall y, memcmp_sign mc -> (lcmp mc x y = 0%Z <-> x = y).
Proof.
  induction x as [|a x IH]; intros y Hmc; destruct y as [|b y].
  - split; reflexivity.
  - split; intros H; discriminate.
  - split; intros H; discriminate.
  - rewrite lcmp_cons by assumption. destruct (N.eqb_spec a b) as [->|Hne].
    + rewrite IH by assumption. split; [intros ->; reflexivity|intros H; injection H; auto].
    + destruct (Hmc a b) as [H1 H2]. split; [|intros H; injection H; congruence].
      intros E. exfalso. destruct (N.lt_total a b) as [H|[H|H]]; [specialize (H1 H); lia|congruence|specialize (H2 H); lia].
Qed.

Lemma lex_lt_cons a x b y : lex_lt (a :: x) (b :: y) <-> (a < b)%N \/ (a = b /\ lex_lt x y).
Proof.
  split.
  - intros [(c & t & E)|(p & c & d & x' & y' & E1 & E2 & H)].
    + cbn in E. injection E as -> ->. right. split; [reflexivity|]. left. eauto.
    + destruct p as [|e p]; cbn in *.
      * injection E1 as -> ->. injection E2 as -> ->. left. exact H.
      * injection E1 as -> ->. injection E2 as -> ->. right. split; [reflexivity|].
        right. exists p, c, d, x', y'. auto.
  - intros [H|[-> [(c & t & ->)|(p & c & d & x' & y' & -> & -> & H)]]].
    + right. exists [], a, b, x, y. auto.
    + left. exists c, t. reflexivity.
    + right. exists (b :: p), c, d, x', y'. auto.
Qed.

Lemma lex_lt_nil x : ~ lex_lt x [].
Proof. intros [(c & t & E)|(p & a & b & x' & y' & _ & E & _)]; [destruct x|destruct p]; discriminate. Qed.

Lemma lcmp_lt mc x : forall y, memcmp_sign mc -> ((lcmp mc x y < 0)%Z <-> lex_lt x y).
Proof.
  induction x as [|a x IH]; intros y Hmc; destruct y as [|b y].
  - split; [discriminate|intros H; destruct (lex_lt_nil _ H)].
  - split; [|reflexivity]. intros _. left. exists b, y. reflexivity.
  - split; [discriminate|intros H; destruct (lex_lt_nil _ H)].
  - rewrite lcmp_cons, lex_lt_cons by assumption. destruct (N.eqb_spec a b) as [->|Hne].
    + rewrite IH by assumption. split; [auto|intros [H|[_ H]]; [lia|exact H]].
    + destruct (Hmc a b) as [H1 H2]. split.
      * intros H. left. destruct (N.lt_total a b) as [H'|[H'|H']]; [exact H'|congruence|specialize (H2 H'); lia].
      * intros [H|[H _]]; [auto|congruence].
Qed.

Lemma lcmp_gt mc x : forall y, memcmp_sign mc -> ((lcmp mc x y > 0)%Z <-> lex_lt y x).
Proof.
  induction x as [|a x IH]; intros y Hmc; destruct y as [|b y].
  - split; [discriminate|intros H; destruct (lex_lt_nil _ H)].
  - split; [discriminate|intros H; destruct (lex_lt_nil _ H)].
  - split; [|reflexivity]. intros _. left. exists a, x. reflexivity.
  - rewrite lcmp_cons, lex_lt_cons by assumption. destruct (N.eqb_spec a b) as [->|Hne].
    + rewrite IH by assumption. split; [auto|intros [H|[_ H]]; [lia|exact H]].
    + destruct (Hmc a b) as [H1 H2]. split.
      * intros H. left. destruct (N.lt_total a b) as [H'|[H'|H']]; [specialize (H1 H'); lia|congruence|exact H'].
      * intros [H|[H _]]; [auto|congruence].
Qed.

Lemma firstn_bytes_at m p k n : (k <= n)%nat -> bytes_at m p k = firstn k (bytes_at m p n).
Proof. intros H. unfold bytes_at. rewrite firstn_firstn. f_equal. lia. Qed.

Lemma slice_compare_list mc m x y : in_bounds m x -> in_bounds m y ->
  slice_compare mc m x y = Ret (lcmp mc (view m x) (view m y)).
Proof.
  unfold in_bounds. intros Hx Hy. unfold slice_compare.
  set (n := if Nat.ltb (s_size x) (s_size y) then s_size x else s_size y).
  assert (Hn : n = Nat.min (s_size x) (s_size y)) by (subst n; destruct (Nat.ltb_spec (s_size x) (s_size y)); lia).
  clearbody n. unfold memcmp.
  destruct (Nat.leb_spec (s_data x + n) (length m)); [|lia].
  destruct (Nat.leb_spec (s_data y + n) (length m)); [|lia].
  cbn [andb bind]. unfold lcmp, view. rewrite !bytes_at_length by lia.
  fold (bytes_at m (s_data x) n). fold (bytes_at m (s_data y) n).
  rewrite (firstn_bytes_at m (s_data x) n (s_size x)), (firstn_bytes_at m (s_data y) n (s_size y)) by lia.
  rewrite <- Hn.
  destruct (Z.eqb_spec (memcmp_list mc (firstn n (bytes_at m (s_data x) (s_size x)))
     (firstn n (bytes_at m (s_data y) (s_size y)))) 0) as [->|_]; reflexivity.
Qed.

Lemma memcmp_list_zero mc a : forall b, memcmp_sign mc -> length a = length b ->
  (memcmp_list mc a b = 0%Z <-> a = b).
Proof.
  induction a as [|x a IH]; intros b Hmc Hl; destruct b as [|y b]; try discriminate.
  - split; reflexivity.
  - cbn. injection Hl as Hl. destruct (N.eqb_spec x y) as [->|Hne].
    + rewrite IH by assumption. split; [intros ->; reflexivity|intros H; injection H; auto].
    + destruct (Hmc x y) as [H1 H2]. split; [|intros H; injection H; congruence].
      intros E. exfalso. destruct (N.lt_total x y) as [H|[H|H]]; [specialize (H1 H); lia|congruence|specialize (H2 H); lia].
Qed.

Lemma slice_eq_spec mc m x y : memcmp_sign mc -> in_bounds m x -> in_bounds m y ->
  exists b, slice_eq mc m x y = Ret b /\ (b = true <-> view m x = view m y).
Proof.
  unfold in_bounds. intros Hmc Hx Hy. unfold slice_eq.
  destruct (Nat.eqb_spec (s_size x) (s_size y)) as [E|E].
  - unfold memcmp. destruct (Nat.leb_spec (s_data x + s_size x) (length m)); [|lia].
    destruct (Nat.leb_spec (s_data y + s_size x) (length m)); [|lia]. cbn [andb bind].
    eexists. split; [reflexivity|]. rewrite Z.eqb_eq. unfold view. rewrite <- E.
    apply memcmp_list_zero; [exact Hmc|].
    fold (bytes_at m (s_data x) (s_size x)). fold (bytes_at m (s_data y) (s_size x)).
    rewrite !bytes_at_length by lia. reflexivity.
  - exists false. split; [reflexivity|]. split; [discriminate|]. intros Hv. exfalso. apply E.
    rewrite <- (bytes_at_length m (s_data x) (s_size x)), <- (bytes_at_length m (s_data y) (s_size y)) by lia.
    unfold view in Hv. rewrite Hv. reflexivity.
Qed.

Lemma slice_starts_with_spec mc m s x : memcmp_sign mc -> in_bounds m s -> in_bounds m x ->
  exists b, slice_starts_with mc m s x = Ret b /\
    (b = true <-> exists rest, view m s = view m x ++ rest).
Proof.
  unfold in_bounds. intros Hmc Hs Hx. unfold slice_starts_with.
  destruct (Nat.leb_spec (s_size x) (s_size s)) as [Hle|Hlt].
  - unfold memcmp. destruct (Nat.leb_spec (s_data s + s_size x) (length m)); [|lia].
    destruct (Nat.leb_spec (s_data x + s_size x) (length m)); [|lia]. cbn [andb bind].
    eexists. split; [reflexivity|]. rewrite Z.eqb_eq.
    fold (bytes_at m (s_data s) (s_size x)). fold (bytes_at m (s_data x) (s_size x)).
    rewrite memcmp_list_zero by (try exact Hmc; rewrite !bytes_at_length by lia; reflexivity).
    unfold view. rewrite (firstn_bytes_at m (s_data s) (s_size x) (s_size s)) by exact Hle. split.
    + intros E. exists (skipn (s_size x) (bytes_at m (s_data s) (s_size s))).
      rewrite <- E. symmetry. apply firstn_skipn.
    + intros (rest & E). rewrite E, firstn_app, bytes_at_length, Nat.sub_diag by lia.
      rewrite firstn_all2 by (rewrite bytes_at_length; lia). cbn. apply app_nil_r.
  - exists false. split; [reflexivity|]. split; [discriminate|]. intros (rest & E). exfalso.
    assert (HL := f_equal (@length N) E). rewrite app_length in HL. unfold view in HL.
    rewrite !bytes_at_length in HL by lia. lia.
Qed.

Lemma skipn_add {A} (l : list A) : forall p k, skipn k (skipn p l) = skipn (p + k) l.
Proof.
  induction l as [|x l IH]; intros p k; [rewrite !skipn_nil; reflexivity|].
  destruct p; [reflexivity|]. cbn. apply IH.
Qed.

Lemma bytes_at_skip m p n k : (k <= n)%nat -> bytes_at m (p + k) (n - k) = skipn k (bytes_at m p n).
Proof.
  intros H. unfold bytes_at. rewrite skipn_firstn_comm, skipn_add. reflexivity.
Qed.

Lemma nth_error_bytes_at m p n i : (i < n)%nat -> nth_error (bytes_at m p n) i = nth_error m (p + i).
Proof.
  intros H. unfold bytes_at. revert m n i H. induction p as [|p IH]; intros m n i H.
  - cbn [skipn Nat.add]. revert n i H. induction m as [|b m IHm]; intros n i H.
    + rewrite firstn_nil. reflexivity.
    + destruct n; [lia|]. destruct i; [reflexivity|]. cbn. apply IHm. lia.
  - destruct m; [rewrite firstn_nil; destruct i; reflexivity|]. cbn [skipn Nat.add nth_error]. apply IH, H.
Qed.
