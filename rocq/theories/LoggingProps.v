(** LoggingProps.v -- property theorems for util/logging.cc (C13-C15). *)
From Coq Require Import List NArith Arith Lia Bool.
From Verif Require Import Outcome Coding CodingSpec CodingProofs Slice SliceProofs Logging LoggingSpec LoggingProofs.
Import ListNotations.
Local Open Scope N_scope.

(** ** C13 *)
Theorem C13_number_roundtrip : forall n dst dbg pre following post old,
  n < 2 ^ 64 -> ~ starts_with_digit following ->
  exists ds,
    AppendNumberTo dst n = Ret (dst ++ ds) /\
    NumberToString n = Ret ds /\
    numeral n ds /\ (forall ds', numeral n ds' -> ds' = ds) /\
    (length ds <= 20)%nat /\
    ConsumeDecimalNumber dbg (pre ++ ds ++ following ++ post)
        (mk_slice (length pre) (length ds + length following)) old
      = Ret (true, mk_slice (length pre + length ds) (length following), n).
Proof.
  intros n dst dbg pre following post old Hn Hf. exists (dig n).
  destruct (AppendNumberTo_eq dst n Hn) as [E Hl]. destruct (AppendNumberTo_eq [] n Hn) as [E0 _].
  pose proof (dig_numeral n) as Hnum.
  split; [exact E|]. split; [exact E0|]. split; [exact Hnum|].
  split; [intros ds' H; apply numeral_unique, H|]. split; [exact Hl|].
  destruct Hnum as (H1 & H2 & H3 & H4).
  rewrite Consume_spec.
  - rewrite H3. destruct (N.ltb_spec n (2 ^ 64)); [|lia].
    destruct (dig n); [congruence|reflexivity].
  - exact H2.
  - destruct following as [|d t]; [exact I|]. intros Hd. apply Hf. exists d, t. auto.
Qed.
Print Assumptions C13_number_roundtrip.

Example C13_case :
  NumberToString 18446744073709551615 = Ret [49;56;52;52;54;55;52;52;48;55;51;55;48;57;53;53;49;54;49;53] /\
  ConsumeDecimalNumber true [49;48;97] (mk_slice 0 3) 7 = Ret (true, mk_slice 2 1, 10).
Proof. split; vm_compute; reflexivity. Qed.

(** ** C14 *)
(** [run] is the maximal run of leading digits of what the slice shows *)
Theorem C14_parse_exact : forall dbg pre run rest post old,
  Forall is_digit run -> ~ starts_with_digit rest ->
  let m := pre ++ run ++ rest ++ post in
  let s := mk_slice (length pre) (length run + length rest) in
  (run <> [] -> dec_value run <= 2 ^ 64 - 1 ->
     ConsumeDecimalNumber dbg m s old = Ret (true, mk_slice (length pre + length run) (length rest), dec_value run)) /\
  (dec_value run > 2 ^ 64 - 1 -> ConsumeDecimalNumber dbg m s old = Ret (false, s, old)) /\
  (run = [] -> ConsumeDecimalNumber dbg m s old = Ret (false, s, 0)).
Proof.
  intros dbg pre run rest post old Hrun Hrest m s.
  assert (Hr : match rest with d :: _ => ~ is_digit d | [] => True end).
  { destruct rest as [|d t]; [exact I|]. intros Hd. apply Hrest. exists d, t. auto. }
  change (2 ^ 64 - 1) with 18446744073709551615.
  pose proof (Consume_spec dbg pre run rest post old Hrun Hr) as H.
  change (2 ^ 64) with 18446744073709551616 in H.
  split; [|split].
  - intros Hne Hle. unfold m, s. rewrite H. destruct (N.ltb_spec (dec_value run) 18446744073709551616); [|lia].
    destruct run; [congruence|reflexivity].
  - intros Hgt. unfold m, s. rewrite H. destruct (N.ltb_spec (dec_value run) 18446744073709551616); [lia|reflexivity].
  - intros ->. unfold m, s. rewrite H. cbn. rewrite Nat.add_0_r. reflexivity.
Qed.
Print Assumptions C14_parse_exact.

(** every slice of every memory has that form, so the three cases are all *)
Theorem C14_cases_exhaustive : forall m s,
  (s_data s + s_size s <= length m)%nat ->
  exists pre run rest post,
    m = pre ++ run ++ rest ++ post /\ s = mk_slice (length pre) (length run + length rest) /\
    Forall is_digit run /\ ~ starts_with_digit rest.
Proof.
  intros m s Hs. destruct (digit_split (bytes_at m (s_data s) (s_size s))) as (run & rest & E & H1 & H2).
  exists (firstn (s_data s) m), run, rest, (skipn (s_data s + s_size s) m).
  split; [|split; [|split]].
  - rewrite (app_assoc run), <- E. unfold bytes_at.
    rewrite <- (skipn_add m). rewrite firstn_skipn, firstn_skipn. reflexivity.
  - rewrite firstn_length, <- app_length, <- E, bytes_at_length by exact Hs.
    rewrite Nat.min_l by lia. destruct s; reflexivity.
  - exact H1.
  - intros (d & t & -> & Hd). exact (H2 Hd).
Qed.
Print Assumptions C14_cases_exhaustive.

(** 2^64-1 is accepted, 2^64 is not, 20-digit 18446744073709551620 is not *)
Example C14_case :
  ConsumeDecimalNumber true [49;56;52;52;54;55;52;52;48;55;51;55;48;57;53;53;49;54;49;54] (mk_slice 0 20) 7
    = Ret (false, mk_slice 0 20, 7) /\
  ConsumeDecimalNumber true [48;48;55] (mk_slice 0 3) 9 = Ret (true, mk_slice 3 0, 7).
Proof. split; vm_compute; reflexivity. Qed.

(** ** C15 *)
Theorem C15_escape : forall sgn dbg pre bs post dst,
  bytes_ok bs ->
  AppendEscapedStringTo sgn dbg (pre ++ bs ++ post) dst (mk_slice (length pre) (length bs))
    = Ret (dst ++ escape_spec bs) /\
  EscapeString sgn dbg (pre ++ bs ++ post) (mk_slice (length pre) (length bs)) = Ret (escape_spec bs) /\
  Forall printable (escape_spec bs) /\
  (Forall printable bs -> escape_spec bs = bs).
Proof.
  intros sgn dbg pre bs post dst Hok.
  split; [apply escape_eq, Hok|]. split; [apply (escape_eq sgn dbg pre bs post [] Hok)|].
  split; [apply escape_printable, Hok|apply escape_id].
Qed.
Print Assumptions C15_escape.

(** the output for a concatenation is the concatenation of the outputs *)
Theorem C15_escape_concat : forall sgn dbg a b,
  bytes_ok a -> bytes_ok b ->
  exists ea eb,
    EscapeString sgn dbg a (mk_slice 0 (length a)) = Ret ea /\
    EscapeString sgn dbg b (mk_slice 0 (length b)) = Ret eb /\
    EscapeString sgn dbg (a ++ b) (mk_slice 0 (length (a ++ b))) = Ret (ea ++ eb).
Proof.
  intros sgn dbg a b Ha Hb.
  assert (Hgen : forall x, bytes_ok x -> EscapeString sgn dbg x (mk_slice 0 (length x)) = Ret (escape_spec x)).
  { intros x Hx. pose proof (escape_eq sgn dbg [] x [] [] Hx) as E. rewrite app_nil_r in E. exact E. }
  exists (escape_spec a), (escape_spec b).
  split; [apply Hgen, Ha|]. split; [apply Hgen, Hb|].
  rewrite Hgen by (apply bytes_ok_app; auto). unfold escape_spec. rewrite flat_map_app. reflexivity.
Qed.
Print Assumptions C15_escape_concat.

(** distinct strings without backslash have distinct escapes *)
Theorem C15_escape_injective_without_backslash : forall sgn dbg a b e,
  bytes_ok a -> bytes_ok b -> ~ In 92 a -> ~ In 92 b ->
  EscapeString sgn dbg a (mk_slice 0 (length a)) = Ret e ->
  EscapeString sgn dbg b (mk_slice 0 (length b)) = Ret e -> a = b.
Proof.
  intros sgn dbg a b e Ha Hb Hna Hnb Ea Eb.
  pose proof (escape_eq sgn dbg [] a [] [] Ha) as E1. pose proof (escape_eq sgn dbg [] b [] [] Hb) as E2.
  rewrite app_nil_r in E1, E2. unfold EscapeString in *. cbn [app length] in E1, E2.
  rewrite E1 in Ea. rewrite E2 in Eb. injection Ea as Ea. injection Eb as Eb.
  rewrite <- (unescape_escape a), <- (unescape_escape b), Ea, Eb by assumption. reflexivity.
Qed.
Print Assumptions C15_escape_injective_without_backslash.

(** in general escaping is not injective *)
Theorem C15_escape_injective_refuted : forall sgn dbg, exists a b e, a <> b /\ bytes_ok a /\ bytes_ok b /\
  EscapeString sgn dbg a (mk_slice 0 (length a)) = Ret e /\
  EscapeString sgn dbg b (mk_slice 0 (length b)) = Ret e.
Proof.
  intros sgn dbg. exists [0], [92; 120; 48; 48], [92; 120; 48; 48].
  split; [discriminate|]. split; [repeat constructor; unfold byte_ok; lia|].
  split; [repeat constructor; unfold byte_ok; lia|].
  destruct sgn, dbg; split; vm_compute; reflexivity.
Qed.
Print Assumptions C15_escape_injective_refuted.

Example C15_case :
  EscapeString true true [97; 255; 10; 126] (mk_slice 0 4) = Ret [97; 92;120;102;102; 92;120;48;97; 126].
Proof. vm_compute; reflexivity. Qed.
