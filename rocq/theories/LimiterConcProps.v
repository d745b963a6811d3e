(** LimiterConcProps.v -- C61, C62: the limiter under every interleaving. *)
From Coq Require Import List Arith ZArith Lia Bool.
From Verif Require Import PosixRead LimiterConc.
Import ListNotations.

Lemma int32_id z : (- 2 ^ 31 <= z < 2 ^ 31)%Z -> int32 z = z.
Proof. intros H. unfold int32. rewrite Z.mod_small; lia. Qed.

Lemma drop_length t l : NoDup l -> In t l -> S (length (filter (fun x => negb (x =? t)) l)) = length l.
Proof.
  induction l as [|x l IH]; cbn [filter length In]; intros N H; [easy|]. apply NoDup_cons_iff in N as (N1 & N2).
  destruct (Nat.eqb_spec x t) as [->|Hx]; cbn [negb length].
  - f_equal. assert (E : filter (fun x => negb (x =? t)) l = l).
    { clear - N1. induction l as [|y l IH]; cbn [filter]; [reflexivity|]. cbn [In] in N1. destruct (Nat.eqb_spec y t) as [->|H]; [exfalso; auto|]. cbn [negb]. f_equal. apply IH. auto. }
    now rewrite E.
  - destruct H as [H|H]; [contradiction|]. now rewrite (IH N2 H).
Qed.
Lemma drop_nodup t l : NoDup l -> NoDup (filter (fun x => negb (x =? t)) l).
Proof. apply NoDup_filter. Qed.

Record LInv (nt : nat) (limit : Z) (s : lstate) : Prop := {
  li_dup : NoDup (l_undo s);
  li_thr : forall t, In t (l_undo s) -> t < nt;
  li_cnt : (l_cnt s + held (l_hist s) + Z.of_nat (length (l_undo s)) = limit)%Z;
  li_held : (0 <= held (l_hist s) <= Z.max 0 limit)%Z }.

Lemma undo_bound nt limit s : LInv nt limit s -> length (l_undo s) <= nt.
Proof.
  intros [D T _ _]. rewrite <- (seq_length nt 0). apply NoDup_incl_length; [exact D|]. intros t H. apply in_seq. specialize (T t H). lia.
Qed.

Lemma linv nt limit s : (- 2 ^ 31 <= Z.min 0 limit - Z.of_nat nt)%Z -> (limit < 2 ^ 31)%Z -> lreach nt limit s -> LInv nt limit s.
Proof.
  intros Hn Hl R. induction R as [|s a R IH E].
  - constructor; cbn [l_cnt l_undo l_hist held fold_right length]; try lia; [constructor|easy].
  - pose proof (undo_bound _ _ _ IH) as UB. destruct IH as [D T C H]. destruct a as [t|t|t]; cbn [enabled] in E; cbn [leff].
    + destruct E as (Et & En).
      assert (UB2 : S (length (l_undo s)) <= nt).
      { rewrite <- (seq_length nt 0). apply (NoDup_incl_length (l := t :: l_undo s)); [now constructor|].
        intros x [<-|Hx]; apply in_seq; [lia|]. specialize (T x Hx). lia. }
      destruct (Z.ltb_spec 0 (l_cnt s)) as [Hp|Hp]; constructor; cbn [l_cnt l_undo l_hist held fold_right length]; auto; rewrite ?int32_id; fold (held (l_hist s)); try lia.
      * now constructor.
      * intros x [<-|Hx]; auto.
    + pose proof (drop_length t _ D E) as DL. constructor; cbn [l_cnt l_undo l_hist held fold_right]; rewrite ?int32_id; fold (held (l_hist s)); try lia.
      * now apply drop_nodup.
      * intros x Hx. apply filter_In in Hx as (Hx & _). auto.
    + destruct E as (Et & En & Eh). constructor; cbn [l_cnt l_undo l_hist held fold_right]; rewrite ?int32_id; fold (held (l_hist s)); auto; lia.
Qed.

(** ** C61: every interleaving of up to 2^31 - 1 threads (2^31 - |limit| for a
    negative limit). *)
Theorem C61_never_over_grants :
  forall nt limit s, (- 2 ^ 31 <= Z.min 0 limit - Z.of_nat nt)%Z -> (limit < 2 ^ 31)%Z -> lreach nt limit s ->
    (0 <= held (l_hist s) <= Z.max 0 limit)%Z.
Proof. intros nt limit s Hn Hl R. apply (li_held nt limit s (linv nt limit s Hn Hl R)). Qed.
Print Assumptions C61_never_over_grants.

Theorem C61_counter_exact_when_quiet :
  forall nt limit s, (- 2 ^ 31 <= Z.min 0 limit - Z.of_nat nt)%Z -> (limit < 2 ^ 31)%Z -> lreach nt limit s ->
    l_undo s = [] -> (l_cnt s + held (l_hist s) = limit)%Z.
Proof. intros nt limit s Hn Hl R E. pose proof (li_cnt _ _ _ (linv nt limit s Hn Hl R)) as C. rewrite E in C. cbn [length] in C. lia. Qed.
Print Assumptions C61_counter_exact_when_quiet.

(** ** C62: an Acquire that runs while no other is in progress. *)
Theorem C62_sequential_acquire :
  forall nt limit s t, (- 2 ^ 31 <= Z.min 0 limit - Z.of_nat nt)%Z -> (limit < 2 ^ 31)%Z -> lreach nt limit s -> l_undo s = [] -> t < nt ->
    let '(s', granted) := acquire_alone s t in
    lreach nt limit s' /\ l_undo s' = [] /\ (granted = true <-> (held (l_hist s) < limit)%Z) /\
    l_hist s' = (if granted then EGrant t else EDeny t) :: l_hist s /\
    (l_cnt s', granted) = acquire (l_cnt s).
Proof.
  intros nt limit s t Hn Hl R E Ht. pose proof (linv nt limit s Hn Hl R) as I. pose proof (li_cnt _ _ _ I) as C. pose proof (li_held _ _ _ I) as Hh. rewrite E in C. cbn [length] in C.
  assert (En : enabled nt s (ASub t)) by (cbn [enabled]; rewrite E; auto).
  pose proof (lr_step nt limit s (ASub t) R En) as R1.
  assert (Hc : (0 < l_cnt s)%Z \/ (l_cnt s = Z.min 0 limit)%Z \/ (l_cnt s <= 0)%Z) by lia.
  unfold acquire_alone. cbn [leff] in *. unfold acquire. cbv zeta in *. destruct (Z.ltb_spec 0 (l_cnt s)) as [Hp|Hp]; cbn [l_undo] in *; rewrite E in *; cbn [existsb] in *.
  - split; [exact R1|]. cbn [l_undo l_hist l_cnt]. split; [reflexivity|]. split; [split; [intros _; lia|reflexivity]|]. split; [reflexivity|].
    rewrite int32_id by lia. reflexivity.
  - rewrite Nat.eqb_refl. cbn [orb].
    assert (En2 : enabled nt (mk_l (int32 (l_cnt s - 1)) [t] (l_hist s)) (AUndo t)) by (cbn; auto).
    pose proof (lr_step nt limit _ (AUndo t) R1 En2) as R2. cbn [leff l_cnt l_undo l_hist filter] in *. rewrite Nat.eqb_refl in *. cbn [negb] in *.
    split; [exact R2|]. split; [reflexivity|]. split; [split; [discriminate|lia]|]. split; [reflexivity|].
    f_equal. destruct nt as [|nt]; [lia|]. rewrite (int32_id (l_cnt s - 1)) by lia. apply int32_id. lia.
Qed.
Print Assumptions C62_sequential_acquire.

(** With others in progress, Acquire fails only if what is held together with the
    Acquires that are about to fail reaches the limit. *)
Theorem C62_denied_only_if_contended :
  forall nt limit s t, (- 2 ^ 31 <= Z.min 0 limit - Z.of_nat nt)%Z -> (limit < 2 ^ 31)%Z -> lreach nt limit s -> enabled nt s (ASub t) ->
    (In t (l_undo (leff s (ASub t))) <-> (limit <= held (l_hist s) + Z.of_nat (length (l_undo s)))%Z) /\
    (l_hist (leff s (ASub t)) = EGrant t :: l_hist s <-> (held (l_hist s) + Z.of_nat (length (l_undo s)) < limit)%Z).
Proof.
  intros nt limit s t Hn Hl R (Et & En). pose proof (linv nt limit s Hn Hl R) as I. pose proof (li_cnt _ _ _ I) as C.
  cbn [leff]. cbv zeta. destruct (Z.ltb_spec 0 (l_cnt s)) as [Hp|Hp]; cbn [l_undo l_hist].
  - split; [split; [contradiction|lia]|]. split; [lia|reflexivity].
  - split; [split; [lia|intros _; left; reflexivity]|]. split; [|lia]. intros H. exfalso. clear - H. apply (f_equal (@length levent)) in H. cbn [length] in H. lia.
Qed.
Print Assumptions C62_denied_only_if_contended.

(** It does fail although nothing at all is held: limit 1, thread 0 gives back
    what it held and asks again while thread 1 is about to be refused. *)
Theorem C62_spurious_failure_refuted :
  exists s s', lreach 2 1 s /\ held (l_hist s) = 0%Z /\ enabled 2 s (ASub 0) /\ s' = leff (leff s (ASub 0)) (AUndo 0) /\
    enabled 2 (leff s (ASub 0)) (AUndo 0) /\ l_hist s' = EDeny 0 :: l_hist s.
Proof.
  exists (leff (leff (leff (mk_l 1 [] []) (ASub 0)) (ASub 1)) (ARelease 0)). eexists. split; [|split; [|split; [|split; [reflexivity|]]]].
  - apply lr_step; [apply lr_step; [apply lr_step; [apply lr_init|]|]|]; vm_compute.
    + split; [repeat constructor|easy].
    + split; [repeat constructor|easy].
    + split; [repeat constructor|]. split; [intros [H|[]]; discriminate|reflexivity].
  - vm_compute. reflexivity.
  - vm_compute. split; [repeat constructor|]. intros [H|[]]; discriminate.
  - split; [vm_compute; auto|]. vm_compute. reflexivity.
Qed.
Print Assumptions C62_spurious_failure_refuted.

(** A state with a grant out and a refusal under way. *)
Example C61_example : exists s, lreach 2 1 s /\ held (l_hist s) = 1%Z /\ l_undo s = [1] /\ l_cnt s = (-1)%Z.
Proof.
  exists (leff (leff (mk_l 1 [] []) (ASub 0)) (ASub 1)). split; [|vm_compute; repeat split; reflexivity].
  apply lr_step; [apply lr_step; [apply lr_init|]|]; vm_compute; (split; [repeat constructor|easy]).
Qed.
