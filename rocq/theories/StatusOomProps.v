(** StatusOomProps.v -- property theorems C107: Status values and std::bad_alloc. *)
From Coq Require Import List Arith NArith Lia Bool.
From Verif Require Import Outcome Heap Status StatusSpec StatusProofs StatusProps StatusOom StatusOomSpec.
Import ListNotations.
Local Open Scope outcome_scope.

Lemma CopyState_throws_ok h a k m : hget h a = Some (blk k m) -> CopyState_throws h a = Ret tt.
Proof. intros H. unfold CopyState_throws, deref. rewrite H. cbn [bind]. rewrite blk_size. reflexivity. Qed.

Lemma mstep_ok alc dbg s e o oom e' t :
  allocator_ok alc -> inv s e -> mspec_step e o oom = Some (e', t) ->
  exists s', mstep alc dbg s o oom = Ret (s', t) /\ inv s' e'.
Proof.
  intros Halc Hi Hs. unfold mspec_step in Hs. destruct (spec_step e o) as [e1|] eqn:Es; [|discriminate].
  destruct (sstep_ok alc dbg s e o e1 Halc Hi Es) as (s1 & H1 & I1).
  assert (Hd : oom && needs_memory e o = false -> e' = e1 /\ t = false).
  { intros E. rewrite E in Hs. injection Hs as <- <-. auto. }
  destruct oom; cbn [andb] in *.
  2:{ destruct (Hd eq_refl) as [-> ->]. exists s1. split; [|exact I1]. destruct o; cbn [mstep]; rewrite H1; reflexivity. }
  destruct o as [v|v k m m2|v w|v w|v w|v w|v]; cbn [needs_memory overwrites_error] in *;
    try (destruct (Hd eq_refl) as [-> ->]; exists s1; split; [cbn [mstep]; rewrite H1; reflexivity|exact I1]).
  - injection Hs as <- <-. exists s. split; [|exact Hi]. cbn [mstep]. destruct dbg, k; reflexivity.
  - cbn [spec_step] in Es. destruct (e v) eqn:Ev; [discriminate|]. destruct (e w) as [x|] eqn:Ew; [|discriminate]. injection Es as <-.
    destruct (inv_get _ _ _ _ Hi Ew) as (p & Hp & Hr). cbn [mstep sstep] in *. unfold getv in *. rewrite Hp in *. cbn [bind] in *.
    destruct x as [[k m]|], p as [a|]; cbn [rep is_error] in *; try tauto.
    + injection Hs as <- <-. exists s. destruct Hr as (Ha & _). rewrite (CopyState_throws_ok _ _ _ _ Ha). split; [reflexivity|exact Hi].
    + injection Hs as <- <-. cbn [CopyPtr bind] in H1. injection H1 as <-. eexists. split; [reflexivity|exact I1].
  - cbn [spec_step] in Es. destruct (e v) as [x|] eqn:Ev; [|discriminate]. destruct (e w) as [y|] eqn:Ew; [|discriminate]. injection Es as <-.
    destruct (inv_get _ _ _ _ Hi Ev) as (p & Hp & Hr). destruct (inv_get _ _ _ _ Hi Ew) as (q & Hq & Hrq).
    cbn [mstep sstep] in *. unfold getv in *. rewrite Hp, Hq in *. cbn [bind] in *.
    destruct (Nat.eqb_spec v w) as [->|Hvw]; cbn [negb andb] in Hs.
    + destruct (Hd eq_refl) as [-> ->]. rewrite Hp in Hq. injection Hq as <-. destruct p as [a|]; [rewrite Nat.eqb_refl in *|];
        injection H1 as <-; exists s; (split; [reflexivity|exact I1]).
    + destruct y as [[k m]|], q as [b|]; cbn [rep is_error] in *; try tauto.
      * destruct x as [[k' m']|], p as [a|]; cbn [rep is_error] in *; try tauto; [discriminate|]. injection Hs as <- <-.
        cbn [delete_arr bind]. destruct Hrq as (Hb & _). rewrite (CopyState_throws_ok _ _ _ _ Hb). cbn [bind].
        exists s. split; [destruct s; reflexivity|exact Hi].
      * destruct (Hd eq_refl) as [-> ->]. destruct p as [a|].
        -- destruct (delete_arr (s_heap s) (Some a)) as [h1| | |]; cbn [bind CopyPtr] in *; try discriminate. injection H1 as <-. eexists. split; [reflexivity|exact I1].
        -- injection H1 as <-. exists s. split; [reflexivity|exact I1].
Qed.
Lemma mrun_ok alc dbg ops : allocator_ok alc -> forall s e e' ts, inv s e -> mspec_run e ops = Some (e', ts) ->
  exists s', mrun alc dbg s ops = Ret (s', ts) /\ inv s' e'.
Proof.
  intros Halc. induction ops as [|[o oom] r IH]; intros s e e' ts Hi Hs; cbn [mspec_run mrun] in *; [injection Hs as <- <-; eauto|].
  destruct (mspec_step e o oom) as [[e1 t]|] eqn:E; [|discriminate]. destruct (mspec_run e1 r) as [[e2 ts2]|] eqn:E2; [|discriminate]. injection Hs as <- <-.
  destruct (mstep_ok alc dbg s e o oom e1 t Halc Hi E) as (s1 & H1 & I1). rewrite H1. cbn [bind].
  destruct (IH s1 e1 e2 ts2 I1 E2) as (s2 & H2 & I2). rewrite H2. cbn [bind]. eauto.
Qed.

(** C107: an operation that throws leaves every Status as it was, and a program keeps
    its value semantics, provided no copy assignment over an error status throws. *)
Theorem C107_throwing_operations_change_nothing :
  forall alc dbg ops e ts, allocator_ok alc -> mspec_run senv0 ops = Some (e, ts) ->
    exists s, mrun alc dbg sinit ops = Ret (s, ts) /\
      (forall v x, e v = Some x ->
         exists p, hget (s_vars s) v = Some p /\ ToString (s_heap s) p = Ret (print x) /\
                   ok_ p = match x with None => true | Some _ => false end /\
                   (forall k, Is k (s_heap s) p = Ret (match x with None => false | Some (k', _) => kind_eqb k k' end))) /\
      (forall v, e v = None -> hget (s_vars s) v = None).
Proof.
  intros alc dbg ops e ts Halc Hs. destruct (mrun_ok alc dbg ops Halc sinit senv0 e ts inv_init Hs) as (s & Hr & Hi). exists s. split; [exact Hr|]. split.
  - intros v x Hv. destruct (inv_get _ _ _ _ Hi Hv) as (p & Hp & R). exists p. split; [exact Hp|]. split; [apply rep_ToString; exact R|]. split; [rewrite (rep_ok _ _ _ R); destruct x; reflexivity|].
    intros k. apply rep_Is. exact R.
  - intros v Hv. apply (inv_none _ _ _ Hi Hv).
Qed.
Print Assumptions C107_throwing_operations_change_nothing.

(** C107: ... and no array leaks. *)
Theorem C107_no_leak :
  forall alc dbg ops e ts, allocator_ok alc -> mspec_run senv0 ops = Some (e, ts) -> (forall v, e v = None) ->
    exists s, mrun alc dbg sinit ops = Ret (s, ts) /\ s_heap s = [].
Proof.
  intros alc dbg ops e ts Halc Hs He. destruct (mrun_ok alc dbg ops Halc sinit senv0 e ts inv_init Hs) as (s & Hr & Hi). exists s. split; [exact Hr|]. eapply inv_all_dead; eauto.
Qed.
Print Assumptions C107_no_leak.

(** ** The copy assignment that throws *)

Definition one (p : state_ptr) : nat := match p with Some _ => 1 | None => 0 end.
Fixpoint cnt (vs : vars) : nat := match vs with [] => 0 | (_, p) :: r => one p + cnt r end.

Lemma len_hdel {A} (h : heap A) a x : hwf h -> hget h a = Some x -> S (length (hdel h a)) = length h.
Proof.
  unfold hwf. induction h as [|[b y] t IH]; cbn [hget hdel dom map fst]; intros W H; [discriminate|]. inversion W as [|? ? W1 W2]; subst.
  destruct (Nat.eqb_spec a b) as [->|Hn].
  - rewrite hdel_notin; [reflexivity|]. apply not_dom_hget. exact W1.
  - cbn [length]. f_equal. apply IH; assumption.
Qed.
Lemma cnt_hdel (vs : vars) v p : hwf vs -> hget vs v = Some p -> one p + cnt (hdel vs v) = cnt vs.
Proof.
  unfold hwf. induction vs as [|[b y] t IH]; cbn [hget hdel dom map fst]; intros W H; [discriminate|]. inversion W as [|? ? W1 W2]; subst.
  destruct (Nat.eqb_spec v b) as [->|Hn].
  - injection H as ->. rewrite hdel_notin; [reflexivity|]. apply not_dom_hget. exact W1.
  - cbn [cnt]. specialize (IH W2 H). lia.
Qed.
Lemma cnt_put_live (vs : vars) v p q : hwf vs -> hget vs v = Some p -> one p + cnt (hput vs v q) = one q + cnt vs.
Proof. intros W H. cbn [hput cnt]. pose proof (cnt_hdel _ _ _ W H). unfold hput. cbn [cnt]. lia. Qed.
Lemma cnt_put_dead (vs : vars) v q : hget vs v = None -> cnt (hput vs v q) = one q + cnt vs.
Proof. intros H. unfold hput. cbn [cnt]. rewrite hdel_notin by exact H. reflexivity. Qed.

(** What the two allocating functions do to the heap. *)
Lemma MakeStatus_heap alc dbg h c m m2 h' p : allocator_ok alc -> hwf h -> MakeStatus alc dbg h c m m2 = Ret (h', p) ->
  hwf h' /\ length h' = S (length h) /\ one p = 1.
Proof.
  intros Ha W H. unfold MakeStatus in H. destruct (assert_ dbg (negb (c =? kOk)%N)); cbn [bind] in H; try discriminate.
  unfold new_arr in H. cbv beta iota zeta in H.
  repeat match type of H with bind ?x _ = _ => destruct x; cbn [bind] in H; try discriminate end.
  injection H as <- <-. split; [apply hwf_hput, hwf_hput; exact W|]. split; [|reflexivity].
  assert (Hn : hget h (alc (dom h)) = None) by (apply not_dom_hget, Ha).
  unfold hput. cbn [hdel length]. rewrite Nat.eqb_refl. rewrite !(hdel_notin h) by exact Hn. reflexivity.
Qed.
Lemma CopyPtr_heap alc h q h' p : allocator_ok alc -> hwf h -> CopyPtr alc h q = Ret (h', p) ->
  hwf h' /\ length h' = one p + length h /\ one p = one q.
Proof.
  intros Ha W H. unfold CopyPtr in H. destruct q as [a|]; [|injection H as <- <-; auto].
  destruct (CopyState alc h a) as [[h1 r]| | |] eqn:E; cbn [bind] in H; try discriminate. injection H as <- <-.
  unfold CopyState in E. destruct (deref h a); cbn [bind] in E; try discriminate. destruct (bread_n a0 0 4); cbn [bind] in E; try discriminate.
  unfold new_arr in E. cbv beta iota zeta in E.
  repeat match type of E with bind ?x _ = _ => destruct x; cbn [bind] in E; try discriminate end.
  injection E as <- <-. split; [apply hwf_hput, hwf_hput; exact W|]. split; [|reflexivity].
  assert (Hn : hget h (alc (dom h)) = None) by (apply not_dom_hget, Ha).
  unfold hput. cbn [hdel length]. rewrite Nat.eqb_refl. rewrite !(hdel_notin h) by exact Hn. reflexivity.
Qed.
Lemma delete_heap h p h' : hwf h -> delete_arr h p = Ret h' -> hwf h' /\ one p + length h' = length h.
Proof.
  intros W H. destruct p as [a|]; cbn [delete_arr] in H; [|injection H as <-; auto].
  destruct (hget h a) eqn:E; [|discriminate]. injection H as <-. split; [apply hwf_hdel; exact W|]. cbn [one]. apply (len_hdel h a _ W E).
Qed.

(** At least [d] more variables point to arrays than there are arrays. *)
Record broken (d : nat) (s : sst) (live : nat -> bool) : Prop := {
  b_hwf : hwf (s_heap s);
  b_vwf : hwf (s_vars s);
  b_live : forall v, live v = true <-> hget (s_vars s) v <> None;
  b_more : length (s_heap s) + d <= cnt (s_vars s)
}.
Lemma getv_inv vs v p : getv vs v = Ret p -> hget vs v = Some p.
Proof. unfold getv. destruct (hget vs v); [injection 1 as ->; reflexivity|discriminate]. Qed.
Lemma live_put (live : nat -> bool) (vs : vars) v p :
  (forall x, live x = true <-> hget vs x <> None) -> hget vs v <> None -> forall x, live x = true <-> hget (hput vs v p) x <> None.
Proof.
  intros H Hv x. rewrite hget_hput. destruct (Nat.eqb_spec x v) as [->|_]; [|apply H]. rewrite (H v). split; intros _; [discriminate|exact Hv].
Qed.
Lemma live_new (live : nat -> bool) (vs : vars) v p :
  (forall x, live x = true <-> hget vs x <> None) -> forall x, (if x =? v then negb false else live x) = true <-> hget (hput vs v p) x <> None.
Proof.
  intros H x. rewrite hget_hput. destruct (Nat.eqb_spec x v) as [->|_]; [|apply H]. split; intros _; [discriminate|reflexivity].
Qed.
Lemma live_dead (live : nat -> bool) (vs : vars) v : (forall x, live x = true <-> hget vs x <> None) -> live v = false -> hget vs v = None.
Proof. intros H E. destruct (hget vs v) eqn:X; [|reflexivity]. assert (live v = true) by (apply H; congruence). congruence. Qed.

(** A copy assignment in both cases *)
Lemma assign_broken d alc (h : sheap) vs v w pv pw h1 h2 p live :
  allocator_ok alc -> broken d {| s_heap := h; s_vars := vs |} live -> hget vs v = Some pv -> hget vs w = Some pw ->
  delete_arr h pv = Ret h1 -> CopyPtr alc h1 pw = Ret (h2, p) -> broken d {| s_heap := h2; s_vars := hput vs v p |} live.
Proof.
  intros Ha [W V L M] Hv Hw D C. cbn [s_heap s_vars] in *. destruct (delete_heap _ _ _ W D) as (W1 & E1). destruct (CopyPtr_heap _ _ _ _ _ Ha W1 C) as (W2 & E2 & E3).
  pose proof (cnt_put_live vs v pv p V Hv). constructor; cbn [s_heap s_vars]; [exact W2|apply hwf_hput; exact V|apply live_put; [exact L|congruence]|lia].
Qed.
Lemma sstep_broken d alc dbg s o s' live live' : allocator_ok alc -> broken d s live -> sstep alc dbg s o = Ret s' -> lives_step live o false = Some live' -> broken d s' live'.
Proof.
  intros Ha B H Hl. pose proof B as [W V L M]. destruct s as [h vs]. cbn [s_heap s_vars] in *.
  destruct o as [v|v k m m2|v w|v w|v w|v w|v]; cbn [sstep lives_step s_heap s_vars] in *.
  - destruct (live v) eqn:Lv; [discriminate|]. injection Hl as <-. injection H as <-. pose proof (live_dead _ _ _ L Lv) as D.
    constructor; cbn [s_heap s_vars]; [exact W|apply hwf_hput; exact V|apply live_new; exact L|rewrite cnt_put_dead by exact D; cbn [one]; lia].
  - destruct (live v) eqn:Lv; [discriminate|]. injection Hl as <-. pose proof (live_dead _ _ _ L Lv) as D.
    unfold Factory in H. destruct (MakeStatus alc dbg h (factory_code k) m m2) as [[h1 p]| | |] eqn:E; cbn [bind] in H; try discriminate. injection H as <-.
    destruct (MakeStatus_heap _ _ _ _ _ _ _ _ Ha W E) as (W1 & E1 & E2).
    constructor; cbn [s_heap s_vars]; [exact W1|apply hwf_hput; exact V|apply live_new; exact L|rewrite cnt_put_dead by exact D; lia].
  - destruct (live v) eqn:Lv; [discriminate|]. injection Hl as <-. pose proof (live_dead _ _ _ L Lv) as D.
    destruct (getv vs w) as [pw| | |] eqn:Ew; cbn [bind] in H; try discriminate. destruct (CopyPtr alc h pw) as [[h1 p]| | |] eqn:E; cbn [bind] in H; try discriminate. injection H as <-.
    destruct (CopyPtr_heap _ _ _ _ _ Ha W E) as (W1 & E1 & E2).
    constructor; cbn [s_heap s_vars]; [exact W1|apply hwf_hput; exact V|apply live_new; exact L|rewrite cnt_put_dead by exact D; lia].
  - destruct (live v) eqn:Lv; [discriminate|]. injection Hl as <-. pose proof (live_dead _ _ _ L Lv) as D.
    destruct (getv vs w) as [pw| | |] eqn:Ew; cbn [bind] in H; try discriminate. injection H as <-. apply getv_inv in Ew.
    assert (Hvw : v <> w) by congruence.
    constructor; cbn [s_heap s_vars]; [exact W|apply hwf_hput, hwf_hput; exact V| |].
    + apply live_put; [apply live_new; exact L|]. rewrite hget_hput_ne by exact Hvw. congruence.
    + assert (Hw : hget (hput vs v pw) w = Some pw) by (rewrite hget_hput_ne by exact Hvw; exact Ew).
      pose proof (cnt_put_live (hput vs v pw) w pw None (hwf_hput _ _ _ V) Hw). rewrite (cnt_put_dead vs v) in H by exact D. cbn [one] in *. lia.
  - injection Hl as <-. destruct (getv vs v) as [pv| | |] eqn:Ev; cbn [bind] in H; try discriminate. destruct (getv vs w) as [pw| | |] eqn:Ew; cbn [bind] in H; try discriminate.
    apply getv_inv in Ev. apply getv_inv in Ew.
    assert (HA : (let! h1 := delete_arr h pv in let! (h2, p) := CopyPtr alc h1 pw in Ret {| s_heap := h2; s_vars := hput vs v p |}) = Ret s' -> broken d s' live).
    { intros X. destruct (delete_arr h pv) as [h1| | |] eqn:D; cbn [bind] in X; try discriminate. destruct (CopyPtr alc h1 pw) as [[h2 p]| | |] eqn:C; cbn [bind] in X; try discriminate.
      injection X as <-. exact (assign_broken d alc h vs v w pv pw h1 h2 p live Ha B Ev Ew D C). }
    destruct pv as [a|], pw as [b|]; try (apply HA; exact H).
    + destruct (a =? b); [injection H as <-; exact B|apply HA; exact H].
    + injection H as <-. exact B.
  - injection Hl as <-. destruct (getv vs v) as [pv| | |] eqn:Ev; cbn [bind] in H; try discriminate. destruct (getv vs w) as [pw| | |] eqn:Ew; cbn [bind] in H; try discriminate.
    apply getv_inv in Ev. apply getv_inv in Ew. injection H as <-.
    assert (Hw : hget (hput vs v pw) w = Some (if w =? v then pw else pw)) by (rewrite hget_hput; destruct (w =? v); [reflexivity|exact Ew]).
    assert (Hw' : hget (hput vs v pw) w = Some pw) by (rewrite Hw; destruct (w =? v); reflexivity).
    constructor; cbn [s_heap s_vars]; [exact W|apply hwf_hput, hwf_hput; exact V| |].
    + apply live_put; [apply live_put; [exact L|congruence]|congruence].
    + pose proof (cnt_put_live (hput vs v pw) w pw pv (hwf_hput _ _ _ V) Hw'). pose proof (cnt_put_live vs v pv pw V Ev). lia.
  - destruct (live v) eqn:Lv; [|discriminate]. injection Hl as <-. destruct (getv vs v) as [pv| | |] eqn:Ev; cbn [bind] in H; try discriminate.
    destruct (delete_arr h pv) as [h1| | |] eqn:D; cbn [bind] in H; try discriminate. injection H as <-. apply getv_inv in Ev.
    destruct (delete_heap _ _ _ W D) as (W1 & E1). pose proof (cnt_hdel vs v pv V Ev).
    constructor; cbn [s_heap s_vars]; [exact W1|apply hwf_hdel; exact V| |lia].
    intros x. rewrite hget_hdel. destruct (Nat.eqb_spec x v) as [->|_]; [|apply L]. split; [discriminate|congruence].
Qed.
Lemma mstep_broken d alc dbg s o oom s' t live live' : allocator_ok alc -> broken d s live -> mstep alc dbg s o oom = Ret (s', t) -> lives_step live o t = Some live' -> broken d s' live'.
Proof.
  intros Ha B H Hl.
  assert (HS : (let! s1 := sstep alc dbg s o in Ret (s1, false)) = Ret (s', t) -> broken d s' live').
  { intros X. destruct (sstep alc dbg s o) as [s1| | |] eqn:E; cbn [bind] in X; try discriminate. injection X as <- <-. exact (sstep_broken d _ _ _ _ _ _ _ Ha B E Hl). }
  assert (HT : forall v, live v = false -> broken d s (fun x => if x =? v then negb true else live x)).
  { intros v E. destruct B as [W V L M]. constructor; auto. intros x. destruct (Nat.eqb_spec x v) as [->|_]; [|apply L]. rewrite <- (L v), E. cbn. tauto. }
  destruct oom; [|apply HS; destruct o; exact H].
  destruct o as [v|v k m m2|v w|v w|v w|v w|v]; cbn [mstep] in H; try (apply HS; exact H).
  - destruct (assert_ dbg _); cbn [bind] in H; try discriminate. injection H as <- <-. cbn [lives_step] in Hl. destruct (live v) eqn:Lv; [discriminate|]. injection Hl as <-. apply HT. exact Lv.
  - destruct (getv (s_vars s) w) as [pw| | |] eqn:Ew; cbn [bind] in H; try discriminate. destruct pw as [a|].
    + destruct (CopyState_throws (s_heap s) a); cbn [bind] in H; try discriminate. injection H as <- <-. cbn [lives_step] in Hl. destruct (live v) eqn:Lv; [discriminate|]. injection Hl as <-. apply HT. exact Lv.
    + apply HS. cbn [sstep]. rewrite Ew. cbn [bind CopyPtr]. exact H.
  - cbn [lives_step] in Hl. injection Hl as <-. destruct (getv (s_vars s) v) as [pv| | |] eqn:Ev; cbn [bind] in H; try discriminate. destruct (getv (s_vars s) w) as [pw| | |] eqn:Ew; cbn [bind] in H; try discriminate.
    match type of H with (if ?c then _ else _) = _ => destruct c end; [injection H as <- <-; exact B|].
    destruct (delete_arr (s_heap s) pv) as [h1| | |] eqn:D; cbn [bind] in H; try discriminate. apply getv_inv in Ev. apply getv_inv in Ew. destruct pw as [b|].
    + destruct (CopyState_throws h1 b); cbn [bind] in H; try discriminate. injection H as <- <-. destruct B as [W V L M]. destruct (delete_heap _ _ _ W D) as (W1 & E1).
      constructor; cbn [s_heap s_vars]; auto. lia.
    + injection H as <- <-. destruct s as [h vs]. exact (assign_broken d alc h vs v w pv None h1 h1 None live Ha B Ev Ew D eq_refl).
Qed.
Lemma mrun_broken d alc dbg ops : allocator_ok alc -> forall s live s' ts live', broken d s live -> mrun alc dbg s ops = Ret (s', ts) -> lives live ops ts = Some live' -> broken d s' live'.
Proof.
  intros Ha. induction ops as [|[o oom] r IH]; intros s live s' ts live' B H Hl; cbn [mrun lives] in *; [injection H as <- <-; injection Hl as <-; exact B|].
  destruct (mstep alc dbg s o oom) as [[s1 t]| | |] eqn:E; cbn [bind] in H; try discriminate. destruct (mrun alc dbg s1 r) as [[s2 ts2]| | |] eqn:E2; cbn [bind] in H; try discriminate.
  injection H as <- <-. destruct (lives_step live o t) as [l|] eqn:E3; [|discriminate]. exact (IH s1 l s2 ts2 live' (mstep_broken d _ _ _ _ _ _ _ _ _ Ha B E E3) E2 Hl).
Qed.

Lemma mrun_app alc dbg a b : forall s, mrun alc dbg s (a ++ b) = let! (s1, t1) := mrun alc dbg s a in let! (s2, t2) := mrun alc dbg s1 b in Ret (s2, t1 ++ t2).
Proof.
  induction a as [|[o oom] a IH]; intros s; cbn [mrun app].
  - cbn [bind]. destruct (mrun alc dbg s b) as [[s2 t2]| | |]; reflexivity.
  - destruct (mstep alc dbg s o oom) as [[s1 t]| | |]; cbn [bind]; try reflexivity. rewrite IH. destruct (mrun alc dbg s1 a) as [[s2 t2]| | |]; cbn [bind]; try reflexivity.
    destruct (mrun alc dbg s2 b) as [[s3 t3]| | |]; reflexivity.
Qed.
Lemma mrun_length alc dbg a : forall s s' ts, mrun alc dbg s a = Ret (s', ts) -> length ts = length a.
Proof.
  induction a as [|[o oom] a IH]; intros s s' ts H; cbn [mrun] in H; [injection H as <- <-; reflexivity|].
  destruct (mstep alc dbg s o oom) as [[s1 t]| | |]; cbn [bind] in H; try discriminate. destruct (mrun alc dbg s1 a) as [[s2 t2]| | |] eqn:E; cbn [bind] in H; try discriminate.
  injection H as <- <-. cbn [length]. f_equal. exact (IH _ _ _ E).
Qed.
Lemma lives_app a : forall l b ts us, length ts = length a -> lives l (a ++ b) (ts ++ us) = match lives l a ts with Some l1 => lives l1 b us | None => None end.
Proof.
  induction a as [|[o oom] a IH]; intros l b [|t ts] us H; try discriminate; cbn [lives app]; [reflexivity|].
  destruct (lives_step l o t); [|reflexivity]. apply IH. injection H as H. exact H.
Qed.

(** C107: a copy assignment over an error status that throws is fatal.  The target
    keeps a pointer to its deleted array: ToString() of it is undefined ... *)
Theorem C107_throwing_copy_assignment_refuted :
  forall alc dbg pre v w s ts p, mrun alc dbg sinit pre = Ret (s, ts) ->
    hget (s_vars s) v = Some p -> ok_ p = false ->
    forall s', mstep alc dbg s (OpCopyAssign v w) true = Ret (s', true) ->
      hget (s_vars s') v = Some p /\ ToString (s_heap s') p = UB.
Proof.
  intros alc dbg pre v w s ts p _ Hv Hok s' H. destruct p as [a|]; [|discriminate]. cbn [mstep] in H. unfold getv in H. rewrite Hv in H. cbn [bind] in H.
  destruct (hget (s_vars s) w) as [pw|]; cbn [bind] in H; [|discriminate]. destruct pw as [b|].
  - destruct (a =? b); [discriminate|]. cbn [delete_arr] in H. destruct (hget (s_heap s) a) eqn:E; cbn [bind] in H; [|discriminate].
    destruct (CopyState_throws (hdel (s_heap s) a) b); cbn [bind] in H; try discriminate. injection H as <-. cbn [s_heap s_vars]. split; [exact Hv|].
    unfold ToString, code_, deref. rewrite hget_hdel_eq. reflexivity.
  - cbn [delete_arr] in H. destruct (hget (s_heap s) a); cbn [bind] in H; discriminate.
Qed.
Print Assumptions C107_throwing_copy_assignment_refuted.

(** ... and whatever the program does next, whatever addresses new[] hands out: no
    execution with defined behaviour reaches the end of the lifetimes of its variables
    (an array is deleted twice on the way). *)
Theorem C107_throwing_copy_assignment_is_fatal_refuted :
  forall alc dbg pre v w post s1 ts1 p, allocator_ok alc ->
    mrun alc dbg sinit pre = Ret (s1, ts1) -> hget (s_vars s1) v = Some p -> ok_ p = false ->
    forall s ts live, mrun alc dbg sinit (pre ++ (OpCopyAssign v w, true) :: post) = Ret (s, ts) ->
      nth (length pre) ts false = true ->
      lives nothing_lives (pre ++ (OpCopyAssign v w, true) :: post) ts = Some live ->
      exists x, live x = true.
Proof.
  intros alc dbg pre v w post s1 ts1 p Ha H1 Hv Hok s ts live H Ht Hl. rewrite mrun_app, H1 in H. cbn [bind mrun] in H.
  destruct (mstep alc dbg s1 (OpCopyAssign v w) true) as [[s2 t]| | |] eqn:E; cbn [bind] in H; try discriminate.
  destruct (mrun alc dbg s2 post) as [[s3 t3]| | |] eqn:E3; cbn [bind] in H; try discriminate. injection H as <- <-.
  pose proof (mrun_length _ _ _ _ _ _ H1) as Len. rewrite app_nth2 in Ht by lia. rewrite Len, Nat.sub_diag in Ht. cbn [nth] in Ht. subst t.
  rewrite lives_app in Hl by exact Len. destruct (lives nothing_lives pre ts1) as [l1|] eqn:L1; [|discriminate]. cbn [lives lives_step] in Hl.
  assert (B0 : broken 0 sinit nothing_lives).
  { constructor; cbn [sinit s_heap s_vars]; try apply hwf_nil; [|cbn; lia]. intros x. split; [discriminate|intros X; contradiction]. }
  pose proof (mrun_broken 0 alc dbg pre Ha _ _ _ _ _ B0 H1 L1) as B1.
  assert (B2 : broken 1 s2 l1).
  { destruct p as [a|]; [|discriminate]. cbn [mstep] in E. unfold getv in E. rewrite Hv in E. cbn [bind] in E.
    destruct (hget (s_vars s1) w) as [pw|]; cbn [bind] in E; [|discriminate]. destruct B1 as [W V L M]. destruct pw as [b|].
    - destruct (a =? b); [discriminate|]. destruct (delete_arr (s_heap s1) (Some a)) as [h1| | |] eqn:D; cbn [bind] in E; try discriminate.
      destruct (CopyState_throws h1 b); cbn [bind] in E; try discriminate. injection E as <-. destruct (delete_heap _ _ _ W D) as (W1 & E1). cbn [one] in E1.
      constructor; cbn [s_heap s_vars]; auto. lia.
    - destruct (delete_arr (s_heap s1) (Some a)); cbn [bind] in E; discriminate. }
  pose proof (mrun_broken 1 alc dbg post Ha _ _ _ _ _ B2 E3 Hl) as [W V L M].
  destruct (s_vars s3) as [|[x q] r] eqn:Ev; [cbn [cnt] in M; lia|]. exists x. apply L. cbn [hget]. rewrite Nat.eqb_refl. discriminate.
Qed.
Print Assumptions C107_throwing_copy_assignment_is_fatal_refuted.

(** A program where three operations throw and nothing is harmed: the kinds of
    operation the first theorem speaks of. *)
Example C107_example :
  exists e s, let ops := [ (OpErr 1 NotFound [97%N] [98%N], false); (OpErr 2 IOError [99%N] [], true); (OpErr 2 IOError [99%N] [], false);
                           (OpCopyCtor 3 1, true); (OpOK 3, true); (OpCopyAssign 3 2, true); (OpCopyAssign 2 2, true); (OpCopyAssign 3 1, false) ] in
    mspec_run senv0 ops = Some (e, [false; true; false; true; false; true; false; false]) /\
    mrun alc_reuse true sinit ops = Ret (s, [false; true; false; true; false; true; false; false]) /\
    map e [1; 2; 3] = [Some (Some (NotFound, [97; 58; 32; 98]%N)); Some (Some (IOError, [99%N])); Some (Some (NotFound, [97; 58; 32; 98]%N))].
Proof. eexists _, _. split; [reflexivity|]. split; [vm_compute; reflexivity|]. reflexivity. Qed.

(** The fatal case is reached, and the destructor of the target then deletes its array
    a second time; with an allocator that reuses addresses it deletes that of another
    Status instead, and the second delete[] comes later. *)
Example C107_fatal_example :
  let pre := [ (OpErr 1 NotFound [97%N] [], false); (OpErr 2 IOError [98%N] [], false) ] in
  (exists s1 s p, mrun alc_bump true sinit pre = Ret (s1, [false; false]) /\ hget (s_vars s1) 1 = Some p /\ ok_ p = false /\
     mrun alc_bump true sinit (pre ++ [(OpCopyAssign 1 2, true)]) = Ret (s, [false; false; true])) /\
  mrun alc_bump true sinit (pre ++ [(OpCopyAssign 1 2, true); (OpDestroy 1, false)]) = UB /\
  (exists s, mrun alc_reuse true sinit (pre ++ [(OpCopyAssign 1 2, true); (OpErr 3 Corruption [99%N] [], false); (OpDestroy 1, false)]) = Ret (s, [false; false; true; false; false])) /\
  mrun alc_reuse true sinit (pre ++ [(OpCopyAssign 1 2, true); (OpErr 3 Corruption [99%N] [], false); (OpDestroy 1, false); (OpDestroy 3, false)]) = UB.
Proof.
  cbv zeta. split; [eexists _, _, _; split; [vm_compute; reflexivity|]; split; [reflexivity|]; split; [reflexivity|]; vm_compute; reflexivity|].
  split; [vm_compute; reflexivity|]. split; [eexists; vm_compute; reflexivity|vm_compute; reflexivity].
Qed.
