(** SchedProofs.v -- the invariant behind SchedProps.v. *)
From Coq Require Import List Arith Lia Bool.
From Verif Require Import Sched.
Import ListNotations.

Lemma actor_eqb_spec a b : Bool.reflect (a = b) (actor_eqb a b).
Proof. destruct a as [x|x], b as [y|y]; cbn; try (constructor; congruence); destruct (Nat.eqb_spec x y); constructor; congruence. Qed.
Lemma aupd_eq f a x : aupd f a x a = x.
Proof. unfold aupd. destruct (actor_eqb_spec a a); congruence. Qed.
Lemma aupd_ne f a b x : b <> a -> aupd f a x b = f b.
Proof. intros H. unfold aupd. destruct (actor_eqb_spec b a); congruence. Qed.

Definition popped (s : sstate) : list nat := match s_bgs s with [BUnlock x] => [x] | _ => [] end.
Definition running (s : sstate) : list nat := match s_bgs s with [BRun x] => [x] | _ => [] end.
Definition coming (s : sstate) : list nat :=
  match s_mu s with Some a => match s_call s a with SStart x | SSignal x | SPush x => [x] | _ => [] end | None => [] end.
(** Background thread states that hold the mutex. *)
Definition bg_in (b : bgpc) : bool := match b with BCheck | BPop | BUnlock _ => true | _ => false end.
Definition inside (s : sstate) (a : actor) : Prop :=
  s_call s a <> SIdle \/ (a = Bg 0 /\ match s_bgs s with [b] => bg_in b = true | _ => False end).

Record SInv (s : sstate) : Prop := {
  si_one : s_bgs s = [] /\ s_started s = false \/ (exists b, s_bgs s = [b]) /\ s_started s = true;
  si_mu : forall a, inside s a -> s_mu s = Some a;
  si_mu2 : forall a, s_mu s = Some a -> inside s a;
  si_bg : forall i, s_call s (Bg i) <> SIdle -> i = 0 /\ exists x, s_bgs s = [BRun x];
  si_start : s_queue s <> [] -> s_started s = true;
  si_start2 : forall a x, s_call s a = SSignal x \/ s_call s a = SPush x \/ s_call s a = SUnlock -> s_started s = true;
  si_wait : s_bgs s = [BWait] -> s_queue s = [] /\ forall a x, s_call s a <> SPush x;
  si_pop : s_bgs s = [BPop] -> s_queue s <> [];
  si_crash : s_crash s = false;
  si_order : s_locked s = s_ran s ++ popped s ++ s_queue s ++ coming s;
  si_done : s_ran s = s_done s ++ running s }.

Lemma spc_dec (c : spc) : c = SIdle \/ c <> SIdle.
Proof. destruct c; [left; reflexivity|right..]; discriminate. Qed.

Lemma sinv_step s a s' : SInv s -> sstep s a = Some s' -> SInv s'.
Proof.
  intros [One Mu Mu2 Bgc St St2 Wt Pp Cr Or Dn] E. destruct a as [a x|a w|i|i]; cbn [sstep] in E.
  - (* Schedule begins *) destruct (can_call s a) eqn:Ec; [|discriminate]. destruct (s_mu s) eqn:Em; [discriminate|]. injection E as <-.
    unfold can_call in Ec. destruct (s_call s a) eqn:Ea; try discriminate.
    assert (Out : forall b, ~ inside s b). { intros b Hb. apply Mu in Hb. congruence. }
    assert (Idle : forall b, s_call s b = SIdle). { intros b. destruct (spc_dec (s_call s b)) as [H|H]; [exact H|]. exfalso. apply (Out b). now left. }
    constructor; cbn [s_queue s_mu s_started s_bgs s_call s_crash s_locked s_ran s_done]; auto.
    + intros b [Hb|(-> & Hb)]; cbn [s_call s_bgs] in Hb.
      * destruct (actor_eqb_spec b a) as [->|H]; [reflexivity|]. rewrite aupd_ne in Hb by auto. exfalso. apply Hb. apply Idle.
      * exfalso. apply (Out (Bg 0)). right. auto.
    + intros b Hb. injection Hb as <-. left. cbn [s_call]. rewrite aupd_eq. discriminate.
    + intros i Hi. destruct (actor_eqb_spec (Bg i) a) as [<-|H].
      * destruct (nth_error (s_bgs s) i) as [[]|] eqn:En; try discriminate. destruct One as [(O & _)|((b & O) & _)]; rewrite O in En |- *; [now destruct i|].
        destruct i as [|i]; [injection En as ->; eauto|now destruct i].
      * rewrite aupd_ne in Hi by auto. exfalso. apply Hi, Idle.
    + intros b y Hb. destruct (actor_eqb_spec b a) as [->|H].
      * rewrite aupd_eq in Hb. destruct Hb as [Hb|[Hb|Hb]]; discriminate.
      * rewrite aupd_ne in Hb by auto. rewrite Idle in Hb. destruct Hb as [Hb|[Hb|Hb]]; discriminate.
    + intros Hw. destruct (Wt Hw) as (W1 & W2). split; [exact W1|]. intros b y Hb. destruct (actor_eqb_spec b a) as [->|H]; [rewrite aupd_eq in Hb; discriminate|].
      rewrite aupd_ne in Hb by auto. now apply (W2 b y).
    + unfold coming in *. cbn [s_mu s_call]. rewrite Em in Or. rewrite aupd_eq. rewrite Or. unfold popped. cbn [s_bgs]. rewrite app_nil_r, <- !app_assoc. reflexivity.
  - (* Schedule goes on *) unfold sched_step in E. destruct (s_call s a) as [|x|x|x|] eqn:Ea; [discriminate|..].
    all: assert (Ma : s_mu s = Some a) by (apply Mu; left; rewrite Ea; discriminate).
    all: assert (Idle : forall b, b <> a -> s_call s b = SIdle) by (intros b Hb; destruct (spc_dec (s_call s b)) as [H|H]; [exact H|]; exfalso; apply Hb; assert (Q : s_mu s = Some b) by (apply Mu; now left); congruence).
    all: assert (Nbg : forall b, s_bgs s = [b] -> bg_in b = false)
      by (intros b Hb; destruct (bg_in b) eqn:Eb; [|reflexivity]; exfalso; assert (Q : s_mu s = Some (Bg 0)) by (apply Mu; right; rewrite Hb; auto);
          rewrite Ma in Q; injection Q as ->; destruct (Bgc 0) as (_ & y & Hy); [rewrite Ea; discriminate|]; rewrite Hy in Hb; injection Hb as <-; discriminate).
    + (* start the thread *) injection E as <-.
      assert (One' : forall s1, s1 = (if s_started s then s else mk_s (s_queue s) (s_mu s) true (s_bgs s ++ [BLock]) (s_call s) (s_crash s) (s_locked s) (s_ran s) (s_done s)) ->
        s_queue s1 = s_queue s /\ s_mu s1 = s_mu s /\ s_started s1 = true /\ s_call s1 = s_call s /\ s_crash s1 = s_crash s /\ s_locked s1 = s_locked s /\ s_ran s1 = s_ran s /\ s_done s1 = s_done s /\
        (s_bgs s1 = s_bgs s /\ s_started s = true \/ s_bgs s = [] /\ s_bgs s1 = [BLock])).
      { intros s1 ->. destruct One as [(O1 & O2)|((b & O1) & O2)]; rewrite O2; cbn [s_queue s_mu s_started s_bgs s_call s_crash s_locked s_ran s_done]; repeat split; auto.
        right. rewrite O1. auto. }
      destruct (One' _ eq_refl) as (E1 & E2 & E3 & E4 & E5 & E6 & E7 & E8 & E9). clear One'.
      set (s1 := if s_started s then s else mk_s (s_queue s) (s_mu s) true (s_bgs s ++ [BLock]) (s_call s) (s_crash s) (s_locked s) (s_ran s) (s_done s)) in *.
      constructor; unfold set_call; cbn [s_queue s_mu s_started s_bgs s_call s_crash s_locked s_ran s_done]; rewrite ?E1, ?E2, ?E3, ?E5, ?E6, ?E7, ?E8.
      * right. split; [|reflexivity]. destruct E9 as [(E9 & E10)|(_ & E9)]; [|eauto]. rewrite E9. destruct One as [(_ & O)|(O & _)]; [congruence|exact O].
      * intros b [Hb|(-> & Hb)]; cbn [s_call s_bgs] in Hb.
        -- destruct (actor_eqb_spec b a) as [->|H]; [exact Ma|]. rewrite aupd_ne, E4 in Hb by auto. exfalso. apply Hb. now apply Idle.
        -- destruct E9 as [(E9 & _)|(_ & E9)]; rewrite E9 in Hb; [|discriminate]. apply Mu. right. auto.
      * intros b Hb. rewrite Ma in Hb. injection Hb as <-. left. cbn [s_call]. rewrite aupd_eq. discriminate.
      * intros i Hi. assert (Q : s_call s (Bg i) <> SIdle). { destruct (actor_eqb_spec (Bg i) a) as [<-|H]; [rewrite Ea; discriminate|]. rewrite aupd_ne, E4 in Hi by auto. exact Hi. }
        destruct (Bgc i Q) as (Q1 & y & Q2). split; [exact Q1|]. destruct E9 as [(E9 & _)|(E9 & _)]; [rewrite E9; eauto|congruence].
      * auto.
      * auto.
      * intros Hw. destruct E9 as [(E9 & _)|(_ & E9)]; rewrite E9 in Hw; [|discriminate]. destruct (Wt Hw) as (W1 & W2). split; [exact W1|].
        intros b y. destruct (actor_eqb_spec b a) as [->|H]; [rewrite aupd_eq; discriminate|]. rewrite aupd_ne, E4 by auto. apply W2.
      * intros Hp. destruct E9 as [(E9 & _)|(_ & E9)]; rewrite E9 in Hp; [auto|discriminate].
      * exact Cr.
      * unfold coming, popped in *. cbn [s_mu s_call s_bgs]. rewrite ?E2, ?Ma, ?aupd_eq. rewrite Ma, Ea in Or. rewrite Or.
        destruct E9 as [(E9 & _)|(E9 & E10)]; [rewrite E9; reflexivity|rewrite E9, E10; reflexivity].
      * unfold running in *. cbn [s_bgs]. destruct E9 as [(E9 & _)|(E9 & E10)]; [rewrite E9; exact Dn|rewrite E10; rewrite E9 in Dn; exact Dn].
    + (* signal *)
      assert (Hs : s_started s = true) by (apply (St2 a x); auto). destruct One as [(_ & O)|((b & O) & _)]; [congruence|].
      assert (Res : s' = set_call (if is_wait b then set_bg s (s_queue s) (s_mu s) 0 BWoken else s) a (SPush x)).
      { rewrite O in E. destruct (s_queue s) as [|y q] eqn:Eq.
        - destruct w as [|w]; cbn [nth_error] in E.
          + destruct b; cbn [is_wait existsb orb] in *; injection E as <-; reflexivity.
          + assert (Hn : nth_error (@nil bgpc) w = None) by (now destruct w). rewrite Hn in E. cbn [existsb orb] in E. destruct b; cbn [is_wait orb] in *; try discriminate; injection E as <-; reflexivity.
        - injection E as <-. destruct b; cbn [is_wait]; try reflexivity. exfalso. destruct (Wt O) as (W & _). discriminate W. }
      clear E. subst s'.
      set (b' := if is_wait b then BWoken else b).
      assert (E9 : s_bgs (if is_wait b then set_bg s (s_queue s) (s_mu s) 0 BWoken else s) = [b']).
      { unfold b'. destruct b; cbn [is_wait set_bg s_bgs]; rewrite O; reflexivity. }
      assert (E0 : forall s1, s1 = (if is_wait b then set_bg s (s_queue s) (s_mu s) 0 BWoken else s) -> s_queue s1 = s_queue s /\ s_mu s1 = s_mu s /\ s_started s1 = s_started s /\ s_call s1 = s_call s /\ s_crash s1 = s_crash s /\ s_locked s1 = s_locked s /\ s_ran s1 = s_ran s /\ s_done s1 = s_done s).
      { intros s1 ->. destruct (is_wait b); repeat split. }
      destruct (E0 _ eq_refl) as (E1 & E2 & E3 & E4 & E5 & E6 & E7 & E8). clear E0.
      remember (if is_wait b then set_bg s (s_queue s) (s_mu s) 0 BWoken else s) as s1 eqn:Es1. clear Es1.
      pose proof (Nbg b O) as Nb.
      constructor; unfold set_call; cbn [s_queue s_mu s_started s_bgs s_call s_crash s_locked s_ran s_done]; rewrite ?E1, ?E2, ?E3, ?E5, ?E6, ?E7, ?E8, ?E9.
      * right. eauto.
      * intros c [Hb|(-> & Hb)]; cbn [s_call s_bgs] in Hb.
        -- destruct (actor_eqb_spec c a) as [->|H]; [exact Ma|]. rewrite aupd_ne, E4 in Hb by auto. exfalso. apply Hb. now apply Idle.
        -- rewrite ?E9 in Hb. unfold b' in Hb. destruct b; discriminate.
      * intros c Hb. rewrite Ma in Hb. injection Hb as <-. left. cbn [s_call]. rewrite aupd_eq. discriminate.
      * intros i Hi. assert (Q : s_call s (Bg i) <> SIdle). { destruct (actor_eqb_spec (Bg i) a) as [<-|H]; [rewrite Ea; discriminate|]. rewrite aupd_ne, E4 in Hi by auto. exact Hi. }
        destruct (Bgc i Q) as (Q1 & y & Q2). split; [exact Q1|]. exists y. rewrite O in Q2. injection Q2 as ->. reflexivity.
      * auto.
      * auto.
      * intros Hw. unfold b' in Hw. destruct b; discriminate.
      * intros Hp. unfold b' in Hp. destruct b; discriminate.
      * exact Cr.
      * unfold coming, popped in *. cbn [s_mu s_call s_bgs]. rewrite ?E2, ?Ma, ?aupd_eq, ?E9. rewrite Ma, Ea, O in Or. rewrite Or. unfold b'. destruct b; reflexivity.
      * unfold running in *. cbn [s_bgs]. rewrite ?E9. rewrite O in Dn. unfold b'. destruct b; exact Dn.
    + (* push *) injection E as <-.
      assert (Hs : s_started s = true) by (apply (St2 a x); auto).
      constructor; unfold set_call; cbn [s_queue s_mu s_started s_bgs s_call s_crash s_locked s_ran s_done]; auto.
      * intros c [Hb|(-> & Hb)]; cbn [s_call s_bgs] in Hb.
        -- destruct (actor_eqb_spec c a) as [->|H]; [exact Ma|]. rewrite aupd_ne in Hb by auto. exfalso. apply Hb. now apply Idle.
        -- apply Mu. right. auto.
      * intros c Hb. rewrite Ma in Hb. injection Hb as <-. left. cbn [s_call]. rewrite aupd_eq. discriminate.
      * intros i Hi. apply Bgc. destruct (actor_eqb_spec (Bg i) a) as [<-|H]; [rewrite Ea; discriminate|]. now rewrite aupd_ne in Hi by auto.
      * intros Hw. destruct (Wt Hw) as (_ & W2). exfalso. now apply (W2 a x).
      * intros _ H. now apply app_eq_nil in H.
      * unfold coming, popped in *. cbn [s_mu s_call s_bgs]. rewrite Ma, aupd_eq. rewrite Ma, Ea in Or. rewrite Or, app_nil_r. reflexivity.
    + (* unlock *) injection E as <-.
      assert (Hs : s_started s = true) by (apply (St2 a 0); auto).
      constructor; unfold set_call; cbn [s_queue s_mu s_started s_bgs s_call s_crash s_locked s_ran s_done]; auto.
      * intros c [Hb|(-> & Hb)]; cbn [s_call s_bgs] in Hb.
        -- destruct (actor_eqb_spec c a) as [->|H]; [rewrite aupd_eq in Hb; congruence|]. rewrite aupd_ne in Hb by auto. exfalso. apply Hb. now apply Idle.
        -- exfalso. destruct (s_bgs s) as [|b [|? ?]] eqn:Eb; try easy. rewrite (Nbg b eq_refl) in Hb. discriminate.
      * intros c Hb. discriminate.
      * intros i Hi. destruct (actor_eqb_spec (Bg i) a) as [<-|H]; [rewrite aupd_eq in Hi; congruence|]. rewrite aupd_ne in Hi by auto. auto.
      * intros Hw. destruct (Wt Hw) as (W1 & W2). split; [exact W1|]. intros b y. destruct (actor_eqb_spec b a) as [->|H]; [rewrite aupd_eq; discriminate|]. rewrite aupd_ne by auto. apply W2.
      * unfold coming, popped in *. cbn [s_mu s_call s_bgs]. rewrite Ma, Ea in Or. exact Or.
  - (* the background thread *) unfold bg_step in E. destruct (nth_error (s_bgs s) i) as [b|] eqn:En; [|discriminate].
    destruct One as [(O & _)|((b' & O) & Hs)]; rewrite O in En; [now destruct i|]. destruct i as [|i]; [|now destruct i]. injection En as ->.
    assert (Idle : bg_in b = true -> forall c, s_call s c = SIdle).
    { intros Hb c. destruct (spc_dec (s_call s c)) as [H|H]; [exact H|]. exfalso.
      assert (Q : s_mu s = Some (Bg 0)) by (apply Mu; right; rewrite O; auto). assert (Q2 : s_mu s = Some c) by (apply Mu; now left).
      rewrite Q in Q2. injection Q2 as <-. destruct (Bgc 0 H) as (_ & y & Hy). rewrite Hy in O. injection O as <-. discriminate. }
    assert (Mb : bg_in b = true -> s_mu s = Some (Bg 0)). { intros Hb. apply Mu. right. rewrite O. auto. }
    (* taking the mutex *)
    assert (Take : s_mu s = None -> (b = BLock \/ b = BWoken) -> SInv (set_bg s (s_queue s) (Some (Bg 0)) 0 BCheck)).
    { intros Em Hb.
      assert (Out : forall c, s_call s c = SIdle). { intros c. destruct (spc_dec (s_call s c)) as [H|H]; [exact H|]. exfalso. assert (Q : s_mu s = Some c) by (apply Mu; now left). congruence. }
      constructor; unfold set_bg; cbn [s_queue s_mu s_started s_bgs s_call s_crash s_locked s_ran s_done]; rewrite ?O; cbn [set_nth]; auto.
      - right. eauto.
      - intros c [Hc|(-> & _)]; [cbn [s_call] in Hc; exfalso; apply Hc, Out|reflexivity].
      - intros c Hc. injection Hc as <-. right. cbn [s_bgs]. auto.
      - intros i Hi. exfalso. apply Hi, Out.
      - discriminate.
      - discriminate.
      - unfold coming, popped in *. cbn [s_mu s_call s_bgs]. rewrite Out. rewrite Em, O in Or. rewrite Or. destruct Hb as [-> | ->]; reflexivity.
      - unfold running in *. cbn [s_bgs]. rewrite O in Dn. destruct Hb as [-> | ->]; exact Dn. }
    destruct b as [| | | | |x|x].
    + destruct (s_mu s) eqn:Em; [discriminate|]. injection E as <-. apply Take; auto.
    + (* check *) pose proof (Mb eq_refl) as Em. pose proof (Idle eq_refl) as Out. destruct (s_queue s) as [|y q] eqn:Eq; injection E as <-.
      * constructor; unfold set_bg; cbn [s_queue s_mu s_started s_bgs s_call s_crash s_locked s_ran s_done]; rewrite ?O; cbn [set_nth]; auto.
        -- right. eauto.
        -- intros c [Hc|(-> & Hc)]; [cbn [s_call] in Hc; exfalso; apply Hc, Out|discriminate].
        -- discriminate.
        -- intros i Hi. exfalso. apply Hi, Out.
        -- intros _. split; [reflexivity|]. intros c y. rewrite Out. discriminate.
        -- discriminate.
        -- unfold coming, popped in *. cbn [s_mu s_call s_bgs]. rewrite Em, Out, O in Or. rewrite Or. reflexivity.
        -- unfold running in *. cbn [s_bgs]. rewrite O in Dn. exact Dn.
      * constructor; unfold set_bg; cbn [s_queue s_mu s_started s_bgs s_call s_crash s_locked s_ran s_done]; rewrite ?O; cbn [set_nth]; auto.
        -- right. eauto.
        -- intros c [Hc|(-> & Hc)]; [cbn [s_call] in Hc; exfalso; apply Hc, Out|exact Em].
        -- intros c Hc. rewrite Em in Hc. injection Hc as <-. right. cbn [s_bgs]. auto.
        -- intros i Hi. exfalso. apply Hi, Out.
        -- discriminate.
        -- discriminate.
        -- unfold coming, popped in *. cbn [s_mu s_call s_bgs]. rewrite Em, Out, O in Or. rewrite Em, Out. exact Or.
        -- unfold running in *. cbn [s_bgs]. rewrite O in Dn. exact Dn.
    + discriminate.
    + destruct (s_mu s) eqn:Em; [discriminate|]. injection E as <-. apply Take; auto.
    + (* pop *) pose proof (Mb eq_refl) as Em. pose proof (Idle eq_refl) as Out. destruct (s_queue s) as [|y q] eqn:Eq; [now destruct (Pp O)|]. injection E as <-.
      constructor; unfold set_bg; cbn [s_queue s_mu s_started s_bgs s_call s_crash s_locked s_ran s_done]; rewrite ?O; cbn [set_nth]; auto.
      * right. eauto.
      * intros c [Hc|(-> & Hc)]; [cbn [s_call] in Hc; exfalso; apply Hc, Out|exact Em].
      * intros c Hc. rewrite Em in Hc. injection Hc as <-. right. cbn [s_bgs]. auto.
      * intros i Hi. exfalso. apply Hi, Out.
      * discriminate.
      * discriminate.
      * unfold coming, popped in *. cbn [s_mu s_call s_bgs]. rewrite Em, Out, O in Or. rewrite Em, Out. exact Or.
      * unfold running in *. cbn [s_bgs]. rewrite O in Dn. exact Dn.
    + (* unlock *) pose proof (Mb eq_refl) as Em. pose proof (Idle eq_refl) as Out. injection E as <-.
      constructor; cbn [s_queue s_mu s_started s_bgs s_call s_crash s_locked s_ran s_done]; rewrite ?O; cbn [set_nth]; auto.
      * right. eauto.
      * intros c [Hc|(-> & Hc)]; [cbn [s_call] in Hc; exfalso; apply Hc, Out|discriminate].
      * discriminate.
      * intros i Hi. exfalso. apply Hi, Out.
      * discriminate.
      * discriminate.
      * unfold coming, popped in *. cbn [s_mu s_call s_bgs]. rewrite Em, Out, O in Or. rewrite Or, <- !app_assoc. reflexivity.
      * unfold running in *. cbn [s_bgs]. rewrite O in Dn. rewrite Dn, app_nil_r. reflexivity.
    + (* the function returns *) destruct (s_call s (Bg 0)) eqn:Ec; try discriminate. injection E as <-.
      assert (Bg' : forall i, s_call s (Bg i) = SIdle). { intros i. destruct (spc_dec (s_call s (Bg i))) as [H|H]; [exact H|]. destruct (Bgc i H) as (-> & _). exact Ec. }
      constructor; cbn [s_queue s_mu s_started s_bgs s_call s_crash s_locked s_ran s_done]; rewrite ?O; cbn [set_nth]; auto.
      * right. eauto.
      * intros c [Hc|(-> & Hc)]; [|discriminate]. apply Mu. now left.
      * intros c Hc. apply Mu2 in Hc as [Hc|(-> & Hc)]; [now left|]. rewrite O in Hc. discriminate.
      * intros i Hi. exfalso. apply Hi, Bg'.
      * discriminate.
      * discriminate.
      * unfold coming, popped in *. cbn [s_mu s_call s_bgs]. rewrite O in Or. exact Or.
      * unfold running in *. cbn [s_bgs]. rewrite O in Dn. now rewrite app_nil_r.
  - (* spurious *) destruct (nth_error (s_bgs s) i) as [b|] eqn:En; [|discriminate]. destruct b; try discriminate. injection E as <-.
    destruct One as [(O & _)|((b' & O) & Hs)]; rewrite O in En; [now destruct i|]. destruct i as [|i]; [|now destruct i]. injection En as ->.
    constructor; unfold set_bg; cbn [s_queue s_mu s_started s_bgs s_call s_crash s_locked s_ran s_done]; rewrite ?O; cbn [set_nth]; auto.
    + right. eauto.
    + intros c [Hc|(-> & Hc)]; [|discriminate]. apply Mu. now left.
    + intros c Hc. apply Mu2 in Hc as [Hc|(-> & Hc)]; [now left|]. rewrite O in Hc. discriminate.
    + intros i Hi. destruct (Bgc i Hi) as (_ & y & Hy). congruence.
    + discriminate.
    + unfold coming, popped in *. cbn [s_mu s_call s_bgs]. rewrite O in Or. exact Or.
    + unfold running in *. cbn [s_bgs]. rewrite O in Dn. exact Dn.
Qed.

Lemma sinv s : sreach s -> SInv s.
Proof.
  induction 1 as [|s a s' R IH E]; [|eapply sinv_step; eauto].
  constructor; cbn; try easy; auto.
  - intros a [H|(_ & [])]. now destruct H.
  - intros a x [H|[H|H]]; discriminate.
Qed.
