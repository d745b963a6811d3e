(** PosixConcInv.v -- the invariant of all executions of PosixConc.v: who holds what. *)
From Coq Require Import List Arith NArith ZArith Lia Bool Permutation.
From Verif Require Import Outcome Status MemEnv PosixOs PosixWritable PosixRead PosixEnv PosixFs PosixEnvSpec PosixConc PosixConcSpec PosixConcSafe PosixConcHeld.
Import ListNotations.

(** Whose a thing in the hands of call [n] is: the call's own, or the object's. *)
Definition who (n : nat) (x : pcall) (b : bool) : nat := if b then match on x with Some h => h | None => n end else n.
Definition tag (n : nat) (x : pcall) (R : list titem) : list gitem := map (fun p => (who n x (fst p), snd p)) R.
Lemma tag_perm n x R R' : Permutation R R' -> Permutation (tag n x R) (tag n x R').
Proof. apply Permutation_map. Qed.
Lemma in_tag n x i R : In i (map snd R) -> exists b, In (who n x b, i) (tag n x R).
Proof. intros H. apply in_map_iff in H. destruct H as ([b j] & E & H). cbn in E. subst j. exists b. apply in_map_iff. exists (b, i). auto. Qed.
Lemma tag_in n x m i R : In (m, i) (tag n x R) -> exists b, In (b, i) R /\ m = who n x b.
Proof. intros H. apply in_map_iff in H. destruct H as ([b j] & E & H). cbn in E. injection E as <- <-. eauto. Qed.

(** [k]: the kind of the object the call has for itself, if it has one. *)
Record wf (k : option kind) (R : list titem) : Prop := mk_wf {
  wf_tags : k = None -> forall i, ~ In (true, i) R;
  wf_maps : forall n x, length (maps (tag n x R)) <= length (slots_of LMmap (tag n x R));
  wf_rand : k = Some KRand -> forall fd, In (true, IFd fd) R -> In (true, ISlot LFd) R;
  wf_one : forall fd fd', In (true, IFd fd) R -> In (true, IFd fd') R -> fd = fd'
}.
Lemma wf_nil k : wf k [].
Proof. constructor; [intros _ i []|intros; cbn; lia|intros _ fd []|intros fd fd' []]. Qed.
Lemma wf_add k i R : wf k R -> (forall b l, i <> IMap b l) -> wf k ((false, i) :: R).
Proof.
  intros [W0 W1 W2 W3] N. constructor.
  - intros E j [X|X]; [discriminate|]. eapply W0; eassumption.
  - intros n x. specialize (W1 n x). destruct i; cbn [tag map fst snd maps slots_of flat_map app] in *; auto; try (exfalso; eapply N; reflexivity).
    cbn [who]. fold (tag n x R). unfold maps, slots_of in W1. destruct (is_which LMmap l); cbn [app length]; lia.
  - intros E fd [X|X]; [discriminate|]. right. eauto.
  - intros fd fd' [X|X] [Y|Y]; try discriminate; eauto.
Qed.
Lemma wf_map k b l R : wf k R -> In (ISlot LMmap) (map snd R) -> (forall b l, ~ In (IMap b l) (map snd R)) -> wf k ((false, IMap b l) :: R).
Proof.
  intros [W0 W1 W2 W3] S N. constructor.
  - intros E j [X|X]; [discriminate|]. eapply W0; eassumption.
  - intros n x. assert (E : maps (tag n x R) = []).
    { destruct (maps (tag n x R)) as [|y ys] eqn:E; [reflexivity|]. assert (X : In y (maps (tag n x R))) by (rewrite E; left; reflexivity). apply maps_in in X. destruct X as (m & len & X).
      apply tag_in in X. destruct X as (t & X & _). elim (N y len). apply in_map_iff. exists (t, IMap y len). auto. }
    cbn [tag map fst snd maps slots_of flat_map app]. fold (tag n x R). fold (maps (tag n x R)). rewrite E. cbn [length].
    destruct (in_tag n x (ISlot LMmap) R S) as (t & X). change (flat_map _ (tag n x R)) with (slots_of LMmap (tag n x R)).
    assert (Y : In (who n x t) (slots_of LMmap (tag n x R))) by (apply in_flat_map; exists (who n x t, ISlot LMmap); split; [exact X|left; reflexivity]).
    destruct (slots_of LMmap (tag n x R)); [destruct Y|cbn [length]; lia].
  - intros E fd [X|X]; [discriminate|]. right. eauto.
  - intros fd fd' [X|X] [Y|Y]; try discriminate; eauto.
Qed.
Lemma wf_del k b i R R' : Permutation R ((b, i) :: R') -> (forall l, i <> ISlot l) -> wf k R -> wf k R'.
Proof.
  intros P N [W0 W1 W2 W3]. assert (I1 : forall y, In y R' -> In y R) by (intros y Y; apply (Permutation_in y (Permutation_sym P)); right; exact Y).
  constructor.
  - intros E j X. apply (W0 E j). auto.
  - intros n x. specialize (W1 n x). pose proof (tag_perm n x _ _ P) as T.
    assert (W4 : length (maps (tag n x R)) = length (maps (tag n x ((b, i) :: R')))) by exact (Permutation_length (perm_flat _ _ _ T)).
    assert (W5 : length (slots_of LMmap (tag n x R)) = length (slots_of LMmap (tag n x ((b, i) :: R')))) by exact (Permutation_length (perm_flat _ _ _ T)).
    rewrite W4, W5 in W1. clear W4 W5. unfold maps, slots_of in W1.
    unfold maps, slots_of. destruct i; cbn [tag map fst snd flat_map app length] in W1; try exact W1; try (exfalso; eapply N; reflexivity). unfold tag. lia.
  - intros E fd X. assert (Y : In (true, ISlot LFd) R) by (apply (W2 E fd); auto). apply (Permutation_in _ P) in Y. destruct Y as [Y|Y]; [|exact Y]. injection Y as _ Y. elim (N LFd). exact Y.
  - intros fd fd' X Y. apply W3; auto.
Qed.

Section Thread.
  Variables (v0 : view) (lim0 : limits).
  Hypothesis S0 : forall fd, v_fd v0 fd <> None -> (0 <= fd)%Z.
  Notation held := (held v0 lim0).
  Variables (A : Type) (bor : list item) (Q : A -> list titem -> Prop) (kd : option kind) (n : nat) (x : pcall) (rest : list gitem).
  Hypothesis Hb : forall i, In i bor -> exists m, In (m, i) rest.

  Lemma ok_fd_in R fd : ok_fd bor R fd -> (fd = -1)%Z \/ exists m, In (m, IFd fd) (tag n x R ++ rest).
  Proof.
    intros [E|E]; [left; exact E|right]. apply in_app_or in E. destruct E as [E|E].
    - destruct (in_tag n x _ _ E) as (b & X). exists (who n x b). apply in_or_app. left. exact X.
    - destruct (Hb _ E) as (m & X). exists m. apply in_or_app. right. exact X.
  Qed.
  Lemma held_frees tr v lim R b i R' : Permutation R ((b, i) :: R') -> held tr v lim (tag n x R ++ rest) -> held tr v lim ((who n x b, i) :: tag n x R' ++ rest).
  Proof. intros P. apply held_perm. apply (Permutation_app_tail rest (tag_perm n x _ _ P)). Qed.

  Lemma sys_step R c (k : answer -> prog A) a tr v v' lim :
    safe bor Q R (PSys c k) -> wf kd R -> kstep v (c, a) v' -> held tr v lim (tag n x R ++ rest) ->
    exists R', safe bor Q R' (k a) /\ wf kd R' /\ held ((Act n c a, v') :: tr) v' lim (tag n x R' ++ rest).
  Proof.
    intros S W K H.
    assert (P0 : plain c a = true -> (forall fd, uses_fd c = Some fd -> (fd = -1)%Z \/ ok_fd bor R fd) -> (forall d, uses_dir c = Some d -> In (IDir d) (map snd R)) ->
              held ((Act n c a, v') :: tr) v' lim (tag n x R ++ rest)).
    { intros Pl U D. eapply held_plain; try eassumption.
      - intros fd E. destruct (U fd E) as [X|X]; [left; exact X|apply ok_fd_in; exact X].
      - intros d E. destruct (in_tag n x _ _ (D d E)) as (b & X). exists (who n x b). apply in_or_app. left. exact X. }
    destruct c; cbn [safe] in S; try contradiction.
    - destruct (S a) as (S1 & S2). destruct (k_open_sign _ _ _ _ _ K) as [E|E].
      + exists R. split; [apply S1; lia|]. split; [exact W|]. apply P0; [cbn [plain]; apply Z.ltb_lt; lia|discriminate|discriminate].
      + exists ((false, IFd (a_ret a)) :: R). split; [apply S2; exact E|]. split; [apply wf_add; [exact W|discriminate]|]. eapply held_open; eassumption.
    - destruct S as [(-> & S)|(b & R' & P & S)].
      + exists R. split; [apply S|]. split; [exact W|]. apply P0; [reflexivity| |discriminate]. cbn [uses_fd]. intros fd X. injection X as <-. left. reflexivity.
      + exists R'. split; [apply S|]. split; [eapply wf_del; [exact P|discriminate|exact W]|]. eapply held_close; [|exact K]. eapply held_frees; eassumption.
    - destruct S as (S1 & S2). exists R. split; [apply S2; inversion K; subst; try discriminate; lia|]. split; [exact W|]. apply P0; [reflexivity| |discriminate]. cbn [uses_fd]. intros y X. injection X as <-. right. exact S1.
    - destruct S as (S1 & S2). exists R. split; [apply S2; inversion K; subst; try discriminate; lia|]. split; [exact W|]. apply P0; [reflexivity| |discriminate]. cbn [uses_fd]. intros y X. injection X as <-. right. exact S1.
    - destruct S as (S1 & S2). exists R. split; [apply S2; inversion K; subst; try discriminate; lia|]. split; [exact W|]. apply P0; [reflexivity| |discriminate]. cbn [uses_fd]. intros y X. injection X as <-. right. exact S1.
    - destruct S as (S1 & S2). exists R. split; [apply S2|]. split; [exact W|]. apply P0; [reflexivity| |discriminate]. cbn [uses_fd]. intros y X. injection X as <-. right. exact S1.
    - destruct S as (S1 & S2). exists R. split; [apply S2|]. split; [exact W|]. apply P0; [reflexivity| |discriminate]. cbn [uses_fd]. intros y X. injection X as <-. right. exact S1.
    - exists R. split; [apply S|]. split; [exact W|]. apply P0; [reflexivity|discriminate|discriminate].
    - destruct S as ((S1 & S3 & S4) & S2). destruct (S2 a) as (S5 & S6).
      assert (E : (a_ret a = -1 \/ 0 <= a_ret a)%Z) by (inversion K; subst; auto; discriminate). destruct E as [E|E].
      + exists R. split; [apply S5; exact E|]. split; [exact W|]. apply P0; [cbn [plain]; apply Z.ltb_lt; lia| |discriminate]. cbn [uses_fd]. intros y X. injection X as <-. right. exact S1.
      + eexists. split; [apply S6; exact E|]. split; [apply wf_map; assumption|]. eapply held_mmap; eassumption.
    - destruct S as (b & R' & P & S). exists R'. split; [apply S|]. split; [eapply wf_del; [exact P|discriminate|exact W]|]. eapply held_munmap; [|exact K]. eapply held_frees; eassumption.
    - exists R. split; [apply S|]. split; [exact W|]. apply P0; [reflexivity|discriminate|discriminate].
    - exists R. split; [apply S|]. split; [exact W|]. apply P0; [reflexivity|discriminate|discriminate].
    - exists R. split; [apply S|]. split; [exact W|]. apply P0; [reflexivity|discriminate|discriminate].
    - exists R. split; [apply S|]. split; [exact W|]. apply P0; [reflexivity|discriminate|discriminate].
    - exists R. split; [apply S|]. split; [exact W|]. apply P0; [reflexivity|discriminate|discriminate].
    - destruct (S a) as (S1 & S2). destruct (N.eq_dec (a_val a) 0) as [E|E].
      + exists R. split; [apply S1; exact E|]. split; [exact W|]. apply P0; [cbn [plain]; apply N.eqb_eq; exact E|discriminate|discriminate].
      + eexists. split; [apply S2; exact E|]. split; [apply wf_add; [exact W|discriminate]|]. eapply held_opendir; eassumption.
    - destruct S as (S1 & S2). exists R. split; [apply S2|]. split; [exact W|]. apply P0; [reflexivity|discriminate|]. cbn [uses_dir]. intros y X. injection X as <-. exact S1.
    - destruct S as (b & R' & P & S). exists R'. split; [apply S|]. split; [eapply wf_del; [exact P|discriminate|exact W]|]. eapply held_closedir; [|exact K]. eapply held_frees; eassumption.
  Qed.
  Lemma sub_step R l (k : Z -> prog A) tr v lim :
    safe bor Q R (PSub l k) -> wf kd R -> held tr v lim (tag n x R ++ rest) ->
    exists R', safe bor Q R' (k (lim_get lim l)) /\ wf kd R' /\ held tr v (lim_add lim l (-1)) (tag n x R' ++ rest).
  Proof.
    intros S W H. cbn [safe] in S. destruct (S (lim_get lim l)) as (S1 & S2). destruct (Z_lt_dec 0 (lim_get lim l)) as [L|L].
    - eexists. split; [apply S1; exact L|]. split; [apply wf_add; [exact W|discriminate]|]. eapply (held_count v0 lim0 _ (ISlot l)); [exact Logic.I| | |exact H].
      + intros l'. rewrite lim_get_add. destruct (is_which l' l); lia.
      + intros l' E. injection E as <-. exact L.
    - eexists. split; [apply S2; lia|]. split; [apply wf_add; [exact W|discriminate]|]. eapply (held_count v0 lim0 _ (IDebt l)); [exact Logic.I| |discriminate|exact H].
      intros l'. rewrite lim_get_add. destruct (is_which l' l); lia.
  Qed.
  Lemma add_step R l (k : prog A) tr v lim :
    safe bor Q R (PAdd l k) -> wf kd R -> held tr v lim (tag n x R ++ rest) ->
    exists R', safe bor Q R' k /\ wf kd R' /\ held tr v (lim_add lim l 1) (tag n x R' ++ rest).
  Proof.
    intros S W H. cbn [safe] in S. destruct S as [(b & R' & P & -> & S)|(b & R' & P & S)].
    - exists []. split; [exact S|]. split; [apply wf_nil|]. eapply (held_uncount v0 lim0 (who n x b) (ISlot l)); [exact Logic.I| |eapply held_frees; eassumption].
      intros l'. rewrite lim_get_add. destruct (is_which l' l); lia.
    - exists R'. split; [exact S|]. split; [eapply wf_del; [exact P|discriminate|exact W]|]. eapply (held_uncount v0 lim0 (who n x b) (IDebt l)); [exact Logic.I| |eapply held_frees; eassumption].
      intros l'. rewrite lim_get_add. destruct (is_which l' l); lia.
  Qed.
End Thread.

(** ** All threads *)
Fixpoint setr {A} (t : nat) (p : A) (l : list A) : list A :=
  match l, t with [], _ => [] | _ :: l', O => p :: l' | q :: l', S t' => q :: setr t' p l' end.
Lemma set_thr_setr t p l : set_thr t p l = setr t p l.
Proof. revert t. induction l as [|q l IH]; intros [|t]; cbn; auto. now rewrite IH. Qed.
Lemma setr_same {A} t (p q : A) l : nth_error l t = Some q -> nth_error (setr t p l) t = Some p.
Proof. revert t. induction l as [|y l IH]; intros [|t]; cbn; try discriminate; auto. Qed.
Lemma setr_other {A} t u (p : A) l : t <> u -> nth_error (setr t p l) u = nth_error l u.
Proof. revert t u. induction l as [|y l IH]; intros [|t] [|u] N; cbn; auto; try congruence. Qed.
Lemma setr_length {A} t (p : A) l : length (setr t p l) = length l.
Proof. revert t. induction l as [|y l IH]; intros [|t]; cbn; auto. Qed.
Lemma setr_id {A} t (p : A) l : nth_error l t = Some p -> setr t p l = l.
Proof. revert t. induction l as [|y l IH]; intros [|t]; cbn; try discriminate; [congruence|]. intros E. now rewrite IH. Qed.

Definition thr_items (T : tstate) (R : list titem) : list gitem := match T with TIn n x _ => tag n x R | TIdle => [] end.
Fixpoint all_thr (Ts : list tstate) (Rs : list (list titem)) : list gitem :=
  match Ts, Rs with T :: Ts', R :: Rs' => thr_items T R ++ all_thr Ts' Rs' | _, _ => [] end.
Definition obj_items (objs : list (nat * pobj)) : list gitem := flat_map (fun p => map (pair (fst p)) (items (snd p))) objs.
Lemma all_thr_at : forall Ts Rs t T R, nth_error Ts t = Some T -> nth_error Rs t = Some R ->
  exists rest, Permutation (all_thr Ts Rs) (thr_items T R ++ rest) /\
    (forall T' R', Permutation (all_thr (setr t T' Ts) (setr t R' Rs)) (thr_items T' R' ++ rest)) /\
    (forall y, In y rest <-> exists u T1 R1, u <> t /\ nth_error Ts u = Some T1 /\ nth_error Rs u = Some R1 /\ In y (thr_items T1 R1)).
Proof.
  assert (AT : forall Ts Rs y, In y (all_thr Ts Rs) <-> exists u T1 R1, nth_error Ts u = Some T1 /\ nth_error Rs u = Some R1 /\ In y (thr_items T1 R1)).
  { induction Ts as [|T0 Ts IH]; intros [|R0 Rs] y; cbn [all_thr].
    - split; [intros []|intros ([|u] & ? & ? & ? & ? & _); discriminate].
    - split; [intros []|intros ([|u] & ? & ? & ? & ? & _); discriminate].
    - split; [intros []|intros ([|u] & ? & ? & ? & ? & _); discriminate].
    - rewrite in_app_iff, IH. split.
      + intros [X|(u & T1 & R1 & E1 & E2 & X)]; [exists 0, T0, R0; auto|exists (S u), T1, R1; auto].
      + intros ([|u] & T1 & R1 & E1 & E2 & X); cbn in E1, E2; [left; congruence|right; eauto 6]. }
  induction Ts as [|T0 Ts IH]; intros [|R0 Rs] [|t] T R E1 E2; try discriminate; cbn [nth_error] in E1, E2.
  - injection E1 as ->. injection E2 as ->. exists (all_thr Ts Rs). cbn [all_thr setr]. split; [reflexivity|]. split; [reflexivity|]. intros y. rewrite AT. split.
    + intros (u & T1 & R1 & X). exists (S u), T1, R1. cbn. split; [congruence|exact X].
    + intros ([|u] & T1 & R1 & N & X); [congruence|]. exists u, T1, R1. exact X.
  - destruct (IH Rs t T R E1 E2) as (rest & P1 & P2 & P3). exists (thr_items T0 R0 ++ rest). cbn [all_thr setr]. split; [|split].
    + rewrite P1. rewrite !app_assoc. apply Permutation_app_tail, Permutation_app_comm.
    + intros T' R'. rewrite P2. rewrite !app_assoc. apply Permutation_app_tail, Permutation_app_comm.
    + intros y. rewrite in_app_iff, P3. split.
      * intros [X|(u & T1 & R1 & N & X)]; [exists 0, T0, R0; cbn; auto|exists (S u), T1, R1; cbn; split; [congruence|exact X]].
      * intros ([|u] & T1 & R1 & N & X); cbn in X; [left; destruct X as (X1 & X2 & X3); congruence|right; exists u, T1, R1; split; [congruence|exact X]].
Qed.
Lemma all_thr_in Ts Rs y : In y (all_thr Ts Rs) -> exists u T R, nth_error Ts u = Some T /\ nth_error Rs u = Some R /\ In y (thr_items T R).
Proof.
  revert Rs. induction Ts as [|T0 Ts IH]; intros [|R0 Rs] X; cbn [all_thr] in X; try contradiction.
  apply in_app_or in X. destruct X as [X|X]; [exists 0, T0, R0; auto|]. destruct (IH Rs X) as (u & T & R & E). exists (S u), T, R. exact E.
Qed.
