(** PosixConcNames.v -- which calls of the environment can change an entry or the
    contents of a file (proofs). *)
From Coq Require Import List Arith NArith ZArith Lia Bool Permutation.
From Verif Require Import Outcome Status MemEnv PosixOs PosixWritable PosixWritableSpec PosixWritableProofs PosixRead PosixEnv PosixFs PosixEnvSpec EnvUtil PosixIoSpec PosixConc PosixConcSpec PosixConcSafe PosixConcHeld PosixConcInv PosixConcProofs PosixConcTrace PosixConcFacts PosixConcReads PosixConcWriteSpec PosixConcWr PosixConcWrites PosixConcFiles PosixConcSaved PosixConcObj PosixConcStreamSpec PosixConcStream PosixConcDir PosixConcPubSpec.
Import ListNotations.

(** System calls that can change the entry [p]. *)
Definition names (c : syscall) (p : str) : Prop :=
  match c with
  | COpen q fl => fl <> RdOnly /\ q = p
  | CUnlink q | CMkdir q | CRmdir q => q = p
  | CRename a b => a = p \/ b = p
  | _ => False
  end.
Lemma k_name v c a v' p : kstep v (c, a) v' -> ~ names c p -> v_name v' p = v_name v p /\ (v_sure v p = true -> v_sure v' p = true).
Proof.
  intros K N. inversion K; subst; cbn [names] in N; cbn [v_name v_sure with_fd with_map with_dir with_name with_data create synced]; unfold upd; auto;
    try (destruct (eqs p p0) as [->|]; [exfalso; apply N; auto|auto]).
  - split; [reflexivity|]. intros ->. reflexivity.
  - destruct (eqs p q) as [->|]; [exfalso; apply N; auto|]. auto.
Qed.
Lemma k_distinct v c a v' : kstep v (c, a) v' -> (forall p i, v_name v p = Some i -> i < v_next v) -> distinct v -> distinct v'.
Proof.
  intros K N H. assert (Fr : forall p q i, v_name v p = None -> upd eqs (v_name v) p (Some (v_next v)) q = Some i -> i = v_next v /\ q = p \/ i < v_next v /\ v_name v q = Some i).
  { intros p q i E X. unfold upd in X. destruct (eqs q p) as [->|]; [left; split; congruence|right; eauto]. }
  inversion K; subst; try exact H; intros q1 q2 j; cbn [v_name with_fd with_map with_dir with_name with_data create synced]; try (apply H).
  - intros X Y. match goal with E : v_name v _ = None |- _ => destruct (Fr _ _ _ E X) as [(? & ?)|(? & ?)], (Fr _ _ _ E Y) as [(? & ?)|(? & ?)] end; try lia; [congruence|eauto].
  - unfold upd. destruct (eqs q1 p); [discriminate|]. destruct (eqs q2 p); [discriminate|]. apply H.
  - intros X Y. match goal with E : v_name v _ = None |- _ => destruct (Fr _ _ _ E X) as [(? & ?)|(? & ?)], (Fr _ _ _ E Y) as [(? & ?)|(? & ?)] end; try lia; [congruence|eauto].
  - unfold upd. destruct (eqs q1 p); [discriminate|]. destruct (eqs q2 p); [discriminate|]. apply H.
  - unfold upd. destruct (eqs q1 p) as [|N1]; [discriminate|]. destruct (eqs q2 p) as [|N2]; [discriminate|]. destruct (eqs q1 q) as [->|]; destruct (eqs q2 q) as [->|]; intros X Y; auto.
    + exfalso. apply N2. apply (H _ _ _ Y). congruence.
    + exfalso. apply N1. apply (H _ _ _ X). congruence.
    + eapply H; eassumption.
Qed.

Section Only.
  Variable dbg : bool.
  Variable B : nat.
  Variable strerror : Z -> str.
  Notation prog_of := (prog_of dbg B strerror).

  (** [P] holds of the harmless system calls. *)
  Variable P : syscall -> Prop.
  Hypothesis P_quiet : forall c, match c with COpen _ fl => fl = RdOnly | CWrite _ _ | CUnlink _ | CMkdir _ | CRmdir _ | CRename _ _ => False | _ => True end -> P c.

  Lemma o_lift {A} (o : outcome A) : only P (plift o).
  Proof. destruct o; exact Logic.I. Qed.
  Lemma o_bind {A C} (p : prog A) (f : A -> prog C) : only P p -> (forall a, only P (f a)) -> only P (pbind p f).
  Proof. apply only_bind. Qed.
  Ltac q := apply P_quiet; exact Logic.I || reflexivity.
  Lemma o_sys c : P c -> only P (psys c).
  Proof. intros H. split; [exact H|]. intros a. exact Logic.I. Qed.
  Lemma o_done {A} (a : A) : only P (PDone a).
  Proof. exact Logic.I. Qed.
  Lemma o_sync_dir f : only P (psync_dir strerror f).
  Proof.
    unfold psync_dir, psync_fd. destruct (negb _); [exact Logic.I|]. apply o_bind; [apply o_sys; q|]. intros a. destruct (_ <? _)%Z; [exact Logic.I|].
    apply o_bind; [apply o_bind; [apply o_sys; q|intros; exact Logic.I]|]. intros st. apply o_bind; [apply o_sys; q|intros; exact Logic.I].
  Qed.
  Lemma o_seq_read f k : forall fuel, only P (pseq_read strerror fuel f k).
  Proof.
    induction fuel as [|fuel IH]; [exact Logic.I|]. cbn [pseq_read]. apply o_bind; [apply o_sys; q|]. intros a.
    destruct (a_ret a <? 0)%Z; [destruct (a_errno a =? EINTR)%Z; [apply IH|exact Logic.I]|]. destruct (_ <? _)%Z; exact Logic.I.
  Qed.
  Lemma o_acquire l : only P (pacquire l).
  Proof. intros z. destruct (0 <? z)%Z; exact Logic.I. Qed.
  Lemma o_new_pread name fd : only P (pnew_pread name fd).
  Proof. apply o_bind; [apply o_acquire|]. intros []; [exact Logic.I|]. apply o_bind; [apply o_sys; q|intros; exact Logic.I]. Qed.
  Lemma o_size name : only P (pget_file_size strerror name).
  Proof. apply o_bind; [apply o_sys; q|intros; exact Logic.I]. Qed.
  Lemma o_random name : only P (pnew_random strerror name).
  Proof.
    apply o_bind; [apply o_sys; q|]. intros a. cbv zeta. destruct (_ <? _)%Z; [exact Logic.I|]. apply o_bind; [apply o_acquire|]. intros [].
    - cbn [negb]. apply o_bind; [apply o_size|]. intros (k, st). apply o_bind.
      + destruct st; [|exact Logic.I]. apply o_bind; [apply o_sys; q|intros; exact Logic.I].
      + intros (res, st'). apply o_bind; [apply o_sys; q|]. intros b. destruct st'; exact Logic.I.
    - cbn [negb]. apply o_bind; [apply o_new_pread|intros; exact Logic.I].
  Qed.
  Lemma o_ran_read f off k : only P (pran_read dbg strerror f off k).
  Proof.
    destruct f as [fd name|name|base len name]; cbn [pran_read].
    - apply o_bind; [apply o_lift|]. intros _. apply o_bind; [apply o_sys; q|]. intros a. destruct (_ <? _)%Z; exact Logic.I.
    - apply o_bind; [apply o_sys; q|]. intros a. destruct (_ <? _)%Z; [exact Logic.I|]. apply o_bind; [apply o_lift|]. intros _. apply o_bind; [apply o_sys; q|]. intros b. destruct (_ <? _)%Z; [exact Logic.I|].
      apply o_bind; [apply o_lift|]. intros _. apply o_bind; [apply o_sys; q|intros; exact Logic.I].
    - exact Logic.I.
  Qed.
  Lemma o_ran_delete f : only P (pran_delete dbg f).
  Proof.
    destruct f as [fd name|name|base len name]; cbn [pran_delete].
    - apply o_bind; [apply o_lift|]. intros _. apply o_bind; [apply o_sys; q|]. intros a. exact Logic.I.
    - exact Logic.I.
    - apply o_bind; [apply o_sys; q|]. intros a. exact Logic.I.
  Qed.
  Lemma o_read_dir d : forall fuel l, only P (pread_dir fuel d l).
  Proof. induction fuel as [|fuel IH]; intros l; [exact Logic.I|]. cbn [pread_dir]. apply o_bind; [apply o_sys; q|]. intros a. destruct (_ =? _)%Z; [exact Logic.I|apply IH]. Qed.
  Lemma o_children fuel d : only P (pget_children strerror fuel d).
  Proof. apply o_bind; [apply o_sys; q|]. intros a. destruct (N.eqb _ _); [exact Logic.I|]. apply o_bind; [apply o_read_dir|]. intros l. apply o_bind; [apply o_sys; q|intros; exact Logic.I]. Qed.
  Lemma o_ask c ctx : P c -> only P (pask strerror c ctx).
  Proof. intros H. apply o_bind; [apply o_sys; exact H|intros; exact Logic.I]. Qed.
  Lemma o_new_writable name fl : P (COpen name fl) -> only P (pnew_writable dbg B strerror name fl).
  Proof. intros H. apply o_bind; [apply o_sys; exact H|]. intros a. destruct (_ <? _)%Z; [exact Logic.I|]. apply o_bind; [apply o_lift|intros; exact Logic.I]. Qed.
  (** Calls that are not made on a WritableFile do not write. *)
  Lemma o_others fuel x o : (forall p fl, writer x = true -> opens x = Some (KWrite, p) -> P (COpen p fl)) -> (forall c ctx, asks x = Some (c, ctx) -> P c) -> (forall f, o <> Some (ObW f)) -> only P (prog_of fuel x o).
  Proof.
    intros W A N. destruct x; cbn [PosixConc.prog_of].
    - apply o_bind; [apply o_sys; q|]. intros a. destruct (_ <? _)%Z; exact Logic.I.
    - apply o_random.
    - apply o_new_writable. apply W; reflexivity.
    - apply o_new_writable. apply W; reflexivity.
    - apply o_bind; [apply o_sys; q|intros; exact Logic.I].
    - apply o_bind; [apply o_children|intros []; exact Logic.I].
    - apply o_bind; [apply o_ask; eapply A; reflexivity|intros; exact Logic.I].
    - apply o_bind; [apply o_size|intros []; exact Logic.I].
    - apply o_bind; [apply o_ask; eapply A; reflexivity|intros; exact Logic.I].
    - apply o_bind; [apply o_ask; eapply A; reflexivity|intros; exact Logic.I].
    - apply o_bind; [apply o_ask; eapply A; reflexivity|intros; exact Logic.I].
    - destruct o as [[]|]; try exact Logic.I. apply o_bind; [apply o_seq_read|intros []; exact Logic.I].
    - destruct o as [[]|]; try exact Logic.I. apply o_bind; [apply o_bind; [apply o_sys; q|intros; exact Logic.I]|intros; exact Logic.I].
    - destruct o as [[]|]; try exact Logic.I. apply o_bind; [apply o_ran_read|intros []; exact Logic.I].
    - destruct o as [[]|]; try exact Logic.I. elim (N _ eq_refl).
    - destruct o as [[]|]; try exact Logic.I. elim (N _ eq_refl).
    - destruct o as [[]|]; try exact Logic.I. elim (N _ eq_refl).
    - destruct o as [[]|]; try exact Logic.I. elim (N _ eq_refl).
    - destruct o as [[]|]; try exact Logic.I.
      + elim (N _ eq_refl).
      + apply o_bind; [apply o_sys; q|intros; exact Logic.I].
      + apply o_bind; [apply o_ran_delete|intros; exact Logic.I].
  Qed.
  Hypothesis P_write : forall fd d, P (CWrite fd d).
  Lemma o_write fd name : forall fuel d, only P (pwrite_unbuffered strerror fuel fd name d).
  Proof.
    intros fuel. induction fuel as [|fuel IH]; intros [|b d]; try exact Logic.I. cbn [pwrite_unbuffered]. apply o_bind; [apply o_sys, P_write|]. intros a.
    destruct (a_ret a <? 0)%Z; [destruct (a_errno a =? EINTR)%Z; [apply IH|exact Logic.I]|]. destruct (_ <? _)%Z; [exact Logic.I|apply IH].
  Qed.
  Lemma o_flush fuel f : only P (pflush_buffer strerror fuel f).
  Proof. apply o_bind; [apply o_lift|]. intros d. apply o_bind; [apply o_write|]. intros st. exact Logic.I. Qed.
  Lemma o_append fuel f d : only P (pappend B strerror fuel f d).
  Proof.
    unfold pappend. destruct (_ <? _); [exact Logic.I|]. apply o_bind; [apply o_lift|]. intros buf. destruct (skipn _ d) as [|b e]; [exact Logic.I|].
    apply o_bind; [apply o_flush|]. intros (f', st). destruct st; [|exact Logic.I]. destruct (_ <? _); [apply o_bind; [apply o_lift|]; intros; exact Logic.I|].
    apply o_bind; [apply o_write|intros; exact Logic.I].
  Qed.
  Lemma o_close fuel f : only P (pclose strerror fuel f).
  Proof. apply o_bind; [apply o_flush|]. intros (f', st). apply o_bind; [apply o_sys; q|intros; exact Logic.I]. Qed.
  Lemma o_sync fuel f : only P (psync strerror fuel f).
  Proof.
    apply o_bind; [apply o_sync_dir|]. intros st. destruct st; [|exact Logic.I]. apply o_bind; [apply o_flush|]. intros (f', st). destruct st; [|exact Logic.I].
    apply o_bind; [apply o_bind; [apply o_sys; q|intros; exact Logic.I]|intros; exact Logic.I].
  Qed.
  Lemma o_all fuel x o : (forall p fl, writer x = true -> opens x = Some (KWrite, p) -> P (COpen p fl)) -> (forall c ctx, asks x = Some (c, ctx) -> P c) -> only P (prog_of fuel x o).
  Proof.
    intros W A. destruct o as [[f|g|g]|]; [|apply o_others; auto; discriminate..].
    destruct x; try (assert (Y : forall f, @None pobj <> Some (ObW f)) by discriminate; exact (o_others fuel _ None W A Y)); try exact Logic.I; cbn [PosixConc.prog_of].
    - apply o_bind; [apply o_append|intros []; exact Logic.I].
    - apply o_bind; [apply o_close|intros []; exact Logic.I].
    - apply o_bind; [apply o_flush|intros []; exact Logic.I].
    - apply o_bind; [apply o_sync|intros []; exact Logic.I].
    - apply o_bind; [|intros []; exact Logic.I]. unfold pdestroy. destruct (_ <=? _)%Z; [|exact Logic.I]. apply o_bind; [apply o_close|intros; exact Logic.I].
  Qed.
End Only.

Section Who.
  Variable dbg : bool.
  Variable B : nat.
  Variable strerror : Z -> str.
  Variables (v0 : view) (lim0 : limits) (m0 : nat).
  Hypothesis S0 : forall fd, v_fd v0 fd <> None -> (0 <= fd)%Z.
  Hypothesis N0 : forall p i, v_name v0 p = Some i -> i < v_next v0.
  Notation cruns := (cruns dbg B strerror v0 lim0 m0).
  Notation back := (back dbg B strerror v0 lim0 m0 S0).
  Notation act_step := (act_step dbg B strerror v0 lim0 m0 S0).
  Notation inv_runs := (inv_runs dbg B strerror v0 lim0 m0 S0).
  Notation did_runs := (did_runs dbg B strerror v0 lim0 m0 S0).
  Notation call_later := (call_later dbg B strerror v0 lim0 m0 S0).
  Notation names_ok := (names_ok dbg B strerror v0 lim0 m0 S0 N0).

  Lemma distinct_runs tr cf : distinct v0 -> cruns tr cf -> distinct (now v0 tr).
  Proof.
    intros D. revert cf. induction tr as [|[l v] tr IH]; intros cf R; [exact D|]. destruct (back _ _ _ _ R) as (cf0 & R0 & K). specialize (IH _ R0). cbn [now].
    destruct l as [n x|n c a|n r]; try (rewrite K; exact IH). exact (k_distinct _ _ _ _ K (names_ok _ _ R0) IH).
  Qed.
  (** A system call that can change an entry is made by a call that touches it. *)
  Lemma act_names later n c a v earlier cf p : cruns (later ++ (Act n c a, v) :: earlier) cf -> names c p -> exists x, call_no earlier n = Some x /\ touches x p.
  Proof.
    intros R N. destruct (act_step _ _ _ _ _ _ _ R) as (cf0 & t & x & k & R0 & Et & _). destruct (inv_runs _ _ R0) as (Rs & H). destruct (running _ _ _ _ _ _ _ _ _ _ H Et) as (_ & Cn).
    exists x. split; [exact Cn|]. destruct (did_runs _ _ R0 _ _ _ _ Et) as (fuel & o & P & _ & _).
    assert (O : only (fun c => forall p, names c p -> touches x p) (prog_of dbg B strerror fuel x o)).
    { apply o_all.
      - intros c' Q q X. destruct c'; try contradiction. destruct X as (X & _). elim X. exact Q.
      - intros fd d q [].
      - intros q fl W O g (_ & <-). destruct x; try discriminate W; injection O as <-; reflexivity.
      - intros c' ctx A g X. destruct x; try discriminate A; injection A as <- <-; exact X. }
    destruct (only_path _ _ _ _ P O) as (_ & X & _). exact (X _ N).
  Qed.
  (** write() goes to a file that the caller's object opened for writing. *)
  Lemma writes_from later n fd d a v earlier cf y : cruns (later ++ (Act n (CWrite fd d) a, v) :: earlier) cf -> v_fd (now v0 earlier) fd = Some y ->
    exists m l2 g fl b w l1 x, earlier = l2 ++ (Act m (COpen g fl) b, w) :: l1 /\ v_name w g = Some (d_ino y) /\ on_obj earlier n m = true /\
      call_no earlier m = Some x /\ touches x g /\ writer x = true /\ (0 <= a_ret b)%Z.
  Proof.
    intros R F. destruct (act_step _ _ _ _ _ _ _ R) as (cf0 & t & x & k & R0 & Et & _). destruct (inv_runs _ _ R0) as (Rs & H). destruct (running _ _ _ _ _ _ _ _ _ _ H Et) as (_ & Cn).
    destruct (did_runs _ _ R0 _ _ _ _ Et) as (fuel & o & P & On & _).
    assert (Nw : (forall f, o <> Some (ObW f)) -> False).
    { intros Nw. assert (O : only (fun c => match c with CWrite _ _ => False | _ => True end) (prog_of dbg B strerror fuel x o)).
      { apply o_others; auto.
        - intros [] Q; auto.
        - intros c ctx A. destruct x; try discriminate A; injection A as <- <-; exact Logic.I. }
      destruct (only_path _ _ _ _ P O) as (_ & X & _). exact X. }
    destruct (on x) as [m|] eqn:Ox; [|exfalso; apply Nw; rewrite (On eq_refl); discriminate].
    destruct (o_on _ _ _ _ _ (oinv_runs dbg B strerror v0 lim0 m0 S0 _ _ R0) _ _ _ _ _ Et Ox) as (fuel' & ob & P' & _ & (z & Cz & Oz) & Fi).
    destruct ob as [f|f|f].
    2,3: exfalso.
    2: { assert (O : only (fun c => match c with CWrite _ _ => False | _ => True end) (prog_of dbg B strerror fuel' x (Some (ObS f)))).
      { apply o_others; auto; [intros [] Q; auto|intros c ctx A; destruct x; try discriminate A; discriminate Ox|discriminate]. }
      destruct (only_path _ _ _ _ P' O) as (_ & X & _). exact X. }
    2: { assert (O : only (fun c => match c with CWrite _ _ => False | _ => True end) (prog_of dbg B strerror fuel' x (Some (ObR f)))).
      { apply o_others; auto; [intros [] Q; auto|intros c ctx A; destruct x; try discriminate A; discriminate Ox|discriminate]. }
      destruct (only_path _ _ _ _ P' O) as (_ & X & _). exact X. }
    cbn [kind_of oname] in Oz. assert (Wz : writer z = true) by (destruct z; try discriminate Oz; reflexivity).
    assert (Oo : on_obj earlier n m = true) by (unfold PosixConcWriteSpec.on_obj; rewrite Cn, Ox; apply Nat.eqb_refl).
    pose proof (on_h_legal dbg B strerror v0 lim0 m0 S0 m z Wz _ _ _ _ _ _ _ R Cz Oo) as Lg. cbn beta iota in Lg.
    destruct Lg as [->|Ow]; [exfalso; assert (Fn : v_fd (now v0 earlier) (-1) <> None) by congruence; pose proof (fd_nonneg dbg B strerror v0 lim0 m0 S0 _ _ _ R0 Fn); lia|].
    destruct (fd_track dbg B strerror v0 lim0 m0 S0 _ _ R0 _ _ _ Ow F) as (l2 & g & fl & b & w & l1 & El & Eb & Lb & Nm).
    assert (Cl : call_no l1 m = Some z). { rewrite El in R0. destruct (act_in_progress dbg B strerror v0 lim0 m0 S0 _ _ _ _ _ _ _ R0) as (X & _). destruct (call_no l1 m) as [y'|] eqn:Ey; [|congruence].
      change ((Act m (COpen g fl) b, w) :: l1) with ([(Act m (COpen g fl) b, w)] ++ l1) in *. rewrite app_assoc in *. pose proof (call_later _ _ _ _ _ R0 Ey). rewrite <- El in H0. congruence. }
    rewrite El in R0. destruct (makes dbg B strerror v0 lim0 m0 S0 m z Wz _ _ _ _ _ _ R0 Cl) as (_ & _ & _ & p' & fl' & E' & Fl). injection E' as <- <-.
    destruct (act_names _ _ _ _ _ _ _ g R0) as (z' & Cz' & Tz); [split; [destruct Fl as [-> | ->]; discriminate|reflexivity]|]. assert (z' = z) by congruence. subst z'.
    exists m, l2, g, fl, b, w, l1, z. rewrite Eb. auto 10.
  Qed.
End Who.
