(** PosixConcRun.v -- clients that run the helpers of env.cc among other threads:
    what their calls are in the trace (proofs). *)
From Coq Require Import List Arith NArith ZArith Lia Bool Permutation.
From Verif Require Import Outcome Status MemEnv PosixOs PosixWritable PosixWritableSpec PosixWritableProofs PosixRead PosixEnv PosixFs PosixEnvSpec EnvUtil PosixIoSpec PosixConc PosixConcSpec PosixConcSafe PosixConcHeld PosixConcInv PosixConcProofs PosixConcTrace PosixConcFacts PosixConcReads PosixConcWriteSpec PosixConcWr PosixConcWrites PosixConcFiles PosixConcSaved PosixConcObj PosixConcStreamSpec PosixConcStream PosixConcDir PosixConcPubSpec.
Import ListNotations.

(** ** The helpers on given answers *)
Lemma loop_ok : forall fuel s tr file d s' tr' data, read_loop _ replay fuel s tr file d = Ret (s', tr', SOk, data) ->
  exists rs last, s = rs ++ last :: s' /\ tr' = tr ++ map (fun r => (IRead file 8192, r)) (rs ++ [last]) /\ Forall (fun r => io_status r = SOk) (rs ++ [last]) /\ io_data last = [] /\ data = d ++ concat (map io_data rs).
Proof.
  induction fuel as [|fuel IH]; intros s tr file d s' tr' data E; [discriminate|]. cbn [read_loop] in E. unfold call in E. destruct s as [|x s]; cbn [replay bind] in E; [discriminate|]. cbn [fst snd bind] in E.
  destruct x as [st p da]. cbn [io_status io_data] in E. destruct st; cbn [ok negb] in E; [|discriminate]. destruct da as [|b da].
  - assert (s = s' /\ tr ++ [(IRead file 8192, mk_io SOk p [])] = tr' /\ d ++ [] = data) as (-> & <- & <-) by (repeat split; congruence). exists [], (mk_io SOk p []). cbn [app map concat]. repeat split; auto.
  - destruct (IH _ _ _ _ _ _ _ E) as (rs & last & -> & -> & F & La & ->). exists (mk_io SOk p (b :: da) :: rs), last. cbn [app map concat io_data].
    split; [reflexivity|]. split; [rewrite <- app_assoc; reflexivity|]. split; [constructor; auto|]. split; [exact La|]. rewrite <- app_assoc. reflexivity.
Qed.
Lemma read_ok fuel s f calls data : read_file _ replay fuel s f = Ret ([], calls, SOk, data) ->
  exists file r0 rs last rd, calls = (INewSequential f, r0) :: map (fun r => (IRead file 8192, r)) (rs ++ [last]) ++ [(IDelete file, rd)] /\
    io_status r0 = SOk /\ io_ptr r0 = PObj file /\ Forall (fun r => io_status r = SOk) (rs ++ [last]) /\ io_data last = [] /\ data = concat (map io_data rs).
Proof.
  unfold read_file, call. intros E. destruct s as [|x s]; cbn [replay bind] in E; [discriminate|]. cbn [fst snd bind] in E. destruct x as [st p da]. cbn [io_status io_ptr] in E. destruct st; cbn [ok negb] in E.
  - destruct p as [file| |]; cbn [deref bind] in E; [|discriminate..].
    destruct (read_loop (list io_res) replay fuel s ([] ++ [(INewSequential f, mk_io SOk (PObj file) da)]) file []) as [[[[s1 tr1] st1] d1]| | |] eqn:L; cbn [bind] in E; try discriminate.
    unfold del, call in E. destruct s1 as [|y s1]; cbn [replay bind fst snd] in E; [discriminate|].
    assert (s1 = [] /\ calls = tr1 ++ [(IDelete file, y)] /\ st1 = SOk /\ d1 = data) as (-> & -> & -> & ->) by (repeat split; congruence).
    destruct (loop_ok _ _ _ _ _ _ _ _ L) as (rs & last & _ & -> & F & La & ->). exists file, (mk_io SOk (PObj file) da), rs, last, y. cbn [app]. repeat split; auto.
  - destruct p as [file| |]; unfold del, call in E; [|cbn [bind] in E; discriminate..]. destruct s as [|y s]; cbn [replay bind fst snd] in E; discriminate.
Qed.
Lemma write_ok s data f calls : write_string_to_file_sync _ replay s data f = Ret ([], calls, SOk) ->
  exists file r0 r1 r2 r3 rd, calls = [(INewWritable f, r0); (IAppend file data, r1); (ISync file, r2); (IClose file, r3); (IDelete file, rd)] /\
    io_status r0 = SOk /\ io_ptr r0 = PObj file /\ io_status r1 = SOk /\ io_status r2 = SOk /\ io_status r3 = SOk.
Proof.
  unfold write_string_to_file_sync, do_write, call. intros E. destruct s as [|[st p da] s]; cbn [replay bind] in E; [discriminate|]. cbn [fst snd bind io_status io_ptr] in E. destruct st; cbn [ok negb] in E; [|discriminate].
  destruct p as [file| |]; cbn [deref bind] in E; [|discriminate..]. destruct s as [|[st1 p1 da1] s]; cbn [replay bind fst snd io_status] in E; [discriminate|]. destruct st1; cbn [ok andb] in E.
  - destruct s as [|[st2 p2 da2] s]; cbn [replay bind fst snd io_status] in E; [discriminate|]. destruct st2; cbn [ok andb] in E.
    + destruct s as [|[st3 p3 da3] s]; cbn [replay bind fst snd io_status del call] in E; [discriminate|]. unfold del, call in E. destruct s as [|y s]; cbn [replay bind fst snd] in E; [discriminate|].
      destruct st3; cbn [ok negb] in E; [|destruct s; cbn [replay bind fst snd] in E; discriminate]. cbn [bind] in E.
      exists file, (mk_io SOk (PObj file) da), (mk_io SOk p1 da1), (mk_io SOk p2 da2), (mk_io SOk p3 da3), y. split; [|repeat split]. cbn [app] in E. congruence.
    + unfold del, call in E. destruct s as [|y s]; cbn [replay bind fst snd ok negb] in E; [discriminate|]. destruct s; cbn [replay bind fst snd] in E; discriminate.
  - unfold del, call in E. cbn [bind ok io_status] in E. destruct s as [|y s]; cbn [replay bind fst snd ok negb] in E; [discriminate|]. destruct s; cbn [replay bind fst snd] in E; discriminate.
Qed.

Section Run.
  Variable dbg : bool.
  Variable B : nat.
  Variable strerror : Z -> str.
  Variables (v0 : view) (lim0 : limits) (m0 : nat).
  Hypothesis S0 : forall fd, v_fd v0 fd <> None -> (0 <= fd)%Z.
  Notation cruns := (cruns dbg B strerror v0 lim0 m0).
  Notation call_later := (call_later dbg B strerror v0 lim0 m0 S0).
  Notation inv_runs := (inv_runs dbg B strerror v0 lim0 m0 S0).
  Notation runs_prefix := (runs_prefix dbg B strerror v0 lim0 m0).

  Lemma seq_read_data f k : forall fuel l st d, path (pseq_read strerror fuel f k) l (PDone (st, d)) -> d = Untouched \/ exists b, d = Bytes b.
  Proof.
    induction fuel as [|fuel IH]; intros l st d P; cbn [pseq_read] in P; [inversion P|]. unfold psys in P. cbn [pbind] in P. apply path_psys in P. destruct P as [(_ & P)|(a & l' & _ & P)]; [discriminate|].
    destruct (a_ret a <? 0)%Z; [destruct (a_errno a =? EINTR)%Z; [eapply IH; eassumption|]|destruct (_ <? _)%Z; [inversion P|]]; apply path_done in P; destruct P as (_ & P); injection P as _ P; [left|right; eexists]; solve [exact P | symmetry; exact P].
  Qed.
  Lemma io_result tr cf n c r : cruns tr cf -> call_no tr n = Some (as_pcall c) -> ended tr n = Some r ->
    match c with IRead _ _ => exists st d, r = RData st d | _ => exists st, r = RStat st end.
  Proof.
    intros R C E. destruct (finished dbg B strerror v0 lim0 m0 S0 _ _ _ _ R E) as (l1 & u & l2 & cf0 & x & fuel & o & ob & q & Et & R0 & Cn & Ip & P & Ea & Er & _).
    assert (x = as_pcall c). { pose proof (call_later (l1 ++ [(End n r, u)]) l2 cf n x) as Y. rewrite <- app_assoc in Y. cbn [app] in Y. rewrite <- Et in Y. specialize (Y R Cn). congruence. } subst x. clear -P Er.
    assert (St : forall st, q = QStat st -> exists st, r = RStat st) by (intros st ->; rewrite Er; eexists; reflexivity).
    destruct c; cbn [as_pcall prog_of] in P.
    - unfold pnew_writable, psys in P. cbn [pbind] in P. apply path_psys in P. destruct P as [(_ & P)|(a & l' & _ & P)]; [discriminate|]. destruct (_ <? _)%Z; [apply path_done in P; destruct P as (_ & P); injection P; intros; subst; eapply St; reflexivity|].
      destruct (new_wfile dbg B f (a_ret a)); cbn [plift pbind] in P; try (inversion P; fail). apply path_done in P; destruct P as (_ & P); injection P; intros; subst; eapply St; reflexivity.
    - unfold pnew_sequential, psys in P. cbn [pbind] in P. apply path_psys in P. destruct P as [(_ & P)|(a & l' & _ & P)]; [discriminate|]. destruct (_ <? _)%Z; apply path_done in P; destruct P as (_ & P); injection P; intros; subst; eapply St; reflexivity.
    - apply path_bind in P. destruct P as (l3 & a & l4 & _ & _ & P). apply path_done in P; destruct P as (_ & P); injection P; intros; subst; eapply St; reflexivity.
    - destruct ob as [[]|]; try (inversion P; fail). apply path_bind in P. destruct P as (l3 & [a st] & l4 & _ & _ & P). apply path_done in P; destruct P as (_ & P); injection P; intros; subst; eapply St; reflexivity.
    - destruct ob as [[]|]; try (inversion P; fail). apply path_bind in P. destruct P as (l3 & [a st] & l4 & _ & _ & P). apply path_done in P; destruct P as (_ & P); injection P; intros; subst; eapply St; reflexivity.
    - destruct ob as [[]|]; try (inversion P; fail). apply path_bind in P. destruct P as (l3 & [a st] & l4 & _ & _ & P). apply path_done in P; destruct P as (_ & P); injection P; intros; subst; eapply St; reflexivity.
    - destruct ob as [[]|]; try (inversion P; fail). apply path_bind in P. destruct P as (l3 & [st d] & l4 & _ & P1 & P). apply path_done in P; destruct P as (_ & P). apply seq_read_data in P1.
      assert (q = QData st d) by congruence. subst q. rewrite Er. destruct P1 as [-> |(b & ->)]; cbn [observe]; eauto.
    - destruct ob as [[]|]; try (inversion P; fail); apply path_bind in P; destruct P as (l3 & a & l4 & _ & _ & P); apply path_done in P; destruct P as (_ & P); injection P; intros; subst; eapply St; reflexivity.
  Qed.

  (** ** Calls made one after the other *)
  Lemma beg_at t n x : call_no t n = Some x -> exists l1 w l2, t = l1 ++ (Beg n x, w) :: l2.
  Proof.
    clear. intros C. induction t as [|[lb v] t IH]; [discriminate|]. cbn [call_no] in C. destruct lb as [k y|k c a|k y]; try (destruct (IH C) as (l1 & w & l2 & ->); exists ((Act k c a, v) :: l1), w, l2; reflexivity);
      try (destruct (IH C) as (l1 & w & l2 & ->); exists ((End k y, v) :: l1), w, l2; reflexivity).
    destruct (Nat.eqb_spec k n) as [->|]; [injection C as ->; exists [], v, t; reflexivity|]. destruct (IH C) as (l1 & w & l2 & ->). exists ((Beg k y, v) :: l1), w, l2. reflexivity.
  Qed.
  Lemma beg_once l n x w e cf : cruns (l ++ (Beg n x, w) :: e) cf -> call_no e n = None /\ ended e n = None.
  Proof.
    intros R. destruct (runs_split dbg B strerror v0 lim0 m0 _ _ _ _ R) as (cfe & tb & cf1 & Re & Stb & _). cbn [fst] in Stb. inversion Stb; subst. destruct (inv_runs _ _ Re) as (Rs & H). split.
    - destruct (call_no e (c_next cfe)) eqn:Ey; [|reflexivity]. assert (c_next cfe < c_next cfe) by (apply (i_next _ _ _ _ _ _ H); congruence). lia.
    - destruct (ended e (c_next cfe)) eqn:Ey; [|reflexivity]. assert (c_next cfe < c_next cfe) by (apply (i_ended _ _ _ _ _ _ H); congruence). lia.
  Qed.
  Lemma beg_unique l n x w e l' x' w' e' cf : cruns (l ++ (Beg n x, w) :: e) cf -> l ++ (Beg n x, w) :: e = l' ++ (Beg n x', w') :: e' -> e = e' /\ x = x'.
  Proof.
    intros R E. destruct (split_unique _ _ _ _ _ _ E) as [(_ & X & ->)|[(q & _ & X)|(q & _ & X)]]; [split; [reflexivity|congruence]| |]; exfalso.
    - rewrite E in R. destruct (beg_once _ _ _ _ _ _ R) as (Y & _). rewrite X in Y. clear -Y. induction q as [|[lb u] q IH]; cbn [app call_no] in Y; [rewrite Nat.eqb_refl in Y; discriminate|]. destruct lb as [k z| |]; auto. destruct (k =? n); [discriminate|auto].
    - destruct (beg_once _ _ _ _ _ _ R) as (Y & _). rewrite X in Y. clear -Y. induction q as [|[lb u] q IH]; cbn [app call_no] in Y; [rewrite Nat.eqb_refl in Y; discriminate|]. destruct lb as [k z| |]; auto. destruct (k =? n); [discriminate|auto].
  Qed.
  Lemma ended_begun t cf n : cruns t cf -> ended t n <> None -> call_no t n <> None.
  Proof.
    intros R E. destruct (ended t n) as [r|] eqn:Er; [|congruence]. destruct (finished dbg B strerror v0 lim0 m0 S0 _ _ _ _ R Er) as (l1 & u & l2 & cf0 & x & fuel & o & ob & q & Et & R0 & Cn & _).
    pose proof (call_later (l1 ++ [(End n r, u)]) l2 cf n x) as Y. rewrite <- app_assoc in Y. cbn [app] in Y. rewrite <- Et in Y. rewrite (Y R Cn). discriminate.
  Qed.
  Lemma ended_more l t n : ended t n <> None -> ended (l ++ t) n <> None.
  Proof. clear. intros E. induction l as [|[lb v] l IH]; [exact E|]. cbn [app ended]. destruct lb as [k z|k c a|k z]; auto. destruct (k =? n); [discriminate|exact IH]. Qed.
  Lemma follows_after tr cf n n' l t : cruns tr cf -> follows tr n n' -> tr = l ++ t -> ended t n = None -> call_no t n' = None.
  Proof.
    intros R (l1 & x & w & e & E1 & En) E Nt. destruct (call_no t n') as [y|] eqn:Ey; [exfalso|reflexivity]. destruct (beg_at _ _ _ Ey) as (a & u & b & Et).
    rewrite E1 in R. rewrite E, Et, app_assoc in E1. symmetry in E1. destruct (beg_unique _ _ _ _ _ _ _ _ _ _ R E1) as (-> & _). rewrite Et in Nt. change (a ++ (Beg n' y, u) :: b) with (a ++ [(Beg n' y, u)] ++ b) in Nt. rewrite app_assoc in Nt. apply (ended_more (a ++ [(Beg n' y, u)])) in En. contradiction.
  Qed.
  Fixpoint chain (tr : trace) (ns : list nat) : Prop :=
    match ns with n :: ((n' :: _) as ns') => follows tr n n' /\ chain tr ns' | _ => True end.
  Lemma in_turn_chain tr ns l : in_turn tr ns l -> chain tr ns.
  Proof. induction 1 as [|n ns c r l C E F I IH]; [exact Logic.I|]. destruct ns as [|n' ns]; [exact Logic.I|]. cbn [chain]. auto. Qed.
  Lemma chain_less tr a b : chain tr (a ++ b) -> chain tr b.
  Proof. induction a as [|n a IH]; intros C; [exact C|]. apply IH. cbn [app] in C. destruct (a ++ b) as [|n' ns] eqn:Eab; [exact Logic.I|]. exact (proj2 C). Qed.
  Lemma chain_after tr cf n b l t : cruns tr cf -> tr = l ++ t -> chain tr (n :: b) -> ended t n = None -> forall x, In x b -> call_no t x = None /\ ended t x = None.
  Proof.
    intros R E. assert (Rt : exists cft, cruns t cft) by (rewrite E in R; exact (runs_prefix _ _ _ R)). destruct Rt as (cft & Rt).
    revert n. induction b as [|n' b IH]; intros n C Nt x Hx; [destruct Hx|]. destruct C as (F & C). pose proof (follows_after _ _ _ _ _ _ R F E Nt) as Cn.
    assert (En : ended t n' = None). { destruct (ended t n') eqn:Z; [|reflexivity]. exfalso. apply (ended_begun _ _ n' Rt); congruence. }
    destruct Hx as [<-|Hx]; [auto|]. exact (IH _ C En x Hx).
  Qed.
  Lemma end_once l n r v t cf : cruns (l ++ (End n r, v) :: t) cf -> ended t n = None /\ call_no t n <> None.
  Proof.
    intros R. destruct (end_step dbg B strerror v0 lim0 m0 _ _ _ _ _ _ R) as (cf0 & tt & x & o & q & R0 & Et & _). destruct (inv_runs _ _ R0) as (Rs & H). destruct (running _ _ _ _ _ _ _ _ _ _ H Et) as ((X & Y) & _). auto.
  Qed.

  Definition gave (t : trace) (n : nat) : list N := match ended t n with Some (RData SOk d) => d | _ => [] end.
  Lemma got_sum tr cf h reads : cruns tr cf -> chain tr reads -> NoDup reads ->
    (forall n k, call_no tr n = Some (PSRead h k) -> In n reads) -> (forall n, In n reads -> exists k, call_no tr n = Some (PSRead h k)) ->
    forall l t, tr = l ++ t -> got t h = concat (map (gave t) reads).
  Proof.
    intros R C ND All Sound l t. revert l. induction t as [|[lb v] t IH]; intros l E.
    - cbn [got]. clear. induction reads as [|n reads IH]; [reflexivity|]. cbn [map concat gave ended app]. exact IH.
    - assert (E' : tr = (l ++ [(lb, v)]) ++ t) by (rewrite <- app_assoc; exact E). specialize (IH _ E').
      assert (Same : (forall n, In n reads -> gave ((lb, v) :: t) n = gave t n) -> concat (map (gave ((lb, v) :: t)) reads) = concat (map (gave t) reads)) by (intros X; f_equal; apply map_ext_in; exact X).
      destruct lb as [n x|n c a|n r]; try (rewrite Same; [exact IH|intros; reflexivity]).
      assert (Rl := R). rewrite E in Rl. destruct (end_once _ _ _ _ _ _ Rl) as (En & Cn). destruct (call_no t n) as [y|] eqn:Cy; [|congruence]. clear Cn.
      assert (Cy' : call_no tr n = Some y). { change (l ++ (End n r, v) :: t) with (l ++ [(End n r, v)] ++ t) in Rl. rewrite app_assoc in Rl. pose proof (call_later _ _ _ _ _ Rl Cy) as X. rewrite <- app_assoc in X. cbn [app] in X. rewrite <- E in X. exact X. }
      destruct (in_dec Nat.eq_dec n reads) as [In_|Nin].
      + destruct (Sound _ In_) as (k & Ck). assert (y = PSRead h k) by congruence. subst y.
        destruct (in_split _ _ In_) as (a & b & Er). rewrite Er in *. clear Same. rewrite map_app, concat_app in IH |- *. cbn [map concat] in IH |- *.
        assert (Nb : forall x, In x b -> ended t x = None) by (intros x Hx; exact (proj2 (chain_after _ _ n b _ _ R E' (chain_less _ _ _ C) En x Hx))).
        assert (Bz : forall q, (forall x, In x b -> gave q x = []) -> concat (map (gave q) b) = []) by (clear; intros q; induction b as [|x b IHb]; intros Z; [reflexivity|]; cbn [map concat]; rewrite Z by (left; reflexivity); cbn [app]; apply IHb; intros y Hy; apply Z; right; exact Hy).
        assert (Ne : forall x, In x a \/ In x b -> n <> x).
        { intros x Hx ->. apply NoDup_remove_2 in ND. apply ND. apply in_or_app. exact Hx. }
        rewrite (Bz t) in IH by (intros x Hx; unfold gave; rewrite (Nb x Hx); reflexivity).
        rewrite (Bz ((End n r, v) :: t)) by (intros x Hx; unfold gave; cbn [ended]; destruct (Nat.eqb_spec n x) as [->|]; [exfalso; exact (Ne x (or_intror Hx) eq_refl)|rewrite (Nb x Hx); reflexivity]).
        replace (map (gave ((End n r, v) :: t)) a) with (map (gave t) a) by (apply map_ext_in; intros x Hx; unfold gave; cbn [ended]; destruct (Nat.eqb_spec n x) as [->|]; [exfalso; exact (Ne x (or_introl Hx) eq_refl)|reflexivity]).
        unfold gave at 2 in IH. rewrite En in IH. cbn [app] in IH. rewrite !app_nil_r in IH. rewrite app_nil_r. rewrite <- IH. unfold gave. cbn [ended]. rewrite Nat.eqb_refl.
        cbn [got]. destruct r as [st|b0|st l0|st z|st d|]; try (rewrite app_nil_r; reflexivity). destruct st; [|rewrite app_nil_r; reflexivity]. rewrite Cy, Nat.eqb_refl. reflexivity.
      + rewrite Same by (intros x Hx; unfold gave; cbn [ended]; destruct (Nat.eqb_spec n x) as [->|]; [contradiction|reflexivity]). rewrite <- IH.
        cbn [got]. destruct r as [st|b0|st l0|st z|st d|]; try reflexivity. destruct st; [|reflexivity]. rewrite Cy. destruct y; try apply app_nil_r. destruct (Nat.eqb_spec h0 h) as [->|]; [|apply app_nil_r]. exfalso. exact (Nin (All _ _ Cy')).
  Qed.
  Lemma chain_nodup tr cf ns : cruns tr cf -> chain tr ns -> (forall n, In n ns -> ended tr n <> None) -> NoDup ns.
  Proof.
    intros R. induction ns as [|n ns IH]; intros C E; [constructor|]. constructor.
    - intros Hn. destruct (ended tr n) as [r|] eqn:Er; [|exfalso; exact (E n (or_introl eq_refl) Er)]. destruct (ended_split _ _ _ Er) as (l & v & t & Et). assert (R' := R). rewrite Et in R'. destruct (end_once _ _ _ _ _ _ R') as (En & Cn).
      assert (E' : tr = (l ++ [(End n r, v)]) ++ t) by (rewrite <- app_assoc; exact Et). destruct (chain_after _ _ n ns _ _ R E' C En n Hn) as (X & _). contradiction.
    - apply IH; [exact (chain_less tr [n] ns C)|]. intros x Hx. apply E. right. exact Hx.
  Qed.
  Lemma in_turn_calls tr ns l : in_turn tr ns l -> length ns = length l /\ forall n, In n ns -> ended tr n <> None.
  Proof. induction 1 as [|n ns c r l C E F I (I1 & I2)]; [split; [reflexivity|intros n []]|]. cbn [length]. split; [lia|]. intros x [<-|Hx]; [congruence|auto]. Qed.
  Lemma in_turn_inv tr ns c a l : in_turn tr ns ((c, a) :: l) -> exists n ns' r, ns = n :: ns' /\ call_no tr n = Some (as_pcall c) /\ ended tr n = Some r /\ a = as_answer c n r /\
    match ns' with n' :: _ => follows tr n n' | [] => True end /\ in_turn tr ns' l.
  Proof. intros I. inversion I; subst. eauto 10. Qed.
  Lemma in_turn_nil tr ns : in_turn tr ns [] -> ns = [].
  Proof. intros I. inversion I. reflexivity. Qed.
  Lemma in_turn_map tr file : forall rs ns l, in_turn tr ns (map (fun r => (IRead file 8192, r)) rs ++ l) ->
    exists ns1 ns2, ns = ns1 ++ ns2 /\ in_turn tr ns2 l /\ Forall2 (fun n r => call_no tr n = Some (PSRead file 8192) /\ exists q, ended tr n = Some q /\ r = as_answer (IRead file 8192) n q) ns1 rs.
  Proof.
    induction rs as [|r rs IH]; intros ns l I; [exists [], ns; auto|]. cbn [map app] in I. inversion I as [|n ns' c q l' C E F I' E1 E2]; subst. destruct (IH _ _ I') as (ns1 & ns2 & -> & I2 & F2).
    exists (n :: ns1), ns2. split; [reflexivity|]. split; [exact I2|]. constructor; [|exact F2]. cbn [as_pcall] in C. eauto.
  Qed.

  (** A run of ReadFileToString that returned OK: the object was made by its first
      call, the Reads gave all the data and the last gave nothing. *)
  Lemma ran_read_is tr cf ns f data : cruns tr cf -> ran_read tr ns f SOk data ->
    exists h, hd_error ns = Some h /\ call_no tr h = Some (PNewSeq f) /\ ended tr h = Some (RStat SOk) /\ never_skipped tr h /\ got tr h = data /\
      exists later n v earlier, tr = later ++ (End n (RData SOk []), v) :: earlier /\ call_no earlier n = Some (PSRead h 8192).
  Proof.
    intros R (Pr & fuel & answers & calls & Rd & I). destruct (read_ok _ _ _ _ _ Rd) as (file & r0 & rs & last & rd & -> & S0' & P0 & F & La & ->).
    pose proof (in_turn_chain _ _ _ I) as Ch. destruct (in_turn_calls _ _ _ I) as (_ & En). pose proof (chain_nodup _ _ _ R Ch En) as ND.
    apply in_turn_inv in I. destruct I as (h & ns' & q & -> & C & E & -> & Fo & I').
    destruct (io_result _ _ _ _ _ R C E) as (st & ->). cbn [as_answer io_status io_ptr] in S0', P0. subst st. assert (h = file) by congruence. subst file. clear P0.
    destruct (in_turn_map _ _ _ _ _ I') as (reads & rest & -> & I2 & F2).
    apply in_turn_inv in I2. destruct I2 as (d & ns2 & q2 & -> & C2 & _ & _ & _ & I3). apply in_turn_nil in I3. subst ns2. cbn [as_pcall] in C, C2.
    exists h. split; [reflexivity|]. split; [exact C|]. split; [exact E|].
    assert (Is : forall n, In n reads -> call_no tr n = Some (PSRead h 8192)). { intros n Hn. clear -F2 Hn. induction F2 as [|a b la lb (X & _) F2 IH]; [destruct Hn|]. destruct Hn as [<-|Hn]; auto. }
    assert (On : forall n x, call_no tr n = Some x -> on x = Some h -> In n reads \/ x = PDelete h).
    { intros n x Cx Ox. assert (X : In n (h :: reads ++ [d])) by (eapply Pr; [exact Cx|exact Ox|left; reflexivity]). destruct X as [<-|X]; [rewrite C in Cx; injection Cx as <-; discriminate|]. apply in_app_or in X. destruct X as [X|[<-|[]]]; [auto|]. right. congruence. }
    split. { intros n k X. destruct (On _ _ X eq_refl) as [Y|Y]; [|discriminate]. rewrite (Is _ Y) in X. discriminate. }
    assert (Cr : chain tr reads). { change (h :: reads ++ [d]) with ([h] ++ reads ++ [d]) in Ch. apply chain_less in Ch. clear -Ch. induction reads as [|a [|b r] IH]; [exact Logic.I|exact Logic.I|]. cbn [app chain] in Ch |- *. destruct Ch as (X & Ch). split; [exact X|]. exact (IH Ch). }
    assert (NDr : NoDup reads). { apply (chain_nodup _ _ _ R Cr). intros n Hn. apply En. right. apply in_or_app. auto. }
    (* what each Read gave *)
    assert (Gv : Forall2 (fun n r => gave tr n = io_data r /\ ended tr n = Some (RData SOk (io_data r))) reads (rs ++ [last])).
    { clear -F2 F R S0. induction F2 as [|a b la lb (X & q & Eq & Eb) F2 IH]; [constructor|]. inversion F; subst. constructor; [|auto].
      destruct (io_result _ _ _ (IRead h 8192) _ R X Eq) as (st & dd & ->). cbn [as_answer io_status] in *. subst st. unfold gave. rewrite Eq. cbn [io_data]. auto. }
    split.
    - rewrite (got_sum tr cf h reads R Cr NDr) with (l := []) (t := tr); [|intros n k X; destruct (On _ _ X eq_refl) as [Y|Y]; [exact Y|discriminate]|intros n Hn; eauto|reflexivity].
      assert (Em : map (gave tr) reads = map io_data (rs ++ [last])) by (clear -Gv; induction Gv as [|a b la lb (X & _) G IH]; [reflexivity|]; cbn [map]; congruence).
      rewrite Em, map_app, concat_app. cbn [map concat]. rewrite La. cbn [app]. apply app_nil_r.
    - apply Forall2_app_inv_r in Gv. destruct Gv as (r1 & r2 & _ & G2 & Er). inversion G2 as [|n b la lb (_ & X) G3 E3 E4]; subst. inversion G3; subst. rewrite La in X.
      destruct (ended_split _ _ _ X) as (later & v & earlier & Et). exists later, n, v, earlier. split; [exact Et|].
      assert (Cn : call_no tr n = Some (PSRead h 8192)) by (apply Is; apply in_or_app; right; left; reflexivity).
      assert (R' := R). rewrite Et in R'. destruct (end_once _ _ _ _ _ _ R') as (_ & Z). destruct (call_no earlier n) as [y|] eqn:Ey; [|congruence].
      change (later ++ (End n (RData SOk []), v) :: earlier) with (later ++ [(End n (RData SOk []), v)] ++ earlier) in R', Et. rewrite app_assoc in R', Et. pose proof (call_later _ _ _ _ _ R' Ey) as W. rewrite <- Et in W. congruence.
  Qed.

  Lemma handed_one l t h a d : (forall n x, call_no (l ++ t) n = Some (PWAppend h x) -> n = a /\ x = d) -> (exists cf, cruns (l ++ t) cf) -> call_no t a = Some (PWAppend h d) -> handed t h = d.
  Proof.
    intros U (cf & R) C. assert (Z : forall q l', l ++ t = l' ++ q -> call_no q a = None -> handed q h = []).
    { induction q as [|[lb v] q IH]; intros l' E N; [reflexivity|]. assert (E' : l ++ t = (l' ++ [(lb, v)]) ++ q) by (rewrite <- app_assoc; exact E).
      destruct lb as [n x|n c b|n y]; cbn [call_no] in N; try (exact (IH _ E' N)). destruct (Nat.eqb_spec n a) as [->|Na]; [discriminate|]. specialize (IH _ E' N). destruct x; try exact IH. cbn [handed]. rewrite IH. cbn [app].
      destruct (Nat.eqb_spec h0 h) as [->|]; [|reflexivity]. exfalso. apply Na. apply (U n d0). rewrite E in R |- *. eapply call_later; [exact R|]. cbn [call_no]. now rewrite Nat.eqb_refl. }
    assert (G : forall q l', l ++ t = l' ++ q -> call_no q a = Some (PWAppend h d) -> handed q h = d).
    { induction q as [|[lb v] q IH]; intros l' E N; [discriminate|]. assert (E' : l ++ t = (l' ++ [(lb, v)]) ++ q) by (rewrite <- app_assoc; exact E).
      destruct lb as [n x|n c b|n y]; cbn [call_no] in N; try (exact (IH _ E' N)). destruct (Nat.eqb_spec n a) as [->|Na].
      - injection N as ->. cbn [handed]. rewrite Nat.eqb_refl. rewrite E in R. destruct (beg_once _ _ _ _ _ _ R) as (X & _). rewrite (Z _ _ E' X). reflexivity.
      - specialize (IH _ E' N). destruct x; try exact IH. cbn [handed]. rewrite IH. destruct (Nat.eqb_spec h0 h) as [->|]; [|apply app_nil_r]. exfalso. apply Na. apply (U n d0). rewrite E in R |- *. eapply call_later; [exact R|]. cbn [call_no]. now rewrite Nat.eqb_refl. }
    exact (G t l eq_refl C).
  Qed.
  (** A client that runs WriteStringToFileSync and then RenameFile publishes the file. *)
  Lemma ran_write_publishes tr cf ns D tmp f r h : cruns tr cf -> ran_write tr ns D tmp SOk -> hd_error ns = Some h ->
    (forall n x, call_no tr n = Some x -> touches x tmp \/ touches x f -> In n ns \/ n = r /\ x = PRename tmp f) ->
    (forall n, In n ns -> follows tr n r) -> publishing tr h r tmp f D.
  Proof.
    intros R (Pr & answers & calls & Rw & I) Hd T Fo. destruct (write_ok _ _ _ _ Rw) as (file & r0 & r1 & r2 & r3 & rd & -> & St0 & P0 & St1 & St2 & St3).
    pose proof (in_turn_chain _ _ _ I) as Ch.
    apply in_turn_inv in I. destruct I as (h' & ns' & q0 & -> & C0 & E0 & -> & _ & I). injection Hd as ->.
    apply in_turn_inv in I. destruct I as (a & ns'' & q1 & -> & C1 & E1 & -> & _ & I). apply in_turn_inv in I. destruct I as (s & ns' & q2 & -> & C2 & E2 & -> & _ & I).
    apply in_turn_inv in I. destruct I as (c & ns'' & q3 & -> & C3 & E3 & -> & _ & I). apply in_turn_inv in I. destruct I as (d & ns' & q4 & -> & C4 & E4 & -> & _ & I). apply in_turn_nil in I. subst ns'.
    destruct (io_result _ _ _ _ _ R C0 E0) as (s0 & ->). destruct (io_result _ _ _ _ _ R C1 E1) as (s1 & ->). destruct (io_result _ _ _ _ _ R C2 E2) as (s2 & ->). destruct (io_result _ _ _ _ _ R C3 E3) as (s3 & ->).
    cbn [as_answer io_status io_ptr as_pcall] in *. subst s0 s1 s2 s3. assert (h = file) by congruence. subst file. clear P0.
    assert (On : forall n x, call_no tr n = Some x -> on x = Some h -> n = a /\ x = PWAppend h D \/ n = s /\ x = PWSync h \/ n = c /\ x = PWClose h \/ n = d /\ x = PDelete h).
    { intros n x Cx Ox. destruct (Pr n x h Cx Ox (or_introl eq_refl)) as [<-|[<-|[<-|[<-|[<-|[]]]]]]; rewrite Cx in *; [injection C0 as ->; discriminate| | | |]; [left|right; left|right; right; left|right; right; right]; split; congruence. }
    split.
    - intros n x Cx Tx. destruct (T _ _ Cx Tx) as [[<-|[<-|[<-|[<-|[<-|[]]]]]]|X]; [left; split; congruence| | | | |right; exact X];
        exfalso; rewrite Cx in *; [injection C1 as ->|injection C2 as ->|injection C3 as ->|injection C4 as ->]; destruct Tx as [[]|[]].
    - intros later w earlier Et.
      assert (Ended : forall n, In n [h; a; s; c; d] -> ended earlier n <> None). { intros n Hn. destruct (Fo n Hn) as (l1 & x & u & e & E & Ee). assert (R' := R). rewrite Et in R'. rewrite Et in E. destruct (beg_unique _ _ _ _ _ _ _ _ _ _ R' E) as (-> & _). exact Ee. }
      assert (Re : exists cfe, cruns earlier cfe). { assert (R' := R). rewrite Et in R'. change (later ++ (Beg r (PRename tmp f), w) :: earlier) with (later ++ [(Beg r (PRename tmp f), w)] ++ earlier) in R'. rewrite app_assoc in R'. exact (runs_prefix _ _ _ R'). } destruct Re as (cfe & Re).
      assert (Same : forall n q, In n [h; a; s; c; d] -> ended tr n = Some q -> ended earlier n = Some q).
      { intros n q Hn En. specialize (Ended n Hn). destruct (ended earlier n) as [q'|] eqn:Eq; [|congruence]. assert (R' := R). rewrite Et in R', En. change (later ++ (Beg r (PRename tmp f), w) :: earlier) with (later ++ [(Beg r (PRename tmp f), w)] ++ earlier) in R', En. rewrite app_assoc in R', En. pose proof (ended_later dbg B strerror v0 lim0 m0 S0 _ _ _ _ _ R' Eq). congruence. }
      assert (Es : ended earlier s = Some (RStat SOk)) by (apply Same; [cbn; auto|exact E2]).
      destruct (ended_split _ _ _ Es) as (k1 & v & l2 & Ek). exists k1, s, v, l2. split; [exact Ek|].
      set (q := later ++ (Beg r (PRename tmp f), w) :: k1 ++ [(End s (RStat SOk), v)]).
      assert (Eq : tr = q ++ l2) by (unfold q; rewrite Et, Ek; repeat (rewrite <- app_assoc; cbn [app]); reflexivity).
      assert (Rl : cruns (q ++ l2) cf) by (rewrite <- Eq; exact R). destruct (runs_prefix _ _ _ Rl) as (cfl & Rl2).
      assert (Rs : cruns (k1 ++ (End s (RStat SOk), v) :: l2) cfe) by (rewrite <- Ek; exact Re). destruct (end_once _ _ _ _ _ _ Rs) as (Ns & Cs).
      (* the calls before Sync *)
      assert (Cs2 : call_no l2 s = Some (PWSync h)) by (destruct (call_no l2 s) as [y|] eqn:Ey; [|congruence]; pose proof (call_later _ _ _ _ _ Rl Ey) as X; rewrite <- Eq in X; congruence).
      destruct Ch as (F1 & F2 & F3 & F4 & _).
      assert (Ea : ended l2 a <> None). { intros N. pose proof (follows_after _ _ _ _ _ _ R F2 Eq N). congruence. }
      assert (Ca : call_no l2 a = Some (PWAppend h D)) by (apply (call_back dbg B strerror v0 lim0 m0 S0 q l2 cf); [exact Rl|exact Ea|rewrite <- Eq; exact C1]).
      assert (Eh : ended l2 h <> None). { intros N. pose proof (follows_after _ _ _ _ _ _ R F1 Eq N). congruence. }
      assert (Ch0 : call_no l2 h = Some (PNewWrite tmp)) by (apply (call_back dbg B strerror v0 lim0 m0 S0 q l2 cf); [exact Rl|exact Eh|rewrite <- Eq; exact C0]).
      assert (Ua : forall n x, call_no tr n = Some (PWAppend h x) -> n = a /\ x = D) by (intros n x Cx; destruct (On _ _ Cx eq_refl) as [(X & Y)|[(_ & Y)|[(_ & Y)|(_ & Y)]]]; [split; congruence|discriminate..]).
      split; [exact Ch0|]. split; [destruct (ended l2 h) as [z|] eqn:Ez; [|congruence]; pose proof (ended_later dbg B strerror v0 lim0 m0 S0 _ _ _ _ _ Rl Ez) as X; rewrite <- Eq in X; congruence|].
      split; [exact Cs2|]. split.
      + intros n x z Cx Ox Ez. assert (E' : tr = (later ++ (Beg r (PRename tmp f), w) :: k1) ++ (End s (RStat SOk), v) :: l2) by (rewrite Et, Ek, <- app_assoc; reflexivity).
        assert (Rz : cruns ((later ++ (Beg r (PRename tmp f), w) :: k1) ++ (End s (RStat SOk), v) :: l2) cf) by (rewrite <- E'; exact R).
        pose proof (call_later _ _ _ _ _ Rz Cx) as Cx'. pose proof (ended_later dbg B strerror v0 lim0 m0 S0 _ _ _ _ _ Rz Ez) as Ez'. rewrite <- E' in Cx', Ez'.
        destruct (On _ _ Cx' Ox) as [(-> & _)|[(-> & _)|[(-> & _)|(-> & _)]]]; [congruence|congruence|congruence|].
        exfalso. cbn [ended] in Ez. destruct (Nat.eqb_spec s d) as [->|Nd]; [congruence|]. destruct (chain_after tr cf s [c; d] q l2 R Eq (conj F3 (conj F4 Logic.I)) Ns d) as (_ & X); [cbn; auto|]. congruence.
      + split; [apply (handed_one q l2 h a); [rewrite <- Eq; exact Ua|eauto|exact Ca]|]. apply (handed_one [] tr h a); [exact Ua|eauto|exact C1].
  Qed.
End Run.
