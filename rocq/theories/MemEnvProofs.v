(** MemEnvProofs.v -- the environment against its history: every legal call
    returns what MemEnvSpec.v says, for every history. *)
From Coq Require Import List Arith NArith ZArith Lia Bool Permutation Sorting.Sorted.
From Verif Require Import Outcome Heap Status MemEnv MemEnvSpec MemEnvMem MemEnvMap.
Import ListNotations.
Local Open Scope outcome_scope.

Definition okind (o : ofile) : fkind := match o with OSeq _ _ => KSeq | ORand _ => KRand | OWrite _ => KWrite end.
Definition opos (H : history) (h : nat) (o : ofile) : Prop :=
  match o with OSeq _ p => pos H h = p /\ (p < 2 ^ 64)%N | _ => True end.

(** [Z]: FileStates waiting to be deleted; [P]: the object NewWritableFile is
    still constructing (its name, its FileState) after having emptied the file.
    Both are empty when there is one caller. *)
Definition pending (P : option (nat * nat)) (h : nat) : Prop := exists a, P = Some (h, a).
Record HInv (Z : nat -> Prop) (P : option (nat * nat)) (H : history) (e : env) (I : nat -> nat) : Prop := {
  hi_core : Core Z e (bound H) (contents H) I (length H);
  hi_size : forall a, alive (e_mem e) a -> (fsize H (I a) < 2 ^ 64)%N;
  hi_obj : forall h o, hget (e_open e) h = Some o ->
     opened H h = Some (okind o, I (ofile_state o)) /\ deleted H h = false /\ opos H h o;
  hi_none : forall h, hget (e_open e) h = None -> live_b H h = false \/ pending P h;
  hi_pend : forall h a, P = Some (h, a) -> hget (e_open e) h = None /\ opened H h = Some (KWrite, I a) /\
     deleted H h = false /\ In a (map snd (e_map e));
  hi_fresh : forall h, length H <= h -> pos H h = 0%N /\ deleted H h = false }.
Definition nobody : nat -> Prop := fun _ => False.

Lemma Core_init : Core nobody env_new (fun _ => None) (fun _ => []) (fun _ => 0) 0.
Proof.
  constructor; cbn.
  - apply MInv_init.
  - intros a. split; [intros (f & Hf); discriminate|unfold nrefs; cbn; intros [Q|[]]; lia].
  - intros a [].
  - constructor.
  - constructor.
  - constructor.
  - reflexivity.
  - intros a a' (f & Hf). discriminate.
  - intros a (f & Hf). discriminate.
Qed.
Lemma HInv_init : HInv nobody None [] env_new (fun _ => 0).
Proof.
  constructor; cbn.
  - apply Core_init.
  - intros a (f & Hf). discriminate.
  - discriminate.
  - auto.
  - discriminate.
  - auto.
Qed.
Lemma HInv_extZ Z Z' P H e I : HInv Z P H e I -> (forall a, Z' a <-> Z a) -> HInv Z' P H e I.
Proof. intros V E. constructor; try apply V. eapply Core_extZ; [apply (hi_core _ _ _ _ _ V)|exact E]. Qed.

Lemma hi_live Z P H e I h k i : HInv Z P H e I -> live H h k i -> ~ pending P h ->
  exists o, hget (e_open e) h = Some o /\ okind o = k /\ I (ofile_state o) = i.
Proof.
  intros V (L1 & L2) NP. destruct (hget (e_open e) h) as [o|] eqn:E.
  - exists o. destruct (hi_obj _ _ _ _ _ V h o E) as (O1 & _). rewrite L1 in O1. inversion O1. auto.
  - apply (hi_none _ _ _ _ _ V) in E as [E|E]; [|contradiction]. unfold live_b in E. rewrite L1, L2 in E. discriminate.
Qed.
Lemma hi_lt Z P H e I h o : HInv Z P H e I -> hget (e_open e) h = Some o -> h < length H.
Proof. intros V E. destruct (hi_obj _ _ _ _ _ V h o E) as (O1 & _). now apply opened_lt in O1. Qed.
Lemma hi_plt Z P H e I h : HInv Z P H e I -> pending P h -> h < length H.
Proof. intros V (a & E). destruct (hi_pend _ _ _ _ _ V h a E) as (_ & O1 & _). now apply opened_lt in O1. Qed.
Lemma live_b_hget Z P H e I h : HInv Z P H e I -> live_b H h = true <-> (exists o, hget (e_open e) h = Some o) \/ pending P h.
Proof.
  intros V. split.
  - intros L. destruct (hget (e_open e) h) eqn:E; [eauto|]. apply (hi_none _ _ _ _ _ V) in E as [E|E]; [congruence|auto].
  - intros [(o & E)|(a & E)].
    + destruct (hi_obj _ _ _ _ _ V h o E) as (O1 & O2 & _). unfold live_b. now rewrite O1, O2.
    + destruct (hi_pend _ _ _ _ _ V h a E) as (_ & O1 & O2 & _). unfold live_b. now rewrite O1, O2.
Qed.
Definition plist (P : option (nat * nat)) : list nat := match P with Some (h, _) => [h] | None => [] end.
Lemma plist_in P h : In h (plist P) <-> pending P h.
Proof.
  unfold plist, pending. destruct P as [[h' a]|]; cbn [In]; split.
  - intros [<-|[]]. eauto.
  - intros (a' & E). inversion E. auto.
  - intros [].
  - intros (a' & E). discriminate.
Qed.
Lemma hi_count Z P H e I : HInv Z P H e I -> live_count H = length (plist P) + length (e_open e).
Proof.
  intros V. unfold live_count. replace (length (e_open e)) with (length (dom (e_open e))) by apply map_length.
  rewrite <- app_length. apply Permutation_length. apply NoDup_Permutation.
  - apply NoDup_filter, seq_NoDup.
  - unfold plist. destruct P as [[h a]|]; cbn [app]; [|apply (co_hwf _ _ _ _ _ _ (hi_core _ _ _ _ _ V))].
    constructor; [|apply (co_hwf _ _ _ _ _ _ (hi_core _ _ _ _ _ V))]. rewrite dom_hget.
    destruct (hi_pend _ _ _ _ _ V h a eq_refl) as (E & _). intros (o & E'). congruence.
  - intros h. rewrite filter_In, in_seq, (live_b_hget _ _ _ _ _ _ V), in_app_iff, dom_hget, plist_in. split; [tauto|].
    intros Q. split; [|tauto]. destruct Q as [E|(o & E)]; [apply (hi_plt _ _ _ _ _ _ V) in E|apply (hi_lt _ _ _ _ _ _ _ V) in E]; lia.
Qed.

(** ** Building the next invariant *)
Lemma HInv_next Z P Z' P' H e I ev e' I' : HInv Z P H e I ->
  Core Z' e' (bound (ev :: H)) (contents (ev :: H)) I' (S (length H)) ->
  (forall a, alive (e_mem e') a -> (fsize (ev :: H) (I' a) < 2 ^ 64)%N) ->
  (forall h, h <> length H -> match hget (e_open e') h, hget (e_open e) h with
     | Some o', Some o => okind o' = okind o /\ I' (ofile_state o') = I (ofile_state o) /\ deleted (ev :: H) h = false /\ opos (ev :: H) h o'
     | None, _ => live_b (ev :: H) h = false \/ pending P' h
     | Some _, None => False
     end) ->
  match hget (e_open e') (length H) with
  | Some o => opened (ev :: H) (length H) = Some (okind o, I' (ofile_state o)) /\ opos (ev :: H) (length H) o
  | None => opened (ev :: H) (length H) = None \/ pending P' (length H)
  end ->
  (forall h a, P' = Some (h, a) -> hget (e_open e') h = None /\ opened (ev :: H) h = Some (KWrite, I' a) /\
     deleted (ev :: H) h = false /\ In a (map snd (e_map e'))) ->
  (forall h, length H <= h -> pos (ev :: H) h = 0%N /\ deleted (ev :: H) h = false) ->
  HInv Z' P' (ev :: H) e' I'.
Proof.
  intros V K S O N Pd F. constructor.
  - exact K.
  - exact S.
  - intros h o Eh. destruct (Nat.eq_dec h (length H)) as [->|Hn].
    + rewrite Eh in N. destruct N as (N1 & N2). split; [exact N1|]. split; [apply F; lia|exact N2].
    + specialize (O h Hn). rewrite Eh in O. destruct (hget (e_open e) h) as [o0|] eqn:E0; [|contradiction].
      destruct O as (O1 & O2 & O3 & O4). destruct (hi_obj _ _ _ _ _ V h o0 E0) as (P1 & _).
      rewrite opened_old by auto. rewrite P1, O1, O2. auto.
  - intros h Eh. destruct (Nat.eq_dec h (length H)) as [->|Hn].
    + rewrite Eh in N. destruct N as [N|N]; [|auto]. left. unfold live_b. now rewrite N.
    + specialize (O h Hn). now rewrite Eh in O.
  - exact Pd.
  - intros h Hh. cbn [length] in Hh. apply F. lia.
Qed.
(** The pending object is not touched by a call that keeps the map. *)
Lemma pend_keep Z P H e I ev e' : HInv Z P H e I -> e_map e' = e_map e ->
  (forall h, hget (e_open e) h = None -> h < length H -> hget (e_open e') h = None) ->
  (forall h, pending P h -> deleted (ev :: H) h = deleted H h) ->
  forall h a, P = Some (h, a) -> hget (e_open e') h = None /\ opened (ev :: H) h = Some (KWrite, I a) /\
     deleted (ev :: H) h = false /\ In a (map snd (e_map e')).
Proof.
  intros V Em Eo Ed h a E. destruct (hi_pend _ _ _ _ _ V h a E) as (Q1 & Q2 & Q3 & Q4).
  assert (Hp : pending P h) by (exists a; auto). pose proof (hi_plt _ _ _ _ _ _ V Hp) as Hl.
  rewrite opened_old by lia. rewrite Em, Ed by auto. auto.
Qed.

Lemma HInv_same Z P Z' H e I ev e' I' : HInv Z P H e I ->
  Core Z' e' (bound (ev :: H)) (contents (ev :: H)) I' (S (length H)) ->
  (forall a, alive (e_mem e') a -> (fsize (ev :: H) (I' a) < 2 ^ 64)%N) ->
  e_open e' = e_open e -> (forall h o, hget (e_open e) h = Some o -> I' (ofile_state o) = I (ofile_state o)) ->
  P = None \/ (e_map e' = e_map e /\ I' = I) ->
  opened (ev :: H) (length H) = None ->
  (forall h, deleted (ev :: H) h = deleted H h) -> (forall h, pos (ev :: H) h = pos H h) ->
  HInv Z' P (ev :: H) e' I'.
Proof.
  intros V K S Eo EI Pd No Ed Ep. eapply HInv_next; [exact V|exact K|exact S| | | |].
  - intros h Hn. rewrite Eo. destruct (hget (e_open e) h) as [o|] eqn:Eh.
    + split; [auto|]. split; [now apply (EI h)|]. destruct (hi_obj _ _ _ _ _ V h o Eh) as (_ & P2 & P3).
      rewrite Ed. split; [exact P2|]. unfold opos in *. now rewrite Ep.
    + apply (hi_none _ _ _ _ _ V) in Eh. unfold live_b in *. now rewrite opened_old, Ed by auto.
  - rewrite Eo. destruct (hget (e_open e) (length H)) as [o|] eqn:Eh; [|left; exact No].
    apply (hi_lt _ _ _ _ _ _ _ V) in Eh. lia.
  - destruct Pd as [->|(Em & ->)]; [discriminate|]. eapply pend_keep; [exact V|exact Em|rewrite Eo; auto|auto].
  - intros h Hh. rewrite Ed, Ep. now apply (hi_fresh _ _ _ _ _ V).
Qed.

(** Nothing changed. *)
Lemma HInv_frame Z P H e I ev : HInv Z P H e I ->
  (forall f, bound (ev :: H) f = bound H f) -> (forall i, contents (ev :: H) i = contents H i) ->
  opened (ev :: H) (length H) = None ->
  (forall h, deleted (ev :: H) h = deleted H h) -> (forall h, pos (ev :: H) h = pos H h) ->
  HInv Z P (ev :: H) e I.
Proof.
  intros V Eb Ec Eo Ed Ep. apply (HInv_same Z P Z H e I); auto.
  - apply (Core_ext _ _ _ _ _ _ _ _ _ (hi_core _ _ _ _ _ V)); auto.
  - intros a Ha. unfold fsize. rewrite Ec. now apply (hi_size _ _ _ _ _ V).
Qed.

(** A new object. *)
Lemma HInv_open Z H e I ev e' I' o : HInv Z None H e I ->
  Core Z e' (bound (ev :: H)) (contents (ev :: H)) I' (S (length H)) ->
  (forall a, alive (e_mem e') a -> (fsize (ev :: H) (I' a) < 2 ^ 64)%N) ->
  e_open e' = hput (e_open e) (length H) o -> (forall h o, hget (e_open e) h = Some o -> I' (ofile_state o) = I (ofile_state o)) ->
  opened (ev :: H) (length H) = Some (okind o, I' (ofile_state o)) ->
  match o with OSeq _ p => p = 0%N | _ => True end ->
  (forall h, deleted (ev :: H) h = deleted H h) -> (forall h, pos (ev :: H) h = pos H h) ->
  HInv Z None (ev :: H) e' I'.
Proof.
  intros V K S Eo EI No Zo Ed Ep. eapply HInv_next; [exact V|exact K|exact S| | | |].
  - intros h Hn. rewrite Eo, hget_hput_ne by auto. destruct (hget (e_open e) h) as [o'|] eqn:Eh.
    + split; [auto|]. split; [now apply (EI h)|]. destruct (hi_obj _ _ _ _ _ V h o' Eh) as (_ & P2 & P3).
      rewrite Ed. split; [exact P2|]. unfold opos in *. now rewrite Ep.
    + apply (hi_none _ _ _ _ _ V) in Eh. unfold live_b in *. now rewrite opened_old, Ed by auto.
  - rewrite Eo, hget_hput_eq. split; [exact No|]. unfold opos. destruct o; auto. subst. rewrite Ep.
    split; [now apply (hi_fresh _ _ _ _ _ V)|reflexivity].
  - discriminate.
  - intros h Hh. rewrite Ed, Ep. now apply (hi_fresh _ _ _ _ _ V).
Qed.

Lemma bound_map Z P H e I f : HInv Z P H e I -> bound H f = option_map I (map_find f (e_map e)).
Proof. intros V. apply (co_bound _ _ _ _ _ _ (hi_core _ _ _ _ _ V)). Qed.

(** Children *)
Lemma prefix_b_spec p : forall s, prefix_b p s = true <-> firstn (length p) s = p.
Proof.
  induction p as [|a p IH]; intros [|b s]; cbn [prefix_b length firstn]; split; try easy.
  - rewrite andb_true_iff, N.eqb_eq, IH. now intros [-> ->].
  - intros E. injection E as E1 E2. rewrite andb_true_iff, N.eqb_eq. rewrite IH. auto.
Qed.
Lemma child_iff d f g :
  ((length d + 1 <=? length f) && (nth (length d) f 0 =? 47)%N && prefix_b d f = true /\ skipn (length d + 1) f = g) <-> f = d ++ [47%N] ++ g.
Proof.
  rewrite !andb_true_iff, Nat.leb_le, N.eqb_eq, prefix_b_spec. split.
  - intros (((L & E) & P) & S). rewrite <- (firstn_skipn (length d) f), P. f_equal.
    destruct (skipn (length d) f) as [|c r] eqn:Es.
    + apply (f_equal (@length N)) in Es. rewrite skipn_length in Es. cbn in Es. lia.
    + rewrite <- (firstn_skipn (length d) f), P, app_nth2, Nat.sub_diag, Es in E by lia. cbn in E. subst c.
      rewrite <- S. rewrite <- skipn_add, Es. reflexivity.
  - intros ->. split.
    + split; [split|].
      * rewrite !app_length. cbn. lia.
      * rewrite app_nth2, Nat.sub_diag by lia. reflexivity.
      * rewrite firstn_app, Nat.sub_diag, firstn_all. cbn [firstn]. now rewrite app_nil_r.
    + rewrite skipn_app, skipn_all2 by lia. replace (length d + 1 - length d) with 1 by lia. reflexivity.
Qed.
Lemma children_in d m g : In g (children d m) <-> exists v, In (d ++ [47%N] ++ g, v) m.
Proof.
  induction m as [|[f v] m IH]; cbn [children In]; [firstorder|].
  destruct (_ && _ && _) eqn:E.
  - cbn [In]. rewrite IH. split.
    + intros [Eg|(w & Hw)]; [|eauto]. exists v. left. f_equal. apply child_iff. auto.
    + intros (w & [Ew|Hw]); [|eauto]. left. injection Ew as Ef _. apply child_iff in Ef. tauto.
  - rewrite IH. split; [intros (w & Hw); eauto|]. intros (w & [Ew|Hw]); [|eauto].
    injection Ew as Ef _. apply child_iff in Ef as [Ef _]. congruence.
Qed.
Lemma lex_app d : forall a b, lex_ltb (d ++ a) (d ++ b) = lex_ltb a b.
Proof. induction d as [|c d IH]; intros; cbn [app lex_ltb]; auto. rewrite N.ltb_irrefl. auto. Qed.
Lemma children_sorted d m : sorted m -> StronglySorted (fun a b => lex_ltb a b = true) (children d m).
Proof.
  induction m as [|[f v] m IH]; cbn [children]; intros S; [constructor|].
  inversion S as [|? ? S1 S2]; subst. destruct (_ && _ && _) eqn:E; [|auto].
  constructor; [auto|]. apply Forall_forall. intros g Hg. apply children_in in Hg as (w & Hw).
  rewrite Forall_forall in S2. apply S2 in Hw. unfold klt in Hw. cbn [fst] in Hw.
  assert (Ef : f = d ++ [47%N] ++ skipn (length d + 1) f) by (apply child_iff; auto).
  rewrite Ef in Hw. rewrite !lex_app in Hw. exact Hw.
Qed.
Lemma find_some_in k v m : sorted m -> (map_find k m = Some v <-> In (k, v) m).
Proof.
  induction m as [|[k' v'] m IH]; cbn [map_find In]; intros S; [easy|]. inversion S as [|? ? S1 S2]; subst.
  destruct (str_eqb k k') eqn:E.
  - apply str_eqb_eq in E. subst k'. split.
    + intros Q. left. congruence.
    + intros [Q|Q]; [congruence|]. exfalso. rewrite Forall_forall in S2. apply S2 in Q. unfold klt in Q. cbn in Q.
      rewrite lex_irr in Q. discriminate.
  - rewrite IH by auto. split; [auto|]. intros [Q|Q]; [|auto]. injection Q as -> ->. rewrite str_eqb_refl in E. discriminate.
Qed.
Lemma children_ok Z P H e I d : HInv Z P H e I -> Expect H (Children d) (RNames (children d (e_map e))).
Proof.
  intros V. pose proof (co_sorted _ _ _ _ _ _ (hi_core _ _ _ _ _ V)) as S. cbn [Expect]. eexists. split; [reflexivity|].
  split; [now apply children_sorted|]. intros g. rewrite children_in, (bound_map _ _ _ _ _ _ V). split.
  - intros (v & Hv). apply find_some_in in Hv; [|auto]. rewrite Hv. discriminate.
  - destruct (map_find (d ++ [47%N] ++ g) (e_map e)) as [v|] eqn:Ev; [|easy]. intros _. exists v. now apply find_some_in.
Qed.

Section Steps.
  Variables (alc alb : allocator) (dbg : bool).
  Hypothesis Halc : allocator_ok alc.
  Hypothesis Halb : allocator_ok alb.

  Definition step_ok (Z : nat -> Prop) (P : option (nat * nat)) (H : history) (e : env) (x : call) : Prop :=
    exists e' r I', exec alc alb dbg H e x = Ret (e', mk_event x r) /\ Expect H x r /\ HInv Z P (mk_event x r :: H) e' I'.

  (** calls that change nothing *)
  Lemma step_frame Z P H e I x r : HInv Z P H e I -> exec alc alb dbg H e x = Ret (e, mk_event x r) -> Expect H x r ->
    (forall f, bound (mk_event x r :: H) f = bound H f) -> (forall i, contents (mk_event x r :: H) i = contents H i) ->
    opened (mk_event x r :: H) (length H) = None ->
    (forall h, deleted (mk_event x r :: H) h = deleted H h) -> (forall h, pos (mk_event x r :: H) h = pos H h) ->
    step_ok Z P H e x.
  Proof. intros V E X B C O D Ps. exists e, r, I. split; [exact E|]. split; [exact X|]. now apply HInv_frame. Qed.

  Lemma opened_none ev H : opens (ev_call ev) = None -> opened (ev :: H) (length H) = None.
  Proof. intros E. cbn [opened]. now rewrite Nat.eqb_refl, E. Qed.
  Lemma opened_some ev H k f : opens (ev_call ev) = Some (k, f) ->
    opened (ev :: H) (length H) = option_map (fun i => (k, i)) (bound (ev :: H) f).
  Proof. intros E. cbn [opened]. rewrite Nat.eqb_refl, E. now destruct (bound (ev :: H) f). Qed.

  Lemma step_newread Z H e I x f k o :
    HInv Z None H e I -> (N.of_nat (live_count H) < 2 ^ 31 - 2)%N ->
    opens x = Some (k, f) -> (forall a, okind (o a) = k /\ ofile_state (o a) = a /\ match o a with OSeq _ p => p = 0%N | _ => True end) ->
    (forall r g, bound (mk_event x r :: H) g = bound H g) -> (forall r i, contents (mk_event x r :: H) i = contents H i) ->
    (forall r h, deleted (mk_event x r :: H) h = deleted H h) -> (forall r h, pos (mk_event x r :: H) h = pos H h) ->
    (forall r, Expect H x r <-> r = RStat (match bound H f with Some _ => SOk | None => nf f end)) ->
    exec alc alb dbg H e x =
      match map_find f (e_map e) with
      | None => Ret (e, mk_event x (RStat (nf f)))
      | Some a => let! e' := open_obj e (e_mem e) (e_map e) (length H) (o a) in Ret (e', mk_event x (RStat SOk))
      end -> step_ok Z None H e x.
  Proof.
    intros V Hn Ho Oo B C D P X E. pose proof (bound_map Z _ H e I f V) as Bf.
    destruct (map_find f (e_map e)) as [a|] eqn:Ef; cbn [option_map] in Bf.
    - destruct (Oo a) as (O1 & O2 & O3).
      assert (Ha : alive (e_mem e) (ofile_state (o a))).
      { rewrite O2. exact (Core_find _ _ _ _ _ _ _ _ (hi_core _ _ _ _ _ V) Ef). }
      assert (NZ : ~ Z (ofile_state (o a))) by (rewrite O2; exact (Core_find_nz _ _ _ _ _ _ _ _ (hi_core _ _ _ _ _ V) Ef)).
      assert (Hh : hget (e_open e) (length H) = None).
      { destruct (hget (e_open e) (length H)) eqn:Q; auto. apply (hi_lt _ _ _ _ _ _ _ V) in Q. lia. }
      rewrite (hi_count _ _ _ _ _ V) in Hn. cbn [plist length Nat.add] in Hn.
      destruct (Core_open _ _ _ _ _ _ (length H) (o a) (hi_core _ _ _ _ _ V) Ha NZ Hh Hn) as (m' & E1 & K & A).
      unfold open_obj in E. rewrite E1 in E. cbn [bind] in E.
      do 2 eexists. exists I. split; [exact E|]. split; [apply X; now rewrite Bf|].
      eapply HInv_open with (o := o a); [exact V| | |reflexivity|auto| |exact O3|apply D|apply P].
      + eapply Core_ext; [exact K|apply B|auto|lia].
      + intros x0 Hx0. cbn [e_mem] in Hx0. apply A in Hx0. unfold fsize. rewrite C. now apply (hi_size _ _ _ _ _ V).
      + rewrite (opened_some _ _ k f) by exact Ho. rewrite B, Bf, O1, O2. reflexivity.
    - eapply step_frame; [exact V|exact E| |apply B|apply C| |apply D|apply P].
      + apply X. now rewrite Bf.
      + rewrite (opened_some _ _ k f) by exact Ho. now rewrite B, Bf.
  Qed.

  Lemma step_NewSeq Z H e I f : HInv Z None H e I -> legal H (NewSeq f) -> step_ok Z None H e (NewSeq f).
  Proof.
    intros V L. apply (step_newread Z H e I (NewSeq f) f KSeq (fun a => OSeq a 0) V L); try reflexivity; [auto|].
    unfold exec, dispatch, new_sequential. destruct (map_find f (e_map e)) as [a|] eqn:Ef; [|reflexivity].
    rewrite (index_find _ _ _ Ef). now destruct (open_obj _ _ _ _ _).
  Qed.
  Lemma step_NewRand Z H e I f : HInv Z None H e I -> legal H (NewRand f) -> step_ok Z None H e (NewRand f).
  Proof.
    intros V L. apply (step_newread Z H e I (NewRand f) f KRand ORand V L); try reflexivity; [auto|].
    unfold exec, dispatch, new_random. destruct (map_find f (e_map e)) as [a|] eqn:Ef; [|reflexivity].
    rewrite (index_find _ _ _ Ef). now destruct (open_obj _ _ _ _ _).
  Qed.
  Lemma step_NewAppend Z H e I f : HInv Z None H e I -> legal H (NewAppend f) -> step_ok Z None H e (NewAppend f).
  Proof.
    intros V (Lb & L). pose proof (bound_map Z _ H e I f V) as Bf.
    destruct (map_find f (e_map e)) as [a|] eqn:Ef; [|now rewrite Bf in Lb].
    apply (step_newread Z H e I (NewAppend f) f KWrite OWrite V L); try reflexivity; [auto| |].
    - intros r. rewrite Bf. reflexivity.
    - unfold exec, dispatch, new_appendable. rewrite Ef, (index_find _ _ _ Ef).
      destruct (a =? 0) eqn:Ea.
      + apply Nat.eqb_eq in Ea. subst a. destruct (Core_find _ _ _ _ _ _ _ _ (hi_core _ _ _ _ _ V) Ef) as (x & Hx).
        rewrite (mi_null _ _ _ (co_mem _ _ _ _ _ _ (hi_core _ _ _ _ _ V))) in Hx. discriminate.
      + cbn [bind fst snd]. now destruct (open_obj _ _ _ _ _).
  Qed.
  Lemma step_NewWrite Z H e I f : HInv Z None H e I -> legal H (NewWrite f) -> step_ok Z None H e (NewWrite f).
  Proof.
    intros V Hn. cbn [legal] in Hn. pose proof (bound_map Z _ H e I f V) as Bf.
    assert (Hh : hget (e_open e) (length H) = None).
    { destruct (hget (e_open e) (length H)) eqn:Q; auto. apply (hi_lt _ _ _ _ _ _ _ V) in Q. lia. }
    rewrite (hi_count _ _ _ _ _ V) in Hn. cbn [plist length Nat.add] in Hn. set (ev := mk_event (NewWrite f) (RStat SOk)).
    destruct (map_find f (e_map e)) as [a|] eqn:Ef; cbn [option_map] in Bf.
    - assert (Ha := Core_find _ _ _ _ _ _ _ _ (hi_core _ _ _ _ _ V) Ef).
      destruct (Core_truncate _ _ _ _ _ _ a (hi_core _ _ _ _ _ V) Ha) as (m1 & E1 & K1 & A1).
      destruct (Core_open _ _ _ _ _ _ (length H) (OWrite a) K1) as (m2 & E2 & K2 & A2); [now apply A1|exact (Core_find_nz _ _ _ _ _ _ _ _ K1 Ef)|exact Hh|exact Hn|].
      cbn [e_mem e_map e_open ofile_state] in *.
      exists (mk_env m2 (e_map e) (hput (e_open e) (length H) (OWrite a))), (RStat SOk), I.
      split; [|split; [reflexivity|]].
      { unfold exec, dispatch, new_writable, open_obj. rewrite Ef, E1. cbn [bind ofile_state]. rewrite E2. reflexivity. }
      fold ev. assert (Bn : forall g, bound (ev :: H) g = bound H g).
      { intros g. unfold ev. cbn [bound ev_call]. destruct (str_eqb g f) eqn:Eg; [|reflexivity]. apply str_eqb_eq in Eg. subst g. now rewrite Bf. }
      assert (Cn : forall x, contents (ev :: H) x = upn (contents H) (I a) [] x).
      { intros x. unfold ev, upn. cbn [contents ev_call]. rewrite Bf, Nat.eqb_sym. reflexivity. }
      eapply HInv_open with (o := OWrite a); [exact V| | |reflexivity|auto| |exact Logic.I|reflexivity|reflexivity].
      + eapply Core_ext; [exact K2|apply Bn|intros; apply Cn|lia].
      + intros x Hx. cbn [e_mem] in Hx. apply A2, A1 in Hx. unfold fsize. rewrite Cn. unfold upn.
        destruct (_ =? _); [reflexivity|now apply (hi_size _ _ _ _ _ V)].
      + rewrite (opened_some _ _ KWrite f) by reflexivity. now rewrite Bn, Bf.
    - destruct (Core_new alc _ _ _ _ _ _ f Halc (hi_core _ _ _ _ _ V) Ef) as (m1 & a & m2 & E1 & E2 & Na & K1 & A1).
      { now apply contents_new. }
      destruct (Core_open _ _ _ _ _ _ (length H) (OWrite a) K1) as (m3 & E3 & K3 & A3); [apply A1; auto|intros Q; apply Na, (co_alive _ _ _ _ _ _ (hi_core _ _ _ _ _ V)); auto|exact Hh|exact Hn|].
      cbn [e_mem e_map e_open ofile_state] in *.
      exists (mk_env m3 (map_set f a (e_map e)) (hput (e_open e) (length H) (OWrite a))), (RStat SOk), (upn I a (length H)).
      split; [|split; [reflexivity|]].
      { unfold exec, dispatch, new_writable, open_obj. rewrite Ef, E1. rewrite E2. cbn [bind ofile_state]. rewrite E3. reflexivity. }
      fold ev. assert (Bn : forall g, bound (ev :: H) g = if str_eqb g f then Some (length H) else bound H g).
      { intros g. unfold ev. cbn [bound ev_call]. destruct (str_eqb g f) eqn:Eg; [|reflexivity]. apply str_eqb_eq in Eg. subst g. now rewrite Bf. }
      assert (Cn : forall x, contents (ev :: H) x = contents H x).
      { intros x. unfold ev. cbn [contents ev_call]. now rewrite Bf. }
      eapply HInv_open with (o := OWrite a); [exact V| | |reflexivity| | |exact Logic.I|reflexivity|reflexivity].
      + eapply Core_ext; [exact K3|apply Bn|intros; apply Cn|lia].
      + intros x Hx. cbn [e_mem] in Hx. apply A3, A1 in Hx. unfold fsize. rewrite Cn. unfold upn.
        destruct (x =? a) eqn:Ex.
        * rewrite contents_new by lia. reflexivity.
        * apply Nat.eqb_neq in Ex. destruct Hx as [Hx|Hx]; [now apply (hi_size _ _ _ _ _ V)|contradiction].
      + intros h o Eo. apply upn_ne. intros Q. apply Na. rewrite <- Q. exact (Core_obj _ _ _ _ _ _ _ _ (hi_core _ _ _ _ _ V) Eo).
      + rewrite (opened_some _ _ KWrite f) by reflexivity. rewrite Bn, str_eqb_refl. cbn [option_map okind ofile_state]. now rewrite upn_eq.
  Qed.

  Lemma step_Remove Z H e I f : HInv Z None H e I -> step_ok Z None H e (Remove f).
  Proof.
    intros V. pose proof (bound_map Z _ H e I f V) as Bf.
    destruct (map_find f (e_map e)) as [a|] eqn:Ef; cbn [option_map] in Bf.
    - destruct (Core_remove dbg _ _ _ _ _ _ f a (hi_core _ _ _ _ _ V) Ef) as (m' & E & K & A).
      exists (mk_env m' (map_erase f (e_map e)) (e_open e)), (RStat SOk), I. split; [|split].
      + unfold exec, dispatch, remove_file. rewrite Ef, E. reflexivity.
      + cbn [Expect]. now rewrite Bf.
      + apply (HInv_same Z _ Z H e I); try reflexivity; auto.
        * apply (Core_ext _ _ _ _ _ _ _ _ _ K); auto.
        * intros x Hx. cbn [e_mem] in Hx. apply A in Hx. now apply (hi_size _ _ _ _ _ V).
        * now apply opened_none.
    - eapply step_frame with (r := RStat (nf f)); [exact V| | | | | | |]; try reflexivity.
      + unfold exec, dispatch, remove_file. rewrite Ef. reflexivity.
      + cbn [Expect]. now rewrite Bf.
      + intros g. cbn [bound ev_call]. destruct (str_eqb g f) eqn:Eg; [|reflexivity]. apply str_eqb_eq in Eg. now subst g.
      + now apply opened_none.
  Qed.

  Lemma step_Rename Z H e I s t : HInv Z None H e I -> step_ok Z None H e (Rename s t).
  Proof.
    intros V. pose proof (bound_map Z _ H e I s V) as Bs.
    destruct (map_find s (e_map e)) as [a|] eqn:Es; cbn [option_map] in Bs.
    2:{ eapply step_frame with (r := RStat (nf s)); [exact V| | | | | | |]; try reflexivity.
        - unfold exec, dispatch, rename_file. rewrite Es. reflexivity.
        - cbn [Expect]. now rewrite Bs.
        - intros g. cbn [bound ev_call]. now rewrite Bs.
        - now apply opened_none. }
    assert (X : Expect H (Rename s t) (RStat SOk)) by (cbn [Expect]; now rewrite Bs).
    destruct (str_eqb s t) eqn:Est.
    - apply str_eqb_eq in Est. subst t.
      destruct (Core_remove dbg _ _ _ _ _ _ s a (hi_core _ _ _ _ _ V) Es) as (m' & E & K & A).
      exists (mk_env m' (map_erase s (e_map e)) (e_open e)), (RStat SOk), I. split; [|split; [exact X|]].
      + unfold exec, dispatch, rename_file. rewrite Es, E. cbn [bind fst snd].
        assert (Fe : map_find s (map_erase s (e_map e)) = None).
        { rewrite find_erase by apply (hi_core _ _ _ _ _ V). now rewrite str_eqb_refl. }
        unfold map_index. rewrite Fe. rewrite set_set by exact Fe. rewrite erase_set by exact Fe. reflexivity.
      + apply (HInv_same Z _ Z H e I); try reflexivity; auto.
        * apply (Core_ext _ _ _ _ _ _ _ _ _ K); auto. intros g. cbn [bound ev_call]. rewrite Bs. now destruct (str_eqb g s).
        * intros x Hx. cbn [e_mem] in Hx. apply A in Hx. now apply (hi_size _ _ _ _ _ V).
        * now apply opened_none.
    - assert (Hst : s <> t) by now apply str_eqb_neq.
      pose proof (bound_map Z _ H e I t V) as Bt.
      assert (Y : exists m' fm', remove_internal dbg (e_mem e) (e_map e) t = Ret (m', fm') /\ map_find s fm' = Some a /\ map_find t fm' = None /\
                Core Z (mk_env m' fm' (e_open e)) (fun g => if str_eqb g t then None else bound H g) (contents H) I (length H) /\
                (forall x, alive m' x -> alive (e_mem e) x)).
      { destruct (map_find t (e_map e)) as [b|] eqn:Et; cbn [option_map] in Bt.
        - destruct (Core_remove dbg _ _ _ _ _ _ t b (hi_core _ _ _ _ _ V) Et) as (m' & E & K & A).
          exists m', (map_erase t (e_map e)). split; [exact E|].
          rewrite !find_erase by apply (hi_core _ _ _ _ _ V). rewrite Est, str_eqb_refl. auto.
        - exists (e_mem e), (e_map e). split; [unfold remove_internal; now rewrite Et|]. split; [exact Es|]. split; [exact Et|].
          split; [|auto]. destruct (hi_core _ _ _ _ _ V) as [K1 K2 K2d K3 K4 K5 K6 K7 K8]. constructor; cbn [e_mem e_map e_open]; auto.
          intros g. destruct (str_eqb g t) eqn:Eg; [|auto]. apply str_eqb_eq in Eg. subst g. now rewrite Et. }
      destruct Y as (m' & fm' & E & F1 & F2 & K & A).
      pose proof (Core_move _ _ _ _ _ _ s t a K F1 Hst F2) as K2. cbn [e_mem e_map e_open] in K2.
      exists (mk_env m' (map_erase s (map_set t a fm')) (e_open e)), (RStat SOk), I. split; [|split; [exact X|]].
      + unfold exec, dispatch, rename_file. rewrite Es, E. cbn [bind fst snd]. rewrite (index_find _ _ _ F1). reflexivity.
      + apply (HInv_same Z _ Z H e I); try reflexivity; auto.
        * apply (Core_ext _ _ _ _ _ _ _ _ _ K2); auto. intros g. cbn [bound ev_call]. rewrite Bs.
          destruct (str_eqb g s); [reflexivity|]. now destruct (str_eqb g t).
        * intros x Hx. cbn [e_mem] in Hx. apply A in Hx. now apply (hi_size _ _ _ _ _ V).
        * now apply opened_none.
  Qed.

  Lemma step_FileSize Z P H e I f : HInv Z P H e I -> step_ok Z P H e (FileSize f).
  Proof.
    intros V. pose proof (bound_map Z _ H e I f V) as Bf.
    destruct (map_find f (e_map e)) as [a|] eqn:Ef; cbn [option_map] in Bf.
    - eapply step_frame with (r := RSize SOk (fsize H (I a))); [exact V| | | | | | |]; try reflexivity.
      + unfold exec, dispatch, get_file_size. rewrite Ef, (index_find _ _ _ Ef).
        rewrite (size_ok _ _ _ a (co_mem _ _ _ _ _ _ (hi_core _ _ _ _ _ V)) (Core_find _ _ _ _ _ _ _ _ (hi_core _ _ _ _ _ V) Ef)).
        cbn [bind fst snd]. now destruct e.
      + cbn [Expect]. now rewrite Bf.
      + now apply opened_none.
    - eapply step_frame with (r := RSize (nf f) 0%N); [exact V| | | | | | |]; try reflexivity.
      + unfold exec, dispatch, get_file_size. rewrite Ef. reflexivity.
      + cbn [Expect]. now rewrite Bf.
      + now apply opened_none.
  Qed.

  Lemma pos_other H x r h : (forall h' n, x <> SRead h' n) -> (forall h' n, x <> SSkip h' n) -> pos (mk_event x r :: H) h = pos H h.
  Proof. intros A B. cbn [pos ev_call ev_res]. destruct x; try reflexivity; [now destruct (A h0 n)|now destruct (B h0 n)]. Qed.
  Lemma deleted_other H x r h : (forall h', x <> Delete h') -> deleted (mk_event x r :: H) h = deleted H h.
  Proof. intros A. cbn [deleted ev_call]. destruct x; try reflexivity. now destruct (A h0). Qed.

  Lemma live_of Z P H e I h o : HInv Z P H e I -> hget (e_open e) h = Some o -> live H h (okind o) (I (ofile_state o)).
  Proof. intros V E. destruct (hi_obj _ _ _ _ _ V h o E) as (A & B & _). split; auto. Qed.

  Lemma step_RRead Z P H e I h off n : HInv Z P H e I -> legal H (RRead h off n) -> ~ pending P h -> step_ok Z P H e (RRead h off n).
  Proof.
    intros V (_ & _ & i & L) NP. destruct (hi_live _ _ _ _ _ _ _ _ V L NP) as (o & Eo & Ek & Ei).
    destruct o as [|a|]; try discriminate. cbn [ofile_state] in Ei. subst i.
    pose proof (Core_obj _ _ _ _ _ _ _ _ (hi_core _ _ _ _ _ V) Eo) as Ha. cbn [ofile_state] in Ha.
    eapply step_frame; [exact V| | | | | | |]; try reflexivity.
    - unfold exec, dispatch, rand_read. rewrite Eo. rewrite (read_full _ _ _ a off n (co_mem _ _ _ _ _ _ (hi_core _ _ _ _ _ V)) Ha).
      cbn [bind]. reflexivity.
    - cbn [Expect]. exists (I a). split; [exact L|]. unfold fsize. now destruct (_ <? _)%N.
    - now apply opened_none.
  Qed.

  Lemma step_pos Z P H e I h a p q x r : HInv Z P H e I -> hget (e_open e) h = Some (OSeq a p) ->
    (forall f, bound (mk_event x r :: H) f = bound H f) -> (forall i, contents (mk_event x r :: H) i = contents H i) ->
    opens x = None -> (forall k, deleted (mk_event x r :: H) k = deleted H k) ->
    (forall k, k <> h -> pos (mk_event x r :: H) k = pos H k) -> pos (mk_event x r :: H) h = q -> (q < 2 ^ 64)%N ->
    HInv Z P (mk_event x r :: H) (mk_env (e_mem e) (e_map e) (hput (e_open e) h (OSeq a q))) I.
  Proof.
    intros V Eo B C O D P1 P2 Hq.
    eapply HInv_next; [exact V| | | | | |]; cbn [e_mem e_map e_open].
    - eapply Core_ext; [eapply (Core_setobj _ _ _ _ _ _ h _ (OSeq a q)); [apply (hi_core _ _ _ _ _ V)|exact Eo|reflexivity]|exact B|auto|lia].
    - intros y Hy. unfold fsize. rewrite C. now apply (hi_size _ _ _ _ _ V).
    - intros k Hk. rewrite hget_hput. destruct (k =? h) eqn:Ekh.
      + apply Nat.eqb_eq in Ekh. subst k. rewrite Eo. split; [reflexivity|]. split; [reflexivity|]. rewrite D.
        split; [now apply (hi_obj _ _ _ _ _ V h _ Eo)|]. cbn [opos]. auto.
      + apply Nat.eqb_neq in Ekh. destruct (hget (e_open e) k) as [o|] eqn:Ek.
        * destruct (hi_obj _ _ _ _ _ V k o Ek) as (_ & Q2 & Q3). rewrite D. unfold opos in *. now rewrite P1.
        * apply (hi_none _ _ _ _ _ V) in Ek. unfold live_b in *. now rewrite opened_old, D by auto.
    - pose proof (hi_lt _ _ _ _ _ _ _ V Eo) as Hl. rewrite hget_hput_ne by lia.
      destruct (hget (e_open e) (length H)) as [o|] eqn:Eh; [apply (hi_lt _ _ _ _ _ _ _ V) in Eh; lia|]. left. now apply opened_none.
    - eapply (pend_keep _ _ _ _ _ _ (mk_env (e_mem e) (e_map e) (hput (e_open e) h (OSeq a q))) V); [reflexivity| |intros; apply D].
      intros k Ek _. cbn [e_open]. rewrite hget_hput_ne; [exact Ek|]. intros ->. congruence.
    - intros k Hk. pose proof (hi_lt _ _ _ _ _ _ _ V Eo) as Hl. rewrite D, P1 by lia. now apply (hi_fresh _ _ _ _ _ V).
  Qed.

  Lemma part_length c off n : (off <= N.of_nat (length c))%N -> (off + N.of_nat (length (part c off n)) <= N.of_nat (length c))%N.
  Proof. intros Hle. unfold part. rewrite firstn_length, skipn_length. lia. Qed.

  Lemma step_SRead Z P H e I h n : HInv Z P H e I -> legal H (SRead h n) -> ~ pending P h -> step_ok Z P H e (SRead h n).
  Proof.
    intros V (Hn & i & L) NP. destruct (hi_live _ _ _ _ _ _ _ _ V L NP) as (o & Eo & Ek & Ei).
    destruct o as [a p| |]; try discriminate. cbn [ofile_state] in Ei. subst i.
    pose proof (Core_obj _ _ _ _ _ _ _ _ (hi_core _ _ _ _ _ V) Eo) as Ha. cbn [ofile_state] in Ha.
    destruct (hi_obj _ _ _ _ _ V h _ Eo) as (Q1 & Q2 & Q3 & Q4). cbn [okind ofile_state] in Q1.
    pose proof (hi_size _ _ _ _ _ V a Ha) as Hs.
    assert (E0 : exec alc alb dbg H e (SRead h n) =
      if (fsize H (I a) <? p)%N then Ret (e, mk_event (SRead h n) (RData (SErr IOError msg_offset []) []))
      else Ret (mk_env (e_mem e) (e_map e) (hput (e_open e) h (OSeq a (u64 (p + N.of_nat (length (part (contents H (I a)) p n)))))),
                mk_event (SRead h n) (RData SOk (part (contents H (I a)) p n)))).
    { unfold exec, dispatch, seq_read. rewrite Eo. rewrite (read_full _ _ _ a p n (co_mem _ _ _ _ _ _ (hi_core _ _ _ _ _ V)) Ha).
      cbn [bind]. unfold fsize. destruct (_ <? _)%N; reflexivity. }
    destruct (fsize H (I a) <? p)%N eqn:El.
    - eapply step_frame; [exact V|exact E0| | | | | |]; try reflexivity.
      + cbn [Expect]. exists (I a). split; [exact L|]. rewrite Q3, El. reflexivity.
      + now apply opened_none.
    - apply N.ltb_ge in El. pose proof (part_length (contents H (I a)) p n El) as Hp.
      rewrite u64_small in E0 by (unfold fsize in *; lia).
      do 2 eexists. exists I. split; [exact E0|]. split.
      + cbn [Expect]. exists (I a). split; [exact L|]. rewrite Q3. apply N.ltb_ge in El. now rewrite El.
      + eapply step_pos; [exact V|exact Eo| | | | | | |]; try reflexivity.
        * intros k Hk. cbn [pos ev_call ev_res]. apply not_eq_sym, Nat.eqb_neq in Hk. now rewrite Hk.
        * cbn [pos ev_call ev_res]. now rewrite Nat.eqb_refl, Q3.
        * unfold fsize in *. lia.
  Qed.

  Lemma step_SSkip Z P H e I h n : HInv Z P H e I -> legal H (SSkip h n) -> ~ pending P h -> step_ok Z P H e (SSkip h n).
  Proof.
    intros V (Hn & i & L) NP. destruct (hi_live _ _ _ _ _ _ _ _ V L NP) as (o & Eo & Ek & Ei).
    destruct o as [a p| |]; try discriminate. cbn [ofile_state] in Ei. subst i.
    pose proof (Core_obj _ _ _ _ _ _ _ _ (hi_core _ _ _ _ _ V) Eo) as Ha. cbn [ofile_state] in Ha.
    destruct (hi_obj _ _ _ _ _ V h _ Eo) as (Q1 & Q2 & Q3 & Q4). cbn [okind ofile_state] in Q1.
    pose proof (hi_size _ _ _ _ _ V a Ha) as Hs.
    assert (E0 : exec alc alb dbg H e (SSkip h n) =
      if (fsize H (I a) <? p)%N then Ret (e, mk_event (SSkip h n) (RStat (SErr IOError msg_pos [])))
      else Ret (mk_env (e_mem e) (e_map e) (hput (e_open e) h (OSeq a (p + N.min n (fsize H (I a) - p)))),
                mk_event (SSkip h n) (RStat SOk))).
    { unfold exec, dispatch, seq_skip. rewrite Eo. rewrite (size_ok _ _ _ a (co_mem _ _ _ _ _ _ (hi_core _ _ _ _ _ V)) Ha).
      cbn [bind]. change (N.of_nat (length (contents H (I a)))) with (fsize H (I a)).
      destruct (fsize H (I a) <? p)%N eqn:El; [reflexivity|]. apply N.ltb_ge in El.
      assert (Ea : u64 (fsize H (I a) + 2 ^ 64 - p) = (fsize H (I a) - p)%N).
      { replace (fsize H (I a) + 2 ^ 64 - p)%N with ((fsize H (I a) - p) + 1 * 2 ^ 64)%N by lia.
        unfold u64. rewrite N.mod_add by discriminate. apply N.mod_small. lia. }
      rewrite Ea. cbn [bind fst snd]. 
      assert (Em : (if (fsize H (I a) - p <? n)%N then (fsize H (I a) - p)%N else n) = N.min n (fsize H (I a) - p)).
      { destruct (fsize H (I a) - p <? n)%N eqn:Q; [apply N.ltb_lt in Q|apply N.ltb_ge in Q]; lia. }
      rewrite Em, u64_small by lia. reflexivity. }
    destruct (fsize H (I a) <? p)%N eqn:El.
    - eapply step_frame; [exact V|exact E0| | | | | |]; try reflexivity.
      + cbn [Expect]. exists (I a). split; [exact L|]. rewrite Q3, El. reflexivity.
      + now apply opened_none.
    - do 2 eexists. exists I. split; [exact E0|]. split.
      + cbn [Expect]. exists (I a). split; [exact L|]. now rewrite Q3, El.
      + apply N.ltb_ge in El. eapply step_pos; [exact V|exact Eo| | | | | | |]; try reflexivity.
        * intros k Hk. cbn [pos ev_call ev_res]. apply not_eq_sym, Nat.eqb_neq in Hk. now rewrite Hk.
        * cbn [pos ev_call ev_res]. rewrite Nat.eqb_refl, Q1, Q3. unfold skipped. apply N.leb_le in El. now rewrite El.
        * lia.
  Qed.

  Lemma step_noop Z P H e I h x : HInv Z P H e I -> x = WClose h \/ x = WFlush h \/ x = WSync h -> (exists i, live H h KWrite i) -> ~ pending P h -> step_ok Z P H e x.
  Proof.
    intros V Hx (i & L) NP. destruct (hi_live _ _ _ _ _ _ _ _ V L NP) as (o & Eo & Ek & Ei).
    destruct o as [| |a]; try discriminate.
    destruct Hx as [->|[->| ->]]; (eapply step_frame; [exact V| | | | | | |]; try reflexivity;
      [unfold exec, dispatch, file_noop; rewrite Eo; reflexivity|now apply opened_none]).
  Qed.

  Lemma step_WAppend Z P H e I h d : HInv Z P H e I -> legal H (WAppend h d) -> ~ pending P h -> step_ok Z P H e (WAppend h d).
  Proof.
    intros V (i & L & Hd) NP. destruct (hi_live _ _ _ _ _ _ _ _ V L NP) as (o & Eo & Ek & Ei).
    destruct o as [| |a]; try discriminate. cbn [ofile_state] in Ei. subst i.
    pose proof (Core_obj _ _ _ _ _ _ _ _ (hi_core _ _ _ _ _ V) Eo) as Ha. cbn [ofile_state] in Ha.
    destruct (Core_append alb _ _ _ _ _ _ a d Halb (hi_core _ _ _ _ _ V) Ha Hd) as (m' & E & K & A).
    exists (mk_env m' (e_map e) (e_open e)), (RStat SOk), I. split; [|split; [reflexivity|]].
    - unfold exec, dispatch, file_append. rewrite Eo, E. reflexivity.
    - assert (Cn : forall x, contents (mk_event (WAppend h d) (RStat SOk) :: H) x = upn (contents H) (I a) (contents H (I a) ++ d) x).
      { intros x. cbn [contents ev_call]. destruct L as (L1 & _). rewrite L1. unfold upn. rewrite Nat.eqb_sym.
        destruct (x =? I a) eqn:Q; [|reflexivity]. apply Nat.eqb_eq in Q. now subst x. }
      apply (HInv_same Z _ Z H e I); try reflexivity; auto.
      + eapply Core_ext; [exact K|reflexivity|intros; apply Cn|lia].
      + intros x Hx. cbn [e_mem] in Hx. apply A in Hx. unfold fsize. rewrite Cn. unfold upn. destruct (I x =? I a).
        * unfold fsize in Hd. rewrite app_length. lia.
        * now apply (hi_size _ _ _ _ _ V).
      + now apply opened_none.
  Qed.

  Lemma step_Delete Z P H e I h : HInv Z P H e I -> legal H (Delete h) -> ~ pending P h -> step_ok Z P H e (Delete h).
  Proof.
    intros V (k & i & L) NP. destruct (hi_live _ _ _ _ _ _ _ _ V L NP) as (o & Eo & Ek & Ei).
    destruct (Core_delete dbg _ _ _ _ _ _ h o (hi_core _ _ _ _ _ V) Eo) as (m' & E & K & A).
    exists (mk_env m' (e_map e) (hdel (e_open e) h)), (RStat SOk), I. split; [|split; [reflexivity|]].
    - unfold exec, dispatch, delete_obj. rewrite Eo, E. reflexivity.
    - pose proof (hi_lt _ _ _ _ _ _ _ V Eo) as Hl.
      eapply HInv_next; [exact V| | | | | |]; cbn [e_mem e_map e_open].
      + eapply Core_ext; [exact K|reflexivity|reflexivity|lia].
      + intros x Hx. apply A in Hx. now apply (hi_size _ _ _ _ _ V).
      + intros g Hg. rewrite hget_hdel. destruct (g =? h) eqn:Egh.
        * left. unfold live_b. cbn [deleted ev_call]. rewrite Nat.eqb_sym, Egh. cbn [orb negb]. now destruct (opened _ _).
        * assert (Eghs : h =? g = false) by now rewrite Nat.eqb_sym.
          destruct (hget (e_open e) g) as [o'|] eqn:Eg.
          -- destruct (hi_obj _ _ _ _ _ V g o' Eg) as (_ & Q2 & Q3). cbn [deleted ev_call]. rewrite Eghs. cbn [orb]. auto.
          -- apply (hi_none _ _ _ _ _ V) in Eg. unfold live_b in *. rewrite opened_old by auto. cbn [deleted ev_call]. now rewrite Eghs.
      + rewrite hget_hdel_ne by lia. destruct (hget (e_open e) (length H)) as [o'|] eqn:Eh; [apply (hi_lt _ _ _ _ _ _ _ V) in Eh; lia|].
        left. now apply opened_none.
      + eapply (pend_keep _ _ _ _ _ _ (mk_env m' (e_map e) (hdel (e_open e) h)) V); [reflexivity| |].
        * intros g Eg _. cbn [e_open]. rewrite hget_hdel. now destruct (g =? h).
        * intros g Hg. cbn [deleted ev_call]. assert (Eg : h =? g = false) by (apply Nat.eqb_neq; intros <-; contradiction). now rewrite Eg.
      + intros g Hg. cbn [pos ev_call deleted]. assert (Eg : h =? g = false) by (apply Nat.eqb_neq; lia). rewrite Eg. cbn [orb].
        now apply (hi_fresh _ _ _ _ _ V).
  Qed.

  Lemma not_pending h : ~ pending None h.
  Proof. intros (a & E). discriminate. Qed.
  (** calls on file objects, whatever NewWritableFile is constructing *)
  Lemma step_handle Z P H e I x h : HInv Z P H e I -> handle_of x = Some h -> legal H x -> ~ pending P h -> step_ok Z P H e x.
  Proof.
    intros V Ho L NP. destruct x; try discriminate; injection Ho as ->.
    - eapply step_SRead; eauto.
    - eapply step_SSkip; eauto.
    - eapply step_RRead; eauto.
    - eapply step_WAppend; eauto.
    - eapply step_noop; eauto.
    - eapply step_noop; eauto.
    - eapply step_noop; eauto.
    - eapply step_Delete; eauto.
  Qed.
  Lemma step_dir Z P H e I x d : HInv Z P H e I -> x = MkDir d \/ x = RmDir d -> step_ok Z P H e x.
  Proof.
    intros V [->| ->]; (eapply step_frame; [exact V|reflexivity|reflexivity| | | | |]; try reflexivity; now apply opened_none).
  Qed.
  Lemma step_all Z H e I x : HInv Z None H e I -> legal H x -> step_ok Z None H e x.
  Proof.
    intros V L. destruct (handle_of x) as [h|] eqn:Eh; [eapply step_handle; eauto using not_pending|].
    destruct x; try discriminate.
    - eapply step_NewSeq; eauto.
    - eapply step_NewRand; eauto.
    - eapply step_NewWrite; eauto.
    - eapply step_NewAppend; eauto.
    - eapply step_frame; [exact V|reflexivity| | | | | |]; try reflexivity.
      + cbn [Expect]. rewrite (bound_map _ _ _ _ _ _ V). unfold file_exists. now destruct (map_find f (e_map e)).
      + now apply opened_none.
    - eapply step_frame; [exact V|reflexivity|eapply children_ok; eauto| | | | |]; try reflexivity. now apply opened_none.
    - eapply step_Remove; eauto.
    - eapply step_FileSize; eauto.
    - eapply step_Rename; eauto.
    - eapply step_dir; eauto.
    - eapply step_dir; eauto.
  Qed.

  Lemma reach_inv H e : reach alc alb dbg H e -> exists I, HInv nobody None H e I.
  Proof.
    induction 1 as [|H e x e' ev R (I & V) L E].
    - exists (fun _ => 0). apply HInv_init.
    - destruct (step_all nobody H e I x V L) as (e1 & r & I' & E1 & _ & V'). rewrite E in E1. inversion E1; subst. eauto.
  Qed.
  Lemma reach_step H e x : reach alc alb dbg H e -> legal H x -> exists e' r,
    exec alc alb dbg H e x = Ret (e', mk_event x r) /\ Expect H x r /\ reach alc alb dbg (mk_event x r :: H) e'.
  Proof.
    intros R L. destruct (reach_inv H e R) as (I & V). destruct (step_all nobody H e I x V L) as (e1 & r & I' & E1 & X & _).
    exists e1, r. split; [exact E1|]. split; [exact X|]. econstructor; eauto.
  Qed.
End Steps.

(** ** Destroying the environment *)
Lemma sorted_head_find f v m : map_find f ((f, v) :: m) = Some v.
Proof. cbn [map_find]. now rewrite str_eqb_refl. Qed.
Lemma unref_all_ok dbg Z C I n op : forall fm m B, Core Z (mk_env m fm op) B C I n ->
  exists m', unref_all dbg m fm = Ret m' /\ Core Z (mk_env m' [] op) (fun _ => None) C I n.
Proof.
  induction fm as [|[f a] fm IH]; intros m B K; cbn [unref_all].
  - exists m. split; [reflexivity|]. destruct K as [K1 K2 K2d K3 K4 K5 K6 K7 K8]. constructor; auto.
  - destruct (Core_remove dbg _ _ _ _ _ _ f a K (sorted_head_find f a fm)) as (m' & E & K' & _).
    cbn [e_mem e_map e_open] in *. unfold remove_internal in E. rewrite sorted_head_find in E.
    unfold map_index in E. rewrite sorted_head_find in E.
    destruct (unref dbg m a) as [m1| | |] eqn:Eu; cbn [bind] in E; try discriminate. injection E as Em. subst m1. cbn [bind].
    assert (Ee : map_erase f ((f, a) :: fm) = fm) by (cbn [map_erase]; now rewrite str_eqb_refl).
    rewrite Ee in K'. exact (IH m' _ K').
Qed.

Lemma delete_all_ok dbg Z B C I n : forall l e, Core Z e B C I n -> NoDup l -> (forall h, In h l <-> exists o, hget (e_open e) h = Some o) ->
  exists e', delete_all dbg e l = Ret e' /\ Core Z e' B C I n /\ e_open e' = [] /\ e_map e' = e_map e.
Proof.
  induction l as [|h l IH]; intros e K ND Hl; cbn [delete_all].
  - exists e. split; [reflexivity|]. split; [exact K|]. split; [|reflexivity]. apply heap_empty. intros a.
    destruct (hget (e_open e) a) as [o|] eqn:E; [|reflexivity]. exfalso. apply (Hl a). eauto.
  - destruct (proj1 (Hl h) (or_introl eq_refl)) as (o & Eo).
    destruct (Core_delete dbg _ _ _ _ _ _ h o K Eo) as (m' & E & K' & _).
    unfold delete_obj. rewrite Eo, E. cbn [bind]. apply NoDup_cons_iff in ND as [N1 N2].
    destruct (IH (mk_env m' (e_map e) (hdel (e_open e) h)) K' N2) as (e' & E' & K2 & O2 & M2).
    { intros g. cbn [e_open]. rewrite hget_hdel. destruct (g =? h) eqn:Eg.
      - apply Nat.eqb_eq in Eg. subst g. split; [contradiction|intros [? Q]; discriminate].
      - apply Nat.eqb_neq in Eg. rewrite <- Hl. cbn [In]. split; [auto|]. intros [Q|Q]; [now subst|auto]. }
    exists e'. auto.
Qed.
Lemma Core_empty e B C I n : Core nobody e B C I n -> e_open e = [] -> e_map e = [] -> m_files (e_mem e) = [] /\ m_blocks (e_mem e) = [].
Proof.
  intros K Eo Em. assert (F : forall a, hget (m_files (e_mem e)) a = None).
  { intros a. destruct (hget (m_files (e_mem e)) a) as [f|] eqn:E; [|reflexivity].
    assert (Q : alive (e_mem e) a) by (exists f; auto). apply (co_alive _ _ _ _ _ _ K) in Q. rewrite Eo, Em in Q. cbn in Q. destruct Q as [Q|[]]. lia. }
  split; [now apply heap_empty|]. apply heap_empty. intros b.
  destruct (hget (m_blocks (e_mem e)) b) as [x|] eqn:E; [|reflexivity].
  destruct (mi_cover _ _ _ (co_mem _ _ _ _ _ _ K) b x E) as (a & f & Q & _). rewrite F in Q. discriminate.
Qed.

(** Every FileState is reachable from the map or an open file, every array from
    a FileState, and the open files are the live ones. *)
Lemma inv_owned H e I : HInv nobody None H e I -> owned H e.
Proof.
  intros V.
  pose proof (hi_core _ _ _ _ _ V) as K. pose proof (co_mem _ _ _ _ _ _ K) as M. split; [|split].
  - intros a. fold (alive (e_mem e) a). split.
    + intros Ha. apply (co_alive _ _ _ _ _ _ K) in Ha. unfold nrefs in Ha.
      destruct (in_dec Nat.eq_dec a (map snd (e_map e))) as [i|i].
      * left. apply in_map_iff in i as ((f & v) & Ev & Hv). cbn in Ev. subst v. exists f. apply find_some_in; [apply K|exact Hv].
      * right. apply (count_occ_not_In Nat.eq_dec) in i. rewrite i in Ha. cbn [Nat.add] in Ha. destruct Ha as [Ha|[]].
        apply (count_occ_In Nat.eq_dec) in Ha. apply in_map_iff in Ha as ((h & o) & Eo & Ho). exists h, o. cbn [snd] in Eo. split; [|exact Eo].
        pose proof (co_hwf _ _ _ _ _ _ K) as W. clear - Ho W. unfold hwf in W. induction (e_open e) as [|[h' o'] l IH]; [easy|].
        cbn [dom map fst] in W. apply NoDup_cons_iff in W as [W1 W2]. cbn [hget]. destruct Ho as [Q|Q].
        -- injection Q as -> ->. now rewrite Nat.eqb_refl.
        -- assert (N : h =? h' = false). { apply Nat.eqb_neq. intros ->. apply W1. apply in_map_iff. exists (h', o). auto. }
           rewrite N. auto.
    + intros [(f & Hf)|(h & o & Ho & <-)]; [eapply Core_find; eauto|eapply Core_obj; eauto].
  - intros b. split.
    + intros (x & Hx). exact (mi_cover _ _ _ M b x Hx).
    + intros (a & f & Hf & Hb). destruct (mi_file _ _ _ M a f Hf) as (_ & _ & Q & _). eapply frep_live; eauto.
  - intros h. split.
    + intros (o & Ho). exists (okind o), (I (ofile_state o)). eapply live_of; eauto.
    + intros (k & i & L). destruct (hi_live _ _ _ _ _ _ _ _ V L (not_pending _)) as (o & Eo & _). eauto.
Qed.
Lemma inv_leak_free dbg H e I l : HInv nobody None H e I -> NoDup l -> (forall h, In h l <-> exists k i, live H h k i) ->
    (exists e1 e2, env_dtor dbg e = Ret e1 /\ delete_all dbg e1 l = Ret e2 /\ m_files (e_mem e2) = [] /\ m_blocks (e_mem e2) = []) /\
    (exists e1 e2, delete_all dbg e l = Ret e1 /\ env_dtor dbg e1 = Ret e2 /\ m_files (e_mem e2) = [] /\ m_blocks (e_mem e2) = []).
Proof.
  intros V ND Hl.
  pose proof (hi_core _ _ _ _ _ V) as K.
  assert (Hl' : forall h, In h l <-> exists o, hget (e_open e) h = Some o).
  { intros h. rewrite Hl. symmetry. apply (inv_owned H e I V). }
  split.
  - destruct (unref_all_ok dbg nobody (contents H) I (length H) (e_open e) (e_map e) (e_mem e) (bound H)) as (m1 & E1 & K1).
    { now destruct e. }
    unfold env_dtor. rewrite E1. cbn [bind]. 
    destruct (delete_all_ok dbg _ _ _ _ _ l _ K1 ND Hl') as (e2 & E2 & K2 & O2 & M2).
    eexists. exists e2. split; [reflexivity|]. split; [exact E2|]. eapply Core_empty; eauto.
  - destruct (delete_all_ok dbg _ _ _ _ _ l _ K ND Hl') as (e1 & E1 & K1 & O1 & M1).
    destruct (unref_all_ok dbg nobody (contents H) I (length H) (e_open e1) (e_map e1) (e_mem e1) (bound H)) as (m2 & E2 & K2).
    { now destruct e1. }
    exists e1. eexists. split; [exact E1|]. unfold env_dtor. rewrite E2. cbn [bind]. split; [reflexivity|].
    eapply Core_empty; [exact K2|exact O1|reflexivity].
Qed.
