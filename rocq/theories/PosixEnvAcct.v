(** PosixEnvAcct.v -- descriptors, mappings, directory streams and slots of the
    POSIX environment, over all histories. *)
From Coq Require Import List Arith NArith ZArith Lia Bool.
From Verif Require Import Outcome Status MemEnv PosixOs PosixWritable PosixWritableSpec PosixWritableProofs PosixRead PosixEnv PosixFs PosixEnvSpec PosixFsProofs PosixEnvProofs PosixEnvSteps.
Import ListNotations.
Local Open Scope outcome_scope.

Definition owns {A} (of : pobj -> option A) (objs : list (nat * pobj)) (a : A) : Prop := exists h o, oget objs h = Some o /\ of o = Some a.
Lemma oget_in objs h o : oget objs h = Some o -> In (h, o) objs.
Proof. induction objs as [|[p x] l IH]; cbn [oget]; [discriminate|]. destruct (Nat.eqb_spec p h) as [->|]; [intros E; injection E as ->; left; reflexivity|right; auto]. Qed.
Lemma owns_dec {A} (eqd : forall a b : A, {a = b} + {a <> b}) (of : pobj -> option A) objs a : owns of objs a \/ ~ owns of objs a.
Proof.
  assert (D : forall ks, (exists h, In h ks /\ exists o, oget objs h = Some o /\ of o = Some a) \/ ~ (exists h, In h ks /\ exists o, oget objs h = Some o /\ of o = Some a)).
  { induction ks as [|k ks IH]; [right; intros (h & [] & _)|].
    destruct IH as [(h & Hi & Ho)|IH]; [left; exists h; cbn; auto|].
    assert (K : (exists o, oget objs k = Some o /\ of o = Some a) \/ ~ (exists o, oget objs k = Some o /\ of o = Some a)).
    { destruct (oget objs k) as [o|]; [|right; intros (o & E & _); discriminate]. destruct (of o) as [b|] eqn:Eb; [|right; intros (o' & E & F); congruence].
      destruct (eqd b a) as [->|Hn]; [left; eauto|right; intros (o' & E & F); congruence]. }
    destruct K as [K|K]; [left; exists k; cbn; auto|]. right. intros (h & [<-|Hi] & Ho); [auto|apply IH; eauto]. }
  destruct (D (map fst objs)) as [(h & _ & Ho)|N]; [left; exists h; exact Ho|].
  right. intros (h & o & E & F). apply N. exists h. split; [|eauto]. apply oget_in in E. apply (in_map fst) in E. exact E.
Qed.

(** Handles and what they own: [old] was there at the start. *)
Record held {A X} (of : pobj -> option A) (old cur : A -> option X) (objs : list (nat * pobj)) : Prop := {
  h_keep : forall a x, old a = Some x -> cur a = Some x;
  h_own : forall a, cur a <> None -> old a <> None \/ owns of objs a;
  h_dis : forall a, owns of objs a -> old a = None }.
Lemma held_step {A X} (eqd : forall a b : A, {a = b} + {a <> b}) (of : pobj -> option A) (old cur cur' : A -> option X) objs objs' :
  held of old cur objs ->
  (forall a, ~ owns of objs a -> ~ owns of objs' a -> cur' a = cur a) ->
  (forall a, owns of objs' a -> owns of objs a \/ cur a = None) ->
  (forall a, owns of objs a -> ~ owns of objs' a -> cur' a = None) -> held of old cur' objs'.
Proof.
  intros [K O D] H1 H2 H3. constructor.
  - intros a x E. assert (Hn : ~ owns of objs a) by (intros Ho; apply D in Ho; congruence).
    assert (Hn' : ~ owns of objs' a) by (intros Ho; apply H2 in Ho as [Ho|Ho]; [contradiction|apply K in E; congruence]). rewrite H1 by assumption. auto.
  - intros a E. destruct (owns_dec eqd of objs' a) as [|Hn']; [auto|]. left. destruct (owns_dec eqd of objs a) as [Ho|Hn].
    + rewrite H3 in E by assumption. congruence.
    + rewrite H1 in E by assumption. apply O in E as [E|E]; [exact E|contradiction].
  - intros a Ho. apply H2 in Ho as [Ho|Ho]; [auto|]. destruct (old a) eqn:E; [|reflexivity]. apply K in E. congruence.
Qed.

Lemma owns_cons {A} (of : pobj -> option A) objs n o a : oget objs n = None -> owns of ((n, o) :: objs) a <-> of o = Some a \/ owns of objs a.
Proof.
  intros Hn. split.
  - intros (h & x & E & F). cbn [oget] in E. destruct (Nat.eqb_spec n h) as [<-|]; [left; congruence|right; exists h, x; auto].
  - intros [E|(h & x & E & F)]; [exists n, o; cbn [oget]; rewrite Nat.eqb_refl; auto|]. exists h, x. cbn [oget].
    destruct (Nat.eqb_spec n h) as [<-|]; [congruence|auto].
Qed.
Lemma owns_oset {A} (of : pobj -> option A) objs h o' a : oget objs h <> None ->
  owns of (oset objs h o') a <-> of o' = Some a \/ exists h' o, h' <> h /\ oget objs h' = Some o /\ of o = Some a.
Proof.
  intros Hn. split.
  - intros (h' & x & E & F). rewrite oget_oset in E by exact Hn. destruct (Nat.eqb_spec h h') as [<-|]; [left; congruence|right; exists h', x; auto].
  - intros [E|(h' & x & Hne & E & F)]; [exists h, o'; rewrite oget_oset, Nat.eqb_refl by exact Hn; auto|].
    exists h', x. rewrite oget_oset by exact Hn. destruct (Nat.eqb_spec h h'); [congruence|auto].
Qed.
Lemma owns_odel {A} (of : pobj -> option A) objs h a : owns of (odel objs h) a <-> exists h' o, h' <> h /\ oget objs h' = Some o /\ of o = Some a.
Proof.
  split.
  - intros (h' & x & E & F). rewrite oget_odel in E. destruct (Nat.eqb_spec h h') as [<-|]; [discriminate|]. exists h', x. auto.
  - intros (h' & x & Hne & E & F). exists h', x. rewrite oget_odel. destruct (Nat.eqb_spec h h'); [congruence|auto].
Qed.

(** Adding an object that owns at most what was free; taking one away. *)
Lemma held_same {A X} (eqd : forall a b : A, {a = b} + {a <> b}) (of : pobj -> option A) (old cur cur' : A -> option X) objs : held of old cur objs -> (forall a, ~ owns of objs a -> cur' a = cur a) -> held of old cur' objs.
Proof. intros Hh H1. eapply (held_step eqd); eauto. contradiction. Qed.
Lemma held_add {A X} (eqd : forall a b : A, {a = b} + {a <> b}) (of : pobj -> option A) (old cur cur' : A -> option X) objs n o : held of old cur objs -> oget objs n = None ->
  (forall a, of o = Some a -> cur a = None) -> (forall a, of o <> Some a -> ~ owns of objs a -> cur' a = cur a) -> held of old cur' ((n, o) :: objs).
Proof.
  intros Hh Hn H1 H2. eapply (held_step eqd); [exact Hh| | |].
  - intros a N1 N2. apply H2; [|exact N1]. intros E. apply N2. apply owns_cons; auto.
  - intros a Ho. apply owns_cons in Ho as [E|E]; auto.
  - intros a Ho N. exfalso. apply N. apply owns_cons; auto.
Qed.
Lemma held_del {A X} (eqd : forall a b : A, {a = b} + {a <> b}) (of : pobj -> option A) (old cur cur' : A -> option X) objs h o : held of old cur objs -> oget objs h = Some o ->
  (forall a, of o = Some a -> cur' a = None) -> (forall a, of o <> Some a -> ~ owns of objs a -> cur' a = cur a) ->
  held of old cur' (odel objs h).
Proof.
  intros Hh Ho H1 H2. eapply (held_step eqd); [exact Hh| | |].
  - intros a N1 N2. apply H2; [|exact N1]. intros E. apply N1. exists h, o. auto.
  - intros a E. apply owns_odel in E as (h' & x & _ & E & F). left. exists h', x. auto.
  - intros a (h' & x & E & F) N. destruct (Nat.eq_dec h' h) as [->|Hne]; [apply H1; congruence|]. exfalso. apply N. apply owns_odel. exists h', x. auto.
Qed.
(** Changing one. *)
Lemma held_set {A X} (eqd : forall a b : A, {a = b} + {a <> b}) (of : pobj -> option A) (old cur cur' : A -> option X) objs h o o' : held of old cur objs -> oget objs h = Some o ->
  (forall a, of o' = Some a -> of o = Some a) -> (forall a, of o = Some a -> of o' = None -> cur' a = None) ->
  (forall a, of o <> Some a -> ~ owns of objs a -> cur' a = cur a) -> held of old cur' (oset objs h o').
Proof.
  intros Hh Ho H0 H1 H2. assert (Hn : oget objs h <> None) by congruence. eapply (held_step eqd); [exact Hh| | |].
  - intros a N1 N2. apply H2; [|exact N1]. intros E. apply N1. exists h, o. auto.
  - intros a E. left. apply owns_oset in E as [E|(h' & x & _ & E & F)]; [exists h, o; auto|exists h', x; auto|exact Hn].
  - intros a (h' & x & E & F) N. destruct (Nat.eq_dec h' h) as [->|Hne].
    + assert (x = o) by congruence. subst x. apply H1; [exact F|]. destruct (of o') as [b|] eqn:Eb; [|reflexivity].
      exfalso. apply N. apply owns_oset; [exact Hn|]. left. pose proof (H0 b eq_refl). congruence.
    + exfalso. apply N. apply owns_oset; [exact Hn|]. right. exists h', x. auto.
Qed.

Definition obj_access (o : pobj) : option access :=
  match o with
  | ObR (RMmap _ _ _) => Some ByMap
  | ObR (RPerm _ _) => Some ByFd
  | ObR (RTemp _) => Some ByName
  | _ => None
  end.

Section Acct.
  Variable dbg : bool.
  Variable B : nat.
  Variable strerror : Z -> str.
  Variable S : Type.
  Variable os : S -> syscall -> S * answer.
  Variable v0 : view.
  Variable lim0 : limits.
  Hypothesis OK : os_ok os.
  Hypothesis SANE : sane v0.
  Notation free0 := (l_mmap lim0, l_fd lim0).
  Notation Inv := (Inv B S v0).
  Notation PosixError := (PosixError strerror).

  Record Acct (H : history) (e : penv S) (v : view) : Prop := {
    c_fd : held obj_fd (v_fd v0) (v_fd v) (p_objs e);
    c_map : held obj_map (v_map v0) (v_map v) (p_objs e);
    c_dir : forall d, v_dir v d = v_dir v0 d;
    c_lim : p_lim e = mk_limits (fst (fst (slots free0 H))) (snd (fst (slots free0 H)));
    c_how : forall h o, oget (p_objs e) h = Some o -> access_of free0 H h = obj_access o;
    c_new : forall h, length H <= h -> access_of free0 H h = None }.

  Lemma acct_start s0 : Acct [] (mk_penv (mk_world s0 []) lim0 []) v0.
  Proof.
    assert (N : forall A (of : pobj -> option A) a, ~ owns of [] a) by (intros A of a (h & o & E & _); discriminate).
    constructor; cbn [p_objs p_lim slots fst snd]; auto.
    - constructor; auto. intros a Ha. now apply N in Ha.
    - constructor; auto. intros a Ha. now apply N in Ha.
    - now destruct lim0.
    - discriminate.
  Qed.

  (** The object list and the slots as they were. *)
  Definition keeps (ev : pevent) : Prop := match pe_call ev with PNewRand _ => done ev = false | PDelete _ => False | _ => True end.
  Lemma slots_keep ev H : keeps ev -> slots free0 (ev :: H) = slots free0 H.
  Proof.
    unfold keeps. intros K. cbn [slots]. destruct (slots free0 H) as [free how]. destruct (pe_call ev); try reflexivity; [now rewrite K|contradiction].
  Qed.
  Lemma acct_idle H e v ev e' v' : Acct H e v -> keeps ev -> p_objs e' = p_objs e -> p_lim e' = p_lim e ->
    (forall fd, ~ owns obj_fd (p_objs e) fd -> v_fd v' fd = v_fd v fd) -> (forall b, v_map v' b = v_map v b) -> (forall d, v_dir v' d = v_dir v d) ->
    Acct (ev :: H) e' v'.
  Proof.
    intros [C1 C2 C3 C4 C5 C6] Kp Eo El Vf Vm Vd. pose proof (slots_keep _ H Kp) as Sk. constructor; rewrite ?Eo, ?El; unfold access_of; rewrite ?Sk; auto.
    - eapply held_same; eauto using Z.eq_dec.
    - eapply held_same; eauto using N.eq_dec.
    - intros d. rewrite Vd. auto.
    - intros h Hh. apply C6. cbn [length] in Hh. lia.
  Qed.
  Lemma acct_add H e v ev o e' v' : Inv H e v -> Acct H e v -> p_objs e' = (length H, o) :: p_objs e ->
    (match obj_access o with
     | None => keeps ev /\ p_lim e' = p_lim e
     | Some a => (exists f, pe_call ev = PNewRand f) /\ done ev = true /\
                 a = choose (l_mmap (p_lim e), l_fd (p_lim e)) /\
                 p_lim e' = (let r := move (-1) a (l_mmap (p_lim e), l_fd (p_lim e)) in mk_limits (fst r) (snd r))
     end) ->
    (forall fd, obj_fd o = Some fd -> v_fd v fd = None) -> (forall fd, obj_fd o <> Some fd -> v_fd v' fd = v_fd v fd) ->
    (forall b, obj_map o = Some b -> v_map v b = None) -> (forall b, obj_map o <> Some b -> v_map v' b = v_map v b) ->
    (forall d, v_dir v' d = v_dir v d) -> Acct (ev :: H) e' v'.
  Proof.
    intros I [C1 C2 C3 C4 C5 C6] Eo Ha Of Vf Om Vm Vd.
    assert (Hn : oget (p_objs e) (length H) = None).
    { destruct (oget (p_objs e) (length H)) eqn:E; [|reflexivity]. destruct (obj_open _ _ _ _ _ _ _ _ I E) as (k & i & g & (L & _) & _). apply opened_lt in L. lia. }
    assert (P1 : held obj_fd (v_fd v0) (v_fd v') (p_objs e')) by (rewrite Eo; eapply held_add; eauto using Z.eq_dec).
    assert (P2 : held obj_map (v_map v0) (v_map v') (p_objs e')) by (rewrite Eo; eapply held_add; eauto using N.eq_dec).
    assert (P3 : forall d, v_dir v' d = v_dir v0 d) by (intros d; rewrite Vd; auto).
    destruct (obj_access o) as [a|] eqn:Ea.
    - destruct Ha as ((f & Ec) & Hd & Hch & Hl). unfold access_of in *.
      assert (Sk : slots free0 (ev :: H) = (move (-1) a (fst (slots free0 H)), upd Nat.eq_dec (snd (slots free0 H)) (length H) (Some a))).
      { cbn [slots]. destruct (slots free0 H) as [free how]. cbn [fst snd] in *. rewrite Ec, Hd. rewrite C4 in Hch. cbn [l_mmap l_fd] in Hch.
        destruct free as [m n]. cbn [fst snd] in Hch. rewrite Hch. reflexivity. }
      constructor; auto; unfold access_of; rewrite Sk; cbn [fst snd].
      + rewrite Hl, C4. cbn [l_mmap l_fd]. destruct (fst (slots free0 H)) as [m n]. cbn [fst snd]. reflexivity.
      + intros h x E. rewrite Eo in E. cbn [oget] in E. destruct (Nat.eqb_spec (length H) h) as [<-|Hne].
        * rewrite upd_eq. congruence.
        * rewrite upd_ne by congruence. auto.
      + intros h Hh. cbn [length] in Hh. rewrite upd_ne by lia. apply C6. lia.
    - destruct Ha as (Kp & El). pose proof (slots_keep _ H Kp) as Sk. unfold access_of in *. constructor; auto; unfold access_of; rewrite ?Sk; rewrite ?El; auto.
      + intros h x E. rewrite Eo in E. cbn [oget] in E. destruct (Nat.eqb_spec (length H) h) as [<-|Hne]; [|auto].
        injection E as <-. rewrite Ea. apply C6. lia.
      + intros h Hh. cbn [length] in Hh. apply C6. lia.
  Qed.
  Lemma acct_del H e v h o e' v' : Acct H e v -> oget (p_objs e) h = Some o -> p_objs e' = odel (p_objs e) h ->
    p_lim e' = (let r := match obj_access o with Some a => move 1 a (l_mmap (p_lim e), l_fd (p_lim e)) | None => (l_mmap (p_lim e), l_fd (p_lim e)) end in mk_limits (fst r) (snd r)) ->
    (forall fd, obj_fd o = Some fd -> v_fd v' fd = None) -> (forall fd, obj_fd o <> Some fd -> v_fd v' fd = v_fd v fd) ->
    (forall b, obj_map o = Some b -> v_map v' b = None) -> (forall b, obj_map o <> Some b -> v_map v' b = v_map v b) ->
    (forall d, v_dir v' d = v_dir v d) -> Acct (mk_pev (PDelete h) (RStat SOk) :: H) e' v'.
  Proof.
    intros [C1 C2 C3 C4 C5 C6] Ho Eo El Of Vf Om Vm Vd. pose proof (C5 _ _ Ho) as Hh. unfold access_of in *.
    assert (Sk : slots free0 (mk_pev (PDelete h) (RStat SOk) :: H) = (match obj_access o with Some a => move 1 a (fst (slots free0 H)) | None => fst (slots free0 H) end, snd (slots free0 H))).
    { cbn [slots pe_call]. destruct (slots free0 H) as [free how]. cbn [fst snd] in *. rewrite Hh. reflexivity. }
    constructor; unfold access_of; rewrite ?Sk; cbn [fst snd].
    - rewrite Eo. eapply held_del; eauto using Z.eq_dec.
    - rewrite Eo. eapply held_del; eauto using N.eq_dec.
    - intros d. rewrite Vd. auto.
    - rewrite El, C4. cbn [l_mmap l_fd]. destruct (fst (slots free0 H)) as [m n]. cbn [fst snd]. destruct (obj_access o) as [[]|]; reflexivity.
    - intros h' x E. rewrite Eo, oget_odel in E. destruct (h =? h'); [discriminate|auto].
    - intros h' Hh'. cbn [length] in Hh'. apply C6. lia.
  Qed.
  Lemma acct_set H e v ev h o o' e' v' : Acct H e v -> keeps ev -> oget (p_objs e) h = Some o -> p_objs e' = oset (p_objs e) h o' -> p_lim e' = p_lim e ->
    obj_access o' = obj_access o -> obj_map o = None -> obj_map o' = None ->
    (forall fd, obj_fd o' = Some fd -> obj_fd o = Some fd) -> (forall fd, obj_fd o = Some fd -> obj_fd o' = None -> v_fd v' fd = None) ->
    (forall fd, obj_fd o <> Some fd -> v_fd v' fd = v_fd v fd) -> (forall b, v_map v' b = v_map v b) -> (forall d, v_dir v' d = v_dir v d) -> Acct (ev :: H) e' v'.
  Proof.
    intros [C1 C2 C3 C4 C5 C6] Kp Ho Eo El Ea M1 M2 F1 F2 Vf Vm Vd. pose proof (slots_keep _ H Kp) as Sk. unfold access_of in *.
    constructor; unfold access_of; rewrite ?Sk, ?El; auto.
    - rewrite Eo. eapply held_set; eauto using Z.eq_dec.
    - rewrite Eo. eapply held_set; eauto using N.eq_dec; congruence.
    - intros d. rewrite Vd. auto.
    - intros h' x E. rewrite Eo, oget_oset in E by congruence. destruct (Nat.eqb_spec h h') as [<-|]; [injection E as <-; rewrite Ea; auto|auto].
    - intros h' Hh'. cbn [length] in Hh'. apply C6. lia.
  Qed.

  (** Everything as it was. *)
  Lemma acct_same H e v ev e' v' : Acct H e v -> keeps ev -> p_objs e' = p_objs e -> p_lim e' = p_lim e ->
    (forall fd, v_fd v' fd = v_fd v fd) -> (forall b, v_map v' b = v_map v b) -> (forall d, v_dir v' d = v_dir v d) -> Acct (ev :: H) e' v'.
  Proof. intros C K E1 E2 Vf Vm Vd. eapply acct_idle; eauto. Qed.
  Lemma fd_back v fd x : v_fd v fd = None -> forall g, upd Z.eq_dec (upd Z.eq_dec (v_fd v) fd x) fd None g = v_fd v g.
  Proof. intros Hn g. destruct (Z.eq_dec g fd) as [->|]; [rewrite upd_eq; auto|]. now rewrite !upd_ne. Qed.

  Notation step x := (forall H e v fuel e' q l v', Inv H e v -> Acct H e v ->
    pcall_ dbg B strerror S os fuel e (length H) x = Ret (e', q) -> w_log (p_w e') = w_log (p_w e) ++ l -> ksteps v l v' ->
    Acct (mk_pev x (observe v' q) :: H) e' v').

  Lemma keeps_err x st : st <> SOk -> (forall h, x <> PDelete h) -> keeps (mk_pev x (RStat st)).
  Proof. intros Hs Hx. unfold keeps. cbn [pe_call]. destruct x; auto; [now apply not_done|eapply Hx; reflexivity]. Qed.

  Lemma acct_new_seq f : step (PNewSeq f).
  Proof.
    intros H e v fuel e' q l v' I C E L K. cbn [pcall_] in E. unfold new_sequential in E. dosys E w1 a Es Ls.
    destruct (Z.ltb_spec (a_ret a) 0) as [Hr|Hr]; unfold pnew in E; cbn [option_map] in E; injection E as <- <-; cbn [p_w] in L;
      rewrite (log1 _ _ _ _ Ls L) in K; apply ksteps_one in K; apply open_read_inv in K; cbn [observe].
    - destruct K as [(_ & -> & _)|(Hx & _)]; [|lia]. apply (acct_same H e v); auto. exact Logic.I.
    - destruct K as [(Hx & _)|(_ & Hn & i & Hi & ->)]; [lia|].
      apply (acct_add H e v _ (ObS (mk_seq (a_ret a) f))); auto; try discriminate.
      + cbn [obj_access]. split; [exact Logic.I|reflexivity].
      + cbn [obj_fd sq_fd]. intros fd Hfd. injection Hfd as <-. exact Hn.
      + cbn [obj_fd sq_fd with_fd v_fd]. intros fd Hfd. rewrite upd_ne; congruence.
  Qed.

  Lemma acct_new_rand f : step (PNewRand f).
  Proof.
    intros H e v fuel e' q l v' I C E L K. cbn [pcall_] in E. unfold new_random in E. dosys E w1 a Es Ls.
    destruct (Z.ltb_spec (a_ret a) 0) as [Hr|Hr].
    { unfold pnew in E. cbn [option_map] in E. injection E as <- <-. cbn [p_w] in L. rewrite (log1 _ _ _ _ Ls L) in K. apply ksteps_one in K. apply open_read_inv in K.
      destruct K as [(_ & -> & _)|(Hx & _)]; [|lia]. cbn [observe]. apply (acct_same H e v); auto. apply keeps_err; [apply error_not_ok'|discriminate]. }
    unfold acquire in E at 1. destruct (Z.ltb_spec 0 (l_mmap (p_lim e))) as [Hm|Hm]; cbn [negb] in E.
    - unfold get_file_size in E. dosys E w2 a2 Es2 Ls2. destruct (Z.eqb_spec (a_ret a2) 0) as [Hz|Hz]; cbn [negb] in E.
      + dosys E w3 a3 Es3 Ls3. destruct (Z.eqb_spec (a_ret a3) (-1)) as [Hm3|Hm3]; cbn [negb] in E; dosys E w4 a4 Es4 Ls4; unfold pnew in E; cbn [option_map] in E;
          try (destruct (PosixError f (a_errno a3)) as [|c m1 m2] eqn:Ep; [now apply error_not_ok' in Ep|]);
          injection E as <- <-; cbn [p_w] in L; rewrite Ls4, Ls3, Ls2, Ls, <- !app_assoc in L; apply app_inv_head in L; subst l; cbn [app] in K;
          apply ksteps_cons in K as (v1 & K1 & K); apply ksteps_cons in K as (v2 & K2 & K); apply ksteps_cons in K as (v3 & K3 & K); apply ksteps_one in K;
          apply open_read_inv in K1; apply stat_inv in K2; apply mmap_inv in K3; apply close_inv in K;
          destruct K1 as [(Hx & _)|(_ & Hn & i & Hi & ->)]; try lia; destruct K2 as (-> & _); cbn [observe].
        * destruct K3 as [(_ & ->)|(Hx & _)]; [|lia]. subst v'. apply (acct_same H e v); auto.
          -- apply keeps_err; discriminate.
          -- cbn [p_lim]. unfold release. destruct (p_lim e) as [m n]. cbn [l_mmap l_fd]. f_equal. lia.
          -- cbn [with_fd v_fd]. intros g. apply fd_back. exact Hn.
        * destruct K3 as [(Hx & _)|(_ & Hmn & x & Hx & ->)]; [congruence|]. subst v'.
          apply (acct_add H e v _ (ObR (RMmap (a_val a3) (a_val a2) f))); auto; try discriminate.
          -- cbn [obj_access]. split; [exists f; reflexivity|]. split; [reflexivity|]. unfold choose. cbn [fst snd move].
             destruct (Z.ltb_spec 0 (l_mmap (p_lim e))); [|lia]. split; [reflexivity|]. reflexivity.
          -- intros fd _. cbn [with_fd with_map v_fd]. apply fd_back. exact Hn.
          -- cbn [obj_map]. intros b Hb. injection Hb as <-. exact Hmn.
          -- intros b Hb. cbn [with_fd with_map v_map obj_map] in Hb |- *. rewrite upd_ne; [reflexivity|congruence].
      + unfold pnew in E. destruct (PosixError f (a_errno a2)) as [|c m1 m2] eqn:Ep; [now apply error_not_ok' in Ep|].
        dosys E w5 a5 Es5 Ls5. cbn [option_map] in E.
        injection E as <- <-. cbn [p_w] in L. rewrite Ls5, Ls2, Ls, <- !app_assoc in L. apply app_inv_head in L. subst l. cbn [app] in K.
        apply ksteps_cons in K as (v1 & K1 & K). apply ksteps_cons in K as (v2 & K2 & K). apply ksteps_one in K.
        apply open_read_inv in K1. apply stat_inv in K2. apply close_inv in K.
        destruct K1 as [(Hx & _)|(_ & Hn & i & Hi & ->)]; [lia|]. destruct K2 as (-> & _). subst v'. cbn [observe]. apply (acct_same H e v); auto.
        * apply keeps_err; discriminate.
        * cbn [p_lim]. unfold release. destruct (p_lim e) as [m n]. cbn [l_mmap l_fd]. f_equal. lia.
        * cbn [with_fd v_fd]. intros g. apply fd_back. exact Hn.
    - unfold new_pread in E. cbn [l_fd l_mmap] in E. unfold acquire in E. destruct (Z.ltb_spec 0 (l_fd (p_lim e))) as [Hf|Hf].
      + unfold pnew in E. cbn [option_map] in E. injection E as <- <-. cbn [p_w] in L. rewrite (log1 _ _ _ _ Ls L) in K. apply ksteps_one in K. apply open_read_inv in K.
        destruct K as [(Hx & _)|(_ & Hn & i & Hi & ->)]; [lia|]. cbn [observe].
        apply (acct_add H e v _ (ObR (RPerm (a_ret a) f))); auto; try discriminate.
        * cbn [obj_access]. split; [exists f; reflexivity|]. split; [reflexivity|]. unfold choose. cbn [fst snd move p_lim].
          destruct (Z.ltb_spec 0 (l_mmap (p_lim e))); [lia|]. destruct (Z.ltb_spec 0 (l_fd (p_lim e))); [|lia]. split; [reflexivity|]. f_equal; lia.
        * cbn [obj_fd]. intros fd Hfd. injection Hfd as <-. exact Hn.
        * cbn [obj_fd with_fd v_fd]. intros fd Hfd. rewrite upd_ne; congruence.
      + dosys E w2 a2 Es2 Ls2. unfold pnew in E. cbn [option_map] in E. injection E as <- <-. cbn [p_w] in L. rewrite Ls2, Ls, <- !app_assoc in L. apply app_inv_head in L. subst l.
        cbn [app] in K. apply ksteps_cons in K as (v1 & K1 & K). apply ksteps_one in K. apply open_read_inv in K1. apply close_inv in K.
        destruct K1 as [(Hx & _)|(_ & Hn & i & Hi & ->)]; [lia|]. subst v'. cbn [observe].
        apply (acct_add H e v _ (ObR (RTemp f))); auto; try discriminate.
        * cbn [obj_access]. split; [exists f; reflexivity|]. split; [reflexivity|]. unfold choose. cbn [fst snd move p_lim].
          destruct (Z.ltb_spec 0 (l_mmap (p_lim e))); [lia|]. destruct (Z.ltb_spec 0 (l_fd (p_lim e))); [lia|]. split; [reflexivity|]. f_equal; lia.
        * intros fd _. cbn [with_fd v_fd]. apply fd_back. exact Hn.
  Qed.

  Lemma acct_new_write x f fl : (x = PNewWrite f /\ fl = WrTrunc) \/ (x = PNewAppend f /\ fl = WrAppend) -> step x.
  Proof.
    intros Hx H e v fuel e' q l v' I C E L K.
    assert (E' : bind (new_writable dbg B strerror S os (p_w e) f fl) (fun '(w, o, st) => Ret (pnew S e w (p_lim e) (length H) (option_map ObW o) st)) = Ret (e', q)).
    { destruct Hx as [(-> & ->)|(-> & ->)]; cbn [pcall_] in E; exact E. }
    clear E. rename E' into E. unfold new_writable in E. dosys E w1 a Es Ls.
    assert (Hfl : fl <> RdOnly) by (destruct Hx as [(_ & ->)|(_ & ->)]; discriminate).
    assert (Kx : forall r, keeps (mk_pev x r)) by (intros r; destruct Hx as [(-> & _)|(-> & _)]; exact Logic.I).
    destruct (Z.ltb_spec (a_ret a) 0) as [Hr|Hr].
    { cbn [bind] in E. unfold pnew in E. cbn [option_map] in E. injection E as <- <-. cbn [p_w] in L. rewrite (log1 _ _ _ _ Ls L) in K. apply ksteps_one in K.
      apply open_write_inv in K; [|exact Hfl]. destruct K as [(_ & ->)|(Hy & _)]; [|lia]. cbn [observe]. apply (acct_same H e v); auto. }
    destruct (new_wfile_ok dbg B f (a_ret a)) as (m & d & Ew & Hm & Hd). rewrite Ew in E. cbn [bind] in E. unfold pnew in E. cbn [option_map] in E.
    injection E as <- <-. cbn [p_w] in L. rewrite (log1 _ _ _ _ Ls L) in K. apply ksteps_one in K.
    apply open_write_inv in K; [|exact Hfl]. destruct K as [(Hy & _)|(_ & Hn & i & v1 & Ow & ->)]; [lia|]. cbn [observe].
    assert (V : v_fd v1 = v_fd v /\ v_map v1 = v_map v /\ v_dir v1 = v_dir v).
    { destruct Ow as [(_ & ->)|(_ & _ & _ & ->)]; [destruct fl|]; repeat split. }
    destruct V as (V1 & V2 & V3).
    eapply (acct_add H e v); [exact I|exact C|reflexivity| | | | | |]; cbn [obj_access obj_fd obj_map f_fd]; try discriminate.
    - split; [apply Kx|reflexivity].
    - destruct (Z.leb_spec 0 (a_ret a)); [|lia]. intros fd Hfd. injection Hfd as <-. exact Hn.
    - destruct (Z.leb_spec 0 (a_ret a)); [|lia]. intros fd Hfd. cbn [with_fd v_fd]. rewrite upd_ne; [now rewrite V1|congruence].
    - intros b _. cbn [with_fd v_map]. now rewrite V2.
    - intros b. cbn [with_fd v_dir]. now rewrite V3.
  Qed.

  Lemma name_view v c a v' : kstep v (c, a) v' -> (match c with CAccess _ | CUnlink _ | CRmdir _ | CMkdir _ | CRename _ _ | CStat _ => True | _ => False end) ->
    v_fd v' = v_fd v /\ v_map v' = v_map v /\ v_dir v' = v_dir v.
  Proof. intros K Hc. inversion K; subst; try contradiction; try discriminate; repeat split; reflexivity. Qed.
  Lemma acct_name H e v x c a r w1 v' : Acct H e v -> (match c with CAccess _ | CUnlink _ | CRmdir _ | CMkdir _ | CRename _ _ | CStat _ => True | _ => False end) ->
    kstep v (c, a) v' -> keeps (mk_pev x r) -> Acct (mk_pev x r :: H) (mk_penv w1 (p_lim e) (p_objs e)) v'.
  Proof. intros C Hc K Kp. destruct (name_view _ _ _ _ K Hc) as (E1 & E2 & E3). apply (acct_same H e v); auto; congruence. Qed.
  Lemma acct_names x : (match x with PExists _ | PRemove _ | PSize _ | PRename _ _ | PMkDir _ | PRmDir _ => True | _ => False end) -> step x.
  Proof.
    intros Hx H e v fuel e' q l v' I C E L K. destruct x; try contradiction; cbn [pcall_] in E;
      unfold file_exists, remove_file, get_file_size, rename_file, create_dir, remove_dir in E; dosys E w1 an Es Ls;
      try (destruct (negb (a_ret an =? 0)%Z)); injection E as <- <-; cbn [p_w] in L;
      rewrite (log1 _ _ _ _ Ls L) in K; apply ksteps_one in K; eapply acct_name; eauto; exact Logic.I.
  Qed.

  Lemma readdir_view v d a v' : kstep v (CReaddir d, a) v' -> v_fd v' = v_fd v /\ v_map v' = v_map v /\ forall d', d' <> d -> v_dir v' d' = v_dir v d'.
  Proof. intros K. inversion K; subst; try discriminate; repeat split; try reflexivity. intros d' Hd. cbn [with_dir v_dir]. now rewrite upd_ne. Qed.
  Lemma read_dir_view fuel : forall w d acc w' r, read_dir S os fuel w d acc = Ret (w', r) ->
    exists l, w_log w' = w_log w ++ l /\ forall v v', ksteps v l v' -> v_fd v' = v_fd v /\ v_map v' = v_map v /\ forall d', d' <> d -> v_dir v' d' = v_dir v d'.
  Proof.
    induction fuel as [|fuel IH]; intros w d acc w' r E; cbn [read_dir] in E; [discriminate|]. dosys E w1 a Es Ls.
    destruct (a_ret a =? 0)%Z.
    - injection E as <- _. eexists. split; [exact Ls|]. intros v v' K. apply ksteps_one in K. eapply readdir_view; eauto.
    - destruct (IH _ _ _ _ _ E) as (l & Ll & F). exists ((CReaddir d, a) :: l). split; [rewrite Ll, Ls, <- app_assoc; reflexivity|].
      intros v v' K. apply ksteps_cons in K as (v1 & K1 & K). destruct (readdir_view _ _ _ _ K1) as (F1 & F2 & F3). destruct (F _ _ K) as (G1 & G2 & G3).
      split; [congruence|]. split; [congruence|]. intros d' Hd. rewrite G3 by exact Hd. auto.
  Qed.
  Lemma acct_children d : step (PChildren d).
  Proof.
    intros H e v fuel e' q l v' I C E L K. cbn [pcall_] in E. unfold get_children in E. dosys E w1 a Es Ls.
    destruct (N.eqb_spec (a_val a) 0) as [Hz|Hz].
    - cbn [bind] in E. injection E as <- <-. cbn [p_w] in L. rewrite (log1 _ _ _ _ Ls L) in K. apply ksteps_one in K.
      assert (v' = v) by (inversion K; subst; try discriminate; try reflexivity; congruence). subst v'. apply (acct_same H e v); auto. exact Logic.I.
    - destruct (read_dir S os fuel w1 (a_val a) []) as [[w2 res]| | |] eqn:Er; cbn [bind] in E; try discriminate.
      destruct (read_dir_view _ _ _ _ _ _ Er) as (l2 & Ll2 & F2). dosys E w3 c Es3 Ls3. cbn [bind] in E. injection E as <- <-. cbn [p_w] in L.
      rewrite Ls3, Ll2, Ls, <- !app_assoc in L. apply app_inv_head in L. subst l. cbn [app] in K. apply ksteps_cons in K as (v1 & K1 & K).
      apply ksteps_app in K as (v2 & K2 & K). apply ksteps_one in K. destruct (F2 _ _ K2) as (G1 & G2 & G3).
      assert (exists ll, v_dir v (a_val a) = None /\ v1 = with_dir v (a_val a) (Some ll)) as (ll & Hd & ->) by (inversion K1; subst; try discriminate; try congruence; eauto).
      assert (v' = with_dir v2 (a_val a) None) as -> by (inversion K; subst; try discriminate; reflexivity).
      apply (acct_same H e v); auto; try exact Logic.I.
      + intros fd. cbn [with_dir v_fd] in *. now rewrite G1.
      + intros b. cbn [with_dir v_map] in *. now rewrite G2.
      + intros b. cbn [with_dir v_dir] in *. destruct (N.eq_dec b (a_val a)) as [->|Hb]; [rewrite upd_eq; auto|].
        rewrite upd_ne by exact Hb. rewrite G3 by exact Hb. now rewrite upd_ne.
  Qed.

  Lemma acct_ran_read h off n : step (PRRead h off n).
  Proof.
    intros H e v fuel e' q l v' I C E L K. cbn [pcall_] in E. destruct (oget (p_objs e) h) as [[f|f|f]|] eqn:Eo; try discriminate.
    assert (G : forall w st r, ran_read dbg strerror S os (p_w e) f off n = Ret (w, st, r) -> w_log w = w_log (p_w e) ++ l ->
      (forall fd, v_fd v' fd = v_fd v fd) /\ v_map v' = v_map v /\ v_dir v' = v_dir v).
    { clear E L e' q. intros w st r E L. destruct f as [fd g|g|b len g]; cbn [ran_read] in E.
      - apply assert_ret in E. dosys E w1 a Es Ls. destruct (_ <? _)%Z; [discriminate|]. injection E as <- <- <-. rewrite (log1 _ _ _ _ Ls L) in K. apply ksteps_one in K.
        apply pread_inv in K as (-> & _). auto.
      - dosys E w1 a Es Ls. destruct (Z.ltb_spec (a_ret a) 0) as [Hr|Hr].
        + injection E as <- <- <-. rewrite (log1 _ _ _ _ Ls L) in K. apply ksteps_one in K. apply open_read_inv in K. destruct K as [(_ & -> & _)|(Hx & _)]; [|lia]. auto.
        + apply assert_ret in E. dosys E w2 a2 Es2 Ls2. destruct (_ <? _)%Z; [discriminate|]. apply assert_ret in E. dosys E w3 a3 Es3 Ls3. injection E as <- <- <-.
          rewrite Ls3, Ls2, Ls, <- !app_assoc in L. apply app_inv_head in L. subst l. cbn [app] in K. apply ksteps_cons in K as (v1 & K1 & K).
          apply ksteps_cons in K as (v2 & K2 & K). apply ksteps_one in K. apply open_read_inv in K1. apply pread_inv in K2 as (-> & _). apply close_inv in K.
          destruct K1 as [(Hx & _)|(_ & Hn & i & Hi & ->)]; [lia|]. subst v'. cbn [with_fd v_fd v_map v_dir]. split; [|auto]. intros y. apply fd_back. exact Hn.
      - destruct (_ <? _)%N; injection E as <- <- <-; apply log0 in L; subst l; apply ksteps_nil in K; subst v'; auto. }
    destruct (ran_read dbg strerror S os (p_w e) f off n) as [[[w st] r]| | |] eqn:Er; cbn [bind] in E; try discriminate.
    injection E as <- <-. cbn [p_w] in L. destruct (G _ _ _ eq_refl L) as (F1 & F2 & F3). apply (acct_same H e v); auto; try congruence. exact Logic.I.
  Qed.

  Lemma acct_seq_read h n : step (PSRead h n).
  Proof.
    intros H e v fuel e' q l v' I C E L K. cbn [pcall_] in E. destruct (oget (p_objs e) h) as [[f|f|f]|] eqn:Eo; try discriminate.
    destruct (seq_read strerror S os fuel (p_w e) f n) as [[[w st] r]| | |] eqn:Er; cbn [bind] in E; try discriminate. injection E as <- <-. cbn [p_w] in L.
    destruct (seq_desc _ _ _ _ _ _ _ _ I Eo) as (i & g & _ & Hx).
    destruct (seq_read_view _ _ _ _ _ _ _ _ _ _ _ _ _ _ Er L K Hx) as [(Hst & -> & ->)|(-> & d & -> & _ & _ & _ & ->)].
    - apply (acct_same H e v); auto. exact Logic.I.
    - apply (acct_idle H e v); auto; [exact Logic.I|]. intros fd Hfd. cbn [with_fd v_fd]. rewrite upd_ne; [reflexivity|]. intros ->. apply Hfd. exists h, (ObS f). auto.
  Qed.
  Lemma acct_seq_skip h n : step (PSSkip h n).
  Proof.
    intros H e v fuel e' q l v' I C E L K. cbn [pcall_] in E. destruct (oget (p_objs e) h) as [[f|f|f]|] eqn:Eo; try discriminate.
    unfold seq_skip in E. dosys E w1 a Es Ls.
    destruct (Z.eqb_spec (a_ret a) (-1)) as [Hr|Hr]; injection E as <- <-; cbn [p_w] in L; rewrite (log1 _ _ _ _ Ls L) in K; apply ksteps_one in K; apply lseek_inv in K.
    - destruct K as [(_ & ->)|(y & _ & _ & Hy & _)]; [|lia]. apply (acct_same H e v); auto. exact Logic.I.
    - destruct K as [(Hy & _)|(y & Hy & Ha & Hz & ->)]; [congruence|]. apply (acct_idle H e v); auto; [exact Logic.I|].
      intros fd Hfd. cbn [with_fd v_fd]. rewrite upd_ne; [reflexivity|]. intros ->. apply Hfd. exists h, (ObS f). auto.
  Qed.

  Lemma acct_write x h o : wcall x = Some (h, o) -> step x.
  Proof.
    intros Hx H e v fuel e' q l v' I C E L K.
    assert (E' : pwrite B strerror S os fuel e h o = Ret (e', q)) by (destruct x; cbn [wcall] in Hx; try discriminate; injection Hx as <- <-; exact E).
    assert (Kx : forall r, keeps (mk_pev x r)) by (intros r; destruct x; cbn [wcall] in Hx; try discriminate; exact Logic.I).
    clear E. unfold pwrite in E'. destruct (oget (p_objs e) h) as [[f|f|f]|] eqn:Eo; try discriminate.
    destruct (obj_open _ _ _ _ _ _ _ _ I Eo) as (k & i & g & _ & (_ & _ & _ & (b & Hb) & Ox)).
    destruct (wstep_ok B strerror S os OK fuel (p_w e) f b o _ Hb eq_refl) as [Ew|(w1 & f1 & st & l1 & b1 & Ew & Q)]; rewrite Ew in E'; [discriminate|]. cbn [bind] in E'.
    injection E' as <- <-. cbn [p_w] in L. pose proof (so_log _ _ _ _ _ _ _ _ _ _ _ _ Q) as Lq. rewrite (log1 _ _ _ _ Lq L) in K. cbn [observe].
    pose proof (i_sane _ _ _ _ _ _ I) as Sn. pose proof (so_fd _ _ _ _ _ _ _ _ _ _ _ _ Q) as Ef.
    destruct Ox as [Neg|(Pos & Op & _)].
    - destruct (op_view_dead _ _ _ _ _ _ _ _ _ _ _ _ _ _ Q K Sn Neg) as (F & _).
      apply (acct_set H e v _ h (ObW f) (ObW f1)); auto; try apply F; cbn [obj_fd]; rewrite ?Ef;
        (destruct (Z.leb_spec 0 (f_fd f)); [lia|]); destruct (is_close o); try discriminate; try (destruct (Z.leb_spec 0 (f_fd f)); [lia|discriminate]); intros; apply F.
    - destruct (op_view _ _ _ _ _ _ _ _ _ _ _ _ _ _ _ Q K Sn Op) as (F & F1 & F2 & _).
      apply (acct_set H e v _ h (ObW f) (ObW f1)); auto; try apply F; cbn [obj_fd]; rewrite ?Ef; (destruct (Z.leb_spec 0 (f_fd f)); [|lia]).
      + destruct (is_close o); [discriminate|]. destruct (Z.leb_spec 0 (f_fd f)); [auto|lia].
      + intros fd Hfd. injection Hfd as <-. destruct (is_close o); [auto|]. destruct (Z.leb_spec 0 (f_fd f)); [discriminate|lia].
      + intros fd Hfd. apply F. congruence.
  Qed.

  Lemma acct_delete h : step (PDelete h).
  Proof.
    intros H e v fuel e' q l v' I C E L K. cbn [pcall_] in E. destruct (oget (p_objs e) h) as [[f|f|f]|] eqn:Eo; try discriminate.
    - destruct (destroy strerror S os fuel (p_w e) f) as [w| | |] eqn:Ed; cbn [bind] in E; try discriminate. injection E as <- <-. cbn [p_w] in L. cbn [observe].
      pose proof (i_sane _ _ _ _ _ _ I) as Sn.
      destruct (obj_open _ _ _ _ _ _ _ _ I Eo) as (k & i & g & _ & (_ & _ & _ & (b & Hb) & Ox)).
      unfold destroy in Ed. destruct (Z.leb_spec 0 (f_fd f)) as [Hf|Hf].
      + destruct Ox as [Neg|(Pos & Op & Ow)]; [lia|].
        destruct (close_ok B strerror S os OK fuel (p_w e) f b _ Hb eq_refl) as [E|(w1 & f1 & st & l1 & b1 & E & Q)]; rewrite E in Ed; [discriminate|].
        cbn [bind] in Ed. injection Ed as <-. pose proof (so_log _ _ _ _ _ _ _ _ _ _ _ _ Q) as Lq. rewrite (log1 _ _ _ _ Lq L) in K.
        destruct (op_view _ _ _ _ _ _ _ _ _ _ _ _ _ _ _ Q K Sn Op) as (F & _ & F2 & _).
        apply (acct_del H e v h (ObW f)); auto; cbn [obj_fd obj_map obj_access]; try (destruct (Z.leb_spec 0 (f_fd f)); [|lia]); try discriminate; try (intros; apply F).
        * now destruct (p_lim e).
        * intros fd Hfd. injection Hfd as <-. auto.
        * congruence.
      + injection Ed as <-. apply log0 in L. subst l. apply ksteps_nil in K. subst v'.
        apply (acct_del H e v h (ObW f)); auto; cbn [obj_fd obj_map obj_access]; try (destruct (Z.leb_spec 0 (f_fd f)); [lia|]); try discriminate. now destruct (p_lim e).
    - injection E as <- <-. cbn [p_w] in L. unfold seq_delete in L. destruct (sys_step os (p_w e) (CClose (sq_fd f))) as (w1 & a & Es & Ls). rewrite Es in L. cbn [fst] in L.
      rewrite (log1 _ _ _ _ Ls L) in K. apply ksteps_one in K. apply close_inv in K. subst v'. cbn [observe].
      apply (acct_del H e v h (ObS f)); auto; cbn [obj_fd obj_map obj_access]; try discriminate.
      + now destruct (p_lim e).
      + intros fd Hfd. injection Hfd as <-. cbn [with_fd v_fd]. apply upd_eq.
      + intros fd Hfd. cbn [with_fd v_fd]. apply upd_ne. congruence.
    - destruct (ran_delete dbg S os (p_w e) (p_lim e) f) as [[w lim]| | |] eqn:Ed; cbn [bind] in E; try discriminate. injection E as <- <-. cbn [p_w] in L. cbn [observe].
      destruct f as [fd g|g|b len g]; cbn [ran_delete] in Ed.
      + apply assert_ret in Ed. dosys Ed w1 a Es Ls. injection Ed as <- <-. rewrite (log1 _ _ _ _ Ls L) in K. apply ksteps_one in K. apply close_inv in K. subst v'.
        apply (acct_del H e v h (ObR (RPerm fd g))); auto; cbn [obj_fd obj_map obj_access]; try discriminate.
        * intros y Hy. injection Hy as <-. cbn [with_fd v_fd]. apply upd_eq.
        * intros y Hy. cbn [with_fd v_fd]. apply upd_ne. congruence.
      + injection Ed as <- <-. apply log0 in L. subst l. apply ksteps_nil in K. subst v'.
        apply (acct_del H e v h (ObR (RTemp g))); auto; cbn [obj_fd obj_map obj_access]; try discriminate. now destruct (p_lim e).
      + dosys Ed w1 a Es Ls. injection Ed as <- <-. rewrite (log1 _ _ _ _ Ls L) in K. apply ksteps_one in K.
        destruct (obj_open _ _ _ _ _ _ _ _ I Eo) as (k & i & g' & _ & (_ & _ & Hm & _)). apply (munmap_inv _ _ _ _ _ i) in K; [|exact Hm]. subst v'.
        apply (acct_del H e v h (ObR (RMmap b len g))); auto; cbn [obj_fd obj_map obj_access]; try discriminate.
        * intros y Hy. injection Hy as <-. cbn [with_map v_map]. apply upd_eq.
        * intros y Hy. cbn [with_map v_map]. apply upd_ne. congruence.
  Qed.

  Lemma acct_call x : step x.
  Proof.
    destruct x.
    - apply acct_new_seq.
    - apply acct_new_rand.
    - eapply acct_new_write. left. eauto.
    - eapply acct_new_write. right. eauto.
    - apply acct_names. exact Logic.I.
    - apply acct_children.
    - apply acct_names. exact Logic.I.
    - apply acct_names. exact Logic.I.
    - apply acct_names. exact Logic.I.
    - apply acct_names. exact Logic.I.
    - apply acct_names. exact Logic.I.
    - apply acct_seq_read.
    - apply acct_seq_skip.
    - apply acct_ran_read.
    - eapply acct_write. reflexivity.
    - eapply acct_write. reflexivity.
    - eapply acct_write. reflexivity.
    - eapply acct_write. reflexivity.
    - apply acct_delete.
  Qed.
  Lemma preach_acct s0 H e v : preach dbg B strerror S os v0 s0 lim0 H e v -> Acct H e v.
  Proof.
    induction 1 as [|H e v fuel x e' q l v' R IH Lg E L K]; [apply acct_start|].
    eapply acct_call; eauto. eapply preach_inv; eauto.
  Qed.
End Acct.
