(** PosixEnvSteps.v -- every call of the POSIX environment keeps the invariant. *)
From Coq Require Import List Arith NArith ZArith Lia Bool.
From Verif Require Import Outcome Status MemEnv PosixOs PosixWritable PosixWritableSpec PosixWritableProofs PosixRead PosixEnv PosixFs PosixEnvSpec PosixFsProofs PosixEnvProofs.
Import ListNotations.
Local Open Scope outcome_scope.

Lemma error_not_ok' strerror ctx e : PosixError strerror ctx e <> SOk.
Proof. unfold PosixError. destruct (_ =? _)%Z; discriminate. Qed.
Lemma not_done x st : st <> SOk -> done (mk_pev x (RStat st)) = false.
Proof. intros H. unfold done. cbn [pe_res]. destruct st; [congruence|reflexivity]. Qed.
Lemma sys_step {S} (os : S -> syscall -> S * answer) w c : exists w' a, sys os w c = (w', a) /\ w_log w' = w_log w ++ [(c, a)].
Proof. destruct (sys os w c) as [w' a] eqn:E. exists w', a. split; [reflexivity|]. unfold sys in E. injection E as <- <-. reflexivity. Qed.
Ltac dosys H w1 a E L :=
  match type of H with
  | context [sys ?os ?w ?c] => destruct (sys_step os w c) as (w1 & a & E & L); rewrite E in H
  end.
(** the events of a run *)
Lemma log1 {S} (w0 w1 : world S) l x : w_log w1 = w_log w0 ++ x -> w_log w1 = w_log w0 ++ l -> l = x.
Proof. intros A C. rewrite A in C. apply app_inv_head in C. congruence. Qed.
Lemma log0 {S} (w0 : world S) l : w_log w0 = w_log w0 ++ l -> l = [].
Proof. intros E. rewrite <- (app_nil_r (w_log w0)) in E at 1. apply app_inv_head in E. congruence. Qed.
Lemma ksteps_cons v e l v2 : ksteps v (e :: l) v2 -> exists v1, kstep v e v1 /\ ksteps v1 l v2.
Proof. intros K. inversion K as [|? ? v1 ? ? K1 K2]; subst. eauto. Qed.

Lemma assert_ret dbg (c : bool) {B} (k : unit -> outcome B) r : bind (assert_ dbg c) k = Ret r -> k tt = Ret r.
Proof. unfold assert_. destruct dbg, c; cbn; intros; auto; discriminate. Qed.

Section Steps.
  Variable dbg : bool.
  Variable B : nat.
  Variable strerror : Z -> str.
  Variable S : Type.
  Variable os : S -> syscall -> S * answer.
  Variable v0 : view.
  Hypothesis OK : os_ok os.
  Hypothesis SANE : sane v0.

  Notation names := (names (v_next v0) (v_name v0)).
  Notation bound := (bound (v_next v0) (v_name v0)).
  Notation opened := (opened (v_next v0) (v_name v0)).
  Notation live := (live (v_next v0) (v_name v0)).
  Notation truncates := (truncates (v_next v0) (v_name v0)).
  Notation truncated := (truncated (v_next v0) (v_name v0)).
  Notation legal := (legal (v_next v0) (v_name v0)).
  Notation penv := (penv S).
  Notation Inv := (Inv B S v0).
  Notation PosixError := (PosixError strerror).

  Definition names_call (x : pcall) : bool :=
    match x with PNewWrite _ | PNewAppend _ | PMkDir _ | PRemove _ | PRmDir _ | PRename _ _ => true | _ => false end.
  Lemma names_same ev H : (names_call (pe_call ev) = true -> done ev = false) -> names (ev :: H) = names H /\ forall p, bound (ev :: H) p = bound H p.
  Proof.
    intros C. assert (E : names (ev :: H) = names H).
    { cbn [PosixEnvSpec.names]. destruct (names H) as [k nm]. destruct (done ev); cbn [negb]; [|reflexivity].
      destruct (pe_call ev); cbn [names_call] in C; try reflexivity; specialize (C eq_refl); discriminate. }
    split; [exact E|]. intros p. unfold PosixEnvSpec.bound. now rewrite E.
  Qed.
  Lemma pos_same ev H h : h < length H -> (match pe_call ev with PSRead _ _ | PSSkip _ _ => False | _ => True end) -> pos (ev :: H) h = pos H h.
  Proof. intros Hh C. cbn [pos]. destruct (Nat.eqb_spec h (length H)); [lia|]. destruct (pe_call ev); try reflexivity; contradiction. Qed.

  Record frame (v v' : view) : Prop := {
    fr_name : forall p, v_name v' p = v_name v p;
    fr_next : v_next v' = v_next v;
    fr_data : forall j, v_data v' j = v_data v j;
    fr_safe : forall j, v_safe v' j = v_safe v j;
    fr_map : forall b, v_map v' b = v_map v b;
    fr_sure : forall p, v_sure v' p = v_sure v p }.
  Lemma frame_refl v : frame v v.
  Proof. constructor; reflexivity. Qed.
  Lemma frame_fd v fd x : frame v (with_fd v fd x).
  Proof. constructor; reflexivity. Qed.
  Lemma frame_dir v d x : frame v (with_dir v d x).
  Proof. constructor; reflexivity. Qed.
  Lemma frame_trans v1 v2 v3 : frame v1 v2 -> frame v2 v3 -> frame v1 v3.
  Proof. intros [] []. constructor; intros; try (etransitivity; eauto). Qed.

  (** Calls that leave names, files and mappings alone. *)
  Lemma inv_idle H e v ev e' v' :
    Inv H e v -> p_objs e' = p_objs e -> quiet ev -> sane v' -> (names_call (pe_call ev) = true -> done ev = false) -> frame v v' ->
    (forall h o fd, oget (p_objs e) h = Some o -> obj_fd o = Some fd ->
       match o with
       | ObS f => forall x, v_fd v fd = Some x -> v_fd v' fd = Some (mk_fdesc (d_ino x) (d_off x + (pos (ev :: H) h - pos H h)) (d_app x))
       | _ => v_fd v' fd = v_fd v fd
       end) ->
    Inv (ev :: H) e' v'.
  Proof.
    intros I Eo Q Sn Nc F Fd. destruct (names_same ev H Nc) as (N1 & N2).
    apply (inv_quiet B S v0 H e v ev e' v'); auto.
    - intros p. rewrite N2, (fr_name _ _ F). apply (i_name _ _ _ _ _ _ I).
    - rewrite N1, (fr_next _ _ F). apply (i_next _ _ _ _ _ _ I).
    - intros i _. rewrite (fr_data _ _ F), (fr_safe _ _ F). split; [reflexivity|apply ext_refl].
    - intros i Hi. rewrite (fr_next _ _ F) in Hi. lia.
    - apply (fr_map _ _ F).
    - intros p E _. rewrite (fr_sure _ _ F). exact E.
  Qed.
  Lemma inv_idle_fd H e v ev e' v' :
    Inv H e v -> p_objs e' = p_objs e -> quiet ev -> sane v' -> (names_call (pe_call ev) = true -> done ev = false) -> frame v v' ->
    (match pe_call ev with PSRead _ _ | PSSkip _ _ => False | _ => True end) ->
    (forall fd, v_fd v fd <> None -> v_fd v' fd = v_fd v fd) -> Inv (ev :: H) e' v'.
  Proof.
    intros I Eo Q Sn Nc F Np Fd. eapply inv_idle; eauto. intros h o fd E1 E2.
    assert (Ho := fd_open B S v0 _ _ _ _ _ _ I E1 E2). destruct o; try (apply Fd; exact Ho).
    intros x Hx. rewrite Fd by exact Ho. destruct (obj_open _ _ _ _ _ _ _ _ I E1) as (k & i & g & (L1 & _) & _). apply opened_lt in L1.
    rewrite Hx, (pos_same ev H h L1 Np). destruct x as [ino q b]. cbn [d_ino d_off d_app]. f_equal. f_equal. lia.
  Qed.

  (** An opened and closed descriptor leaves the open ones alone. *)
  Lemma fd_reopen v fd x y : v_fd v fd = None -> forall g, v_fd v g <> None -> upd Z.eq_dec (upd Z.eq_dec (v_fd v) fd x) fd y g = v_fd v g.
  Proof. intros Hn g Hg. destruct (Z.eq_dec g fd) as [->|]; [congruence|]. now rewrite !upd_ne. Qed.
  Lemma fd_other v fd x : v_fd v fd = None -> forall g, v_fd v g <> None -> upd Z.eq_dec (v_fd v) fd x g = v_fd v g.
  Proof. intros Hn g Hg. destruct (Z.eq_dec g fd) as [->|]; [congruence|]. now rewrite upd_ne. Qed.

  Lemma old_name H e v p i : Inv H e v -> v_name v p = Some i -> i < v_next v.
  Proof. intros I E. destruct (i_sane _ _ _ _ _ _ I) as (A1 & _). eapply A1; eauto. Qed.

  (** A call that fails. *)
  Lemma inv_err H e v x st e' v' :
    Inv H e v -> p_objs e' = p_objs e -> st <> SOk ->
    (match x with PWAppend _ _ | PWClose _ | PWFlush _ | PWSync _ | PDelete _ | PSRead _ _ => False | _ => True end) ->
    sane v' -> frame v v' -> (forall fd, v_fd v fd <> None -> v_fd v' fd = v_fd v fd) -> Inv (mk_pev x (RStat st) :: H) e' v'.
  Proof.
    intros I Eo Hst Hx Sn F Fd. pose proof (not_done x st Hst) as Nd.
    apply (inv_idle H e v); auto.
    - unfold quiet. cbn [pe_call]. destruct x; auto; try contradiction.
    - intros h o fd E1 E2. assert (Ho := fd_open B S v0 _ _ _ _ _ _ I E1 E2). destruct o; try (apply Fd; exact Ho).
      intros y Hy. rewrite Fd by exact Ho. destruct (obj_open _ _ _ _ _ _ _ _ I E1) as (k & i & g & (L1 & _) & _). apply opened_lt in L1.
      assert (Ep : pos (mk_pev x (RStat st) :: H) h = pos H h).
      { cbn [pos]. destruct (Nat.eqb_spec h (length H)); [lia|]. cbn [pe_call pe_res]. destruct x; try reflexivity. destruct st; [congruence|reflexivity]. }
      rewrite Ep, Hy. destruct y as [ino q b]. cbn [d_ino d_off d_app]. f_equal. f_equal. lia.
  Qed.
  (** A call that changes nothing. *)
  Lemma inv_pure H e v x r e' :
    Inv H e v -> p_objs e' = p_objs e ->
    (match x with PExists _ | PChildren _ | PSize _ | PRRead _ _ _ => True | _ => False end) -> forall v', sane v' -> frame v v' ->
    (forall fd, v_fd v fd <> None -> v_fd v' fd = v_fd v fd) -> Inv (mk_pev x r :: H) e' v'.
  Proof.
    intros I Eo Hx v' Sn F Fd. apply (inv_idle_fd H e v); auto.
    - unfold quiet. cbn [pe_call]. destruct x; auto; contradiction.
    - cbn [pe_call]. destruct x; try discriminate; contradiction.
    - cbn [pe_call]. destruct x; auto; contradiction.
  Qed.

  Notation step x := (forall H e v fuel e' q l v', Inv H e v ->
    pcall_ dbg B strerror S os fuel e (length H) x = Ret (e', q) -> w_log (p_w e') = w_log (p_w e) ++ l -> ksteps v l v' -> sane v' ->
    Inv (mk_pev x (observe v' q) :: H) e' v').

  (** ** Opening to read *)
  (** A reader was made; only its descriptor, or its mapping, is new. *)
  Lemma inv_reader H e v x f k i o e' v' :
    Inv H e v -> opens x = Some (k, f) -> names_call x = false -> k <> KWrite -> v_name v f = Some i ->
    p_objs e' = (length H, o) :: p_objs e -> sane v' ->
    (forall p, v_name v' p = v_name v p) -> v_next v' = v_next v -> (forall j, v_data v' j = v_data v j) -> (forall j, v_safe v' j = v_safe v j) ->
    (forall p, v_sure v' p = v_sure v p) ->
    (forall fd, obj_fd o = Some fd -> v_fd v fd = None) -> (forall fd, v_fd v fd <> None -> v_fd v' fd = v_fd v fd) ->
    (forall b, obj_map o = Some b -> v_map v b = None) -> (forall b, v_map v b <> None -> v_map v' b = v_map v b) ->
    obj_ok B v0 (mk_pev x (RStat SOk) :: H) v' (length H) o k i f -> (forall w, o <> ObW w) ->
    Inv (mk_pev x (RStat SOk) :: H) e' v'.
  Proof.
    intros I Hop Hnc Hk Hi Eo Sn Vn Vx Vd Vs Vu Of Fd Om Mp Ok Nw.
    destruct (names_same (mk_pev x (RStat SOk)) H) as (N1 & N2); [cbn [pe_call]; congruence|].
    assert (Tr : forall j, truncates (mk_pev x (RStat SOk)) H j = false).
    { intros j. unfold PosixEnvSpec.truncates. cbn [pe_call]. destruct x; cbn [names_call] in Hnc; try discriminate; reflexivity. }
    apply (inv_new B S v0 H e v _ _ _ o k i f); auto.
    - rewrite N2, <- (i_name _ _ _ _ _ _ I). exact Hi.
    - intros p. rewrite N2, Vn. apply (i_name _ _ _ _ _ _ I).
    - rewrite N1, Vx. apply (i_next _ _ _ _ _ _ I).
    - intros j _. rewrite Tr, Vd, Vs. split; [reflexivity|apply ext_refl].
    - intros j Hj. lia.
    - unfold new_ok. destruct o; [exfalso; eapply Nw; reflexivity| |]; (split; [exact Hk|exact Ok]).
    - intros p Hp _. rewrite Vu. exact Hp.
  Qed.

  Lemma step_new_seq f : step (PNewSeq f).
  Proof.
    intros H e v fuel e' q l v' I E L K Sn. cbn [pcall_] in E. unfold new_sequential in E. dosys E w1 a Es Ls.
    destruct (Z.ltb_spec (a_ret a) 0) as [Hr|Hr]; unfold pnew in E; cbn [option_map] in E; injection E as <- <-; cbn [p_w] in L;
      rewrite (log1 _ _ _ _ Ls L) in K; apply ksteps_one in K; apply open_read_inv in K; cbn [observe].
    - destruct K as [(_ & -> & _)|(Hx & _)]; [|lia]. apply (inv_err H e v); auto; [apply error_not_ok'|apply frame_refl].
    - destruct K as [(Hx & _)|(_ & Hn & i & Hi & ->)]; [lia|].
      apply (inv_reader H e v _ f KSeq i (ObS (mk_seq (a_ret a) f))); auto; try discriminate.
      + cbn [obj_fd sq_fd]. intros fd Hfd. injection Hfd as <-. exact Hn.
      + cbn [with_fd v_fd]. apply fd_other. exact Hn.
      + cbn [obj_ok sq_fd]. split; [reflexivity|]. split; [exact Hr|]. cbn [with_fd v_fd]. rewrite upd_eq. f_equal. f_equal.
        cbn [pos]. rewrite Nat.eqb_refl. reflexivity.
  Qed.

  Lemma step_new_rand f : step (PNewRand f).
  Proof.
    intros H e v fuel e' q l v' I E L K Sn. cbn [pcall_] in E. unfold new_random in E. dosys E w1 a Es Ls.
    destruct (Z.ltb_spec (a_ret a) 0) as [Hr|Hr].
    { unfold pnew in E. cbn [option_map] in E. injection E as <- <-. cbn [p_w] in L. rewrite (log1 _ _ _ _ Ls L) in K. apply ksteps_one in K. apply open_read_inv in K.
      destruct K as [(_ & -> & _)|(Hx & _)]; [|lia]. cbn [observe]. apply (inv_err H e v); auto; [apply error_not_ok'|apply frame_refl]. }
    destruct (acquire (l_mmap (p_lim e))) as [m got] eqn:Eg. destruct got; cbn [negb] in E.
    - unfold get_file_size in E. dosys E w2 a2 Es2 Ls2. destruct (Z.eqb_spec (a_ret a2) 0) as [Hz|Hz]; cbn [negb] in E.
      + dosys E w3 a3 Es3 Ls3. destruct (Z.eqb_spec (a_ret a3) (-1)) as [Hm|Hm]; cbn [negb] in E; dosys E w4 a4 Es4 Ls4; unfold pnew in E; cbn [option_map] in E;
          injection E as <- <-; cbn [p_w] in L; rewrite Ls4, Ls3, Ls2, Ls, <- !app_assoc in L; apply app_inv_head in L; subst l; cbn [app] in K;
          apply ksteps_cons in K as (v1 & K1 & K); apply ksteps_cons in K as (v2 & K2 & K); apply ksteps_cons in K as (v3 & K3 & K); apply ksteps_one in K;
          apply open_read_inv in K1; apply stat_inv in K2; apply mmap_inv in K3; apply close_inv in K;
          destruct K1 as [(Hx & _)|(_ & Hn & i & Hi & ->)]; try lia; destruct K2 as (-> & [(Hx & _)|(_ & j & Hj & Hv)]); try lia; cbn [observe].
        * destruct K3 as [(_ & ->)|(Hx & _)]; [|lia]. subst v'. apply (inv_err H e v); auto; [apply error_not_ok'| |].
          -- eapply frame_trans; apply frame_fd.
          -- cbn [with_fd v_fd]. apply fd_reopen. exact Hn.
        * destruct K3 as [(Hx & _)|(_ & Hmn & x & Hx & ->)]; [congruence|]. cbn [with_fd v_fd] in Hx. rewrite upd_eq in Hx. injection Hx as <-.
          cbn [with_fd v_name] in Hj. assert (j = i) by congruence. subst j v'.
          apply (inv_reader H e v _ f KRand i (ObR (RMmap (a_val a3) (a_val a2) f))); auto; try discriminate.
          -- cbn [with_fd with_map v_fd]. apply fd_reopen. exact Hn.
          -- cbn [obj_map]. intros b Hb. injection Hb as <-. exact Hmn.
          -- intros b Hb. cbn [with_fd with_map v_map] in Hmn |- *. rewrite upd_ne; [reflexivity|]. congruence.
          -- cbn [obj_ok]. split; [reflexivity|]. split; [reflexivity|]. cbn [with_fd with_map v_map v_data d_ino]. rewrite upd_eq. split; [reflexivity|].
             intros _. cbn [with_fd v_data] in Hv. lia.
      + unfold pnew in E. destruct (PosixError f (a_errno a2)) as [|c m1 m2] eqn:Ep; [now apply error_not_ok' in Ep|].
        dosys E w5 a5 Es5 Ls5. cbn [option_map] in E. 
        injection E as <- <-. cbn [p_w] in L. rewrite Ls5, Ls2, Ls, <- !app_assoc in L. apply app_inv_head in L. subst l. cbn [app] in K.
        apply ksteps_cons in K as (v1 & K1 & K). apply ksteps_cons in K as (v2 & K2 & K). apply ksteps_one in K.
        apply open_read_inv in K1. apply stat_inv in K2. apply close_inv in K.
        destruct K1 as [(Hx & _)|(_ & Hn & i & Hi & ->)]; [lia|]. destruct K2 as (-> & _). subst v'. cbn [observe]. apply (inv_err H e v); auto; [discriminate| |].
        * eapply frame_trans; apply frame_fd.
        * cbn [with_fd v_fd]. apply fd_reopen. exact Hn.
    - unfold new_pread in E. cbn [l_fd l_mmap] in E. destruct (acquire (l_fd (p_lim e))) as [m2 got2] eqn:Eg2. destruct got2.
      + unfold pnew in E. cbn [option_map] in E. injection E as <- <-. cbn [p_w] in L. rewrite (log1 _ _ _ _ Ls L) in K. apply ksteps_one in K. apply open_read_inv in K.
        destruct K as [(Hx & _)|(_ & Hn & i & Hi & ->)]; [lia|]. cbn [observe].
        apply (inv_reader H e v _ f KRand i (ObR (RPerm (a_ret a) f))); auto; try discriminate.
        * cbn [obj_fd]. intros fd Hfd. injection Hfd as <-. exact Hn.
        * cbn [with_fd v_fd]. apply fd_other. exact Hn.
        * cbn [obj_ok]. split; [reflexivity|]. split; [reflexivity|]. split; [exact Hr|]. eexists. cbn [with_fd v_fd]. rewrite upd_eq. split; reflexivity.
      + dosys E w2 a2 Es2 Ls2. unfold pnew in E. cbn [option_map] in E. injection E as <- <-. cbn [p_w] in L. rewrite Ls2, Ls, <- !app_assoc in L. apply app_inv_head in L. subst l.
        cbn [app] in K. apply ksteps_cons in K as (v1 & K1 & K). apply ksteps_one in K. apply open_read_inv in K1. apply close_inv in K.
        destruct K1 as [(Hx & _)|(_ & Hn & i & Hi & ->)]; [lia|]. subst v'. cbn [observe].
        apply (inv_reader H e v _ f KRand i (ObR (RTemp f))); auto; try discriminate.
        * cbn [with_fd v_fd]. apply fd_reopen. exact Hn.
        * split; reflexivity.
  Qed.

  (** ** Opening to write *)
  Lemma create_names H e v x p : Inv H e v -> names_call x = true -> opens x = Some (KWrite, p) \/ x = PMkDir p -> bound H p = None ->
    let ev := mk_pev x (RStat SOk) in
    (forall q, bound (ev :: H) q = upd eqs (bound H) p (Some (v_next v)) q) /\ fst (names (ev :: H)) = Datatypes.S (v_next v).
  Proof.
    intros I Hx Hp Hb ev. pose proof (i_next _ _ _ _ _ _ I) as Nx. unfold PosixEnvSpec.bound in *. cbn [PosixEnvSpec.names].
    destruct (names H) as [k nm]. cbn [fst snd] in *. subst k. cbn [done ev pe_res pe_call negb].
    destruct Hp as [Hp| ->]; [destruct x; cbn [opens names_call] in *; try discriminate; injection Hp as ->|]; rewrite Hb; cbn [fst snd]; auto.
  Qed.
  Lemma found_names H x p i : opens x = Some (KWrite, p) -> bound H p = Some i ->
    let ev := mk_pev x (RStat SOk) in names (ev :: H) = names H /\ (forall q, bound (ev :: H) q = bound H q).
  Proof.
    intros Hp Hb ev. assert (E : names (ev :: H) = names H); [|split; [exact E|intros q; unfold PosixEnvSpec.bound; now rewrite E]].
    unfold PosixEnvSpec.bound in *. cbn [PosixEnvSpec.names].
    destruct (names H) as [k nm]. cbn [fst snd] in *. cbn [done ev pe_res pe_call negb].
    destruct x; cbn [opens] in *; try discriminate; injection Hp as ->; rewrite Hb; reflexivity.
  Qed.

  Lemma step_new_write x f fl :
    (x = PNewWrite f /\ fl = WrTrunc) \/ (x = PNewAppend f /\ fl = WrAppend) -> step x.
  Proof.
    intros Hx H e v fuel e' q l v' I E L K Sn.
    assert (E' : bind (new_writable dbg B strerror S os (p_w e) f fl) (fun '(w, o, st) => Ret (pnew S e w (p_lim e) (length H) (option_map ObW o) st)) = Ret (e', q)).
    { destruct Hx as [(-> & ->)|(-> & ->)]; cbn [pcall_] in E; exact E. }
    clear E. rename E' into E. unfold new_writable in E. dosys E w1 a Es Ls.
    assert (Hfl : fl <> RdOnly) by (destruct Hx as [(_ & ->)|(_ & ->)]; discriminate).
    assert (Hop : opens x = Some (KWrite, f)) by (destruct Hx as [(-> & _)|(-> & _)]; reflexivity).
    assert (Hnc : names_call x = true) by (destruct Hx as [(-> & _)|(-> & _)]; reflexivity).
    destruct (Z.ltb_spec (a_ret a) 0) as [Hr|Hr].
    { cbn [bind] in E. unfold pnew in E. cbn [option_map] in E. injection E as <- <-. cbn [p_w] in L. rewrite (log1 _ _ _ _ Ls L) in K. apply ksteps_one in K.
      apply open_write_inv in K; [|exact Hfl]. destruct K as [(_ & ->)|(Hy & _)]; [|lia]. cbn [observe].
      apply (inv_err H e v); auto; [apply error_not_ok'| |apply frame_refl]. destruct Hx as [(-> & _)|(-> & _)]; exact Logic.I. }
    destruct (new_wfile_ok dbg B f (a_ret a)) as (m & d & Ew & Hm & Hd). rewrite Ew in E. cbn [bind] in E. unfold pnew in E. cbn [option_map] in E.
    injection E as <- <-. cbn [p_w] in L. rewrite (log1 _ _ _ _ Ls L) in K. apply ksteps_one in K.
    apply open_write_inv in K; [|exact Hfl]. destruct K as [(Hy & _)|(_ & Hn & i & v1 & Ow & ->)]; [lia|]. cbn [observe].
    set (ev := mk_pev x (RStat SOk)). set (fo := mk_wfile (repeat None B) 0 (a_ret a) m f d).
    assert (Br : brep B fo []) by (unfold brep, fo; cbn [f_buf f_pos length firstn map]; rewrite repeat_length; auto using Nat.le_0_l).
    assert (Ofd : forall fd, obj_fd (ObW fo) = Some fd -> v_fd v fd = None).
    { cbn [obj_fd fo f_fd]. destruct (Z.leb_spec 0 (a_ret a)); [|lia]. intros fd Hfd. injection Hfd as <-. exact Hn. }
    destruct Ow as [(Hi & ->)|(Hi & Hf & -> & ->)].
    - pose proof Hi as Hb. rewrite (i_name _ _ _ _ _ _ I) in Hb. destruct (found_names H x f i Hop Hb) as (N1 & N2). fold ev in N1, N2.
      assert (Tr : forall j, truncates ev H j = match fl with WrTrunc => j =? i | _ => false end).
      { intros j. unfold PosixEnvSpec.truncates. cbn [ev pe_call]. destruct Hx as [(-> & ->)|(-> & ->)]; [|reflexivity]. cbn [done pe_res andb].
        fold ev. rewrite N2, Hb. cbn [is_file]. apply Nat.eqb_sym. }
      apply (inv_new B S v0 H e v ev _ _ (ObW fo) KWrite i f); auto.
      + rewrite N2. exact Hb.
      + intros p. rewrite N2, <- (i_name _ _ _ _ _ _ I). destruct fl; reflexivity.
      + rewrite N1, <- (i_next _ _ _ _ _ _ I). destruct fl; reflexivity.
      + intros j _. rewrite Tr. destruct fl; try (split; [reflexivity|apply ext_refl]). cbn [with_fd with_data v_data v_safe].
        destruct (Nat.eqb_spec j i) as [->|Hj]; [apply upd_eq|rewrite !upd_ne by exact Hj; split; [reflexivity|apply ext_refl]].
      + intros j Hj. destruct fl; cbn in Hj; lia.
      + intros fd Hfd. destruct fl; cbn [with_fd with_data v_fd]; apply fd_other; assumption.
      + discriminate.
      + intros b Hb'. destruct fl; reflexivity.
      + unfold new_ok. split; [reflexivity|]. split; [exact Hm|]. split; [exact Hd|]. split; [exact Br|]. split; [exact Hr|].
        eexists. cbn [with_fd v_fd fo f_fd]. rewrite upd_eq. split; [reflexivity|]. split; [reflexivity|]. cbn [d_app d_off].
        destruct Hx as [(_ & ->)|(_ & ->)]; [right|left; reflexivity]. cbn [with_fd with_data v_data]. now rewrite upd_eq.
      + intros p Hp _. destruct fl; exact Hp.
    - pose proof Hi as Hb. rewrite (i_name _ _ _ _ _ _ I) in Hb. destruct (create_names H e v x f I Hnc (or_introl Hop) Hb) as (N1 & N2). fold ev in N1, N2.
      assert (Tr : forall j, j < v_next v -> truncates ev H j = false).
      { intros j Hj. unfold PosixEnvSpec.truncates. cbn [ev pe_call]. destruct Hx as [(-> & ->)|(-> & ->)]; [|reflexivity]. cbn [done pe_res andb].
        fold ev. rewrite N1, upd_eq. cbn [is_file]. apply Nat.eqb_neq. lia. }
      apply (inv_new B S v0 H e v ev _ _ (ObW fo) KWrite (v_next v) f); auto.
      + rewrite N1. apply upd_eq.
      + intros p. rewrite N1. cbn [with_fd create with_data with_name v_name v_next]. unfold upd. destruct (eqs p f); [reflexivity|apply (i_name _ _ _ _ _ _ I)].
      + intros j Hj. rewrite (Tr j Hj). cbn [with_fd create with_data with_name v_data v_safe v_next]. rewrite !upd_ne by lia. split; [reflexivity|apply ext_refl].
      + intros j Hj. cbn [with_fd create with_data with_name v_data v_safe v_next] in Hj |- *. replace j with (v_next v) by lia. apply upd_eq.
      + intros fd Hfd. cbn [with_fd create with_data with_name v_fd]. apply fd_other; assumption.
      + discriminate.
      + unfold new_ok. split; [reflexivity|]. split; [exact Hm|]. split; [exact Hd|]. split; [exact Br|]. split; [exact Hr|].
        eexists. cbn [with_fd v_fd fo f_fd]. rewrite upd_eq. split; [reflexivity|]. split; [reflexivity|]. cbn [d_app d_off].
        right. cbn [with_fd create with_data with_name v_data v_next]. now rewrite upd_eq.
      + intros p Hp Hq. cbn [with_fd create with_data with_name v_sure]. rewrite N1 in Hq. unfold upd in *. destruct (eqs p f) as [->|]; [congruence|exact Hp].
  Qed.

  (** ** Names *)
  Lemma inv_name H e v x e' v' :
    Inv H e v -> names_call x = true -> opens x = None -> p_objs e' = p_objs e -> sane v' ->
    (forall p, v_name v' p = bound (mk_pev x (RStat SOk) :: H) p) -> v_next v' = fst (names (mk_pev x (RStat SOk) :: H)) ->
    (forall i, i < v_next v -> v_data v' i = v_data v i /\ ext (v_safe v i) (v_safe v' i)) ->
    (forall i, v_next v <= i < v_next v' -> v_data v' i = []) ->
    (forall b, v_map v' b = v_map v b) -> (forall fd, v_fd v' fd = v_fd v fd) ->
    (forall p, v_sure v p = true -> bound (mk_pev x (RStat SOk) :: H) p = bound H p -> v_sure v' p = true) ->
    Inv (mk_pev x (RStat SOk) :: H) e' v'.
  Proof.
    intros I Hx Hop Eo Sn Nm Nx Dt Dn Mp Fd Su. apply (inv_quiet B S v0 H e v); auto.
    - unfold quiet. cbn [pe_call]. destruct x; cbn [names_call opens] in *; try discriminate; exact Logic.I.
    - intros h o fd E1 E2. destruct o; try apply Fd. intros y Hy. rewrite Fd, Hy.
      destruct (obj_open _ _ _ _ _ _ _ _ I E1) as (k & i & g & (L1 & _) & _). apply opened_lt in L1.
      rewrite pos_same; [|exact L1|cbn [pe_call]; destruct x; cbn [names_call] in *; try discriminate; exact Logic.I].
      destruct y as [ino z b]. cbn [d_ino d_off d_app]. f_equal. f_equal. lia.
  Qed.

  Lemma unbind_names H x p : x = PRemove p \/ x = PRmDir p -> let ev := mk_pev x (RStat SOk) in
    (forall q, bound (ev :: H) q = upd eqs (bound H) p None q) /\ fst (names (ev :: H)) = fst (names H).
  Proof.
    intros Hx ev. unfold PosixEnvSpec.bound. cbn [PosixEnvSpec.names]. destruct (names H) as [k nm].
    destruct Hx as [-> | ->]; cbn [ev done pe_res pe_call negb fst snd]; auto.
  Qed.
  Lemma inv_unbind H e v x f e' : Inv H e v -> x = PRemove f \/ x = PRmDir f -> v_name v f <> None -> p_objs e' = p_objs e -> sane (with_name v f None) ->
    Inv (mk_pev x (RStat SOk) :: H) e' (with_name v f None).
  Proof.
    intros I Hx Hf Eo Sn. destruct (unbind_names H x f Hx) as (N1 & N2).
    apply (inv_name H e v); auto.
    - destruct Hx as [-> | ->]; reflexivity.
    - destruct Hx as [-> | ->]; reflexivity.
    - intros p. rewrite N1. cbn [with_name v_name]. unfold upd. destruct (eqs p f); [reflexivity|apply (i_name _ _ _ _ _ _ I)].
    - rewrite N2. apply (i_next _ _ _ _ _ _ I).
    - intros j _. split; [reflexivity|apply ext_refl].
    - cbn. intros j Hj. lia.
    - intros p Hp Hq. cbn [with_name v_sure]. rewrite N1 in Hq. unfold upd in *. destruct (eqs p f) as [->|]; [|exact Hp].
      rewrite (i_name _ _ _ _ _ _ I) in Hf. congruence.
  Qed.

  Lemma step_unbind x f c : (x = PRemove f /\ c = CUnlink f) \/ (x = PRmDir f /\ c = CRmdir f) -> step x.
  Proof.
    intros Hx H e v fuel e' q l v' I E L K Sn.
    destruct (sys_step os (p_w e) c) as (w1 & a & Es & Ls).
    assert (E' : e' = mk_penv w1 (p_lim e) (p_objs e) /\ q = QStat (if negb (a_ret a =? 0)%Z then PosixError f (a_errno a) else SOk)).
    { destruct Hx as [(-> & ->)|(-> & ->)]; cbn [pcall_] in E; unfold remove_file, remove_dir in E; rewrite Es in E; injection E as <- <-; auto. }
    clear E. destruct E' as (-> & ->). cbn [p_w] in L. rewrite (log1 _ _ _ _ Ls L) in K. apply ksteps_one in K. cbn [observe].
    assert (K' : (a_ret a = (-1)%Z /\ v' = v) \/ (a_ret a = 0%Z /\ v_name v f <> None /\ v' = with_name v f None)).
    { destruct Hx as [(_ & ->)|(_ & ->)]; [apply unlink_inv in K|apply rmdir_inv in K]; destruct K as [(K1 & K2 & _)|K]; auto. }
    destruct K' as [(Hr & ->)|(Hr & Hf & ->)]; rewrite Hr; cbn [Z.eqb negb].
    - apply (inv_err H e v); auto; [apply error_not_ok'|destruct Hx as [(-> & _)|(-> & _)]; exact Logic.I|apply frame_refl].
    - apply (inv_unbind H e v); auto. destruct Hx as [(-> & _)|(-> & _)]; auto.
  Qed.
  Lemma step_mkdir f : step (PMkDir f).
  Proof.
    intros H e v fuel e' q l v' I E L K Sn. cbn [pcall_] in E. unfold create_dir in E. dosys E w1 a Es Ls. injection E as <- <-.
    cbn [p_w] in L. rewrite (log1 _ _ _ _ Ls L) in K. apply ksteps_one in K. cbn [observe]. apply mkdir_inv in K.
    destruct K as [(Hr & ->)|(Hr & Hf & Hp & ->)]; rewrite Hr; cbn [Z.eqb negb].
    - apply (inv_err H e v); auto; [apply error_not_ok'|apply frame_refl].
    - pose proof Hf as Hb. rewrite (i_name _ _ _ _ _ _ I) in Hb. destruct (create_names H e v (PMkDir f) f I eq_refl (or_intror eq_refl) Hb) as (N1 & N2).
      apply (inv_name H e v); auto.
      + intros p. rewrite N1. cbn [create with_data with_name v_name v_next]. unfold upd. destruct (eqs p f); [reflexivity|apply (i_name _ _ _ _ _ _ I)].
      + intros j Hj. cbn [create with_data with_name v_data v_safe v_next]. rewrite !upd_ne by lia. split; [reflexivity|apply ext_refl].
      + intros j Hj. cbn [create with_data with_name v_data v_safe v_next] in Hj |- *. replace j with (v_next v) by lia. apply upd_eq.
      + intros p Hq Hq2. cbn [create with_data with_name v_sure]. rewrite N1 in Hq2. unfold upd in *. destruct (eqs p f) as [->|]; [congruence|exact Hq].
  Qed.
  Lemma rename_names H a b : let ev := mk_pev (PRename a b) (RStat SOk) in forall i, bound H a = Some i ->
    fst (names (ev :: H)) = fst (names H) /\
    (bound H b = Some i -> forall q, bound (ev :: H) q = bound H q) /\
    (bound H b <> Some i -> forall q, bound (ev :: H) q = upd eqs (upd eqs (bound H) b (Some i)) a None q).
  Proof.
    intros ev i. unfold PosixEnvSpec.bound. cbn [PosixEnvSpec.names]. destruct (names H) as [k nm]. cbn [ev done pe_res pe_call negb fst snd].
    intros ->. destruct (nm b) as [j|]; [destruct (Nat.eqb_spec j i) as [->|Hj]|]; cbn [fst snd]; repeat split; intros; congruence.
  Qed.
  Lemma step_rename f g : step (PRename f g).
  Proof.
    intros H e v fuel e' q l v' I E L K Sn. cbn [pcall_] in E. unfold rename_file in E. dosys E w1 a Es Ls. injection E as <- <-.
    cbn [p_w] in L. rewrite (log1 _ _ _ _ Ls L) in K. apply ksteps_one in K. cbn [observe]. apply rename_inv in K.
    destruct K as [(Hr & ->)|(Hr & i & Hi & K)]; rewrite Hr; cbn [Z.eqb negb].
    - apply (inv_err H e v); auto; [apply error_not_ok'|apply frame_refl].
    - rewrite (i_name _ _ _ _ _ _ I) in Hi, K. destruct (rename_names H f g i Hi) as (N0 & N1 & N2). destruct K as [(Hg & ->)|(Hg & Hgn & ->)].
      + apply (inv_name H e v); auto.
        * intros p. rewrite (N1 Hg). apply (i_name _ _ _ _ _ _ I).
        * rewrite N0. apply (i_next _ _ _ _ _ _ I).
        * intros j _. split; [reflexivity|apply ext_refl].
        * intros j Hj. lia.
      + apply (inv_name H e v); auto.
        * intros p. rewrite (N2 Hg). cbn [with_name v_name]. unfold upd. destruct (eqs p f); [reflexivity|]. destruct (eqs p g); [reflexivity|apply (i_name _ _ _ _ _ _ I)].
        * rewrite N0. apply (i_next _ _ _ _ _ _ I).
        * intros j _. split; [reflexivity|apply ext_refl].
        * cbn. intros j Hj. lia.
        * intros p Hp Hq. rewrite (N2 Hg) in Hq. cbn [with_name v_sure]. unfold upd in *. destruct (eqs p f) as [->|]; [congruence|]. destruct (eqs p g) as [->|]; [congruence|exact Hp].
  Qed.

  (** ** Calls that change no file *)
  Lemma step_exists f : step (PExists f).
  Proof.
    intros H e v fuel e' q l v' I E L K Sn. cbn [pcall_] in E. unfold file_exists in E. dosys E w1 a Es Ls. injection E as <- <-.
    cbn [p_w] in L. rewrite (log1 _ _ _ _ Ls L) in K. apply ksteps_one in K. apply access_inv in K. destruct K as (-> & _).
    apply (inv_pure H e v); auto; try exact Logic.I. apply frame_refl.
  Qed.
  Lemma step_size f : step (PSize f).
  Proof.
    intros H e v fuel e' q l v' I E L K Sn. cbn [pcall_] in E. unfold get_file_size in E. dosys E w1 a Es Ls.
    destruct (negb (a_ret a =? 0)%Z); injection E as <- <-;
    cbn [p_w] in L; rewrite (log1 _ _ _ _ Ls L) in K; apply ksteps_one in K; apply stat_inv in K; destruct K as (-> & _);
    (apply (inv_pure H e v); auto; try exact Logic.I; apply frame_refl).
  Qed.

  Lemma readdir_frame v d a v' : kstep v (CReaddir d, a) v' -> frame v v' /\ forall fd, v_fd v' fd = v_fd v fd.
  Proof. intros K. inversion K; subst; try discriminate; split; try reflexivity; try apply frame_refl; apply frame_dir. Qed.
  Lemma read_dir_log fuel : forall w d acc w' r, read_dir S os fuel w d acc = Ret (w', r) ->
    exists l, w_log w' = w_log w ++ l /\ forall v v', ksteps v l v' -> frame v v' /\ forall fd, v_fd v' fd = v_fd v fd.
  Proof.
    induction fuel as [|fuel IH]; intros w d acc w' r E; cbn [read_dir] in E; [discriminate|]. dosys E w1 a Es Ls.
    destruct (a_ret a =? 0)%Z.
    - injection E as <- _. eexists. split; [exact Ls|]. intros v v' K. apply ksteps_one in K. eapply readdir_frame; eauto.
    - destruct (IH _ _ _ _ _ E) as (l & Ll & F). exists ((CReaddir d, a) :: l). split; [rewrite Ll, Ls, <- app_assoc; reflexivity|].
      intros v v' K. apply ksteps_cons in K as (v1 & K1 & K). destruct (readdir_frame _ _ _ _ K1) as (F1 & G1). destruct (F _ _ K) as (F2 & G2).
      split; [eapply frame_trans; eauto|]. intros fd. rewrite G2. apply G1.
  Qed.
  Lemma opendir_frame v d a v' : kstep v (COpendir d, a) v' -> frame v v' /\ forall fd, v_fd v' fd = v_fd v fd.
  Proof. intros K. inversion K; subst; try discriminate; split; try reflexivity; try apply frame_refl; apply frame_dir. Qed.
  Lemma closedir_frame v d a v' : kstep v (CClosedir d, a) v' -> frame v v' /\ forall fd, v_fd v' fd = v_fd v fd.
  Proof. intros K. inversion K; subst; try discriminate; split; try reflexivity; try apply frame_refl; apply frame_dir. Qed.
  Lemma step_children d : step (PChildren d).
  Proof.
    intros H e v fuel e' q l v' I E L K Sn. cbn [pcall_] in E. unfold get_children in E. dosys E w1 a Es Ls.
    destruct (N.eqb (a_val a) 0).
    - cbn [bind] in E. injection E as <- <-. cbn [p_w] in L. rewrite (log1 _ _ _ _ Ls L) in K. apply ksteps_one in K.
      destruct (opendir_frame _ _ _ _ K) as (F & G). apply (inv_pure H e v); auto; exact Logic.I.
    - destruct (read_dir S os fuel w1 (a_val a) []) as [[w2 res]| | |] eqn:Er; cbn [bind] in E; try discriminate.
      destruct (read_dir_log _ _ _ _ _ _ Er) as (l2 & Ll2 & F2). dosys E w3 c Es3 Ls3. cbn [bind] in E. injection E as <- <-. cbn [p_w] in L.
      rewrite Ls3, Ll2, Ls, <- !app_assoc in L. apply app_inv_head in L. subst l. cbn [app] in K. apply ksteps_cons in K as (v1 & K1 & K).
      apply ksteps_app in K as (v2 & K2 & K). apply ksteps_one in K.
      destruct (opendir_frame _ _ _ _ K1) as (G1 & H1). destruct (F2 _ _ K2) as (G2 & H2). destruct (closedir_frame _ _ _ _ K) as (G3 & H3).
      apply (inv_pure H e v); auto; try exact Logic.I.
      + eapply frame_trans; [exact G1|]. eapply frame_trans; eauto.
      + intros fd _. rewrite H3, H2. apply H1.
  Qed.

  Lemma step_ran_read h off n : step (PRRead h off n).
  Proof.
    intros H e v fuel e' q l v' I E L K Sn. cbn [pcall_] in E. destruct (oget (p_objs e) h) as [[f|f|f]|] eqn:Eo; try discriminate.
    assert (G : forall w st r, ran_read dbg strerror S os (p_w e) f off n = Ret (w, st, r) -> w_log w = w_log (p_w e) ++ l ->
      frame v v' /\ forall fd, v_fd v fd <> None -> v_fd v' fd = v_fd v fd).
    { clear E L e' q. intros w st r E L. destruct f as [fd g|g|b len g]; cbn [ran_read] in E.
      - apply assert_ret in E. dosys E w1 a Es Ls. destruct (_ <? _)%Z; [discriminate|]. injection E as <- <- <-. rewrite (log1 _ _ _ _ Ls L) in K. apply ksteps_one in K.
        apply pread_inv in K as (-> & _). split; [apply frame_refl|auto].
      - dosys E w1 a Es Ls. destruct (Z.ltb_spec (a_ret a) 0) as [Hr|Hr].
        + injection E as <- <- <-. rewrite (log1 _ _ _ _ Ls L) in K. apply ksteps_one in K. apply open_read_inv in K. destruct K as [(_ & -> & _)|(Hx & _)]; [|lia].
          split; [apply frame_refl|auto].
        + apply assert_ret in E. dosys E w2 a2 Es2 Ls2. destruct (_ <? _)%Z; [discriminate|]. apply assert_ret in E. dosys E w3 a3 Es3 Ls3. injection E as <- <- <-.
          rewrite Ls3, Ls2, Ls, <- !app_assoc in L. apply app_inv_head in L. subst l. cbn [app] in K. apply ksteps_cons in K as (v1 & K1 & K).
          apply ksteps_cons in K as (v2 & K2 & K). apply ksteps_one in K. apply open_read_inv in K1. apply pread_inv in K2 as (-> & _). apply close_inv in K.
          destruct K1 as [(Hx & _)|(_ & Hn & i & Hi & ->)]; [lia|]. subst v'. split; [eapply frame_trans; apply frame_fd|]. cbn [with_fd v_fd]. apply fd_reopen. exact Hn.
      - destruct (_ <? _)%N; injection E as <- <- <-; apply log0 in L; subst l; apply ksteps_nil in K; subst v'; (split; [apply frame_refl|auto]). }
    destruct (ran_read dbg strerror S os (p_w e) f off n) as [[[w st] r]| | |] eqn:Er; cbn [bind] in E; try discriminate.
    injection E as <- <-. cbn [p_w] in L. destruct (G _ _ _ eq_refl L) as (F & Fd). apply (inv_pure H e v); auto; exact Logic.I.
  Qed.

  (** ** Sequential reading *)
  Lemma seq_read_view fuel : forall w f n w' st r l v v' x, seq_read strerror S os fuel w f n = Ret (w', st, r) -> w_log w' = w_log w ++ l ->
    ksteps v l v' -> v_fd v (sq_fd f) = Some x ->
    (st <> SOk /\ r = Untouched /\ v' = v) \/
    (st = SOk /\ exists d, r = Bytes d /\ d = firstn (length d) (skipn (Z.to_nat (d_off x)) (v_data v (d_ino x))) /\ (N.of_nat (length d) <= n)%N /\
       (d = [] -> n = 0%N \/ length (v_data v (d_ino x)) <= Z.to_nat (d_off x)) /\
       v' = with_fd v (sq_fd f) (Some (mk_fdesc (d_ino x) (d_off x + Z.of_nat (length d)) (d_app x)))).
  Proof.
    induction fuel as [|fuel IH]; intros w f n w' st r l v v' x E L K Hx; cbn [seq_read] in E; [discriminate|]. dosys E w1 a Es Ls.
    destruct (Z.ltb_spec (a_ret a) 0) as [Hr|Hr].
    - destruct (a_errno a =? EINTR)%Z.
      + assert (exists l', l = (CRead (sq_fd f) n, a) :: l' /\ w_log w' = w_log w1 ++ l') as (l' & -> & L').
        { assert (M : exists l', w_log w' = w_log w1 ++ l').
          { clear -E. revert w1 E. induction fuel as [|fuel IH]; intros w1 E; cbn [seq_read] in E; [discriminate|]. dosys E w2 a2 Es2 Ls2.
            destruct (a_ret a2 <? 0)%Z; [destruct (a_errno a2 =? EINTR)%Z|destruct (Z.of_N n <? a_ret a2)%Z; [discriminate|]].
            - destruct (IH _ E) as (l' & L'). rewrite L', Ls2, <- app_assoc. eauto.
            - injection E as <- _ _. eauto.
            - injection E as <- _ _. eauto. }
          destruct M as (l' & L'). exists l'. split; [|exact L']. rewrite L', Ls, <- app_assoc in L. apply app_inv_head in L. symmetry. exact L. }
        apply ksteps_cons in K as (v1 & K1 & K). apply read_inv in K1. destruct K1 as [(_ & ->)|(y & _ & Hy & _)]; [|lia]. eapply IH; eauto.
      + injection E as <- <- <-. rewrite (log1 _ _ _ _ Ls L) in K. apply ksteps_one in K. apply read_inv in K. destruct K as [(_ & ->)|(y & _ & Hy & _)]; [|lia].
        left. split; [apply error_not_ok'|auto].
    - destruct (Z.ltb_spec (Z.of_N n) (a_ret a)); [discriminate|]. injection E as <- <- <-. rewrite (log1 _ _ _ _ Ls L) in K. apply ksteps_one in K. apply read_inv in K.
      destruct K as [(Hy & _)|(y & Hy & Y1 & Y2 & Y3 & Y4 & ->)]; [lia|]. assert (y = x) by congruence. subst y.
      assert (Ed : firstn (Z.to_nat (a_ret a)) (a_data a) = a_data a) by (rewrite Y1, Nat2Z.id; apply firstn_all).
      right. split; [reflexivity|]. exists (a_data a). rewrite Ed, <- Y1. auto.
  Qed.

  Lemma inv_seek H e v h f x ev k e' v' :
    Inv H e v -> oget (p_objs e) h = Some (ObS f) -> v_fd v (sq_fd f) = Some x -> p_objs e' = p_objs e ->
    (match pe_call ev with PSRead _ _ | PSSkip _ _ => True | _ => False end) -> sane v' ->
    frame v v' -> v_fd v' (sq_fd f) = Some (mk_fdesc (d_ino x) (d_off x + k) (d_app x)) -> (forall fd, fd <> sq_fd f -> v_fd v' fd = v_fd v fd) ->
    (forall h', h' < length H -> pos (ev :: H) h' = (pos H h' + (if (h =? h')%nat then k else 0))%Z) -> Inv (ev :: H) e' v'.
  Proof.
    intros I Ho Hx Eo Hc Sn Fr V1 V2 Hp. apply (inv_idle H e v); auto.
    - unfold quiet. destruct (pe_call ev); try contradiction; exact Logic.I.
    - destruct (pe_call ev); try contradiction; discriminate.
    - intros h' o fd E1 E2. destruct (obj_open _ _ _ _ _ _ _ _ I E1) as (k' & i & g & (L1 & _) & _). apply opened_lt in L1. rewrite (Hp _ L1).
      destruct (Nat.eqb_spec h h') as [<-|Hne].
      + assert (o = ObS f) by congruence. subst o. cbn [obj_fd] in E2. injection E2 as <-. intros y Hy. assert (y = x) by congruence. subst y.
        rewrite V1. f_equal. f_equal. lia.
      + assert (Hfd : fd <> sq_fd f).
        { intros ->. apply Hne. eapply (i_fd _ _ _ _ _ _ I); [exact Ho|exact E1|reflexivity|exact E2]. }
        rewrite (V2 _ Hfd). destruct o; try reflexivity. intros y Hy. rewrite Hy. destruct y as [ino z b]. cbn [d_ino d_off d_app]. f_equal. f_equal. lia.
  Qed.
  Lemma seq_desc H e v h f : Inv H e v -> oget (p_objs e) h = Some (ObS f) -> exists i g, live H h KSeq i g /\ v_fd v (sq_fd f) = Some (mk_fdesc i (pos H h) false).
  Proof.
    intros I Ho. destruct (obj_open _ _ _ _ _ _ _ _ I Ho) as (k & i & g & L & (-> & _ & X)). exists i, g. split; assumption.
  Qed.

  Lemma step_seq_read h n : step (PSRead h n).
  Proof.
    intros H e v fuel e' q l v' I E L K Sn. cbn [pcall_] in E. destruct (oget (p_objs e) h) as [[f|f|f]|] eqn:Eo; try discriminate.
    destruct (seq_read strerror S os fuel (p_w e) f n) as [[[w st] r]| | |] eqn:Er; cbn [bind] in E; try discriminate. injection E as <- <-. cbn [p_w] in L.
    destruct (seq_desc _ _ _ _ _ I Eo) as (i & g & _ & Hx).
    destruct (seq_read_view _ _ _ _ _ _ _ _ _ _ _ Er L K Hx) as [(Hst & -> & ->)|(-> & d & -> & _ & _ & _ & Hv)]; cbn [observe].
    - apply (inv_seek H e v h f _ _ 0 _ _ I Eo Hx); auto.
      + exact Logic.I.
      + apply frame_refl.
      + rewrite Z.add_0_r. exact Hx.
      + intros h' Hh. cbn [pos pe_call pe_res]. destruct (Nat.eqb_spec h' (length H)); [lia|]. destruct st; [congruence|]. destruct (h =? h'); lia.
    - subst v'. cbn [d_ino d_off d_app] in *. apply (inv_seek H e v h f _ _ (Z.of_nat (length d)) _ _ I Eo Hx); auto.
      + exact Logic.I.
      + apply frame_fd.
      + cbn [with_fd v_fd]. rewrite upd_eq. reflexivity.
      + intros fd Hfd. cbn [with_fd v_fd]. now rewrite upd_ne.
      + intros h' Hh. cbn [pos pe_call pe_res]. destruct (Nat.eqb_spec h' (length H)); [lia|]. destruct (h =? h'); lia.
  Qed.
  Lemma step_seq_skip h n : step (PSSkip h n).
  Proof.
    intros H e v fuel e' q l v' I E L K Sn. cbn [pcall_] in E. destruct (oget (p_objs e) h) as [[f|f|f]|] eqn:Eo; try discriminate.
    unfold seq_skip in E. dosys E w1 a Es Ls. destruct (seq_desc _ _ _ _ _ I Eo) as (i & g & _ & Hx).
    destruct (Z.eqb_spec (a_ret a) (-1)) as [Hr|Hr]; injection E as <- <-; cbn [p_w] in L; rewrite (log1 _ _ _ _ Ls L) in K; apply ksteps_one in K; apply lseek_inv in K; cbn [observe].
    - destruct K as [(_ & ->)|(y & _ & _ & Hy & _)]; [|lia]. apply (inv_err H e v); auto; [apply error_not_ok'|apply frame_refl].
    - destruct K as [(Hy & _)|(y & Hy & Ha & Hz & ->)]; [congruence|]. rewrite Hx in Hy. injection Hy as <-. cbn [d_ino d_off d_app] in *.
      apply (inv_seek H e v h f _ _ (off_t n) _ _ I Eo Hx); auto.
      + exact Logic.I.
      + apply frame_fd.
      + cbn [with_fd v_fd d_ino d_off d_app]. rewrite upd_eq, Ha. reflexivity.
      + intros fd Hfd. cbn [with_fd v_fd]. now rewrite upd_ne.
      + intros h' Hh. cbn [pos pe_call pe_res]. destruct (Nat.eqb_spec h' (length H)); [lia|]. destruct (h =? h'); lia.
  Qed.

  (** ** Writing and deleting *)
  Lemma step_write x h o : wcall x = Some (h, o) -> step x.
  Proof.
    intros Hx H e v fuel e' q l v' I E L K Sn.
    assert (E' : pwrite B strerror S os fuel e h o = Ret (e', q)) by (destruct x; cbn [wcall] in Hx; try discriminate; injection Hx as <- <-; exact E).
    clear E. unfold pwrite in E'. destruct (oget (p_objs e) h) as [[f|f|f]|] eqn:Eo; try discriminate.
    destruct (obj_open _ _ _ _ _ _ _ _ I Eo) as (k & i & g & _ & (_ & _ & _ & (b & Hb) & _)).
    destruct (wstep_ok B strerror S os OK fuel (p_w e) f b o _ Hb eq_refl) as [Ew|(w1 & f1 & st & l1 & b1 & Ew & Q)]; rewrite Ew in E'; [discriminate|]. cbn [bind] in E'.
    injection E' as <- <-. cbn [p_w] in L. pose proof (so_log _ _ _ _ _ _ _ _ _ _ _ _ Q) as Lq. rewrite (log1 _ _ _ _ Lq L) in K. cbn [observe].
    eapply (inv_write B strerror S v0 H e v x h o f b w1 f1 st l1 b1); eauto.
  Qed.
  Lemma step_delete h : step (PDelete h).
  Proof.
    intros H e v fuel e' q l v' I E L K Sn. cbn [pcall_] in E. destruct (oget (p_objs e) h) as [[f|f|f]|] eqn:Eo; try discriminate.
    - destruct (destroy strerror S os fuel (p_w e) f) as [w| | |] eqn:Ed; cbn [bind] in E; try discriminate. injection E as <- <-. cbn [p_w] in L. cbn [observe].
      eapply inv_delete_w; eauto.
    - injection E as <- <-. cbn [p_w] in L. unfold seq_delete in L. destruct (sys_step os (p_w e) (CClose (sq_fd f))) as (w1 & a & Es & Ls). rewrite Es in L. cbn [fst] in L.
      rewrite (log1 _ _ _ _ Ls L) in K. apply ksteps_one in K. apply close_inv in K. subst v'. cbn [observe].
      apply (inv_delete B S v0 H e v h (ObS f)); auto.
      + intros fd Hfd. cbn [obj_fd with_fd v_fd] in *. rewrite upd_ne; congruence.
      + intros j _. split; [reflexivity|apply ext_refl].
    - destruct (ran_delete dbg S os (p_w e) (p_lim e) f) as [[w lim]| | |] eqn:Ed; cbn [bind] in E; try discriminate. injection E as <- <-. cbn [p_w] in L. cbn [observe].
      destruct f as [fd g|g|b len g]; cbn [ran_delete] in Ed.
      + apply assert_ret in Ed. dosys Ed w1 a Es Ls. injection Ed as <- _. rewrite (log1 _ _ _ _ Ls L) in K. apply ksteps_one in K. apply close_inv in K. subst v'.
        apply (inv_delete B S v0 H e v h (ObR (RPerm fd g))); auto.
        * intros y Hy. cbn [obj_fd with_fd v_fd] in *. rewrite upd_ne; congruence.
        * intros j _. split; [reflexivity|apply ext_refl].
      + injection Ed as <- _. apply log0 in L. subst l. apply ksteps_nil in K. subst v'.
        apply (inv_delete B S v0 H e v h (ObR (RTemp g))); auto. intros j _. split; [reflexivity|apply ext_refl].
      + dosys Ed w1 a Es Ls. injection Ed as <- _. rewrite (log1 _ _ _ _ Ls L) in K. apply ksteps_one in K.
        destruct (obj_open _ _ _ _ _ _ _ _ I Eo) as (k & i & g' & _ & (_ & _ & Hm & _)). apply (munmap_inv _ _ _ _ _ i) in K; [|exact Hm]. subst v'.
        apply (inv_delete B S v0 H e v h (ObR (RMmap b len g))); auto; try (intros j _; split; [reflexivity|apply ext_refl]).
        intros y Hy. cbn [obj_map with_map v_map] in *. rewrite upd_ne; congruence.
  Qed.

  Lemma step_call x : step x.
  Proof.
    destruct x.
    - apply step_new_seq.
    - apply step_new_rand.
    - eapply step_new_write. left. eauto.
    - eapply step_new_write. right. eauto.
    - apply step_exists.
    - apply step_children.
    - eapply step_unbind. left. eauto.
    - apply step_size.
    - apply step_rename.
    - apply step_mkdir.
    - eapply step_unbind. right. eauto.
    - apply step_seq_read.
    - apply step_seq_skip.
    - apply step_ran_read.
    - eapply step_write. reflexivity.
    - eapply step_write. reflexivity.
    - eapply step_write. reflexivity.
    - eapply step_write. reflexivity.
    - apply step_delete.
  Qed.

  Lemma preach_inv s0 lim0 H e v : preach dbg B strerror S os v0 s0 lim0 H e v -> Inv H e v.
  Proof.
    induction 1 as [|H e v fuel x e' q l v' R IH Lg E L K]; [apply inv_start; exact SANE|].
    eapply step_call; eauto. eapply ksteps_sane; [exact K|]. apply (i_sane _ _ _ _ _ _ IH).
  Qed.
End Steps.
