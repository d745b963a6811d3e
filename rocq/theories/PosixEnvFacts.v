(** PosixEnvFacts.v -- more about histories of the POSIX environment. *)
From Coq Require Import List Arith NArith ZArith Lia Bool.
From Verif Require Import Outcome Status MemEnv PosixOs PosixWritable PosixWritableSpec PosixWritableProofs PosixRead PosixEnv PosixFs PosixEnvSpec PosixFsProofs PosixEnvProofs PosixEnvSteps PosixEnvAcct PosixEnvResults.
Import ListNotations.
Local Open Scope outcome_scope.

Section Spec.
  Variable old_count : nat.
  Variable old_name : str -> option nat.
  Variable old_data : nat -> list N.
  Notation contents := (contents old_count old_name old_data).
  Notation flushed := (flushed old_count old_name old_data).
  Notation clean := (clean old_count old_name old_data).
  Notation writer := (writer old_count old_name).
  Notation opened := (opened old_count old_name).
  Notation bound := (bound old_count old_name).
  Notation truncates := (truncates old_count old_name).
  Notation writes := (writes old_count old_name).
  Notation visible := (visible old_count old_name old_data).

  Lemma truncates_writer ev H i : truncates ev H i = true -> writer (ev :: H) i = Some (length H).
  Proof.
    unfold PosixEnvSpec.truncates. cbn [PosixEnvSpec.writer]. destruct (pe_call ev); try discriminate. intros E. rewrite E. reflexivity.
  Qed.
  Lemma settled H i : clean H i -> flushed H i <= length (contents H i) /\ (writer H i = None -> flushed H i = length (contents H i)).
  Proof.
    induction H as [|ev H IH]; cbn [PosixEnvSpec.clean]; intros C; [split; [apply le_n|reflexivity]|].
    destruct C as (C & D). specialize (IH C). destruct (truncates ev H i) eqn:Et.
    { pose proof (truncates_writer _ _ _ Et) as Ew. cbn [PosixEnvSpec.flushed PosixEnvSpec.contents]. rewrite Et. cbn [length]. split; [lia|reflexivity]. }
    cbn [PosixEnvSpec.flushed PosixEnvSpec.contents PosixEnvSpec.writer]. rewrite Et. destruct (pe_call ev) eqn:Ec; auto.
    - destruct (done ev && _); [split; [apply IH|discriminate]|exact IH].
    - destruct (done ev && _); [split; [apply IH|discriminate]|exact IH].
    - destruct (done ev && writes H h i) eqn:Ew; [|exact IH]. apply andb_true_iff in Ew as (_ & Ew). destruct (D Ew) as (D1 & _).
      rewrite app_length. split; [lia|congruence].
    - destruct (writes H h i) eqn:Ew.
      + destruct (D eq_refl) as (D1 & D2). rewrite D2. cbn [andb]. split; [lia|reflexivity].
      + rewrite andb_false_r. split; [apply IH|]. destruct (is_file (writer H i) h) eqn:Ef; [|apply IH]. exfalso.
        apply is_file_iff in Ef. assert (X : forall H' j g, PosixEnvSpec.writer old_count old_name H' j = Some g -> PosixEnvSpec.writes old_count old_name H' g j = true); [|rewrite (X _ _ _ Ef) in Ew; discriminate].
        clear. intros H'. induction H' as [|ev H' IH']; intros j g; cbn [PosixEnvSpec.writer]; [discriminate|].
        assert (Keep : PosixEnvSpec.writer old_count old_name H' j = Some g -> PosixEnvSpec.writes old_count old_name (ev :: H') g j = true).
        { intros E. apply IH' in E. unfold PosixEnvSpec.writes in *. destruct (PosixEnvSpec.opened old_count old_name H' g) as [x|] eqn:Eo; [|discriminate].
          assert (Hl : g < length H'). { clear - Eo. revert x Eo. induction H' as [|e H' IH]; cbn [PosixEnvSpec.opened]; [discriminate|]. intros x. cbn [length]. destruct (Nat.eqb_spec g (length H')) as [->|]; [lia|]. intros E. apply IH in E. lia. }
          cbn [PosixEnvSpec.opened]. destruct (Nat.eqb_spec g (length H')); [lia|]. rewrite Eo. exact E. }
        assert (New : forall f, opens (pe_call ev) = Some (KWrite, f) -> (if done ev && is_file (PosixEnvSpec.bound old_count old_name (ev :: H') f) j then Some (length H') else PosixEnvSpec.writer old_count old_name H' j) = Some g -> PosixEnvSpec.writes old_count old_name (ev :: H') g j = true).
        { intros f Eo. destruct (done ev && is_file (PosixEnvSpec.bound old_count old_name (ev :: H') f) j) eqn:Ed; [|exact Keep]. intros E. injection E as <-. apply andb_true_iff in Ed as (Ed & Ef).
          apply is_file_iff in Ef. unfold PosixEnvSpec.writes. cbn [PosixEnvSpec.opened]. rewrite Nat.eqb_refl, Ed, Eo, Ef. apply Nat.eqb_refl. }
        destruct (pe_call ev) eqn:Ec; try exact Keep; try (apply New; reflexivity);
          (destruct (is_file (PosixEnvSpec.writer old_count old_name H' j) h); [discriminate|exact Keep]).
    - destruct (done ev && writes H h i) eqn:Ew; [|exact IH]. apply andb_true_iff in Ew as (_ & Ew). split; [lia|reflexivity].
    - destruct (done ev && writes H h i) eqn:Ew; [|exact IH]. apply andb_true_iff in Ew as (_ & Ew). split; [lia|reflexivity].
    - split; [apply IH|]. destruct (is_file (writer H i) h) eqn:Ef; [|apply IH]. apply is_file_iff in Ef. intros _. apply D. exact Ef.
  Qed.
  (** Nothing is pending when nobody writes. *)
  Lemma visible_settled B H i K : visible B H i K -> clean H i -> writer H i = None -> K = contents H i.
  Proof.
    intros (p & E & _ & Hl) C Hw. destruct (settled H i C) as (_ & S). specialize (S Hw). rewrite E, app_length in S.
    destruct p; [now rewrite app_nil_r in E|cbn in S; lia].
  Qed.
  (** Everything flushed is there. *)
  Lemma visible_flushed B H i K : visible B H i K -> exists rest, K = firstn (flushed H i) (contents H i) ++ rest.
  Proof.
    intros (p & E & _ & Hl). exists (skipn (flushed H i) K). rewrite E, firstn_app. replace (flushed H i - length K) with 0 by lia. cbn [firstn]. rewrite app_nil_r. now rewrite firstn_skipn.
  Qed.

  (** Calls about names only leave files and objects alone. *)
  Lemma names_only_same ev H : names_only (pe_call ev) = true -> forall i h,
    contents (ev :: H) i = contents H i /\ flushed (ev :: H) i = flushed H i /\ writer (ev :: H) i = writer H i /\ (clean H i -> clean (ev :: H) i) /\
    (forall x, opened H h = Some x -> opened (ev :: H) h = Some x) /\ deleted (ev :: H) h = deleted H h /\ (h < length H -> pos (ev :: H) h = pos H h) /\
    (h < length H -> truncated old_count old_name (ev :: H) h = truncated old_count old_name H h).
  Proof.
    intros Hn i h.
    assert (Op : forall x, opened H h = Some x -> opened (ev :: H) h = Some x).
    { intros x E. assert (Hl : h < length H). { revert x E. clear. induction H as [|e H IH]; cbn [PosixEnvSpec.opened]; [discriminate|]. intros x. cbn [length]. destruct (Nat.eqb_spec h (length H)) as [->|]; [lia|]. intros E. apply IH in E. lia. }
      cbn [PosixEnvSpec.opened]. destruct (Nat.eqb_spec h (length H)); [lia|exact E]. }
    split; [|split; [|split; [|split; [|split; [exact Op|]]]]];
      cbn [PosixEnvSpec.contents PosixEnvSpec.flushed PosixEnvSpec.writer PosixEnvSpec.clean PosixEnvSpec.deleted PosixEnvSpec.pos PosixEnvSpec.truncated deletes];
      unfold PosixEnvSpec.truncates; destruct (pe_call ev); try discriminate; cbn [deletes orb]; auto;
      (split; [reflexivity|]; split; intros Hl; destruct (Nat.eqb_spec h (length H)); try lia; try reflexivity; destruct (opened H h) as [[[? ?] ?]|]; now rewrite orb_false_r).
  Qed.
  Lemma names_only_all evs H : Forall (fun ev => names_only (pe_call ev) = true) evs -> forall i h, h < length H ->
    contents (evs ++ H) i = contents H i /\ flushed (evs ++ H) i = flushed H i /\ (clean H i -> clean (evs ++ H) i) /\
    (forall x, opened H h = Some x -> opened (evs ++ H) h = Some x) /\ pos (evs ++ H) h = pos H h /\
    truncated old_count old_name (evs ++ H) h = truncated old_count old_name H h.
  Proof.
    induction 1 as [|ev evs Hn F IH]; intros i h Hl; cbn [app]; [auto 7|]. destruct (IH i h Hl) as (I1 & I2 & I3 & I4 & I5 & I6).
    destruct (names_only_same ev (evs ++ H) Hn i h) as (S1 & S2 & _ & S4 & S5 & _ & S6 & S7). assert (Hl' : h < length (evs ++ H)) by (rewrite app_length; lia).
    rewrite S1, S2, S6, S7 by exact Hl'. auto 7.
  Qed.
  Lemma names_only_visible B evs H i K : Forall (fun ev => names_only (pe_call ev) = true) evs -> 0 < length H -> visible B (evs ++ H) i K -> visible B H i K.
  Proof.
    intros F Hl (p & E & Hp & Hf). destruct (names_only_all evs H F i 0 Hl) as (S1 & S2 & _). exists p. rewrite S1 in E. rewrite S2 in Hf. auto.
  Qed.
End Spec.

Section Facts.
  Variable dbg : bool.
  Variable B : nat.
  Variable strerror : Z -> str.
  Variable S : Type.
  Variable os : S -> syscall -> S * answer.
  Variable v0 : view.
  Hypothesis OK : os_ok os.
  Hypothesis SANE : sane v0.
  Notation live := (live (v_next v0) (v_name v0)).
  Notation Inv := (Inv B S v0).
  Notation preach := (preach dbg B strerror S os v0).
  Notation pcall_ := (pcall_ dbg B strerror S os).

  (** ** Closed writers *)
  Definition shut (H : history) (e : penv S) : Prop := forall h f, oget (p_objs e) h = Some (ObW f) -> ((f_fd f < 0)%Z <-> was_closed H h = true).
  Lemma was_closed_new H h : (forall ev h', In ev H -> pe_call ev = PWClose h' -> h' < length H) -> length H <= h -> was_closed H h = false.
  Proof.
    intros F Hl. unfold was_closed. destruct (existsb _ H) eqn:E; [|reflexivity]. apply existsb_exists in E as (ev & Hin & Ev).
    destruct (pe_call ev) eqn:Ec; try discriminate. apply Nat.eqb_eq in Ev. subst. pose proof (F _ _ Hin Ec). lia.
  Qed.
  Lemma preach_close_lt s0 lim0 H e v : preach s0 lim0 H e v -> forall ev h, In ev H -> pe_call ev = PWClose h -> h < length H.
  Proof.
    induction 1 as [|H e v fuel x e' q l v' R IH Lg E L K]; intros ev h Hin Ec; [contradiction|]. cbn [length]. destruct Hin as [<-|Hin]; [|pose proof (IH _ _ Hin Ec); lia].
    cbn [pe_call] in Ec. subst x. destruct Lg as (i & f & (Lo & _)). apply opened_lt in Lo. lia.
  Qed.
  Lemma shut_other H e ev e' : shut H e -> (forall h, pe_call ev <> PWClose h) ->
    (forall h f, oget (p_objs e') h = Some (ObW f) -> exists f0, oget (p_objs e) h = Some (ObW f0) /\ f_fd f = f_fd f0) -> shut (ev :: H) e'.
  Proof.
    intros Hs Hc Ho h f E. destruct (Ho _ _ E) as (f0 & E0 & ->). rewrite (Hs _ _ E0). unfold was_closed. cbn [existsb].
    destruct (pe_call ev) eqn:Ec; try reflexivity. exfalso. eapply Hc. reflexivity.
  Qed.
  Lemma shut_call s0 lim0 H e v fuel x e' q l v' : preach s0 lim0 H e v -> Inv H e v -> shut H e ->
    pcall_ fuel e (length H) x = Ret (e', q) -> w_log (p_w e') = w_log (p_w e) ++ l -> ksteps v l v' -> shut (mk_pev x (observe v' q) :: H) e'.
  Proof.
    intros P I M E L K.
    assert (Id : forall w lim, (forall h, x <> PWClose h) -> shut (mk_pev x (observe v' q) :: H) (mk_penv w lim (p_objs e))).
    { intros w lim Hx. apply (shut_other H e); [exact M|exact Hx|]. intros h f Ho. exists f. auto. }
    assert (Nw : forall w lim o, x <> PDelete (length H) -> (forall h, x <> PWClose h) -> (forall f, o = Some (ObW f) -> (0 <= f_fd f)%Z) ->
                 forall st q', pnew S e w lim (length H) o st = (e', q') -> shut (mk_pev x (observe v' q) :: H) e').
    { intros w lim o _ Hx Hf st q' En. unfold pnew in En. injection En as <- _. destruct o as [o|]; [|apply Id; exact Hx].
      intros h f Ho. cbn [p_objs oget] in Ho. destruct (Nat.eqb_spec (length H) h) as [<-|Hn].
      - injection Ho as ->. specialize (Hf f eq_refl). split; [lia|]. intros Ec. exfalso.
        assert (X : was_closed (mk_pev x (observe v' q) :: H) (length H) = was_closed H (length H)).
        { unfold was_closed. cbn [existsb pe_call]. destruct x; try reflexivity. exfalso. eapply Hx. reflexivity. }
        rewrite X, (was_closed_new H (length H)) in Ec; [discriminate|eapply preach_close_lt; exact P|lia].
      - rewrite (M _ _ Ho). unfold was_closed. cbn [existsb pe_call]. destruct x; try reflexivity. exfalso. eapply Hx. reflexivity. }
    assert (Wr : forall h o, pwrite B strerror S os fuel e h o = Ret (e', q) -> o <> OpClose -> (forall h, x <> PWClose h) -> shut (mk_pev x (observe v' q) :: H) e').
    { intros h o Ew Ho Hx. unfold pwrite in Ew. destruct (oget (p_objs e) h) as [[f|f|f]|] eqn:Eo; try discriminate.
      destruct (obj_open _ _ _ _ _ _ _ _ I Eo) as (k & i & g & _ & Ok). cbn [obj_ok] in Ok. destruct Ok as (_ & _ & _ & (b & Br) & _).
      destruct (wstep B strerror S os fuel (p_w e) f o) as [[[w f'] st]| | |] eqn:Es; cbn [bind] in Ew; try discriminate. injection Ew as <- _.
      destruct (wstep_ok B strerror S os OK fuel (p_w e) f b o _ Br Es) as [Ex|(w1 & f1 & st1 & l1 & b1 & Ex & Q)]; [discriminate|]. injection Ex as <- <- <-.
      pose proof (so_fd _ _ _ _ _ _ _ _ _ _ _ _ Q) as Hfd. apply (shut_other H e); [exact M|exact Hx|]. intros h' f2. cbn [p_objs]. rewrite oget_oset by congruence.
      destruct (Nat.eqb_spec h h') as [<-|]; [|intros E2; exists f2; auto]. intros E2. injection E2 as <-. exists f. split; [exact Eo|]. rewrite Hfd. destruct o; try reflexivity. congruence. }
    destruct x; cbn [PosixEnv.pcall_] in E.
    - destruct (new_sequential strerror S os (p_w e) f) as [[w o] st]. apply ret_inj in E. eapply Nw; [discriminate|discriminate| |exact E]. destruct o; discriminate.
    - destruct (new_random strerror S os (p_w e) (p_lim e) f) as [[[w lim] o] st]. apply ret_inj in E. eapply Nw; [discriminate|discriminate| |exact E]. destruct o; discriminate.
    - destruct (NewWritableFile dbg B strerror S os (p_w e) f) as [[[w o] st]| | |] eqn:En; cbn [bind] in E; try discriminate. apply ret_inj in E. eapply Nw; [discriminate|discriminate| |exact E].
      intros f0 Ef. destruct o as [o|]; [|discriminate]. injection Ef as ->. unfold NewWritableFile, new_writable in En. dosys En w1 a Es Ls. destruct (Z.ltb_spec (a_ret a) 0); [discriminate|].
      destruct (new_wfile_ok dbg B f (a_ret a)) as (m & d & Ew & _). rewrite Ew in En. cbn [bind] in En. injection En as _ <-. cbn [f_fd]. lia.
    - destruct (NewAppendableFile dbg B strerror S os (p_w e) f) as [[[w o] st]| | |] eqn:En; cbn [bind] in E; try discriminate. apply ret_inj in E. eapply Nw; [discriminate|discriminate| |exact E].
      intros f0 Ef. destruct o as [o|]; [|discriminate]. injection Ef as ->. unfold NewAppendableFile, new_writable in En. dosys En w1 a Es Ls. destruct (Z.ltb_spec (a_ret a) 0); [discriminate|].
      destruct (new_wfile_ok dbg B f (a_ret a)) as (m & d & Ew & _). rewrite Ew in En. cbn [bind] in En. injection En as _ <-. cbn [f_fd]. lia.
    - destruct (file_exists S os (p_w e) f) as [w b]. injection E as <- <-. apply Id. discriminate.
    - destruct (get_children strerror S os fuel (p_w e) d) as [[[w st] r]| | |]; cbn [bind] in E; try discriminate. injection E as <- <-. apply Id. discriminate.
    - destruct (remove_file strerror S os (p_w e) f) as [w b]. injection E as <- <-. apply Id. discriminate.
    - destruct (get_file_size strerror S os (p_w e) f) as [[w b] st]. injection E as <- <-. apply Id. discriminate.
    - destruct (rename_file strerror S os (p_w e) a b) as [w st]. injection E as <- <-. apply Id. discriminate.
    - destruct (create_dir strerror S os (p_w e) d) as [w st]. injection E as <- <-. apply Id. discriminate.
    - destruct (remove_dir strerror S os (p_w e) d) as [w st]. injection E as <- <-. apply Id. discriminate.
    - destruct (oget (p_objs e) h) as [[f|f|f]|]; try discriminate. destruct (seq_read strerror S os fuel (p_w e) f n) as [[[w st] r]| | |]; cbn [bind] in E; try discriminate.
      injection E as <- <-. apply Id. discriminate.
    - destruct (oget (p_objs e) h) as [[f|f|f]|]; try discriminate. destruct (seq_skip strerror S os (p_w e) f n) as [w st]. injection E as <- <-. apply Id. discriminate.
    - destruct (oget (p_objs e) h) as [[f|f|f]|]; try discriminate. destruct (ran_read dbg strerror S os (p_w e) f off n) as [[[w st] r]| | |]; cbn [bind] in E; try discriminate.
      injection E as <- <-. apply Id. discriminate.
    - eapply Wr; [exact E|discriminate|discriminate].
    - (* Close *)
      unfold pwrite in E. destruct (oget (p_objs e) h) as [[f|f|f]|] eqn:Eo; try discriminate.
      destruct (obj_open _ _ _ _ _ _ _ _ I Eo) as (k & i & g & _ & Ok). cbn [obj_ok] in Ok. destruct Ok as (_ & _ & _ & (b & Br) & _).
      destruct (wstep B strerror S os fuel (p_w e) f OpClose) as [[[w f'] st]| | |] eqn:Es; cbn [bind] in E; try discriminate. injection E as <- _.
      destruct (wstep_ok B strerror S os OK fuel (p_w e) f b OpClose _ Br Es) as [Ex|(w1 & f1 & st1 & l1 & b1 & Ex & Q)]; [discriminate|]. injection Ex as <- <- <-.
      pose proof (so_fd _ _ _ _ _ _ _ _ _ _ _ _ Q) as Hfd. cbn [is_close] in Hfd. intros h' f2. cbn [p_objs]. rewrite oget_oset by congruence.
      unfold was_closed. cbn [existsb pe_call]. destruct (Nat.eqb_spec h h') as [<-|Hn]; intros E2.
      + injection E2 as <-. cbn [orb]. split; [reflexivity|lia].
      + cbn [orb]. apply M. exact E2.
    - eapply Wr; [exact E|discriminate|discriminate].
    - eapply Wr; [exact E|discriminate|discriminate].
    - assert (Dl : exists w lim, e' = mk_penv w lim (odel (p_objs e) h)).
      { destruct (oget (p_objs e) h) as [[f|f|f]|]; try discriminate.
        - destruct (destroy strerror S os fuel (p_w e) f); cbn [bind] in E; try discriminate. injection E as <- <-. eauto.
        - injection E as <- <-. eauto.
        - destruct (ran_delete dbg S os (p_w e) (p_lim e) f) as [[w lim]| | |]; cbn [bind] in E; try discriminate. injection E as <- <-. eauto. }
      destruct Dl as (w & lim & ->). apply (shut_other H e); [exact M|discriminate|]. intros h' f. cbn [p_objs]. rewrite oget_odel. destruct (h =? h'); [discriminate|eauto].
  Qed.
  Lemma preach_shut s0 lim0 H e v : preach s0 lim0 H e v -> shut H e.
  Proof.
    induction 1 as [|H e v fuel x e' q l v' R IH Lg E L K]; [intros h f Ho; discriminate|].
    eapply shut_call; eauto. eapply preach_inv; eauto.
  Qed.

  Lemma fd_holder s0 lim0 H e v : preach s0 lim0 H e v -> forall h, holds_fd (v_next v0) (v_name v0) (l_mmap lim0, l_fd lim0) H h <-> exists o fd, oget (p_objs e) h = Some o /\ obj_fd o = Some fd.
  Proof.
    intros P h. pose proof (preach_inv dbg B strerror S os v0 OK SANE _ _ _ _ _ P) as I. pose proof (preach_acct dbg B strerror S os v0 lim0 OK SANE _ _ _ _ P) as C. pose proof (preach_shut _ _ _ _ _ P) as Sh.
    split.
    - intros (k & i & f & L & Hk). destruct (live_obj B S v0 _ _ _ _ _ _ _ I L) as (o & Eo & Ok). exists o. destruct o as [f1|f1|f1]; cbn [obj_ok] in Ok.
      + destruct Ok as (-> & _). exists (f_fd f1). split; [exact Eo|]. cbn [obj_fd]. destruct (Z.leb_spec 0 (f_fd f1)) as [|Hn]; [reflexivity|]. apply (Sh _ _ Eo) in Hn. congruence.
      + exists (sq_fd f1). auto.
      + pose proof (c_how _ _ _ _ _ _ C _ _ Eo) as Hw. assert (k = KRand) as -> by (destruct f1; destruct Ok; assumption). rewrite Hk in Hw.
        destruct f1; cbn [obj_access] in Hw; try discriminate. exists fd. auto.
    - intros (o & fd & Eo & Ef). destruct (obj_open _ _ _ _ _ _ _ _ I Eo) as (k & i & g & L & Ok). exists k, i, g. split; [exact L|]. destruct o as [f1|f1|f1]; cbn [obj_ok] in Ok.
      + destruct Ok as (-> & _). cbn [obj_fd] in Ef. destruct (Z.leb_spec 0 (f_fd f1)); [|discriminate]. destruct (was_closed H h) eqn:Ew; [|reflexivity]. apply (Sh _ _ Eo) in Ew. lia.
      + destruct Ok as (-> & _). exact Logic.I.
      + pose proof (c_how _ _ _ _ _ _ C _ _ Eo) as Hw. assert (k = KRand) as -> by (destruct f1; destruct Ok; assumption). destruct f1; try discriminate. exact Hw.
  Qed.
  Lemma map_holder s0 lim0 H e v : preach s0 lim0 H e v -> forall h, holds_map (v_next v0) (v_name v0) (l_mmap lim0, l_fd lim0) H h <-> exists o b, oget (p_objs e) h = Some o /\ obj_map o = Some b.
  Proof.
    intros P h. pose proof (preach_inv dbg B strerror S os v0 OK SANE _ _ _ _ _ P) as I. pose proof (preach_acct dbg B strerror S os v0 lim0 OK SANE _ _ _ _ P) as C.
    split.
    - intros (i & f & L & Hk). destruct (live_obj B S v0 _ _ _ _ _ _ _ I L) as (o & Eo & Ok). pose proof (c_how _ _ _ _ _ _ C _ _ Eo) as Hw. rewrite Hk in Hw.
      destruct o as [f1|f1|[fd g|g|b m g]]; try discriminate. exists (ObR (RMmap b m g)), b. auto.
    - intros (o & b & Eo & Ef). destruct (obj_open _ _ _ _ _ _ _ _ I Eo) as (k & i & g & L & Ok). pose proof (c_how _ _ _ _ _ _ C _ _ Eo) as Hw.
      destruct o as [f1|f1|[fd g'|g'|b' m g']]; try discriminate. cbn [obj_ok] in Ok. destruct Ok as (-> & _). exists i, g. auto.
  Qed.
End Facts.
