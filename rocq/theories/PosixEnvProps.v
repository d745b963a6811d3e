(** PosixEnvProps.v -- the theorems about the POSIX environment as a whole. *)
From Coq Require Import List Arith NArith ZArith Lia Bool.
From Verif Require Import Outcome Status MemEnv PosixOs PosixWritable PosixWritableSpec PosixWritableProofs PosixRead PosixEnv PosixFs PosixEnvSpec PosixFsProofs PosixEnvProofs PosixEnvSteps PosixEnvAcct PosixEnvResults PosixEnvFacts PosixKernel PosixEnvSafe PosixEnvRun.
Import ListNotations.
Local Open Scope outcome_scope.

Section Props.
  Variable dbg : bool.
  Variable B : nat.
  Variable strerror : Z -> str.
  Variable S : Type.
  Variable os : S -> syscall -> S * answer.
  Variable v0 : view.
  Variable s0 : S.
  Variable lim0 : limits.
  Notation bound := (bound (v_next v0) (v_name v0)).
  Notation opened := (opened (v_next v0) (v_name v0)).
  Notation live := (live (v_next v0) (v_name v0)).
  Notation legal := (legal (v_next v0) (v_name v0)).
  Notation truncated := (truncated (v_next v0) (v_name v0)).
  Notation truthful := (truthful (v_next v0) (v_name v0)).
  Notation writer := (writer (v_next v0) (v_name v0)).
  Notation contents := (contents (v_next v0) (v_name v0) (v_data v0)).
  Notation flushed := (flushed (v_next v0) (v_name v0) (v_data v0)).
  Notation synced_bytes := (synced_bytes (v_next v0) (v_name v0) (v_data v0)).
  Notation clean := (clean (v_next v0) (v_name v0) (v_data v0)).
  Notation visible := (visible (v_next v0) (v_name v0) (v_data v0)).
  Notation entry_synced := (entry_synced (v_next v0) (v_name v0)).
  Notation free0 := (l_mmap lim0, l_fd lim0).
  Notation holds_fd := (holds_fd (v_next v0) (v_name v0) free0).
  Notation holds_map := (holds_map (v_next v0) (v_name v0) free0).
  Notation access_of := (access_of free0).
  Notation happens := (happens dbg B strerror S os v0 s0 lim0).
  Notation pcall_ := (pcall_ dbg B strerror S os).
  Notation PosixError := (PosixError strerror).

  (** ** C74: names *)
  (** Every result tells the truth about the names as the history made them. *)
  Theorem C74_names_truthful : forall H e v x r, happens (mk_pev x r :: H) e v -> truthful H x r.
  Proof.
    intros H e v x r (OK & SN & P). apply preach_last in P as (e0 & v1 & fuel & q & l & P & Lg & E & L & K & ->).
    eapply truthful_call; eauto. eapply preach_inv; eauto.
  Qed.
  (** FileExists says no only if there is none, as long as access() fails for no other reason. *)
  Theorem C74_exists_false : forall H e v f, happens (mk_pev (PExists f) (RBool false) :: H) e v ->
    (forall l a, w_log (p_w e) = l ++ [(CAccess f, a)] -> a_ret a <> 0%Z -> a_errno a = ENOENT) -> bound H f = None.
  Proof.
    intros H e v f (OK & SN & P) Hno. apply preach_last in P as (e0 & v1 & fuel & q & l & P & Lg & E & L & K & Er).
    pose proof (preach_inv dbg B strerror S os v0 OK SN _ _ _ _ _ P) as I. cbn [PosixEnv.pcall_] in E. unfold file_exists in E. dosys E w1 a Es Ls.
    injection E as <- <-. cbn [observe p_w] in *. injection Er as Er. symmetry in Er. apply Z.eqb_neq in Er. pose proof (Hno _ _ Ls Er) as He.
    rewrite (log1 _ _ _ _ Ls L) in K. apply ksteps_one in K. apply access_inv in K. rewrite <- (i_name _ _ _ _ _ _ I). destruct K as (_ & [(_ & Hx)|(Hx & _)]); [auto|congruence].
  Qed.
  (** One system call with the caller's arguments, and its answer passed on. *)
  Theorem C74_one_system_call : forall fuel e n x c ctx e' q, asks x = Some (c, ctx) -> pcall_ fuel e n x = Ret (e', q) ->
    exists a, w_log (p_w e') = w_log (p_w e) ++ [(c, a)] /\ (forall v, observe v q = answers strerror x ctx a) /\ p_objs e' = p_objs e /\ p_lim e' = p_lim e.
  Proof.
    assert (Err : forall ctx a, (if negb (a_ret a =? 0)%Z then PosixError ctx (a_errno a) else SOk) = status_of strerror (if (a_ret a =? 0)%Z then None else Some (ctx, a_errno a))).
    { intros ctx a. destruct (a_ret a =? 0)%Z; cbn [negb]; [reflexivity|apply error_status]. }
    intros fuel e n x c ctx e' q Ha E. destruct x; try discriminate; injection Ha as <- <-; cbn [PosixEnv.pcall_] in E.
    - unfold file_exists in E. dosys E w1 a Es Ls. injection E as <- <-. exists a. auto.
    - unfold remove_file in E. dosys E w1 a Es Ls. injection E as <- <-. exists a. cbn [observe answers]. rewrite Err. auto.
    - unfold get_file_size in E. dosys E w1 a Es Ls. exists a. destruct (a_ret a =? 0)%Z eqn:Ez; cbn [negb] in E; injection E as <- <-; cbn [observe answers]; rewrite Ez; repeat split; auto.
      intros _. f_equal. apply error_status.
    - unfold rename_file in E. dosys E w1 an Es Ls. injection E as <- <-. exists an. cbn [observe answers]. rewrite Err. auto.
    - unfold create_dir in E. dosys E w1 a Es Ls. injection E as <- <-. exists a. cbn [observe answers]. rewrite Err. auto.
    - unfold remove_dir in E. dosys E w1 a Es Ls. injection E as <- <-. exists a. cbn [observe answers]. rewrite Err. auto.
  Qed.

  (** ** C75: contents *)
  Theorem C75_sequential_read : forall H e v h n d i f, happens (mk_pev (PSRead h n) (RData SOk d) :: H) e v ->
    live H h KSeq i f -> clean H i -> exists K, visible B H i K /\ piece d K (Z.to_nat (pos H h)) n.
  Proof.
    intros H e v h n d i f (OK & SN & P) L C. apply preach_last in P as (e0 & v1 & fuel & q & l & P & Lg & E & Ll & K & Er).
    pose proof (preach_inv dbg B strerror S os v0 OK SN _ _ _ _ _ P) as I. exists (v_data v1 i).
    split; [eapply visible_data; eauto; eapply (i_lt _ _ _ _ _ _ I); apply L|].
    pose proof E as E1. cbn [PosixEnv.pcall_] in E1. destruct (oget (p_objs e0) h) as [[f0|f0|f0]|] eqn:Eo; try discriminate.
    destruct (seq_read strerror S os fuel (p_w e0) f0 n) as [[[w st] r]| | |] eqn:Es; cbn [bind] in E1; try discriminate. injection E1 as E1 Eq. subst q.
    assert (Hr : r = Untouched \/ exists b, r = Bytes b).
    { clear - Es. revert w st r Es. generalize (p_w e0). induction fuel as [|fuel IH]; intros w0 w st r Es; cbn [seq_read] in Es; [discriminate|]. dosys Es w1 a Ey Ls.
      destruct (_ <? _)%Z; [destruct (_ =? _)%Z; [eauto|injection Es as _ _ <-; auto]|]. destruct (_ <? _)%Z; [discriminate|]. injection Es as _ _ <-. eauto. }
    destruct Hr as [->|(b & ->)]; cbn [observe] in Er.
    - exfalso. injection Er as <- ->. clear - Es. revert w Es. generalize (p_w e0). induction fuel as [|fuel IH]; intros w0 w Es; cbn [seq_read] in Es; [discriminate|]. dosys Es w1 a Ey Ls.
      destruct (_ <? _)%Z; [destruct (_ =? _)%Z; [eauto|injection Es as _ Ex; now apply error_not_ok' in Ex]|]. destruct (_ <? _)%Z; discriminate.
    - injection Er as <- <-. eapply seq_result; eauto.
  Qed.
  Theorem C75_file_size : forall H e v f n, happens (mk_pev (PSize f) (RSize SOk n) :: H) e v ->
    exists i, bound H f = Some i /\ (clean H i -> exists K, visible B H i K /\ n = N.of_nat (length K)).
  Proof.
    intros H e v f n (OK & SN & P). apply preach_last in P as (e0 & v1 & fuel & q & l & P & Lg & E & L & K & Er).
    pose proof (preach_inv dbg B strerror S os v0 OK SN _ _ _ _ _ P) as I.
    assert (q = QSize SOk n) as ->. { destruct q as [| | |st k|st r]; cbn [observe] in Er; try discriminate; [congruence|]. destruct r; try discriminate. destruct (v_map v base) as [[? ?]|]; [destruct (_ <=? _)%N|]; discriminate. }
    destruct (size_result dbg B strerror S os v0 _ _ _ _ _ _ _ _ _ I E L K) as (i & Hi & ->). exists i. split; [exact Hi|]. intros C. exists (v_data v1 i). split; [|reflexivity].
    eapply visible_data; eauto. eapply old_name; eauto. rewrite (i_name _ _ _ _ _ _ I). exact Hi.
  Qed.
  (** Once nobody writes the file, what is there is everything appended. *)
  Theorem C75_settled : forall H i K, visible B H i K -> clean H i -> writer H i = None -> K = contents H i.
  Proof. intros H i K. apply visible_settled. Qed.
  (** Whatever was flushed can be read. *)
  Theorem C75_flushed : forall H i K, visible B H i K -> exists rest, K = firstn (flushed H i) (contents H i) ++ rest.
  Proof. intros H i K. apply visible_flushed. Qed.
  (** A random-access read that goes to the file; through a name, it is the file the name stands for now. *)
  Theorem C75_random_read : forall H e v h off n d i f, happens (mk_pev (PRRead h off n) (RData SOk d) :: H) e v ->
    live H h KRand i f -> access_of H h <> Some ByMap ->
    exists j, match access_of H h with Some ByName => bound H f = Some j | _ => j = i end /\
      (clean H j -> exists K, visible B H j K /\ piece d K (N.to_nat off) n).
  Proof.
    intros H e v h off n d i f (OK & SN & P) L Hm. apply preach_last in P as (e0 & v1 & fuel & q & l & P & Lg & E & Ll & K & Er).
    pose proof (preach_inv dbg B strerror S os v0 OK SN _ _ _ _ _ P) as I. pose proof (preach_acct dbg B strerror S os v0 lim0 OK SN _ _ _ _ P) as C.
    assert (q = QData SOk (Bytes d)) as ->.
    { pose proof E as E1. cbn [PosixEnv.pcall_] in E1. destruct (oget (p_objs e0) h) as [[f0|f0|f0]|] eqn:Eo; try discriminate. pose proof (c_how _ _ _ _ _ _ C _ _ Eo) as Hw.
      destruct f0 as [fd g|g|b len g]; cbn [obj_access] in Hw; [| |congruence]; cbn [ran_read] in E1.
      - destruct (assert_ dbg (negb (fd =? -1)%Z)) as [u| | |]; cbn [bind] in E1; try discriminate. dosys E1 w1 a Ey Ls. destruct (_ <? _)%Z; [discriminate|]. cbn [bind] in E1.
        injection E1 as _ <-. cbn [observe] in Er. congruence.
      - dosys E1 w1 a Ey Ls. destruct (_ <? _)%Z; cbn [bind] in E1; [injection E1 as _ <-; cbn [observe] in Er; injection Er as Ex _; symmetry in Ex; now apply error_not_ok' in Ex|].
        destruct (assert_ dbg (negb (a_ret a =? -1)%Z)) as [u| | |]; cbn [bind] in E1; try discriminate. dosys E1 w2 a2 Ey2 Ls2. destruct (Z.of_N n <? a_ret a2)%Z; [discriminate|]. cbn [bind] in E1.
        dosys E1 w3 a3 Ey3 Ls3. cbn [bind] in E1. injection E1 as _ <-. cbn [observe] in Er. congruence. }
    assert (Vd : forall j, j < v_next v1 -> clean H j -> visible B H j (v_data v1 j)) by (intros j Hj Cj; eapply visible_data; eauto).
    cbn [PosixEnvSpec.legal] in Lg. destruct Lg as (Ho & _).
    destruct (ran_result_fd dbg B strerror S os v0 _ _ _ _ _ _ _ _ _ _ _ _ _ lim0 I C E Ll K L ltac:(lia)) as [(Ha & Pc)|(Ha & j & Hj & Pc)]; rewrite Ha.
    - exists i. split; [reflexivity|]. intros Cl. exists (v_data v1 i). split; [|exact Pc]. apply Vd; [eapply (i_lt _ _ _ _ _ _ I); apply L|exact Cl].
    - exists j. split; [exact Hj|]. intros Cl. exists (v_data v1 j). split; [|exact Pc]. apply Vd; [|exact Cl]. eapply old_name; eauto. rewrite (i_name _ _ _ _ _ _ I). exact Hj.
  Qed.
  (** A read that fails delivers nothing. *)
  Theorem C75_failed_read_empty : forall H e v x st d, happens (mk_pev x (RData st d) :: H) e v -> st <> SOk -> d = [].
  Proof.
    intros H e v x st d (OK & SN & P) Hst. apply preach_last in P as (e0 & v1 & fuel & q & l & P & Lg & E & Ll & K & Er).
    assert (W : forall h o, pwrite B strerror S os fuel e0 h o = Ret (e, q) -> d = []).
    { intros h o Ew. unfold pwrite in Ew. destruct (oget (p_objs e0) h) as [[f0|f0|f0]|]; try discriminate. destruct (wstep _ _ _ _ _ _ _ _) as [[[w f'] s1]| | |]; cbn [bind] in Ew; try discriminate. injection Ew as _ <-. discriminate. }
    destruct x; cbn [PosixEnv.pcall_] in E; eauto.
    - destruct (new_sequential strerror S os (p_w e0) f) as [[w o] st']. apply ret_inj in E. unfold pnew in E. injection E as _ <-. discriminate.
    - destruct (new_random strerror S os (p_w e0) (p_lim e0) f) as [[[w lim] o] st']. apply ret_inj in E. unfold pnew in E. injection E as _ <-. discriminate.
    - destruct (NewWritableFile dbg B strerror S os (p_w e0) f) as [[[w o] st']| | |]; cbn [bind] in E; try discriminate. apply ret_inj in E. unfold pnew in E. injection E as _ <-. discriminate.
    - destruct (NewAppendableFile dbg B strerror S os (p_w e0) f) as [[[w o] st']| | |]; cbn [bind] in E; try discriminate. apply ret_inj in E. unfold pnew in E. injection E as _ <-. discriminate.
    - destruct (file_exists S os (p_w e0) f) as [w b]. injection E as _ <-. discriminate.
    - destruct (get_children strerror S os fuel (p_w e0) d0) as [[[w st'] r]| | |]; cbn [bind] in E; try discriminate. injection E as _ <-. discriminate.
    - destruct (remove_file strerror S os (p_w e0) f) as [w b]. injection E as _ <-. discriminate.
    - destruct (get_file_size strerror S os (p_w e0) f) as [[w b] st']. injection E as _ <-. discriminate.
    - destruct (rename_file strerror S os (p_w e0) a b) as [w st']. injection E as _ <-. discriminate.
    - destruct (create_dir strerror S os (p_w e0) d0) as [w st']. injection E as _ <-. discriminate.
    - destruct (remove_dir strerror S os (p_w e0) d0) as [w st']. injection E as _ <-. discriminate.
    - destruct (oget (p_objs e0) h) as [[f|f|f]|]; try discriminate. destruct (seq_read strerror S os fuel (p_w e0) f n) as [[[w st'] r]| | |] eqn:Es; cbn [bind] in E; try discriminate.
      injection E as _ <-. assert (Q : st' = SOk \/ r = Untouched).
      { clear - Es. revert w st' r Es. generalize (p_w e0). induction fuel as [|fuel IH]; intros w0 w st r Es; cbn [seq_read] in Es; [discriminate|]. dosys Es w1 a Ey Ls.
        destruct (_ <? _)%Z; [destruct (_ =? _)%Z; [eauto|injection Es as _ _ <-; auto]|]. destruct (_ <? _)%Z; [discriminate|]. injection Es as _ <- _. auto. }
      destruct Q as [->| ->]; cbn [observe] in Er; [|congruence]. destruct r; cbn in Er; try congruence. destruct (v_map v base) as [[? ?]|]; [destruct (_ <=? _)%N|]; congruence.
    - destruct (oget (p_objs e0) h) as [[f|f|f]|]; try discriminate. destruct (seq_skip strerror S os (p_w e0) f n) as [w st']. injection E as _ <-. discriminate.
    - destruct (oget (p_objs e0) h) as [[f|f|f]|]; try discriminate. destruct (ran_read dbg strerror S os (p_w e0) f off n) as [[[w st'] r]| | |] eqn:Es; cbn [bind] in E; try discriminate.
      injection E as _ <-. destruct f as [fd g|g|b len g]; cbn [ran_read] in Es.
      + apply assert_ret in Es. dosys Es w1 a Ey Ls. destruct (_ <? _)%Z; [discriminate|]. injection Es as _ <- <-. cbn [observe] in Er. injection Er as -> ->.
        destruct (Z.ltb_spec (a_ret a) 0); [|congruence]. replace (Z.to_nat (a_ret a)) with 0 by lia. reflexivity.
      + dosys Es w1 a Ey Ls. destruct (_ <? _)%Z; [injection Es as _ <- <-; cbn [observe] in Er; congruence|]. apply assert_ret in Es. dosys Es w2 a2 Ey2 Ls2. destruct (Z.of_N n <? a_ret a2)%Z; [discriminate|].
        apply assert_ret in Es. dosys Es w3 a3 Ey3 Ls3. injection Es as _ <- <-. cbn [observe] in Er. injection Er as -> ->.
        destruct (Z.ltb_spec (a_ret a2) 0); [|congruence]. replace (Z.to_nat (a_ret a2)) with 0 by lia. reflexivity.
      + destruct (_ <? _)%N; injection Es as _ <- <-; cbn [observe] in Er; [congruence|]. destruct (v_map v b) as [[? ?]|]; [destruct (_ <=? _)%N|]; congruence.
    - destruct (oget (p_objs e0) h) as [[f|f|f]|]; try discriminate.
      + destruct (destroy strerror S os fuel (p_w e0) f); cbn [bind] in E; try discriminate. injection E as _ <-. discriminate.
      + injection E as _ <-. discriminate.
      + destruct (ran_delete dbg S os (p_w e0) (p_lim e0) f) as [[w lim]| | |]; cbn [bind] in E; try discriminate. injection E as _ <-. discriminate.
  Qed.

  (** ** C76: open readers *)
  (** Removing, renaming and replacing files does not disturb an open sequential reader ... *)
  Theorem C76_sequential_reader_undisturbed : forall H evs e v h n d i f,
    happens (mk_pev (PSRead h n) (RData SOk d) :: evs ++ H) e v -> Forall (fun ev => names_only (pe_call ev) = true) evs ->
    opened H h = Some (KSeq, i, f) -> clean H i -> exists K, visible B H i K /\ piece d K (Z.to_nat (pos H h)) n.
  Proof.
    intros H evs e v h n d i f P F Op C. pose proof (opened_lt v0 _ _ _ Op) as Hl.
    destruct (names_only_all (v_next v0) (v_name v0) (v_data v0) evs H F i h Hl) as (_ & _ & S3 & S4 & S5 & _).
    assert (L : live (evs ++ H) h KSeq i f).
    { split; [apply S4; exact Op|]. destruct P as (_ & _ & P). apply preach_last in P as (e0 & v1 & fuel & q & l & P & Lg & _). destruct Lg as (_ & i' & f' & (_ & Ld)). exact Ld. }
    destruct (C75_sequential_read _ _ _ _ _ _ _ _ P L (S3 C)) as (K & Vk & Pc). exists K. rewrite S5 in Pc. split; [|exact Pc].
    eapply names_only_visible; [exact F|lia|exact Vk].
  Qed.
  (** ... nor a random-access reader that has a descriptor. *)
  Theorem C76_random_reader_undisturbed : forall H evs e v h off n d i f,
    happens (mk_pev (PRRead h off n) (RData SOk d) :: evs ++ H) e v -> Forall (fun ev => names_only (pe_call ev) = true) evs ->
    opened H h = Some (KRand, i, f) -> access_of H h = Some ByFd -> clean H i -> exists K, visible B H i K /\ piece d K (N.to_nat off) n.
  Proof.
    intros H evs e v h off n d i f P F Op Ha C. pose proof (opened_lt v0 _ _ _ Op) as Hl.
    destruct (names_only_all (v_next v0) (v_name v0) (v_data v0) evs H F i h Hl) as (_ & _ & S3 & S4 & _ & _).
    assert (L : live (evs ++ H) h KRand i f).
    { split; [apply S4; exact Op|]. destruct P as (_ & _ & P). apply preach_last in P as (e0 & v1 & fuel & q & l & P & Lg & _). destruct Lg as (_ & i' & f' & (_ & Ld)). exact Ld. }
    assert (Ha' : access_of (evs ++ H) h = Some ByFd).
    { clear - F Ha. unfold PosixEnvSpec.access_of in *. revert h Ha. induction F as [|ev evs Hn F IH]; intros h Ha; cbn [app slots]; [exact Ha|]. specialize (IH h Ha).
      destruct (slots free0 (evs ++ H)) as [fr how]. destruct (pe_call ev); try discriminate; exact IH. }
    destruct (C75_random_read _ _ _ _ _ _ _ _ _ P L ltac:(congruence)) as (j & Hj & Q). rewrite Ha' in Hj. subst j. destruct (Q (S3 C)) as (K & Vk & Pc). exists K. split; [|exact Pc].
    eapply names_only_visible; [exact F|lia|exact Vk].
  Qed.
  (** A mapped file can be read wherever it reached when it was opened, until it is
      truncated; and exactly what is there now is delivered. *)
  Theorem C76_mapped_read : forall H e v h off n r i f, happens (mk_pev (PRRead h off n) r :: H) e v ->
    live H h KRand i f -> access_of H h = Some ByMap -> truncated H h = false ->
    exists K0, (clean (before H h) i -> visible B (before H h) i K0) /\
      ((N.of_nat (length K0) < off + n)%N /\ r = RData (SErr IOError f (strerror EINVAL)) [] \/
       (off + n <= N.of_nat (length K0))%N /\ exists d, r = RData SOk d /\ N.of_nat (length d) = n /\
         (clean H i -> exists K, visible B H i K /\ d = firstn (N.to_nat n) (skipn (N.to_nat off) K))).
  Proof.
    intros H e v h off n r i f (OK & SN & P) L Ha Ht. apply preach_last in P as (e0 & v1 & fuel & q & l & P & Lg & E & Ll & K & Er).
    pose proof (preach_inv dbg B strerror S os v0 OK SN _ _ _ _ _ P) as I. pose proof (preach_acct dbg B strerror S os v0 lim0 OK SN _ _ _ _ P) as C.
    pose proof (preach_map_was dbg B strerror S os v0 OK SN _ _ _ _ _ P) as M.
    assert (Q : exists st sl, q = QData st sl).
    { cbn [PosixEnv.pcall_] in E. destruct (oget (p_objs e0) h) as [[f0|f0|f0]|]; try discriminate. destruct (ran_read dbg strerror S os (p_w e0) f0 off n) as [[[w st] sl]| | |]; cbn [bind] in E; try discriminate.
      injection E as _ <-. eauto. }
    destruct Q as (st & sl & ->). destruct Lg as (Ho & _).
    destruct (ran_result_map dbg B strerror S os v0 _ _ _ _ _ _ _ _ _ _ _ _ _ _ lim0 I C E Ll K L Ha Ho) as (b & len & Eo & -> & Hm & Hlen & D).
    destruct (M _ _ _ _ Eo) as (Hlt & i' & K0 & Op & Hn & Hv). assert (i' = i) by (destruct L; congruence). subst i'. exists K0. split; [exact Hv|]. specialize (Hlen Ht).
    destruct D as [(D1 & -> & ->)|(D1 & -> & ->)]; [left|right]; (split; [lia|]).
    - rewrite Er. reflexivity.
    - cbn [observe] in Er. rewrite Hm in Er. destruct (N.leb_spec (off + n) (N.of_nat (length (v_data v1 i)))) as [Hle|Hgt]; [|lia].
      eexists. split; [exact Er|]. split; [rewrite firstn_length_le; [lia|rewrite skipn_length; lia]|]. intros Cl. exists (v_data v1 i). split; [|reflexivity].
      eapply visible_data; eauto. eapply (i_lt _ _ _ _ _ _ I). apply L.
  Qed.

  (** ** C77: GetChildren *)
  Theorem C77_children : forall H e v d fuel e' L l v', happens H e v -> pcall_ fuel e (length H) (PChildren d) = Ret (e', QNames SOk L) ->
    w_log (p_w e') = w_log (p_w e) ++ l -> ksteps v l v' -> readdir_failed l = false ->
    NoDup L /\ forall g, In g L <-> g = dot \/ g = dot ++ dot \/ (~ In slash g /\ bound H (dir_prefix d ++ g) <> None).
  Proof.
    intros H e v d fuel e' L l v' (OK & SN & P) E Ll K Nf. pose proof (preach_inv dbg B strerror S os v0 OK SN _ _ _ _ _ P) as I. eapply children_result; eauto.
  Qed.
  Theorem C77_children_error : forall H e v d st L, happens (mk_pev (PChildren d) (RNames st L) :: H) e v -> st <> SOk -> L = [].
  Proof.
    intros H e v d st L (OK & SN & P) Hst. apply preach_last in P as (e0 & v1 & fuel & q & l & P & Lg & E & Ll & K & Er). cbn [PosixEnv.pcall_] in E. unfold get_children in E. dosys E w1 a Es Ls.
    destruct (N.eqb (a_val a) 0); cbn [bind] in E; [injection E as _ <-; cbn [observe] in Er; congruence|].
    destruct (read_dir S os fuel w1 (a_val a) []) as [[w2 r]| | |]; cbn [bind] in E; try discriminate. dosys E w3 a3 Es3 Ls3. cbn [bind] in E. injection E as _ <-. cbn [observe] in Er. congruence.
  Qed.

  (** ** C78: nothing leaks *)
  Theorem C78_descriptors : forall H e v, happens H e v -> exists fd_of : nat -> option Z,
    (forall h, fd_of h <> None <-> holds_fd H h) /\
    (forall h1 h2 fd, fd_of h1 = Some fd -> fd_of h2 = Some fd -> h1 = h2) /\
    (forall h fd, fd_of h = Some fd -> v_fd v0 fd = None /\ v_fd v fd <> None) /\
    (forall fd, v_fd v fd <> None -> v_fd v0 fd = None -> exists h, fd_of h = Some fd) /\
    (forall fd x, v_fd v0 fd = Some x -> v_fd v fd = Some x).
  Proof.
    intros H e v (OK & SN & P). pose proof (preach_inv dbg B strerror S os v0 OK SN _ _ _ _ _ P) as I. pose proof (preach_acct dbg B strerror S os v0 lim0 OK SN _ _ _ _ P) as C.
    destruct (c_fd _ _ _ _ _ _ C) as [Kp Ow Ds].
    exists (fun h => match oget (p_objs e) h with Some o => obj_fd o | None => None end). split; [|split; [|split; [|split]]].
    - intros h. rewrite (fd_holder dbg B strerror S os v0 OK SN _ _ _ _ _ P h). split.
      + destruct (oget (p_objs e) h) as [o|]; [|congruence]. destruct (obj_fd o) as [fd|] eqn:Ef; [|congruence]. intros _. eauto.
      + intros (o & fd & -> & ->). discriminate.
    - intros h1 h2 fd E1 E2. destruct (oget (p_objs e) h1) as [o1|] eqn:O1; [|discriminate]. destruct (oget (p_objs e) h2) as [o2|] eqn:O2; [|discriminate].
      eapply (i_fd _ _ _ _ _ _ I); eauto.
    - intros h fd E1. destruct (oget (p_objs e) h) as [o1|] eqn:O1; [|discriminate]. split; [apply Ds; exists h, o1; auto|]. eapply fd_open; eauto.
    - intros fd Hn H0. destruct (Ow _ Hn) as [Hx|(h & o & Eo & Ef)]; [congruence|]. exists h. rewrite Eo. exact Ef.
    - exact Kp.
  Qed.
  Theorem C78_mappings : forall H e v, happens H e v -> exists map_of : nat -> option N,
    (forall h, map_of h <> None <-> holds_map H h) /\
    (forall h1 h2 b, map_of h1 = Some b -> map_of h2 = Some b -> h1 = h2) /\
    (forall h b, map_of h = Some b -> v_map v0 b = None /\ v_map v b <> None) /\
    (forall b, v_map v b <> None -> v_map v0 b = None -> exists h, map_of h = Some b) /\
    (forall b x, v_map v0 b = Some x -> v_map v b = Some x).
  Proof.
    intros H e v (OK & SN & P). pose proof (preach_inv dbg B strerror S os v0 OK SN _ _ _ _ _ P) as I. pose proof (preach_acct dbg B strerror S os v0 lim0 OK SN _ _ _ _ P) as C.
    destruct (c_map _ _ _ _ _ _ C) as [Kp Ow Ds].
    exists (fun h => match oget (p_objs e) h with Some o => obj_map o | None => None end). split; [|split; [|split; [|split]]].
    - intros h. rewrite (map_holder dbg B strerror S os v0 OK SN _ _ _ _ _ P h). split.
      + destruct (oget (p_objs e) h) as [o|]; [|congruence]. destruct (obj_map o) as [fd|] eqn:Ef; [|congruence]. intros _. eauto.
      + intros (o & fd & -> & ->). discriminate.
    - intros h1 h2 fd E1 E2. destruct (oget (p_objs e) h1) as [o1|] eqn:O1; [|discriminate]. destruct (oget (p_objs e) h2) as [o2|] eqn:O2; [|discriminate].
      eapply (i_map _ _ _ _ _ _ I); eauto.
    - intros h fd E1. destruct (oget (p_objs e) h) as [o1|] eqn:O1; [|discriminate]. split; [apply Ds; exists h, o1; auto|]. eapply map_open; eauto.
    - intros fd Hn H0. destruct (Ow _ Hn) as [Hx|(h & o & Eo & Ef)]; [congruence|]. exists h. rewrite Eo. exact Ef.
    - exact Kp.
  Qed.
  (** With no object left, everything is as it was. *)
  Theorem C78_nothing_left : forall H e v, happens H e v -> (forall h k i f, ~ live H h k i f) ->
    (forall fd, v_fd v fd = v_fd v0 fd) /\ (forall b, v_map v b = v_map v0 b).
  Proof.
    intros H e v P N. destruct (C78_descriptors _ _ _ P) as (fd_of & D1 & _ & _ & D4 & D5). destruct (C78_mappings _ _ _ P) as (map_of & M1 & _ & _ & M4 & M5). split.
    - intros fd. destruct (v_fd v0 fd) as [x|] eqn:E; [auto|]. destruct (v_fd v fd) as [y|] eqn:E1; [|reflexivity]. destruct (D4 fd) as (h & Eh); [congruence|exact E|].
      exfalso. assert (Hh : fd_of h <> None) by congruence. apply D1 in Hh as (k & i & f & L & _). eapply N. exact L.
    - intros b. destruct (v_map v0 b) as [x|] eqn:E; [auto|]. destruct (v_map v b) as [y|] eqn:E1; [|reflexivity]. destruct (M4 b) as (h & Eh); [congruence|exact E|].
      exfalso. assert (Hh : map_of h <> None) by congruence. apply M1 in Hh as (i & f & L & _). eapply N. exact L.
  Qed.
  (** Directory streams do not outlive the call. *)
  Theorem C78_directory_streams : forall H e v, happens H e v -> forall d, v_dir v d = v_dir v0 d.
  Proof. intros H e v (OK & SN & P). apply (c_dir _ _ _ _ _ _ (preach_acct dbg B strerror S os v0 lim0 OK SN _ _ _ _ P)). Qed.

  (** ** C80: crashes *)
  (** Whatever was in a file when Sync last returned OK is there after a crash, if the file is. *)
  Theorem C80_synced_data_survives : forall H e v i p name data, happens H e v -> clean H i -> i < v_next v ->
    crash_disk v name data -> name p = Some i -> exists rest, data i = synced_bytes H i ++ rest.
  Proof.
    intros H e v i p name data (OK & SN & P) C Hi (_ & Hd) Hp. pose proof (preach_inv dbg B strerror S os v0 OK SN _ _ _ _ _ P) as I.
    destruct (i_sync _ _ _ _ _ _ I i Hi C) as (r1 & E1). destruct (Hd _ _ Hp) as (r2 & ->). exists (r1 ++ r2). rewrite E1, <- app_assoc. reflexivity.
  Qed.
  (** An entry unchanged since a MANIFEST in its directory was synced is there after a crash. *)
  Theorem C80_manifest_entry_survives : forall H e v p name data, happens H e v -> entry_synced H p -> crash_disk v name data -> name p = bound H p.
  Proof.
    intros H e v p name data (OK & SN & P) Es (Hs & _). pose proof (preach_inv dbg B strerror S os v0 OK SN _ _ _ _ _ P) as I.
    rewrite (Hs p (i_entry _ _ _ _ _ _ I p Es)). apply (i_name _ _ _ _ _ _ I).
  Qed.
  (** So a MANIFEST that was synced is there, under its name, with all it had. *)
  Theorem C80_synced_manifest_survives : forall H e v h i g dir name data,
    happens (mk_pev (PWSync h) (RStat SOk) :: H) e v -> opened H h = Some (KWrite, i, g) -> names_manifest g -> in_dir g dir -> bound H g = Some i ->
    clean (mk_pev (PWSync h) (RStat SOk) :: H) i -> crash_disk v name data ->
    name g = Some i /\ exists rest, data i = contents H i ++ rest.
  Proof.
    intros H e v h i g dir name data P Op Nm Dr Bd C D.
    assert (Eb : bound (mk_pev (PWSync h) (RStat SOk) :: H) g = bound H g) by (unfold PosixEnvSpec.bound; cbn [names done pe_res pe_call negb]; now destruct (names (v_next v0) (v_name v0) H)).
    assert (En : name g = Some i).
    { assert (Es : entry_synced (mk_pev (PWSync h) (RStat SOk) :: H) g) by (apply (es_sync (v_next v0) (v_name v0) _ H h i g dir g); auto).
      rewrite (C80_manifest_entry_survives _ _ _ g name data P Es D), Eb. exact Bd. }
    split; [exact En|]. assert (Hi : i < v_next v).
    { destruct P as (OK & SN & P). pose proof (preach_inv dbg B strerror S os v0 OK SN _ _ _ _ _ P) as I. eapply (i_lt _ _ _ _ _ _ I h KWrite i g). apply opened_keep. exact Op. }
    destruct (C80_synced_data_survives _ _ _ i g name data P C Hi D En) as (rest & Er). exists rest. rewrite Er. f_equal.
    cbn [PosixEnvSpec.synced_bytes truncates pe_call done pe_res]. unfold PosixEnvSpec.writes. rewrite Op, Nat.eqb_refl. reflexivity.
  Qed.

  (** ** C82: every legal call returns *)
  (** On a kernel whose answers are right, no legal call is undefined or fails an assert, and the history goes on. *)
  Theorem C82_no_undefined_behaviour : forall R H e v fuel x, conforms os R -> happens H e v -> R (w_st (p_w e)) v -> legal H x ->
    pcall_ fuel e (length H) x = OutOfFuel \/
    exists e' q v', pcall_ fuel e (length H) x = Ret (e', q) /\ R (w_st (p_w e')) v' /\ happens (mk_pev x (observe v' q) :: H) e' v'.
  Proof.
    intros R H e v fuel x CF (OK & SN & P) Hr Lg. destruct (call_safe dbg B strerror S os v0 OK SN R CF _ _ _ _ _ fuel x P Hr Lg) as [E|(e' & q & v' & E & Hr' & P')]; [auto|].
    right. exists e', q, v'. split; [exact E|]. split; [exact Hr'|]. split; [exact OK|]. split; [exact SN|exact P'].
  Qed.
  (** If it also makes progress and does not interrupt for ever, every call returns. *)
  Theorem C82_every_call_returns : forall R K H e v x, conforms os R -> progressing os K -> patient os K -> happens H e v -> R (w_st (p_w e)) v -> legal H x ->
    exists n, forall fuel, n <= fuel -> exists e' q v', pcall_ fuel e (length H) x = Ret (e', q) /\ R (w_st (p_w e')) v' /\ happens (mk_pev x (observe v' q) :: H) e' v'.
  Proof.
    intros R K H e v x CF PR PA (OK & SN & P) Hr Lg. destruct (call_returns dbg B strerror S os v0 OK SN R CF K PR PA _ _ _ _ _ x P Hr Lg) as (n & Hn). exists n. intros fuel Hf.
    destruct (Hn fuel Hf) as (e' & q & v' & E & Hr' & P'). exists e', q, v'. split; [exact E|]. split; [exact Hr'|]. split; [exact OK|]. split; [exact SN|exact P'].
  Qed.
End Props.

(** ** Runs on the small kernel of PosixKernel.v *)
Local Open Scope N_scope.
Definition ex_fs : list (str * list N) := [(dot, []); ([102], [1;2;3]); ([103], [7])].
Definition ex_v0 : view := start_view ex_fs.
Definition ex_run (plan : list (option Z)) (lim : limits) (xs : list pcall) : option history :=
  final (prun false 4 (fun _ => []) ex_fs 20 [] (begin ex_fs plan lim) xs).
Definition ex_happens (plan : list (option Z)) (lim : limits) (H : history) (e : penv kst) (v : view) : Prop :=
  happens false 4 (fun _ => []) kst kernel ex_v0 (start ex_fs plan) lim H e v.
Lemma ex_run_happens plan lim xs H : ex_run plan lim xs = Some H -> exists e v, ex_happens plan lim H e v.
Proof.
  intros E. assert (Nm : ~ In [] (map fst ex_fs)) by (cbn; intros [X|[X|[X|[]]]]; discriminate).
  destruct (prun_final false 4 (fun _ => []) ex_fs plan lim Nm 20 xs H E) as (e & v & P). exists e, v.
  split; [exact kernel_os_ok|]. split; [|exact P]. exact (g_sane _ (start_good ex_fs plan Nm)).
Qed.
Notation ok := (RStat SOk).

(** A file is written, read while it is written, and read again once closed. *)
Definition ex_H1 : history :=
  [mk_pev (PSRead 3 9) (RData SOk [5; 6]); mk_pev (PSSkip 3 1) ok; mk_pev (PWClose 0) ok; mk_pev (PSize [104]) (RSize SOk 5);
   mk_pev (PWAppend 0 [6]) ok; mk_pev (PSRead 3 3) (RData SOk [1; 2; 3]); mk_pev (PNewSeq [104]) ok; mk_pev (PWFlush 0) ok;
   mk_pev (PWAppend 0 [1; 2; 3; 4; 5]) ok; mk_pev (PNewWrite [104]) ok].
Example C75_example : exists e v, ex_happens [] (mk_limits 1 1) ex_H1 e v /\
  live (v_next ex_v0) (v_name ex_v0) (tl ex_H1) 3 KSeq 3 [104] /\ clean (v_next ex_v0) (v_name ex_v0) (v_data ex_v0) (tl ex_H1) 3 /\
  writer (v_next ex_v0) (v_name ex_v0) (tl ex_H1) 3 = None /\ contents (v_next ex_v0) (v_name ex_v0) (v_data ex_v0) (tl ex_H1) 3 = [1;2;3;4;5;6] /\
  pos (tl ex_H1) 3 = 4%Z.
Proof.
  destruct (ex_run_happens [] (mk_limits 1 1) (map pe_call (rev ex_H1)) ex_H1 eq_refl) as (e & v & P). exists e, v. split; [exact P|].
  split; [split; reflexivity|]. split; [cbn; intuition congruence|]. auto.
Qed.
Definition ex_H2 : history :=
  [mk_pev (PSize [104]) (RSize SOk 0); mk_pev (PWAppend 0 [1]) ok; mk_pev (PWClose 0) ok; mk_pev (PNewWrite [104]) ok].
(** Appending to a closed file returns OK and the data is lost. *)
Theorem C75_append_after_close_refuted :
  ~ (forall dbg B strerror S os v0 s0 lim0 H e v f i n,
     happens dbg B strerror S os v0 s0 lim0 (mk_pev (PSize f) (RSize SOk n) :: H) e v ->
     (forall ev, In ev H -> done ev = true) -> bound (v_next v0) (v_name v0) H f = Some i -> writer (v_next v0) (v_name v0) H i = None ->
     n = N.of_nat (length (contents (v_next v0) (v_name v0) (v_data v0) H i))).
Proof.
  intros X. destruct (ex_run_happens [] (mk_limits 1 1) (map pe_call (rev ex_H2)) ex_H2 eq_refl) as (e & v & P).
  apply X with (i := 3%nat) in P; [discriminate P| |reflexivity|reflexivity].
  intros ev [<-|[<-|[<-|[]]]]; reflexivity.
Qed.

(** A file removed while a reader has it open. *)
Definition ex_H3 : history := [mk_pev (PRRead 0 0 9) (RData SOk [1;2;3]); mk_pev (PRemove [102]) ok; mk_pev (PNewRand [102]) ok].
Example C76_example : exists e v, ex_happens [] (mk_limits 0 1) ex_H3 e v /\
  access_of (0, 1)%Z (skipn 2 ex_H3) 0 = Some ByFd /\ opened (v_next ex_v0) (v_name ex_v0) (skipn 2 ex_H3) 0 = Some (KRand, 1%nat, [102]) /\
  bound (v_next ex_v0) (v_name ex_v0) (tl ex_H3) [102] = None.
Proof. destruct (ex_run_happens [] (mk_limits 0 1) (map pe_call (rev ex_H3)) ex_H3 eq_refl) as (e & v & P). exists e, v. auto. Qed.
Definition ex_H4 : history :=
  [mk_pev (PRRead 0 1 2) (RData SOk [2;3]); mk_pev (PRRead 0 0 4) (RData (SErr IOError [102] []) []); mk_pev (PNewRand [102]) ok].
Example C76_example_mapped : exists e v, ex_happens [] (mk_limits 1 0) ex_H4 e v /\
  access_of (1, 0)%Z (tl ex_H4) 0 = Some ByMap /\ live (v_next ex_v0) (v_name ex_v0) (tl ex_H4) 0 KRand 1 [102] /\
  truncated (v_next ex_v0) (v_name ex_v0) (tl ex_H4) 0 = false.
Proof. destruct (ex_run_happens [] (mk_limits 1 0) (map pe_call (rev ex_H4)) ex_H4 eq_refl) as (e & v & P). exists e, v. split; [exact P|]. split; [reflexivity|]. split; [split; reflexivity|reflexivity]. Qed.
(** A random-access reader that found no slot free reads whatever the name stands
    for by then. *)
Definition ex_H5 : history := [mk_pev (PRRead 0 0 9) (RData SOk [7]); mk_pev (PRename [103] [102]) ok; mk_pev (PNewRand [102]) ok].
Theorem C76_random_reader_undisturbed_refuted :
  ~ (forall dbg B strerror S os v0 s0 lim0 H evs e v h off n d i f,
     happens dbg B strerror S os v0 s0 lim0 (mk_pev (PRRead h off n) (RData SOk d) :: evs ++ H) e v -> Forall (fun ev => names_only (pe_call ev) = true) evs ->
     opened (v_next v0) (v_name v0) H h = Some (KRand, i, f) -> clean (v_next v0) (v_name v0) (v_data v0) H i ->
     exists K, visible (v_next v0) (v_name v0) (v_data v0) B H i K /\ piece d K (N.to_nat off) n).
Proof.
  intros X. destruct (ex_run_happens [] (mk_limits 0 0) (map pe_call (rev ex_H5)) ex_H5 eq_refl) as (e & v & P).
  specialize (X _ _ _ _ _ _ _ _ [mk_pev (PNewRand [102]) ok] [mk_pev (PRename [103] [102]) ok] _ _ _ _ _ _ 1%nat [102] P).
  destruct X as (K & Vk & Pc & _); [repeat constructor|reflexivity|cbn; auto|].
  apply visible_settled in Vk; [|cbn; auto|reflexivity]. subst K. discriminate Pc.
Qed.
(** Creating a file anew takes the ground from under a mapped reader of the old one. *)
Definition ex_H6 : history := [mk_pev (PRRead 0 0 3) RFault; mk_pev (PNewWrite [102]) ok; mk_pev (PNewRand [102]) ok].
Theorem C76_mapped_read_refuted :
  ~ (forall dbg B strerror S os v0 s0 lim0 H e v h off n r i f,
     happens dbg B strerror S os v0 s0 lim0 (mk_pev (PRRead h off n) r :: H) e v -> live (v_next v0) (v_name v0) H h KRand i f -> r <> RFault).
Proof.
  intros X. destruct (ex_run_happens [] (mk_limits 1 0) (map pe_call (rev ex_H6)) ex_H6 eq_refl) as (e & v & P).
  now apply (X _ _ _ _ _ _ _ _ _ _ _ _ _ _ _ 1%nat [102] P); [split|].
Qed.

(** The children of the current directory. *)
Definition ex_H7 : history := [mk_pev (PChildren dot) (RNames SOk [[46;46]; [46]; [102]; [103]])].
Example C77_example : exists e v, ex_happens [] (mk_limits 0 0) ex_H7 e v.
Proof. apply (ex_run_happens [] (mk_limits 0 0) [PChildren dot]). reflexivity. Qed.
(** When readdir() fails half way, GetChildren returns OK and too short a list. *)
Definition ex_H8 : history := [mk_pev (PChildren dot) (RNames SOk [[46;46]])].
Theorem C77_children_refuted :
  ~ (forall dbg B strerror S os v0 s0 lim0 H e v d L g,
     happens dbg B strerror S os v0 s0 lim0 (mk_pev (PChildren d) (RNames SOk L) :: H) e v ->
     ~ In slash g -> bound (v_next v0) (v_name v0) H (dir_prefix d ++ g) <> None -> In g L).
Proof.
  intros X. destruct (ex_run_happens [None; None; Some 5%Z] (mk_limits 0 0) [PChildren dot] ex_H8 eq_refl) as (e & v & P).
  apply X with (g := [102]) in P; [|intros [Y|[]]; discriminate|discriminate]. destruct P as [Y|[]]. discriminate.
Qed.

(** Objects of every kind, and all of them deleted again. *)
Definition ex_H9 : history :=
  [mk_pev (PDelete 3) ok; mk_pev (PDelete 2) ok; mk_pev (PDelete 1) ok; mk_pev (PDelete 0) ok;
   mk_pev (PNewRand [103]) ok; mk_pev (PNewRand [102]) ok; mk_pev (PNewWrite [104]) ok; mk_pev (PNewSeq [102]) ok].
Example C78_example : exists e v, ex_happens [] (mk_limits 1 1) (skipn 4 ex_H9) e v /\
  (forall h, (h < 4)%nat -> holds_fd (v_next ex_v0) (v_name ex_v0) (1, 1)%Z (skipn 4 ex_H9) h \/ holds_map (v_next ex_v0) (v_name ex_v0) (1, 1)%Z (skipn 4 ex_H9) h).
Proof.
  destruct (ex_run_happens [] (mk_limits 1 1) (map pe_call (rev (skipn 4 ex_H9))) (skipn 4 ex_H9) eq_refl) as (e & v & P). exists e, v. split; [exact P|].
  intros h Hh. destruct h as [|[|[|[|h]]]]; [left; exists KSeq, 1%nat, [102]|left; exists KWrite, 3%nat, [104]|right; exists 1%nat, [102]|left; exists KRand, 2%nat, [103]|lia]; repeat split.
Qed.
Example C78_example_nothing_left : exists e v, ex_happens [] (mk_limits 1 1) ex_H9 e v /\ (forall h k i f, ~ live (v_next ex_v0) (v_name ex_v0) ex_H9 h k i f).
Proof.
  destruct (ex_run_happens [] (mk_limits 1 1) (map pe_call (rev ex_H9)) ex_H9 eq_refl) as (e & v & P). exists e, v. split; [exact P|].
  intros h k i f (Ho & Hd). destruct h as [|[|[|[|[|[|[|[|h]]]]]]]]; vm_compute in Hd, Ho; discriminate.
Qed.

(** A MANIFEST that was synced. *)
Definition manifest1 : str := [77;65;78;73;70;69;83;84;45;49].
Definition ex_H10 : history := [mk_pev (PWSync 0) ok; mk_pev (PWAppend 0 [1]) ok; mk_pev (PNewWrite manifest1) ok].
Example C80_example : exists e v, ex_happens [] (mk_limits 1 1) ex_H10 e v /\
  opened (v_next ex_v0) (v_name ex_v0) (tl ex_H10) 0 = Some (KWrite, 3%nat, manifest1) /\ names_manifest manifest1 /\ in_dir manifest1 dot /\
  bound (v_next ex_v0) (v_name ex_v0) (tl ex_H10) manifest1 = Some 3%nat /\ clean (v_next ex_v0) (v_name ex_v0) (v_data ex_v0) ex_H10 3.
Proof.
  destruct (ex_run_happens [] (mk_limits 1 1) (map pe_call (rev ex_H10)) ex_H10 eq_refl) as (e & v & P). exists e, v. split; [exact P|].
  split; [reflexivity|]. split; [exists [45;49]; split; [intros [Y|[Y|[]]]; discriminate|left; reflexivity]|]. split; [left; split; [vm_compute; intuition discriminate|reflexivity]|]. split; [reflexivity|]. cbn; intuition congruence.
Qed.
(** Any other file that was synced may have lost its name after a crash. *)
Definition ex_H11 : history := [mk_pev (PWSync 0) ok; mk_pev (PWAppend 0 [1]) ok; mk_pev (PNewWrite [104]) ok].
Theorem C80_synced_file_survives_refuted :
  ~ (forall dbg B strerror S os v0 s0 lim0 H e v h i g name data,
     happens dbg B strerror S os v0 s0 lim0 (mk_pev (PWSync h) ok :: H) e v -> opened (v_next v0) (v_name v0) H h = Some (KWrite, i, g) -> bound (v_next v0) (v_name v0) H g = Some i ->
     clean (v_next v0) (v_name v0) (v_data v0) (mk_pev (PWSync h) ok :: H) i -> crash_disk v name data -> name g = Some i).
Proof.
  intros X. assert (Nm : ~ In [] (map fst ex_fs)) by (cbn; intros [Y|[Y|[Y|[]]]]; discriminate).
  destruct (prun false 4 (fun _ => []) ex_fs 20 [] (begin ex_fs [] (mk_limits 1 1)) (map pe_call (rev ex_H11))) as [[H e]| | |] eqn:E; try (vm_compute in E; discriminate E).
  destruct (prun_ok false 4 (fun _ => []) ex_fs [] (mk_limits 1 1) Nm _ _ _ _ E) as (P & _).
  set (v := k_view (w_st (p_w e))) in *.
  assert (Ev : H = ex_H11 /\ v_sure v [104] = false).
  { unfold v. clear X P v. vm_compute in E. injection E as <- <-. split; reflexivity. }
  destruct Ev as (-> & Ev).
  assert (Hp : ex_happens [] (mk_limits 1 1) ex_H11 e v) by (split; [exact kernel_os_ok|split; [exact (g_sane _ (start_good ex_fs [] Nm))|exact P]]).
  assert (D : crash_disk v (fun p => if eqs p [104] then None else v_name v p) (v_safe v)).
  { split; [|intros; exists []; now rewrite app_nil_r]. intros p Hs. destruct (eqs p [104]) as [->|]; [congruence|reflexivity]. }
  specialize (X _ _ _ _ _ _ _ _ _ _ _ 0%nat 3%nat [104] _ _ Hp eq_refl eq_refl ltac:(cbn; intuition congruence) D).
  discriminate X.
Qed.

Example C82_example : conforms kernel shows /\ progressing kernel 1 /\ patient kernel 1 /\ shows (start ex_fs []) ex_v0.
Proof.
  split; [exact kernel_conforms|]. split; [exact kernel_progressing|]. split; [exact kernel_patient|]. split; [reflexivity|].
  apply start_good. cbn. intros [Y|[Y|[Y|[]]]]; discriminate.
Qed.

Print Assumptions C74_names_truthful.
Print Assumptions C74_exists_false.
Print Assumptions C74_one_system_call.
Print Assumptions C75_sequential_read.
Print Assumptions C75_file_size.
Print Assumptions C75_settled.
Print Assumptions C75_flushed.
Print Assumptions C75_random_read.
Print Assumptions C75_failed_read_empty.
Print Assumptions C76_sequential_reader_undisturbed.
Print Assumptions C76_random_reader_undisturbed.
Print Assumptions C76_mapped_read.
Print Assumptions C77_children.
Print Assumptions C77_children_error.
Print Assumptions C78_descriptors.
Print Assumptions C78_mappings.
Print Assumptions C78_nothing_left.
Print Assumptions C78_directory_streams.
Print Assumptions C80_synced_data_survives.
Print Assumptions C80_manifest_entry_survives.
Print Assumptions C80_synced_manifest_survives.
Print Assumptions C82_no_undefined_behaviour.
Print Assumptions C82_every_call_returns.
Print Assumptions C75_append_after_close_refuted.
Print Assumptions C76_random_reader_undisturbed_refuted.
Print Assumptions C76_mapped_read_refuted.
Print Assumptions C77_children_refuted.
Print Assumptions C80_synced_file_survives_refuted.
