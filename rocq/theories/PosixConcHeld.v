(** PosixConcHeld.v -- the descriptors, mappings, directory streams and slots of the
    limiters, and who holds them. *)
From Coq Require Import List Arith NArith ZArith Lia Bool Permutation.
From Verif Require Import Outcome Status MemEnv PosixOs PosixWritable PosixRead PosixEnv PosixFs PosixEnvSpec PosixConc PosixConcSpec PosixConcSafe.
Import ListNotations.

Definition gitem : Type := nat * item.
Definition fds (G : list gitem) : list Z := flat_map (fun p => match snd p with IFd fd => [fd] | _ => [] end) G.
Definition maps (G : list gitem) : list N := flat_map (fun p => match snd p with IMap b _ => [b] | _ => [] end) G.
Definition dirs (G : list gitem) : list N := flat_map (fun p => match snd p with IDir d => [d] | _ => [] end) G.
Definition is_which (l l' : which) : bool := match l, l' with LMmap, LMmap => true | LFd, LFd => true | _, _ => false end.
Definition slots_of (l : which) (G : list gitem) : list nat := flat_map (fun p => match snd p with ISlot l' => if is_which l l' then [fst p] else [] | _ => [] end) G.
Definition debts_of (l : which) (G : list gitem) : list nat := flat_map (fun p => match snd p with IDebt l' => if is_which l l' then [fst p] else [] | _ => [] end) G.
Definition zlen {A} (l : list A) : Z := Z.of_nat (length l).

Record held (v0 : view) (lim0 : limits) (tr : trace) (v : view) (lim : limits) (G : list gitem) : Prop := mk_held {
  h_fds : NoDup (fds G);
  h_maps : NoDup (maps G);
  h_dirs : NoDup (dirs G);
  h_fd : forall n fd, In (n, IFd fd) G -> (0 <= fd)%Z /\ v_fd v fd <> None /\ v_fd v0 fd = None /\ owner tr fd = Some n;
  h_map : forall n b len, In (n, IMap b len) G -> (exists i, v_map v b = Some (i, len)) /\ v_map v0 b = None /\ map_owner tr b = Some n;
  h_dir : forall n d, In (n, IDir d) G -> v_dir v d <> None /\ v_dir v0 d = None /\ dir_owner tr d = Some n;
  h_fd0 : forall fd, v_fd v fd = v_fd v0 fd \/ exists n, In (n, IFd fd) G;
  h_map0 : forall b, v_map v b = v_map v0 b \/ exists n len, In (n, IMap b len) G;
  h_dir0 : forall d, v_dir v d = v_dir v0 d \/ exists n, In (n, IDir d) G;
  h_own : forall fd n, owner tr fd = Some n -> In (n, IFd fd) G;
  h_mown : forall b n, map_owner tr b = Some n -> exists len, In (n, IMap b len) G;
  h_down : forall d n, dir_owner tr d = Some n -> In (n, IDir d) G;
  h_lim : forall l, lim_get lim l = (lim_get lim0 l - zlen (slots_of l G) - zlen (debts_of l G))%Z;
  h_slots : forall l, (zlen (slots_of l G) <= Z.max 0 (lim_get lim0 l))%Z
}.

Lemma perm_flat {A C} (f : A -> list C) l l' : Permutation l l' -> Permutation (flat_map f l) (flat_map f l').
Proof.
  induction 1 as [|x l l' H IH|x y l|l l' l'' H1 IH1 H2 IH2]; cbn [flat_map]; auto.
  - now apply Permutation_app_head.
  - rewrite !app_assoc. apply Permutation_app_tail, Permutation_app_comm.
  - eapply perm_trans; eassumption.
Qed.
Lemma zlen_perm {A} (l l' : list A) : Permutation l l' -> zlen l = zlen l'.
Proof. intros H. unfold zlen. now rewrite (Permutation_length H). Qed.
Lemma held_perm v0 lim0 tr v lim G G' : Permutation G G' -> held v0 lim0 tr v lim G -> held v0 lim0 tr v lim G'.
Proof.
  intros P H. assert (S := Permutation_sym P). assert (In1 : forall x, In x G -> In x G') by (intros x; apply Permutation_in; exact P).
  assert (In2 : forall x, In x G' -> In x G) by (intros x; apply Permutation_in; exact S). destruct H. constructor.
  - eapply Permutation_NoDup; [apply perm_flat; exact P|exact h_fds0].
  - eapply Permutation_NoDup; [apply perm_flat; exact P|exact h_maps0].
  - eapply Permutation_NoDup; [apply perm_flat; exact P|exact h_dirs0].
  - intros n fd X. apply h_fd1. auto.
  - intros n b len X. apply (h_map1 n b len). auto.
  - intros n d X. apply h_dir1. auto.
  - intros fd. destruct (h_fd2 fd) as [E|(n & E)]; eauto.
  - intros fd. destruct (h_map2 fd) as [E|(n & len & E)]; eauto.
  - intros fd. destruct (h_dir2 fd) as [E|(n & E)]; eauto.
  - intros fd n E. auto.
  - intros b n E. destruct (h_mown0 b n E) as (len & X). eauto.
  - intros d n E. auto.
  - intros l. unfold slots_of, debts_of. rewrite (zlen_perm _ _ (perm_flat _ _ _ S)), (zlen_perm (flat_map _ G') _ (perm_flat _ _ _ S)). apply h_lim0.
  - intros l. unfold slots_of. rewrite (zlen_perm _ _ (perm_flat _ _ _ S)). apply h_slots0.
Qed.

Lemma in_fds n fd G : In (n, IFd fd) G -> In fd (fds G).
Proof. intros H. apply in_flat_map. exists (n, IFd fd). split; [exact H|]. left. reflexivity. Qed.
Lemma fds_in fd G : In fd (fds G) -> exists n, In (n, IFd fd) G.
Proof. intros H. apply in_flat_map in H. destruct H as ([n i] & H & E). destruct i; cbn in E; try contradiction; destruct E as [E|[]]; subst; eauto. Qed.
Lemma in_maps n b len G : In (n, IMap b len) G -> In b (maps G).
Proof. intros H. apply in_flat_map. exists (n, IMap b len). split; [exact H|]. left. reflexivity. Qed.
Lemma maps_in b G : In b (maps G) -> exists n len, In (n, IMap b len) G.
Proof. intros H. apply in_flat_map in H. destruct H as ([n i] & H & E). destruct i; cbn in E; try contradiction; destruct E as [E|[]]; subst; eauto. Qed.
Lemma in_dirs n d G : In (n, IDir d) G -> In d (dirs G).
Proof. intros H. apply in_flat_map. exists (n, IDir d). split; [exact H|]. left. reflexivity. Qed.
Lemma dirs_in d G : In d (dirs G) -> exists n, In (n, IDir d) G.
Proof. intros H. apply in_flat_map in H. destruct H as ([n i] & H & E). destruct i; cbn in E; try contradiction; destruct E as [E|[]]; subst; eauto. Qed.

(** ** What system calls do to the tables of the kernel *)
Definition fd_new (c : syscall) (a : answer) (fd : Z) : bool := match c with COpen _ _ => (a_ret a =? fd)%Z && (0 <=? fd)%Z | _ => false end.
Definition is_close (c : syscall) : bool := match c with CClose _ => true | _ => false end.
Lemma k_fd v c a v' : kstep v (c, a) v' -> forall fd, uses_fd c <> Some fd -> fd_new c a fd = false -> v_fd v' fd = v_fd v fd.
Proof.
  intros K fd U F. inversion K; subst; try reflexivity; unfold with_fd, with_map, with_dir, with_name, with_data, create, synced, upd; cbn [v_fd]; auto;
    cbn [uses_fd] in U; try (destruct (Z.eq_dec fd _) as [E|E]; [|reflexivity]); try (subst; congruence).
  all: cbn [fd_new] in F; subst fd; rewrite Z.eqb_refl in F; apply Z.leb_gt in F; lia.
Qed.
Lemma k_ino v c a v' : kstep v (c, a) v' -> is_close c = false -> forall fd, fd_new c a fd = false ->
  option_map d_ino (v_fd v' fd) = option_map d_ino (v_fd v fd).
Proof.
  intros K C fd F. inversion K; subst; try reflexivity; try discriminate C; unfold with_fd, with_map, with_dir, with_name, with_data, create, synced, upd; cbn [v_fd]; auto;
    try (destruct (Z.eq_dec fd _) as [E|E]; [subst|reflexivity]).
  all: try (cbn [fd_new] in F; rewrite Z.eqb_refl in F; apply Z.leb_gt in F; lia).
  all: match goal with X : v_fd _ _ = Some _ |- _ => rewrite X; reflexivity end.
Qed.
Lemma k_new v p fl a v' : kstep v (COpen p fl, a) v' -> (0 <= a_ret a)%Z ->
  v_fd v (a_ret a) = None /\ exists x, v_fd v' (a_ret a) = Some x /\ v_name v' p = Some (d_ino x).
Proof.
  intros K A. inversion K; subst; try discriminate; try lia.
  - split; [assumption|]. unfold with_fd. cbn [v_fd v_name]. unfold upd. destruct (Z.eq_dec _ _); [|congruence]. eexists. split; [reflexivity|assumption].
  - split; [assumption|]. unfold with_fd. cbn [v_fd v_name]. unfold upd at 1. destruct (Z.eq_dec _ _); [|congruence]. eexists. split; [reflexivity|assumption].
  - split; [assumption|]. unfold with_fd. cbn [v_fd v_name]. unfold upd. destruct (Z.eq_dec _ _); [|congruence]. eexists. split; [reflexivity|assumption].
  - split; [assumption|]. unfold with_fd. cbn [v_fd v_name]. unfold upd. destruct (Z.eq_dec _ _); [|congruence]. eexists. split; [reflexivity|assumption].
  - split; [assumption|]. unfold with_fd. cbn [v_fd]. unfold upd at 1. destruct (Z.eq_dec _ _); [|congruence]. eexists. split; [reflexivity|].
    cbn [v_name create with_data with_name d_ino]. unfold upd. destruct (eqs p p); [reflexivity|congruence].
Qed.
Lemma k_noopen v p fl a v' : kstep v (COpen p fl, a) v' -> (a_ret a < 0)%Z -> v' = v.
Proof. intros K A. inversion K; subst; auto; try discriminate; lia. Qed.
Lemma k_open_sign v p fl a v' : kstep v (COpen p fl, a) v' -> (a_ret a = -1 \/ 0 <= a_ret a)%Z.
Proof. intros K. inversion K; subst; auto; try discriminate; lia. Qed.
Definition map_new (c : syscall) (a : answer) (b : N) : bool := match c with CMmap _ _ => (a_val a =? b)%N && (0 <=? a_ret a)%Z | _ => false end.
Lemma k_map v c a v' : kstep v (c, a) v' -> forall b, uses_map c <> Some b -> map_new c a b = false -> v_map v' b = v_map v b.
Proof.
  intros K b U F. inversion K; subst; try reflexivity; unfold with_fd, with_map, with_dir, with_name, with_data, create, synced, upd; cbn [v_map]; auto;
    cbn [uses_map] in U; destruct (N.eq_dec b _) as [E|E]; try reflexivity; try (subst; congruence).
  cbn [map_new] in F. subst b. rewrite N.eqb_refl in F. apply Z.leb_gt in F. lia.
Qed.
Definition dir_new (c : syscall) (a : answer) (d : N) : bool := match c with COpendir _ => (a_val a =? d)%N && negb (d =? 0)%N | _ => false end.
Lemma k_dir v c a v' : kstep v (c, a) v' -> forall d, uses_dir c <> Some d -> dir_new c a d = false -> v_dir v' d = v_dir v d.
Proof.
  intros K d U F. inversion K; subst; try reflexivity; unfold with_fd, with_map, with_dir, with_name, with_data, create, synced, upd; cbn [v_dir]; auto;
    cbn [uses_dir] in U; destruct (N.eq_dec d _) as [E|E]; try reflexivity; try (subst; congruence).
  cbn [dir_new] in F. subst d. rewrite N.eqb_refl in F. destruct (N.eqb_spec (a_val a) 0); [contradiction|discriminate].
Qed.
Lemma k_readdir_some v d a v' : kstep v (CReaddir d, a) v' -> v_dir v d <> None -> v_dir v' d <> None.
Proof. intros K. inversion K; subst; auto; try discriminate. intros _. unfold with_dir. cbn [v_dir]. unfold upd. destruct (N.eq_dec d d); congruence. Qed.

(** ** Steps *)
Section Steps.
  Variables (v0 : view) (lim0 : limits).
  Hypothesis S0 : forall fd, v_fd v0 fd <> None -> (0 <= fd)%Z.
  Notation held := (held v0 lim0).

  Definition plain (c : syscall) (a : answer) : bool :=
    match c with
    | COpen _ _ => (a_ret a <? 0)%Z
    | CClose fd => (fd =? -1)%Z
    | CMmap _ _ => (a_ret a <? 0)%Z
    | CMunmap _ _ | CClosedir _ => false
    | COpendir _ => (a_val a =? 0)%N
    | _ => true
    end.
  (** A call that opens and closes nothing. *)
  Lemma held_plain n c a tr v v' lim G : held tr v lim G -> kstep v (c, a) v' -> plain c a = true ->
    (forall fd, uses_fd c = Some fd -> (fd = -1)%Z \/ exists m, In (m, IFd fd) G) ->
    (forall d, uses_dir c = Some d -> exists m, In (m, IDir d) G) ->
    held ((Act n c a, v') :: tr) v' lim G.
  Proof.
    intros H K P U W.
    assert (Fn : forall fd, fd_new c a fd = false).
    { intros fd. destruct c; try reflexivity. cbn [plain fd_new] in *. apply Z.ltb_lt in P. destruct (Z.eqb_spec (a_ret a) fd); [|reflexivity]. apply Z.leb_gt. lia. }
    assert (Mn : forall b, map_new c a b = false).
    { intros b. destruct c; try reflexivity. cbn [plain map_new] in *. apply Z.ltb_lt in P. destruct (a_val a =? b)%N; [|reflexivity]. apply Z.leb_gt. lia. }
    assert (Dn : forall d, dir_new c a d = false).
    { intros d. destruct c; try reflexivity. cbn [plain dir_new] in *. apply N.eqb_eq in P. rewrite P. destruct (N.eqb_spec 0 d); [subst; reflexivity|reflexivity]. }
    assert (Um : forall b, uses_map c <> Some b) by (intros b; destruct c; discriminate).
    assert (Emap : forall b, v_map v' b = v_map v b) by (intros b; apply (k_map v c a v' K); auto).
    assert (Efd : forall fd, v_fd v' fd = v_fd v fd \/ exists m, In (m, IFd fd) G).
    { intros fd. destruct (uses_fd c) as [fd'|] eqn:E.
      - destruct (Z.eq_dec fd' fd) as [<-|N]; [|left; apply (k_fd v c a v' K); auto; congruence].
        destruct (U fd' eq_refl) as [-> |M]; [|right; exact M]. left.
        assert (N1 : v_fd v (-1) = None).
        { destruct (h_fd0 _ _ _ _ _ _ H (-1)%Z) as [X|(m & X)].
          - rewrite X. destruct (v_fd v0 (-1)) eqn:Y; [|reflexivity]. assert (0 <= -1)%Z by (apply S0; congruence). lia.
          - apply (h_fd _ _ _ _ _ _ H) in X. lia. }
        rewrite N1. destruct (is_close c) eqn:C.
        + destruct c; try discriminate. inversion K; subst; try discriminate. unfold with_fd. cbn [v_fd]. unfold upd. cbn [uses_fd] in E. injection E as ->. destruct (Z.eq_dec (-1) (-1)); congruence.
        + pose proof (k_ino v c a v' K C (-1)%Z (Fn _)) as X. rewrite N1 in X. destruct (v_fd v' (-1)); [discriminate|reflexivity].
      - left. apply (k_fd v c a v' K); auto. congruence. }
    assert (Efd2 : forall fd, v_fd v fd <> None -> (0 <= fd)%Z -> v_fd v' fd <> None).
    { intros fd N P0. destruct (is_close c) eqn:C.
      - destruct c; try discriminate. cbn [plain] in P. apply Z.eqb_eq in P. subst. rewrite (k_fd v _ a v' K fd); auto. cbn [uses_fd]. intros X. injection X as X. lia.
      - pose proof (k_ino v c a v' K C fd (Fn _)) as X. destruct (v_fd v fd); [|congruence]. intros Y. rewrite Y in X. discriminate. }
    assert (Edir : forall d, v_dir v' d = v_dir v d \/ exists m, In (m, IDir d) G).
    { intros d. destruct (uses_dir c) as [d'|] eqn:E; [|left; apply (k_dir v c a v' K); auto; congruence].
      destruct (N.eq_dec d' d) as [<-|N]; [right; apply W; reflexivity|left; apply (k_dir v c a v' K); auto; congruence]. }
    assert (Edir2 : forall d, v_dir v d <> None -> v_dir v' d <> None).
    { intros d N. destruct (uses_dir c) as [d'|] eqn:E; [|rewrite (k_dir v c a v' K); auto; congruence].
      destruct (N.eq_dec d' d) as [<-|N']; [|rewrite (k_dir v c a v' K); auto; congruence].
      destruct c; try discriminate E; try discriminate P. cbn [uses_dir] in E. injection E as <-. eapply k_readdir_some; eassumption. }
    assert (Eo : forall fd, (0 <= fd)%Z -> owner ((Act n c a, v') :: tr) fd = owner tr fd).
    { intros fd Hp. destruct c; try reflexivity; cbn [owner plain] in *.
      - specialize (Fn fd). cbn [fd_new] in Fn. rewrite Fn. reflexivity.
      - apply Z.eqb_eq in P. subst. destruct (Z.eqb_spec (-1) fd); [lia|reflexivity]. }
    assert (Emo : forall b, map_owner ((Act n c a, v') :: tr) b = map_owner tr b).
    { intros b. destruct c; try reflexivity; cbn [map_owner plain] in *; [|discriminate]. specialize (Mn b). cbn [map_new] in Mn. rewrite Mn. reflexivity. }
    assert (Edo : forall d, dir_owner ((Act n c a, v') :: tr) d = dir_owner tr d).
    { intros d. destruct c; try reflexivity; cbn [dir_owner plain] in *; [|discriminate]. specialize (Dn d). cbn [dir_new] in Dn. rewrite Dn. reflexivity. }
    destruct H. constructor; auto.
    - intros m fd I0. destruct (h_fd1 m fd I0) as (A1 & A2 & A3 & A4). rewrite Eo by exact A1. repeat split; auto.
    - intros m b len I0. destruct (h_map1 m b len I0) as (A1 & A2 & A3). rewrite Emo, Emap. auto.
    - intros m d I0. destruct (h_dir1 m d I0) as (A1 & A2 & A3). rewrite Edo. auto.
    - intros fd. destruct (Efd fd) as [E|E]; [|right; exact E]. rewrite E. apply h_fd2.
    - intros b. rewrite Emap. apply h_map2.
    - intros d. destruct (Edir d) as [E|E]; [|right; exact E]. rewrite E. apply h_dir2.
    - intros fd m E. destruct (Z_lt_dec fd 0) as [L|L].
      + apply h_own0. clear - E L P. destruct c; auto; cbn [owner plain] in *.
        * destruct (Z.leb_spec 0 fd); [lia|]. rewrite andb_false_r in E. exact E.
        * destruct (fd0 =? fd)%Z; [discriminate|exact E].
      + rewrite Eo in E by lia. auto.
    - intros b m. rewrite Emo. apply h_mown0.
    - intros d m. rewrite Edo. apply h_down0.
  Qed.
  (** The other labels. *)
  Lemma held_label l v1 tr v lim G : (forall n c a, l <> Act n c a) -> held tr v lim G -> held ((l, v1) :: tr) v lim G.
  Proof.
    intros N H. assert (Eo : forall fd, owner ((l, v1) :: tr) fd = owner tr fd) by (intros; destruct l; auto; congruence).
    assert (Em : forall fd, map_owner ((l, v1) :: tr) fd = map_owner tr fd) by (intros; destruct l; auto; congruence).
    assert (Ed : forall fd, dir_owner ((l, v1) :: tr) fd = dir_owner tr fd) by (intros; destruct l; auto; congruence).
    destruct H. constructor; auto.
    - intros m fd I0. rewrite Eo. auto.
    - intros m b len I0. rewrite Em. apply (h_map1 m b len). exact I0.
    - intros m d I0. rewrite Ed. auto.
    - intros fd m. rewrite Eo. auto.
    - intros fd m. rewrite Em. auto.
    - intros fd m. rewrite Ed. auto.
  Qed.
  Lemma held_open n p fl a tr v v' lim G : held tr v lim G -> kstep v (COpen p fl, a) v' -> (0 <= a_ret a)%Z ->
    held ((Act n (COpen p fl) a, v') :: tr) v' lim ((n, IFd (a_ret a)) :: G).
  Proof.
    intros H K A. destruct (k_new _ _ _ _ _ K A) as (Nv & x & Ex & _).
    assert (Nin : ~ In (a_ret a) (fds G)). { intros X. apply fds_in in X. destruct X as (m & X). apply (h_fd _ _ _ _ _ _ H) in X. tauto. }
    assert (E0 : v_fd v0 (a_ret a) = None). { destruct (h_fd0 _ _ _ _ _ _ H (a_ret a)) as [E|(m & X)]; [congruence|]. elim Nin. eapply in_fds; eassumption. }
    assert (Efd : forall fd, fd <> a_ret a -> v_fd v' fd = v_fd v fd).
    { intros fd N. apply (k_fd v _ a v' K); [discriminate|]. cbn [fd_new]. destruct (Z.eqb_spec (a_ret a) fd); [congruence|reflexivity]. }
    assert (Emap : forall b, v_map v' b = v_map v b) by (intros b; apply (k_map v _ a v' K); [discriminate|reflexivity]).
    assert (Edir : forall b, v_dir v' b = v_dir v b) by (intros b; apply (k_dir v _ a v' K); [discriminate|reflexivity]).
    assert (Eo : forall fd, fd <> a_ret a -> owner ((Act n (COpen p fl) a, v') :: tr) fd = owner tr fd).
    { intros fd N. cbn [owner]. destruct (Z.eqb_spec (a_ret a) fd); [congruence|reflexivity]. }
    assert (Eo2 : owner ((Act n (COpen p fl) a, v') :: tr) (a_ret a) = Some n).
    { cbn [owner]. rewrite Z.eqb_refl. replace (0 <=? a_ret a)%Z with true by (symmetry; apply Z.leb_le; exact A). reflexivity. }
    destruct H. constructor; auto.
    - cbn [fds flat_map snd app]. constructor; assumption.
    - intros m fd [X|X].
      + injection X as <- <-. rewrite Ex. repeat split; auto; discriminate.
      + assert (N : fd <> a_ret a) by (intros ->; apply Nin; eapply in_fds; eassumption). rewrite Efd, Eo by exact N. auto.
    - intros m b len [X|X]; [discriminate|]. rewrite Emap. apply (h_map1 m b len X).
    - intros m d [X|X]; [discriminate|]. rewrite Edir. apply (h_dir1 m d X).
    - intros fd. destruct (Z.eq_dec fd (a_ret a)) as [->|N]; [right; exists n; left; reflexivity|]. rewrite Efd by exact N. destruct (h_fd2 fd) as [E|(m & E)]; [left; exact E|right; exists m; right; exact E].
    - intros b. rewrite Emap. destruct (h_map2 b) as [E|(m & len & E)]; [left; exact E|right; exists m, len; right; exact E].
    - intros b. rewrite Edir. destruct (h_dir2 b) as [E|(m & E)]; [left; exact E|right; exists m; right; exact E].
    - intros fd m E. destruct (Z.eq_dec fd (a_ret a)) as [->|N]; [rewrite Eo2 in E; injection E as <-; left; reflexivity|]. rewrite Eo in E by exact N. right. auto.
    - intros b m E. destruct (h_mown0 b m E) as (len & X). exists len. right. exact X.
    - intros b m E. right. exact (h_down0 b m E).
  Qed.
  Lemma held_close n m fd a tr v v' lim G : held tr v lim ((m, IFd fd) :: G) -> kstep v (CClose fd, a) v' ->
    held ((Act n (CClose fd) a, v') :: tr) v' lim G.
  Proof.
    intros H K. assert (Ev : v' = with_fd v fd None) by (inversion K; subst; auto; discriminate). subst v'.
    assert (Nin : ~ In fd (fds G)) by (apply h_fds in H; cbn [fds flat_map snd app] in H; inversion H; assumption).
    assert (Hfd := h_fd _ _ _ _ _ _ H m fd ltac:(left; reflexivity)).
    assert (Efd : forall fd', fd' <> fd -> v_fd (with_fd v fd None) fd' = v_fd v fd') by (intros fd' N; unfold with_fd; cbn [v_fd]; unfold upd; destruct (Z.eq_dec fd' fd); congruence).
    assert (Efd0 : v_fd (with_fd v fd None) fd = None) by (unfold with_fd; cbn [v_fd]; unfold upd; destruct (Z.eq_dec fd fd); congruence).
    assert (Eo : forall fd', fd' <> fd -> owner ((Act n (CClose fd) a, with_fd v fd None) :: tr) fd' = owner tr fd') by (intros fd' N; cbn [owner]; destruct (Z.eqb_spec fd fd'); congruence).
    assert (Eo0 : owner ((Act n (CClose fd) a, with_fd v fd None) :: tr) fd = None) by (cbn [owner]; rewrite Z.eqb_refl; reflexivity).
    destruct H. constructor; auto.
    - cbn [fds flat_map snd app] in h_fds0. inversion h_fds0; assumption.
    - intros k fd' X. assert (N : fd' <> fd) by (intros ->; apply Nin; eapply in_fds; eassumption). rewrite Efd, Eo by exact N. apply h_fd1. right. exact X.
    - intros k b len X. apply (h_map1 k b len). right. exact X.
    - intros k d X. apply (h_dir1 k d). right. exact X.
    - intros fd'. destruct (Z.eq_dec fd' fd) as [->|N]; [left; rewrite Efd0; symmetry; tauto|]. rewrite Efd by exact N. destruct (h_fd2 fd') as [E|(k & [E|E])]; [left; exact E|congruence|right; eauto].
    - intros b. destruct (h_map2 b) as [E|(k & len & [E|E])]; [left; exact E|congruence|right; eauto].
    - intros b. destruct (h_dir2 b) as [E|(k & [E|E])]; [left; exact E|congruence|right; eauto].
    - intros fd' k E. destruct (Z.eq_dec fd' fd) as [->|N]; [congruence|]. rewrite Eo in E by exact N. destruct (h_own0 _ _ E) as [X|X]; [congruence|exact X].
    - intros b k E. destruct (h_mown0 b k E) as (len & [X|X]); [discriminate|eauto].
    - intros b k E. destruct (h_down0 b k E) as [X|X]; [discriminate|exact X].
  Qed.
  Lemma held_mmap n fd len a tr v v' lim G : held tr v lim G -> kstep v (CMmap fd len, a) v' -> (0 <= a_ret a)%Z ->
    held ((Act n (CMmap fd len) a, v') :: tr) v' lim ((n, IMap (a_val a) len) :: G).
  Proof.
    intros H K A. assert (Ev : exists x, v' = with_map v (a_val a) (Some (d_ino x, len)) /\ v_map v (a_val a) = None).
    { inversion K; subst; try discriminate; [lia|eauto]. }
    destruct Ev as (x & -> & Nv). set (b0 := a_val a) in *.
    assert (Nin : ~ In b0 (maps G)). { intros X. apply maps_in in X. destruct X as (m & l & X). apply (h_map _ _ _ _ _ _ H) in X. destruct X as ((i & X) & _). congruence. }
    assert (E0 : v_map v0 b0 = None). { destruct (h_map0 _ _ _ _ _ _ H b0) as [E|(m & l & X)]; [congruence|]. elim Nin. eapply in_maps; eassumption. }
    set (v' := with_map v b0 (Some (d_ino x, len))) in *.
    assert (Emap : forall b, b <> b0 -> v_map v' b = v_map v b) by (intros b N; unfold v', with_map; cbn [v_map]; unfold upd; destruct (N.eq_dec b b0); congruence).
    assert (Emap0 : v_map v' b0 = Some (d_ino x, len)) by (unfold v', with_map; cbn [v_map]; unfold upd; destruct (N.eq_dec b0 b0); congruence).
    assert (Eo : forall b, b <> b0 -> map_owner ((Act n (CMmap fd len) a, v') :: tr) b = map_owner tr b).
    { intros b N. cbn [map_owner]. fold b0. destruct (N.eqb_spec b0 b); [congruence|reflexivity]. }
    assert (Eo0 : map_owner ((Act n (CMmap fd len) a, v') :: tr) b0 = Some n).
    { cbn [map_owner]. fold b0. rewrite N.eqb_refl. replace (0 <=? a_ret a)%Z with true by (symmetry; apply Z.leb_le; exact A). reflexivity. }
    destruct H. constructor; auto.
    - cbn [maps flat_map snd app]. constructor; assumption.
    - intros m fd' [X|X]; [discriminate|]. apply (h_fd1 m fd' X).
    - intros m b l [X|X].
      + injection X as <- <- <-. rewrite Emap0, Eo0. eauto.
      + assert (N : b <> b0) by (intros ->; apply Nin; eapply in_maps; eassumption). rewrite Emap, Eo by exact N. apply (h_map1 m b l X).
    - intros m d [X|X]; [discriminate|]. apply (h_dir1 m d X).
    - intros fd'. destruct (h_fd2 fd') as [E|(m & E)]; [left; exact E|right; exists m; right; exact E].
    - intros b. destruct (N.eq_dec b b0) as [->|N]; [right; exists n, len; left; reflexivity|]. rewrite Emap by exact N. destruct (h_map2 b) as [E|(m & l & E)]; [left; exact E|right; exists m, l; right; exact E].
    - intros b. destruct (h_dir2 b) as [E|(m & E)]; [left; exact E|right; exists m; right; exact E].
    - intros fd' m E. right. exact (h_own0 fd' m E).
    - intros b m E. destruct (N.eq_dec b b0) as [->|N]; [rewrite Eo0 in E; injection E as <-; exists len; left; reflexivity|]. rewrite Eo in E by exact N. destruct (h_mown0 b m E) as (l & X). exists l. right. exact X.
    - intros b m E. right. exact (h_down0 b m E).
  Qed.
  Lemma held_munmap n m b0 len a tr v v' lim G : held tr v lim ((m, IMap b0 len) :: G) -> kstep v (CMunmap b0 len, a) v' ->
    held ((Act n (CMunmap b0 len) a, v') :: tr) v' lim G.
  Proof.
    intros H K. assert (Hm := h_map _ _ _ _ _ _ H m b0 len ltac:(left; reflexivity)). destruct Hm as ((i0 & Hm) & Hm0 & _).
    assert (Ev : v' = with_map v b0 None) by (inversion K; subst; auto; try discriminate; congruence). subst v'.
    assert (Nin : ~ In b0 (maps G)) by (apply h_maps in H; cbn [maps flat_map snd app] in H; inversion H; assumption).
    set (v' := with_map v b0 None) in *.
    assert (Emap : forall b, b <> b0 -> v_map v' b = v_map v b) by (intros b N; unfold v', with_map; cbn [v_map]; unfold upd; destruct (N.eq_dec b b0); congruence).
    assert (Emap0 : v_map v' b0 = None) by (unfold v', with_map; cbn [v_map]; unfold upd; destruct (N.eq_dec b0 b0); congruence).
    assert (Eo : forall b, b <> b0 -> map_owner ((Act n (CMunmap b0 len) a, v') :: tr) b = map_owner tr b) by (intros b N; cbn [map_owner]; destruct (N.eqb_spec b0 b); congruence).
    assert (Eo0 : map_owner ((Act n (CMunmap b0 len) a, v') :: tr) b0 = None) by (cbn [map_owner]; rewrite N.eqb_refl; reflexivity).
    destruct H. constructor; auto.
    - cbn [maps flat_map snd app] in h_maps0. inversion h_maps0; assumption.
    - intros k fd X. apply (h_fd1 k fd). right. exact X.
    - intros k b l X. assert (N : b <> b0) by (intros ->; apply Nin; eapply in_maps; eassumption). rewrite Emap, Eo by exact N. apply (h_map1 k b l). right. exact X.
    - intros k d X. apply (h_dir1 k d). right. exact X.
    - intros b. destruct (h_fd2 b) as [E|(k & [E|E])]; [left; exact E|congruence|right; eauto].
    - intros b. destruct (N.eq_dec b b0) as [->|N]; [left; congruence|]. rewrite Emap by exact N. destruct (h_map2 b) as [E|(k & l & [E|E])]; [left; exact E|congruence|right; eauto].
    - intros b. destruct (h_dir2 b) as [E|(k & [E|E])]; [left; exact E|congruence|right; eauto].
    - intros fd k E. destruct (h_own0 _ _ E) as [X|X]; [discriminate|exact X].
    - intros b k E. destruct (N.eq_dec b b0) as [->|N]; [congruence|]. rewrite Eo in E by exact N. destruct (h_mown0 b k E) as (l & [X|X]); [congruence|eauto].
    - intros b k E. destruct (h_down0 b k E) as [X|X]; [discriminate|exact X].
  Qed.
  Lemma held_opendir n p a tr v v' lim G : held tr v lim G -> kstep v (COpendir p, a) v' -> a_val a <> 0%N ->
    held ((Act n (COpendir p) a, v') :: tr) v' lim ((n, IDir (a_val a)) :: G).
  Proof.
    intros H K A. assert (Ev : exists l, v' = with_dir v (a_val a) (Some l) /\ v_dir v (a_val a) = None).
    { inversion K; subst; try discriminate; [contradiction|eauto]. }
    destruct Ev as (l0 & -> & Nv). set (b0 := a_val a) in *.
    assert (Nin : ~ In b0 (dirs G)). { intros X. apply dirs_in in X. destruct X as (m & X). apply (h_dir _ _ _ _ _ _ H) in X. tauto. }
    assert (E0 : v_dir v0 b0 = None). { destruct (h_dir0 _ _ _ _ _ _ H b0) as [E|(m & X)]; [congruence|]. elim Nin. eapply in_dirs; eassumption. }
    set (v' := with_dir v b0 (Some l0)) in *.
    assert (Emap : forall b, b <> b0 -> v_dir v' b = v_dir v b) by (intros b N; unfold v', with_dir; cbn [v_dir]; unfold upd; destruct (N.eq_dec b b0); congruence).
    assert (Emap0 : v_dir v' b0 = Some l0) by (unfold v', with_dir; cbn [v_dir]; unfold upd; destruct (N.eq_dec b0 b0); congruence).
    assert (Eo : forall b, b <> b0 -> dir_owner ((Act n (COpendir p) a, v') :: tr) b = dir_owner tr b).
    { intros b N. cbn [dir_owner]. fold b0. destruct (N.eqb_spec b0 b); [congruence|reflexivity]. }
    assert (Eo0 : dir_owner ((Act n (COpendir p) a, v') :: tr) b0 = Some n).
    { cbn [dir_owner]. fold b0. rewrite N.eqb_refl. destruct (N.eqb_spec b0 0); [contradiction|reflexivity]. }
    destruct H. constructor; auto.
    - cbn [dirs flat_map snd app]. constructor; assumption.
    - intros m fd' [X|X]; [discriminate|]. apply (h_fd1 m fd' X).
    - intros m b l [X|X]; [discriminate|]. apply (h_map1 m b l X).
    - intros m d [X|X].
      + injection X as <- <-. rewrite Emap0, Eo0. repeat split; auto; discriminate.
      + assert (N : d <> b0) by (intros ->; apply Nin; eapply in_dirs; eassumption). rewrite Emap, Eo by exact N. apply (h_dir1 m d X).
    - intros fd'. destruct (h_fd2 fd') as [E|(m & E)]; [left; exact E|right; exists m; right; exact E].
    - intros b. destruct (h_map2 b) as [E|(m & l & E)]; [left; exact E|right; exists m, l; right; exact E].
    - intros b. destruct (N.eq_dec b b0) as [->|N]; [right; exists n; left; reflexivity|]. rewrite Emap by exact N. destruct (h_dir2 b) as [E|(m & E)]; [left; exact E|right; exists m; right; exact E].
    - intros fd' m E. right. exact (h_own0 fd' m E).
    - intros b m E. destruct (h_mown0 b m E) as (l & X). exists l. right. exact X.
    - intros b m E. destruct (N.eq_dec b b0) as [->|N]; [rewrite Eo0 in E; injection E as <-; left; reflexivity|]. rewrite Eo in E by exact N. right. exact (h_down0 b m E).
  Qed.
  Lemma held_closedir n m b0 a tr v v' lim G : held tr v lim ((m, IDir b0) :: G) -> kstep v (CClosedir b0, a) v' ->
    held ((Act n (CClosedir b0) a, v') :: tr) v' lim G.
  Proof.
    intros H K. assert (Hm := h_dir _ _ _ _ _ _ H m b0 ltac:(left; reflexivity)).
    assert (Ev : v' = with_dir v b0 None) by (inversion K; subst; auto; discriminate). subst v'.
    assert (Nin : ~ In b0 (dirs G)) by (apply h_dirs in H; cbn [dirs flat_map snd app] in H; inversion H; assumption).
    set (v' := with_dir v b0 None) in *.
    assert (Emap : forall b, b <> b0 -> v_dir v' b = v_dir v b) by (intros b N; unfold v', with_dir; cbn [v_dir]; unfold upd; destruct (N.eq_dec b b0); congruence).
    assert (Emap0 : v_dir v' b0 = None) by (unfold v', with_dir; cbn [v_dir]; unfold upd; destruct (N.eq_dec b0 b0); congruence).
    assert (Eo : forall b, b <> b0 -> dir_owner ((Act n (CClosedir b0) a, v') :: tr) b = dir_owner tr b) by (intros b N; cbn [dir_owner]; destruct (N.eqb_spec b0 b); congruence).
    assert (Eo0 : dir_owner ((Act n (CClosedir b0) a, v') :: tr) b0 = None) by (cbn [dir_owner]; rewrite N.eqb_refl; reflexivity).
    destruct H. constructor; auto.
    - cbn [dirs flat_map snd app] in h_dirs0. inversion h_dirs0; assumption.
    - intros k fd X. apply (h_fd1 k fd). right. exact X.
    - intros k b l X. apply (h_map1 k b l). right. exact X.
    - intros k d X. assert (N : d <> b0) by (intros ->; apply Nin; eapply in_dirs; eassumption). rewrite Emap, Eo by exact N. apply (h_dir1 k d). right. exact X.
    - intros b. destruct (h_fd2 b) as [E|(k & [E|E])]; [left; exact E|congruence|right; eauto].
    - intros b. destruct (h_map2 b) as [E|(k & l & [E|E])]; [left; exact E|congruence|right; eauto].
    - intros b. destruct (N.eq_dec b b0) as [->|N]; [left; rewrite Emap0; symmetry; tauto|]. rewrite Emap by exact N. destruct (h_dir2 b) as [E|(k & [E|E])]; [left; exact E|congruence|right; eauto].
    - intros fd k E. destruct (h_own0 _ _ E) as [X|X]; [discriminate|exact X].
    - intros b k E. destruct (h_mown0 b k E) as (l & [X|X]); [discriminate|eauto].
    - intros b k E. destruct (N.eq_dec b b0) as [->|N]; [congruence|]. rewrite Eo in E by exact N. destruct (h_down0 b k E) as [X|X]; [congruence|exact X].
  Qed.

  (** The limiters. *)
  Lemma held_count m i tr v lim lim' G : match i with ISlot _ | IDebt _ => True | _ => False end ->
    (forall l, lim_get lim' l = (lim_get lim l - match i with ISlot l' | IDebt l' => if is_which l l' then 1 else 0 | _ => 0 end))%Z ->
    (forall l, i = ISlot l -> (0 < lim_get lim l)%Z) -> held tr v lim G -> held tr v lim' ((m, i) :: G).
  Proof.
    intros Hi El Hp H.
    destruct H. constructor; auto.
    - destruct i; try contradiction; exact h_fds0.
    - destruct i; try contradiction; exact h_maps0.
    - destruct i; try contradiction; exact h_dirs0.
    - intros n fd [X|X]; [injection X as _ X; subst; contradiction|auto].
    - intros n b len [X|X]; [injection X as _ X; subst; contradiction|]. apply (h_map1 n b len X).
    - intros n d [X|X]; [injection X as _ X; subst; contradiction|auto].
    - intros fd. destruct (h_fd2 fd) as [E|(n & E)]; [left; exact E|right; exists n; right; exact E].
    - intros b. destruct (h_map2 b) as [E|(n & l & E)]; [left; exact E|right; exists n, l; right; exact E].
    - intros b. destruct (h_dir2 b) as [E|(n & E)]; [left; exact E|right; exists n; right; exact E].
    - intros fd n E. right. auto.
    - intros b n E. destruct (h_mown0 b n E) as (l & X). exists l. right. exact X.
    - intros d n E. right. auto.
    - intros l. rewrite El, h_lim0. destruct i; try contradiction; unfold slots_of, debts_of, zlen; cbn [flat_map snd app];
        destruct (is_which l l0); cbn [app length fst]; lia.
    - intros l. destruct i as [| | |l'|l']; try contradiction; unfold slots_of; cbn [flat_map snd app]; [|apply h_slots0].
      destruct (is_which l l') eqn:W; [|apply h_slots0]. cbn [app]. unfold zlen. cbn [length]. fold (slots_of l G).
      assert (X : (0 < lim_get lim l)%Z) by (apply Hp; destruct l, l'; try discriminate W; reflexivity). rewrite h_lim0 in X. unfold zlen in X. lia.
  Qed.
  Lemma held_uncount m i tr v lim lim' G : match i with ISlot _ | IDebt _ => True | _ => False end ->
    (forall l, lim_get lim' l = (lim_get lim l + match i with ISlot l' | IDebt l' => if is_which l l' then 1 else 0 | _ => 0 end))%Z ->
    held tr v lim ((m, i) :: G) -> held tr v lim' G.
  Proof.
    intros Hi El H. destruct H. constructor; auto.
    - destruct i; try contradiction; exact h_fds0.
    - destruct i; try contradiction; exact h_maps0.
    - destruct i; try contradiction; exact h_dirs0.
    - intros n fd X. apply h_fd1. right. exact X.
    - intros n b len X. apply (h_map1 n b len). right. exact X.
    - intros n d X. apply h_dir1. right. exact X.
    - intros fd. destruct (h_fd2 fd) as [E|(n & [X|X])]; [left; exact E|injection X as _ X; subst; contradiction|right; eauto].
    - intros b. destruct (h_map2 b) as [E|(n & l & [X|X])]; [left; exact E|injection X as _ X; subst; contradiction|right; eauto].
    - intros b. destruct (h_dir2 b) as [E|(n & [X|X])]; [left; exact E|injection X as _ X; subst; contradiction|right; eauto].
    - intros fd n E. destruct (h_own0 fd n E) as [X|X]; [injection X as _ X; subst; contradiction|exact X].
    - intros b n E. destruct (h_mown0 b n E) as (l & [X|X]); [injection X as _ X; subst; contradiction|eauto].
    - intros d n E. destruct (h_down0 d n E) as [X|X]; [injection X as _ X; subst; contradiction|exact X].
    - intros l. rewrite El, h_lim0. destruct i; try contradiction; unfold slots_of, debts_of, zlen; cbn [flat_map snd app];
        destruct (is_which l l0); cbn [app length fst]; lia.
    - intros l. specialize (h_slots0 l). destruct i as [| | |l'|l']; try contradiction; unfold slots_of in *; cbn [flat_map snd app] in h_slots0; [|exact h_slots0].
      destruct (is_which l l'); [|exact h_slots0]. unfold zlen in *. cbn [app length] in h_slots0. lia.
  Qed.
  Lemma lim_get_add lim l d l' : lim_get (lim_add lim l d) l' = (lim_get lim l' + if is_which l' l then d else 0)%Z.
  Proof. destruct l, l'; cbn; lia. Qed.
End Steps.
